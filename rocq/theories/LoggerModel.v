(** Model of the TensorBoard logger and of the way an optimiser changes its log directory
    (c3/optimizers/optimizer.py), and of the log reader (c3/utils/log_reader.py).

    Simplifications:
    - the summary file is the list of the entries written, oldest first; the text entry with all parameters is left out;
    - numbers are reals, a goal may be NaN ([None]);
    - the text printed for a number is an oracle of the value. *)
From Coq Require Import Reals Ascii.
From Verif Require Import Base QuantityModel LogModel.
Local Open Scope string_scope.
Local Open Scope list_scope.

(** optimizer.py 395-425: values found in optim_status: a float, a list of floats, anything else (text, integer, dictionary) *)
Inductive sval : Type := SFloat (r : R) | SList (l : list R) | SOther.

(** optimizer.py 395-425: optim_status.  The values of the parameters are floats or lists of floats;
    [st_rest] is everything but params, goal, gradient and time, in the order of the dictionary. *)
Record status : Type := mkSt {
  st_params : list sval;
  st_goal : option R;
  st_gradient : option (list R);
  st_time : bool;
  st_rest : dict sval
}.

(** optimizer.py 349-408: an entry of the summary file *)
Inductive entry : Type :=
| Scalar (tag : string) (v : option R) (step : nat)
| Histogram (tag : string) (l : list R) (step : nat).

(** optimizer.py 341: best_iteration starts at infinity *)
Inductive level : Type := Infinite | Level (g : option R).

(** optimizer.py 335-341: the attributes of the logger *)
Record tblog : Type := mkTB { tb_map : list (list string); tb_best : level; tb_file : list entry }.

(** optimizer.py 348-349: float(params[i]).  The test [type(p) is float or np.float64] is always true,
    so the branches for lists are never reached; float of a list raises TypeError *)
Definition as_float (p : sval) : result R :=
  match p with SFloat r => Ok r | _ => Err TypeError end.

(** optimizer.py 357 and c3objs.py 214-217: float of a Quantity with these values *)
Definition quantity_float (vals : list R) : result R :=
  match vals with [x] => Ok x | _ => Err NotImplemented end.

(** optimizer.py 348-356: the entries for the keys of one group *)
Fixpoint write_keys (keys : list string) (x : result R) (step : nat) : list entry * option exn :=
  match keys with
  | [] => ([], None)
  | k :: r => match x with
              | Err e => ([], Some e)
              | Ok v => let (es, err) := write_keys r x step in (Scalar k (Some v) step :: es, err)
              end
  end.

(** optimizer.py 347-356: the loop over the groups *)
Fixpoint write_groups (m : list (list string)) (xs : list (result R)) (step : nat) : list entry * option exn :=
  match m, xs with
  | ks :: m', x :: xs' =>
      match write_keys ks x step with
      | (es, Some e) => (es, Some e)
      | (es, None) => let (es', err) := write_groups m' xs' step in (es ++ es', err)
      end
  | _, _ => ([], None)
  end.

(** optimizer.py 342-356: write_params *)
Definition write_params (m : list (list string)) (xs : list (result R)) (step : nat) : list entry * option exn :=
  if Nat.eqb (List.length m) (List.length xs) then write_groups m xs step else ([], Some C3Error).

(** optimizer.py 407: tf.clip_by_value(x, -3, 3) *)
Definition clip (x : R) : R := if Rltb x (-3) then (-3)%R else if Rltb 3 x then 3%R else x.

(** optimizer.py 412-424: the remaining values; the Warning raised is an exception *)
Fixpoint write_rest (d : dict sval) (step : nat) : list entry * option exn :=
  match d with
  | [] => ([], None)
  | (k, v) :: r =>
      match v with
      | SFloat x => let (es, err) := write_rest r step in (Scalar k (Some x) step :: es, err)
      | SList l => let (es, err) := write_rest r step in (Histogram k l step :: es, err)
      | SOther => ([], Some C3Error)
      end
  end.

(** optimizer.py 397: goal > best_iteration; comparisons with NaN are false *)
Definition worse (g : option R) (b : level) : bool :=
  match g, b with
  | Some x, Level (Some y) => Rltb y x
  | _, _ => false
  end.

(** optimizer.py 401-425: what is written for a status that is not skipped *)
Definition tb_entries (m : list (list string)) (s : status) (step : nat) : list entry * option exn :=
  match write_params m (map as_float (st_params s)) step with
  | (es, Some e) => (es, Some e)
  | (es, None) =>
      let es := es ++ [Scalar "goal" (st_goal s) step] in
      let es := es ++ match st_gradient s with Some g => [Histogram "gradient" (map clip g) step] | None => [] end in
      if st_time s then let (es', err) := write_rest (st_rest s) step in (es ++ es', err)
      else (es, Some KeyError)
  end.

(** optimizer.py 395-425: log_parameters *)
Definition tb_log (t : tblog) (step : nat) (s : status) : tblog * option exn :=
  if worse (st_goal s) (tb_best t) then (t, None)
  else let (es, err) := tb_entries (tb_map t) s step in
       (mkTB (tb_map t) (Level (st_goal s)) (tb_file t ++ es), err).

(** optimizer.py 195-200: the evaluations of a run, an exception ends it *)
Fixpoint tb_run (t : tblog) (l : list (nat * status)) : tblog * option exn :=
  match l with
  | [] => (t, None)
  | (step, s) :: r => match tb_log t step s with
                      | (t', None) => tb_run t' r
                      | (t', Some e) => (t', Some e)
                      end
  end.

(** optimizer.py 250-268, 288-305: the status an open-loop optimisation logs: fct_to_min sets params and goal,
    fct_to_min_autograd also the gradient; neither sets a time *)
Definition open_loop_status (pars : list R) (goal : option R) (grad : option (list R)) : status :=
  mkSt (map SFloat pars) goal grad false [].

(** optimizer.py 361-376: start_log: the optimised parameters (the values of each quantity) at step 0 *)
Definition tb_start (m : list (list string)) (pars : list (list R)) : tblog * option exn :=
  let (es, err) := write_params m (map quantity_float pars) 0 in
  (mkTB m Infinite es, err).

(** optimizer.py 70: str.replace(":", "_") *)
Fixpoint no_colons (s : string) : string :=
  match s with
  | EmptyString => EmptyString
  | String c r => String (if Ascii.eqb c ":" then "_" else c)%char (no_colons r)
  end.

(** optimizer.py 316-337: the two kinds of loggers; only TensorBoardLogger has a set_logdir *)
Inductive logger : Type := LBase (logdir : option string) | LTensorBoard (logdir : option string).

(** optimizer.py 67-92: the optimiser's log directory, its loggers and the file system;
    __dir_path of the base class stays "" (subclasses store their own under another mangled name),
    so [cwd] is where "recent" is looked for.  [parse] is the path of a directory name,
    [empty] whether a directory has no entries. *)
Definition replace_logdir (parse : string -> path) (cwd : path) (empty : fsys -> path -> bool)
  (fs : fsys) (old : option string) (loggers : list logger) (new : string)
  : fsys * option string * list logger * option oserr * option exn :=
  let new' := Some (no_colons new) in
  match old with
  | None => (fs, new', loggers, None, None)
  | Some o =>
      match remove fs (recent cwd) with
      | FErr NoSuchFile | FOk _ =>
          let fs1 := match remove fs (recent cwd) with FOk f => f | FErr _ => fs end in
          let fs2 := match fs1 (parse o) with
                     | Some Dir => if empty fs1 (parse o) then put fs1 (parse o) None else fs1
                     | _ => fs1
                     end in
          (fs2, new', loggers, None,
           if existsb (fun l => match l with LBase _ => true | LTensorBoard _ => false end) loggers
           then Some AttributeError else None)
      | FErr e => (fs, new', loggers, Some e, None)
      end
  end.

(** log_reader.py 23-30: the log read from the file: goal and time may be missing *)
Record logfile : Type := mkLF {
  lf_map : list (list string); lf_units : list string; lf_params : list sval;
  lf_grad : option (list R); lf_goal : option R; lf_time : option string
}.

(** log_reader.py 35-43: a row of the table: name, value, gradient; [None] stands for the ditto mark *)
Definition row : Type := (string * option (R * string) * option (R * string))%type.

(** utils.py 96-98: num3str needs a scalar (a list has no attribute size) *)
Definition printable (v : sval) : result R := match v with SFloat r => Ok r | _ => Err AttributeError end.

(** log_reader.py 35-43: the rows of one group *)
Definition group_rows (ids : list string) (par : result R) (g : result R) (unit : result string) : result (list row) :=
  rbind par (fun p =>
  match ids with
  | [] => Err IndexError
  | first :: others =>
      rbind unit (fun u => rbind g (fun gr =>
        Ok ((first, Some (p, u), Some (gr, u)) :: map (fun i => (i, None, None)) others)))
  end).

(** log_reader.py 36-41: indexing a list *)
Definition item {A} (l : list A) (i : nat) : result A :=
  match nth_error l i with Some a => Ok a | None => Err IndexError end.

(** log_reader.py 35-43: the rows of the table *)
Fixpoint table_rows (i : nat) (m : list (list string)) (f : logfile) (grads : list R) : result (list row) :=
  match m with
  | [] => Ok []
  | ids :: m' =>
      rbind (group_rows ids (rbind (item (lf_params f) i) printable) (item grads i) (item (lf_units f) i)) (fun rows =>
      rbind (table_rows (S i) m' f grads) (fun rest => Ok (rows ++ rest)))
  end.

(** log_reader.py 12-48: what is shown (goal, time, table) and the log afterwards: goal and time are popped *)
Definition show_table (f : logfile) : result ((R * string) * list row) * logfile :=
  let grads := match lf_grad f with Some g => g | None => repeat 0%R (List.length (lf_params f)) end in
  match table_rows 0 (lf_map f) f grads with
  | Err e => (Err e, f)
  | Ok rows =>
      let goal := match lf_goal f with Some g => g | None => (-1)%R end in
      let time := match lf_time f with Some t => t | None => "0" end in
      (Ok ((goal, time), rows), mkLF (lf_map f) (lf_units f) (lf_params f) (lf_grad f) None None)
  end.

(** log_reader.py 63-71: the first [n] refreshes of the watch mode; the file is read once, before the loop *)
Fixpoint watch (n : nat) (f : logfile) : list (result ((R * string) * list row)) :=
  match n with
  | O => []
  | S n' => let (r, f') := show_table f in
            match r with Ok _ => r :: watch n' f' | Err _ => [r] end
  end.
