(** Model of storing propagators during an optimisation: c3/experiment.py lines 526-531 and
    560-602, and its callers c3/optimizers/optimizer.py 173-199, optimalcontrol.py 163-227.

    Simplifications:
    - the file system is a set of directories (paths ending in a slash) and a map from paths
      to contents; nobody else changes it, and there are no links and no missing permissions;
    - a number is printed by Python: the text of a goal is part of the input;
    - matrices are opaque; a tensor is either a number array or belongs to a graph being traced;
    - of the optimiser only the stored unitaries and the lines of the log are kept; the
      best_point file is outside of the directory of the unitaries (see C50). *)
From Coq Require Import Ascii.
From Verif Require Import Base QiskitModel.
Local Open Scope string_scope.
Local Open Scope list_scope.

Section Store.
Context {M : Type}.

(** experiment.py 526-531: a value of the dictionary of propagators: concrete or symbolic *)
Inductive tensor : Type := Eager (m : M) | Symbolic.

(** experiment.py 597-602: what a file can hold; Broken is a file whose writing failed *)
Inductive content : Type := Pickle (d : dict M) | Text (m : M) | Broken | Foreign (n : nat).

(** experiment.py 574, 595-602: the file system *)
Record fsys : Type := mkF { f_dir : string -> bool; f_file : string -> option content }.

(** experiment.py 574-602: what can go wrong *)
Inductive serr : Type := FileExistsErr | NoSuchDirErr | PickleErr | NoCounterErr.

(** experiment.py 57-68, 571-575: the attributes involved *)
Record exper : Type := mkE {
  e_enable : bool; e_logdir : string; e_counter : option nat;
  e_overwrite : bool; e_props : dict tensor }.

(** experiment.py 597-602: a path up to and including its last slash *)
Fixpoint dirname (s : string) : string :=
  match s with
  | EmptyString => EmptyString
  | String c r => match dirname r with
                  | EmptyString => if Ascii.eqb c "/" then String c EmptyString else EmptyString
                  | d => String c d
                  end
  end.

(** experiment.py 596: a path without the slash at its end *)
Fixpoint strip (s : string) : string :=
  match s with
  | EmptyString => EmptyString
  | String c EmptyString => if Ascii.eqb c "/" then EmptyString else s
  | String c r => String c (strip r)
  end.

(** experiment.py 574: whether a path ends in a slash *)
Definition slashed (s : string) : bool := negb (String.eqb (strip s) s).

(** experiment.py 595-602: the current directory exists *)
Definition isdir (fs : fsys) (p : string) : bool := String.eqb p "" || f_dir fs p.

(** experiment.py 596: os.mkdir of a path ending in a slash *)
Definition mkdir (fs : fsys) (p : string) : fsys * option serr :=
  if f_dir fs p then (fs, Some FileExistsErr)
  else if isdir fs (dirname (strip p))
       then (mkF (fun q => String.eqb q p || f_dir fs q) (f_file fs), None)
       else (fs, Some NoSuchDirErr).

(** experiment.py 574: os.makedirs of a path ending in a slash *)
Definition makedirs (fs : fsys) (p : string) (exist_ok : bool) : fsys * option serr :=
  if f_dir fs p then (fs, if exist_ok then None else Some FileExistsErr)
  else (mkF (fun q => (prefix q p && slashed q) || f_dir fs q) (f_file fs), None).

(** experiment.py 597, 602: opening a file for writing and writing it *)
Definition write (fs : fsys) (p : string) (c : content) : fsys * option serr :=
  if isdir fs (dirname p)
  then (mkF (f_dir fs) (fun q => if String.eqb q p then Some c else f_file fs q), None)
  else (fs, Some NoSuchDirErr).

(** experiment.py 602: key.replace(":", ".") *)
Fixpoint dotted (s : string) : string :=
  match s with
  | EmptyString => EmptyString
  | String c r => String (if Ascii.eqb c ":" then "."%char else c) (dotted r)
  end.

(** experiment.py 598: the values to be pickled, if all of them are concrete *)
Fixpoint concrete (d : dict tensor) : option (dict M) :=
  match d with
  | [] => Some []
  | (k, Eager m) :: r => match concrete r with Some d' => Some ((k, m) :: d') | None => None end
  | (_, Symbolic) :: _ => None
  end.

(** experiment.py 599-602: the text files *)
Fixpoint savetxts (fs : fsys) (folder : string) (d : dict M) : fsys * option serr :=
  match d with
  | [] => (fs, None)
  | (k, m) :: r =>
      match write fs (folder ++ dotted k ++ ".txt")%string (Text m) with
      | (fs', None) => savetxts fs' folder r
      | bad => bad
      end
  end.

(** experiment.py 560-575: set_enable_store_unitaries *)
Definition set_enable (fs : fsys) (e : exper) (flag : bool) (logdir : string) (exist_ok : bool)
  : fsys * exper * option serr :=
  let e' := mkE flag logdir (e_counter e) (e_overwrite e) (e_props e) in
  if flag then
    match makedirs fs (logdir ++ "unitaries/")%string exist_ok with
    | (fs', None) => (fs', mkE flag logdir (Some 0) (e_overwrite e) (e_props e), None)
    | (fs', err) => (fs', e', err)
    end
  else (fs, e', None).

(** experiment.py 577-602: store_Udict *)
Definition store_Udict (fs : fsys) (e : exper) (goal : string) : fsys * option serr :=
  match e_counter e with
  | None => (fs, Some NoCounterErr)
  | Some n =>
      let folder := (e_logdir e ++ "unitaries/eval_" ++ str_nat n ++ "_" ++ goal ++ "/")%string in
      match (if f_dir fs folder then (fs, None) else mkdir fs folder) with
      | (fs1, Some err) => (fs1, Some err)
      | (fs1, None) =>
          match concrete (e_props e) with
          | None => match write fs1 (folder ++ "Us.pickle")%string Broken with
                    | (fs2, None) => (fs2, Some PickleErr)
                    | bad => bad
                    end
          | Some d => match write fs1 (folder ++ "Us.pickle")%string (Pickle d) with
                      | (fs2, None) => savetxts fs2 folder d
                      | bad => bad
                      end
          end
      end
  end.

(** optimizer.py 186-193: the optimiser: file system, experiment, goals in the log file,
    and whether goal_run has been traced *)
Record ostate : Type := mkO {
  o_fs : fsys; o_exp : exper; o_log : list string; o_traced : bool }.

(** optimizer.py 188: the counter of the experiment goes up by one *)
Definition bump (e : exper) : exper :=
  mkE (e_enable e) (e_logdir e) (option_map S (e_counter e)) (e_overwrite e) (e_props e).

(** optimizer.py 186-199: log_parameters after the best point has been updated; [store] is
    the attribute store_unitaries *)
Definition log_parameters (store : bool) (st : ostate) (goal : string) : ostate * option serr :=
  if store then
    match store_Udict (o_fs st) (o_exp st) goal with
    | (fs', None) => (mkO fs' (bump (o_exp st)) (o_log st ++ [goal]) (o_traced st), None)
    | (fs', err) => (mkO fs' (o_exp st) (o_log st) (o_traced st), err)
    end
  else (mkO (o_fs st) (o_exp st) (o_log st ++ [goal]) (o_traced st), None).

(** experiment.py 531: dict.update *)
Definition dupd {V} (old new : dict V) : dict V :=
  fold_left (fun acc kv => dset (fst kv) (snd kv) acc) new old.

(** experiment.py 526-531: the end of compute_propagators *)
Definition set_props (e : exper) (new : dict tensor) : exper :=
  mkE (e_enable e) (e_logdir e) (e_counter e) (e_overwrite e)
      (if e_overwrite e then new else dupd (e_props e) new).

(** optimizer.py 260-271: an evaluation of a goal function run as Python: the propagators
    computed are concrete *)
Definition py_eval (store : bool) (st : ostate) (ev : dict M * string) : ostate * option serr :=
  log_parameters store
    (mkO (o_fs st) (set_props (o_exp st) (map (fun kv => (fst kv, Eager (snd kv))) (fst ev)))
         (o_log st) (o_traced st)) (snd ev).

(** optimalcontrol.py 197-227: an evaluation of the goal function compiled by tf.function:
    compute_propagators runs once, while the graph is traced, and assigns symbolic tensors *)
Definition tf_eval (store : bool) (st : ostate) (ev : dict M * string) : ostate * option serr :=
  log_parameters store
    (if o_traced st then st
     else mkO (o_fs st) (set_props (o_exp st) (map (fun kv => (fst kv, Symbolic)) (fst ev)))
              (o_log st) true) (snd ev).

(** optimalcontrol.py 178-185: the evaluations an algorithm asks for, up to the first exception *)
Fixpoint evals (f : ostate -> dict M * string -> ostate * option serr) (st : ostate)
    (evs : list (dict M * string)) : ostate * option serr :=
  match evs with
  | [] => (st, None)
  | ev :: r => match f st ev with (st', None) => evals f st' r | bad => bad end
  end.

(** optimalcontrol.py 163-185: optimize_controls with the log directory given: the directory
    for the unitaries is made, then the algorithm runs *)
Definition optimize (f : bool -> ostate -> dict M * string -> ostate * option serr) (store : bool)
    (st : ostate) (logdir : string) (evs : list (dict M * string)) : ostate * option serr :=
  match set_enable (o_fs st) (o_exp st) store logdir false with
  | (fs', e', None) => evals (f store) (mkO fs' e' (o_log st) (o_traced st)) evs
  | (fs', e', err) => (mkO fs' e' (o_log st) (o_traced st), err)
  end.

(** optimizer.py 160-171: log_best_unitary replaces the content of the best_point file of the
    log directory by the printed propagators (Foreign 1 stands for this text) *)
Definition log_best_unitary (fs : fsys) (logdir logname : string) : fsys * option serr :=
  write fs (logdir ++ "best_point_" ++ logname)%string (Foreign 1).

End Store.
Arguments tensor : clear implicits.
Arguments content : clear implicits.
Arguments fsys : clear implicits.
Arguments exper : clear implicits.
Arguments ostate : clear implicits.
