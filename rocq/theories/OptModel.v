(** Model of the optimizer (c3/optimizers/optimizer.py, optimalcontrol.py) and of
    the scanning and CMA-ES drivers (c3/libraries/algorithms.py).

    Simplifications:
    - the goal function after [set_parameters_scaled] is an oracle of the
      parameter map, evaluated eagerly (the code wraps goal_run in tf.function);
      NaN is [None];
    - the printed form [str(x)] of a vector is an oracle [show];
    - log files are lists of entries, the best-point file is its content;
    - an optimisation algorithm is the sequence of calls it makes. *)
From Coq Require Import Reals.
From Verif Require Import Base QuantityModel PMapModel.
Local Open Scope list_scope.

(** optimizer.py 202-313: Entries of a gradient: a float may be NaN or infinite. *)
Inductive fl : Type := Fin (r : R) | FNan | FInf.

(** optimizer.py 43: current_best_goal before the first evaluation *)
Definition sentinel : R := (9876543210 + 123456789 / 1000000000)%R.

(** One log entry (optimizer.py 191-195).  [le_at] is the parameter map at which the goal
    was evaluated (not part of the file). *)
Record entry : Type := mkE {
  le_params : list (list R); le_goal : option R; le_grad : option (list fl); le_at : pmap
}.
(** optimizer.py 32-58: the attributes of the optimiser *)
Record ostate : Type := mkO {
  o_pmap : pmap;                    (* self.pmap *)
  o_grads : dict (list fl);         (* self.gradients *)
  o_best : R;                       (* self.current_best_goal *)
  o_best_params : option (list (list R)); (* self.current_best_params *)
  o_file : option valfile;          (* the best_point file *)
  o_log : list entry                (* the log file, oldest first *)
}.

(** optimizer.py 173-200: Python's [goal < best] with NaN comparing false. *)
Definition below (g : option R) (b : R) : bool :=
  match g with Some x => Rltb x b | None => false end.

(** parametermap.py 92-116 with optim_status given *)
Definition store_status (pm : pmap) (params : list (list R)) : result valfile :=
  rbind (get_opt_units pm) (fun us =>
    Ok {| vf_opt_map := pm_opt_map pm; vf_units := us; vf_params := params |}).

(** optimizer.py 173-200: [log_parameters]; loggers and unitary storage not modelled *)
Definition log_parameters (st : ostate) (e : entry) : ostate * option exn :=
  let logged b bp f := {| o_pmap := o_pmap st; o_grads := o_grads st; o_best := b;
                          o_best_params := bp; o_file := f; o_log := o_log st ++ [e] |} in
  match le_goal e with
  | Some g =>
      if Rltb g (o_best st) then
        match store_status (o_pmap st) (le_params e) with
        | Ok f => (logged g (Some (le_params e)) (Some f), None)
        | Err x => (st, Some x)
        end
      else (logged (o_best st) (o_best_params st) (o_file st), None)
  | None => (logged (o_best st) (o_best_params st) (o_file st), None)
  end.

(** assignment of the parameter map, optimizer.py 202-313 *)
Definition with_pmap (st : ostate) (pm : pmap) : ostate :=
  {| o_pmap := pm; o_grads := o_grads st; o_best := o_best st;
     o_best_params := o_best_params st; o_file := o_file st; o_log := o_log st |}.
(** assignment of [gradients], optimizer.py 202-313 *)
Definition with_grads (st : ostate) (gr : dict (list fl)) : ostate :=
  {| o_pmap := o_pmap st; o_grads := gr; o_best := o_best st;
     o_best_params := o_best_params st; o_file := o_file st; o_log := o_log st |}.

(** optimizer.py 231-241: entries that are NaN or infinite become 1e-10 *)
Definition clean (g : list fl) : list fl :=
  map (fun x => match x with Fin r => Fin r | _ => Fin (1 / 10 ^ 10)%R end) g.

Section Optimizer.
Variable goalf : pmap -> option R.            (* fid_func of the propagators *)
Variable gradf : pmap -> list R -> list fl.   (* GradientTape *)
Variable show : list R -> string.             (* str(x) *)

(** optimalcontrol.py 200-227: [goal_run] *)
Definition goal_run (pm : pmap) (x : list R) : pmap * result (option R) :=
  match set_parameters_scaled pm x None with
  | (pm', None) => (pm', Ok (goalf pm'))
  | (pm', Some e) => (pm', Err e)
  end.

(** optimizer.py 243-275: [fct_to_min] *)
Definition fct_to_min (st : ostate) (x : list R) : ostate * option exn :=
  match get_parameters (o_pmap st) None with
  | Err e => (st, Some e)
  | Ok qs =>
      let pars := map (fun qy => [get_other_value (fst qy) (snd qy)]) (combine qs x) in
      match goal_run (o_pmap st) x with
      | (pm', Err e) => (with_pmap st pm', Some e)
      | (pm', Ok g) => log_parameters (with_pmap st pm') (mkE pars g None pm')
      end
  end.

(** optimizer.py 277-313: [fct_to_min_autograd] *)
Definition fct_to_min_autograd (st : ostate) (x : list R) : ostate * option exn :=
  match goal_run (o_pmap st) x with
  | (pm1, Err e) => (with_pmap st pm1, Some e)
  | (pm1, Ok g) =>
      let gr := gradf pm1 x in
      let st1 := with_grads (with_pmap st pm1) (dset (show x) gr (o_grads st)) in
      match set_parameters_scaled pm1 x None with
      | (pm2, Some e) => (with_pmap st1 pm2, Some e)
      | (pm2, None) =>
          match get_parameters pm2 None with
          | Err e => (with_pmap st1 pm2, Some e)
          | Ok qs => log_parameters (with_pmap st1 pm2) (mkE (map numpy qs) g (Some gr) pm1)
          end
      end
  end.

(** optimizer.py 217-241: [lookup_gradient]; dict.pop removes the entry *)
Definition lookup_gradient (st : ostate) (x : list R) : ostate * result (list fl) :=
  match dget (show x) (o_grads st) with
  | None => (st, Err KeyError)
  | Some g => (with_grads st (ddel (show x) (o_grads st)), Ok (clean g))
  end.

(** The calls an algorithm makes (optimalcontrol.py 180-186). *)
Inductive oevent : Type := EFun (x : list R) | EGrad (x : list R) | ELookup (x : list R).

(** optimizer.py 202-313: one call of the optimiser by an algorithm *)
Definition ostep (st : ostate) (ev : oevent) : ostate * option exn :=
  match ev with
  | EFun x => fct_to_min st x
  | EGrad x => fct_to_min_autograd st x
  | ELookup x => match lookup_gradient st x with
                 | (st', Ok _) => (st', None)
                 | (st', Err e) => (st', Some e)
                 end
  end.
(** optimalcontrol.py 160-190: An exception ends the algorithm. *)
Fixpoint orun (st : ostate) (evs : list oevent) : ostate * option exn :=
  match evs with
  | [] => (st, None)
  | ev :: evs' => match ostep st ev with
                  | (st', None) => orun st' evs'
                  | (st', Some e) => (st', Some e)
                  end
  end.

(** optimalcontrol.py 164-198: [optimize_controls]; a KeyboardInterrupt (line 187)
    only shortens the list of calls *)
Definition optimize_controls (st : ostate) (evs : list oevent) : ostate * option exn :=
  match orun st evs with
  | (st1, Some e) => (st1, Some e)
  | (st1, None) =>
      match o_file st1 with
      | None => (st1, Some FileNotFound)
      | Some f =>
          match load_values (o_pmap st1) f false with
          | (pm', None) => (with_pmap st1 pm', None)
          | (pm', Some MapOOBError) => (with_pmap st1 pm', Some OptResultOOB)
          | (pm', Some e) => (with_pmap st1 pm', Some e)
          end
      end
  end.
End Optimizer.

(** optimizer.py 39-50: state after [__init__] without initial point *)
Definition opt_init (pm : pmap) : ostate := mkO pm [] sentinel None None [].

(** ** algorithms.py *)

(** algorithms.py 66-86: np.linspace(a, b, n): one point is [a]; a negative number raises ValueError
    and cannot be written here *)
Definition linspace (a b : R) (n : nat) : list R :=
  match n with
  | 0 => []
  | 1 => [a]
  | S m => map (fun i => a + INR i * ((b - a) / INR m))%R (seq 0 n)
  end.

(** An argument [fun] is called with: a vector, or the wrapper list with its
    placeholders replaced (algorithms.py 88-96, 141-159). *)
Inductive witem : Type := WName (s : string) | WVal (r : R).
(** algorithms.py 88-96: the argument of [fun] *)
Inductive arg : Type := AVec (v : list R) | AWrap (w : list witem).

(** algorithms.py 88-96: val[val.index(s)] = r : the first occurrence; ValueError if there is none *)
Fixpoint subst_first (s : string) (r : R) (w : list witem) : result (list witem) :=
  match w with
  | [] => Err ValueError
  | WName t :: w' => if String.eqb t s then Ok (WVal r :: w')
                     else rbind (subst_first s r w') (fun u => Ok (WName t :: u))
  | WVal v :: w' => rbind (subst_first s r w') (fun u => Ok (WVal v :: u))
  end.

(** algorithms.py 50-160: the options read *)
Record scan_options : Type := mkSO {
  so_points : option nat; so_bounds : list (R * R); so_wrapper : option (list witem);
  so_init : bool; so_probe : option (list R)
}.
(** algorithms.py 66-70, 118-122: options["points"] *)
Definition points_of (o : scan_options) : nat := match so_points o with Some n => n | None => 100 end.

(** algorithms.py 50-160: calls made so far and the exception, if any *)
Definition calls : Type := list arg * option exn.
(** algorithms.py 88-96, 152-159: the loop *)
Fixpoint call_all (mk : list (result arg)) : calls :=
  match mk with
  | [] => ([], None)
  | Ok a :: r => let '(l, e) := call_all r in (a :: l, e)
  | Err x :: _ => ([], Some x)
  end.
(** two loops one after the other, algorithms.py 50-160 *)
Definition then_calls (a b : calls) : calls :=
  match a with (l, None) => (l ++ fst b, snd b) | (l, Some e) => (l, Some e) end.

(** algorithms.py 88-96 *)
Definition grid_arg (o : scan_options) (x y : R) : result arg :=
  match so_wrapper o with
  | None => Ok (AVec [x; y])
  | Some w => rbind (subst_first "x" x w) (fun w1 => rbind (subst_first "y" y w1) (fun w2 => Ok (AWrap w2)))
  end.
(** algorithms.py 50-96: [grid2D]; the goal function itself is assumed not to raise *)
Definition grid2D (o : scan_options) : calls :=
  match so_bounds o with
  | bx :: by_ :: _ =>
      let xs := linspace (fst bx) (snd bx) (points_of o) in
      let ys := linspace (fst by_) (snd by_) (points_of o) in
      call_all (flat_map (fun x => map (fun y => grid_arg o x y) ys) xs)
  | _ => ([], Some IndexError)
  end.

(** algorithms.py 143-148, 152-159 *)
Definition sweep_arg (o : scan_options) (x : R) : result arg :=
  match so_wrapper o with
  | None => Ok (AVec [x])
  | Some w => rbind (subst_first "x" x w) (fun w1 => Ok (AWrap w1))
  end.
(** algorithms.py 100-159: [sweep]; the initial point is never wrapped *)
Definition sweep (x_init : list R) (o : scan_options) : calls :=
  let first := if so_init o then
                 match x_init with [] => ([], Some IndexError) | x :: _ => ([AVec [x]], None) end
               else ([], None) in
  then_calls first
    match so_bounds o with
    | [] => ([], Some IndexError)
    | (lo, hi) :: _ =>
        match so_probe o with
        | None => call_all (map (sweep_arg o) (linspace lo hi (points_of o)))
        | Some [] => ([], Some ValueError)             (* min([]) *)
        | Some (p :: ps) =>
            let lo' := Rmin lo (list_min p ps) in
            let hi' := Rmax hi (list_max p ps) in
            then_calls (call_all (map (sweep_arg o) (p :: ps)))
                       (call_all (map (sweep_arg o) (linspace lo' hi' (points_of o))))
        end
    end.

(** ** cmaes (lines 454-565).  [sigmas] newest first. *)

(** algorithms.py 526-528: sigmas[-(i+1)] < sigmas[-(i+2)] for i in range(conv-1);
    an index beyond the list raises IndexError *)
Fixpoint all_shrunk (n : nat) (sigmas : list R) : result bool :=
  match n with
  | 0 => Ok true
  | S n' => match sigmas with
            | a :: ((b :: _) as r) => if Rltb a b then all_shrunk n' r else Ok false
            | _ => Err IndexError
            end
  end.
(** algorithms.py 454-516: the options read *)
Record cma_options : Type := mkCO {
  co_conv : option nat;     (* stop_at_convergence *)
  co_sigma : option R;      (* stop_at_sigma, as passed by the user *)
  co_init : bool
}.
(** algorithms.py 519-561: why the loop ended *)
Inductive cma_stop : Type := StopEs | StopShrunk | StopSigma | StopError (e : exn) | StopFuel.

(** algorithms.py 510; int(x) truncates towards zero (line 510) *)
Definition py_int (r : R) : R := (if Rltb r 0 then - IZR (Int_part (- r)) else IZR (Int_part r))%R.

(** The evolution strategy library is an oracle: after the goals evaluated so far
    (all generations), does it stop, which width has it, which samples does it ask. *)
Section Cma.
Variable es_stop : list (list (list R * R)) -> bool.
Variable es_sigma : list (list (list R * R)) -> R.
Variable es_ask : list (list (list R * R)) -> list (list R).
Variable func : list R -> R.

(** algorithms.py 519-561, without artificial noise; [hist] the generations told so far *)
Fixpoint cma_loop (fuel : nat) (o : cma_options) (x_init : list R)
         (iter : nat) (sigmas : list R) (hist : list (list (list R * R)))
  : list (list (list R * R)) * list R * cma_stop :=
  match fuel with
  | 0 => (hist, sigmas, StopFuel)
  | S fuel' =>
      if es_stop hist then (hist, sigmas, StopEs) else
      let sigmas' := match co_conv o with Some _ => es_sigma hist :: sigmas | None => sigmas end in
      let shrunk := match co_conv o with
                    | Some c => if Nat.ltb c iter then all_shrunk (c - 1) sigmas' else Ok false
                    | None => Ok false
                    end in
      match shrunk with
      | Err e => (hist, sigmas', StopError e)
      | Ok true => (hist, sigmas', StopShrunk)
      | Ok false =>
          if match co_sigma o with Some s => Rltb (es_sigma hist) (py_int s) | None => false end
          then (hist, sigmas', StopSigma)
          else
            let samples := es_ask hist in
            let samples := if co_init o && Nat.eqb iter 0 then x_init :: samples else samples in
            cma_loop fuel' o x_init (S iter) sigmas'
                     (hist ++ [map (fun s => (s, func s)) samples])
      end
  end.
End Cma.

(** cma_pre_lbfgs (algorithms.py 575-586): options for one of the two stages *)
Definition merge_options {V} (global sub : dict V) : dict V :=
  fold_left (fun s kv => if String.eqb (fst kv) "cmaes" || String.eqb (fst kv) "lbfgs" then s
                         else if dmem (fst kv) s then s else dset (fst kv) (snd kv) s) global sub.
