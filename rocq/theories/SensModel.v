(** Model of the sensitivity analysis (c3/optimizers/sensitivity.py 96-127) on top of the
    goal function of model learning (LearnRunModel) and of the sweep (OptModel).

    Simplifications: as in LearnRunModel a call that raises ends the run and the state it
    leaves is not modelled; the algorithm is [sweep] without a wrapper (algorithms.py
    100-159); a KeyboardInterrupt does not occur; the log files are the lists of what was
    written into them, one per directory. *)
From Coq Require Import Reals.
From Verif Require Import Base QuantityModel PMapModel OptModel LearnModel LearnRunModel.
Local Open Scope list_scope.
Local Notation length := List.length.

(** sensitivity.py 44-63: the options given: points, probe_list and init_point (a list with
    one number per swept parameter) *)
Record sens_options : Type := mkSN { sn_points : option nat; sn_probe : option (list R); sn_init : option (list R) }.
(** optimizer.py 39-50, sensitivity.py 83-95: the attributes that change besides those of
    the goal function: current_best_goal, the log of the current directory and its best
    point *)
Record sens : Type := mkSE { se_s : lstate; se_best : R; se_log : list (list (list R) * R); se_file : option valfile }.
(** sensitivity.py 124-127: what one sweep leaves: the entry of sweep_end (name, parameters
    and goal) and the content of its directory *)
Record swept : Type := mkSW { sw_name : string; sw_params : list (list R); sw_goal : option R;
                              sw_log : list (list (list R) * R); sw_file : option valfile }.

(** sensitivity.py 101: self.pmap.opt_map = [...] *)
Definition with_opt_map (pm : pmap) (m : optmap) : pmap :=
  mkPM (pm_pars pm) (pm_model_ids pm) m (pm_update pm) (pm_has_model pm) (pm_refreshes pm).
(** sensitivity.py 101: the same in the state of the goal function *)
Definition set_map (s : lstate) (m : optmap) : lstate :=
  mkLS (with_opt_map (ls_pm s) m) (ls_model s) (ls_inverse s) (ls_eval s) (ls_draws s) (ls_params s) (ls_goal s).
(** sensitivity.py 124: "".join(flatten(self.pmap.opt_map)) *)
Definition join_ids (ids : list string) : string := fold_right append EmptyString ids.

Section Sens.
  (** modellearning.py 172 *)
  Variable sampling : nat -> list dataset -> nat -> result (list nat).
  (** modellearning.py 236-241 *)
  Variable simulate : dict quantity -> dict quantity -> list (list string) -> list (list nat) -> result (list (list R)).
  (** modellearning.py 320 *)
  Variable lgamma : R -> R.

  (** optimizer.py 243-275, 173-200: [fct_to_min] of one vector *)
  Definition sens_fct (l : learner) (st : sens) (x : list R) : result sens :=
    rbind (get_parameters (ls_pm (se_s st)) None) (fun _ =>
    rbind (goal_run sampling simulate lgamma l (se_s st) x) (fun sg =>
      let '(s1, g) := sg in
      let log := se_log st ++ [(ls_params s1, g)] in
      if Rltb g (se_best st) then
        rbind (store_status (ls_pm s1) (ls_params s1)) (fun f => Ok (mkSE s1 g log (Some f)))
      else Ok (mkSE s1 (se_best st) log (se_file st)))).
  (** algorithms.py 100-159: the calls of the sweep *)
  Fixpoint sens_calls (l : learner) (st : sens) (cs : list arg) : result sens :=
    match cs with
    | [] => Ok st
    | AVec x :: r => rbind (sens_fct l st x) (fun st1 => sens_calls l st1 r)
    | AWrap _ :: _ => Err TypeError
    end.
  (** sensitivity.py 100-127: one round of the loop, with the number of the round *)
  Definition one_sweep (l : learner) (o : sens_options) (bounds : list (R * R)) (ii : nat) (ids : list string) (st : sens)
    : result (sens * swept) :=
    let s0 := set_map (se_s st) [ids] in
    match nth_error bounds ii with
    | None => Err IndexError
    | Some b =>
        rbind (get_opt_units (ls_pm s0)) (fun _ =>
        match sn_init o with
        | None => Err KeyError
        | Some inits =>
            match nth_error inits ii with
            | None => Err IndexError
            | Some x0 =>
                let so := mkSO (sn_points o) [b] None true (sn_probe o) in
                let '(cs, e) := sweep [x0] so in
                rbind (sens_calls l (mkSE s0 (se_best st) [] None) cs) (fun st1 =>
                match e with
                | Some x => Err x
                | None => Ok (st1, mkSW (join_ids ids) (ls_params (se_s st1)) (ls_goal (se_s st1)) (se_log st1) (se_file st1))
                end)
            end
        end)
    end.
  (** sensitivity.py 100: the loop over the swept parameters, from number [ii] on *)
  Fixpoint sweeps (l : learner) (o : sens_options) (bounds : list (R * R)) (ii : nat) (map : list (list string)) (st : sens)
    : result (sens * list swept) :=
    match map with
    | [] => Ok (st, [])
    | ids :: rest => rbind (one_sweep l o bounds ii ids st) (fun a =>
                     rbind (sweeps l o bounds (S ii) rest (fst a)) (fun b => Ok (fst b, snd a :: snd b)))
    end.
  (** sensitivity.py 65-95: the constructor; an empty sweep_map is an IndexError.  Scaling is switched off. *)
  Definition sens_init (l : learner) (map : list (list string)) (s : lstate) : result (learner * sens) :=
    match map with
    | [] => Err IndexError
    | ids :: _ => Ok (mkL (le_data l) (le_batch l) (le_labels l) (le_seqs_pp l) false, mkSE (set_map s [ids]) sentinel [] None)
    end.
  (** sensitivity.py 96-127 of a new object *)
  Definition sensitivity (l : learner) (o : sens_options) (bounds : list (R * R)) (map : list (list string)) (s : lstate)
    : result (sens * list swept) :=
    rbind (sens_init l map s) (fun li => sweeps (fst li) o bounds 0 map (snd li)).
End Sens.
