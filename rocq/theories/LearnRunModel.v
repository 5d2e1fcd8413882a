(** Model of the goal function of model learning (c3/optimizers/modellearning.py 181-361)
    and of the validation run behind it.

    Simplifications: when a call raises, the run ends with that exception and the state it
    leaves behind is not modelled; the log files, the callback figures of merit and the
    attributes [learn_from] and [gateset_opt_map] (set at the start of every loop round)
    are left out; numbers are exact reals.  The simulation itself is an oracle. *)
From Coq Require Import Reals.
From Verif Require Import Base QuantityModel PMapModel LearnModel EstModel.
Local Open Scope list_scope.
Local Notation length := List.length.

(** modellearning.py 218-273: one entry of data["seqs_grouped_by_param_set"] *)
Record dataset : Type := mkDS {
  ds_params : list (list R);          (* "params" *)
  ds_seqs : list (list string);       (* "seqs" *)
  ds_results : list (list R);         (* "results", one list of outcomes per sequence *)
  ds_stds : list (list R);            (* "results_std" *)
  ds_shots : list R                   (* "shots", of shape [number of sequences, 1] *)
}.
(** modellearning.py 141-153: one unpickled data file *)
Record ldata : Type := mkLD {
  ld_sets : list dataset;                (* "seqs_grouped_by_param_set" *)
  ld_map : list (list parid)          (* "opt_map" *)
}.
(** modellearning.py 89-118: the attributes of ModelLearning that do not change in a run *)
Record learner : Type := mkL {
  le_data : dict ldata;               (* learn_data *)
  le_batch : dict nat;                (* batch_sizes *)
  le_labels : dict (list (list nat)); (* state_labels *)
  le_seqs_pp : nat;                   (* seqs_per_point *)
  le_scaling : bool                   (* scaling *)
}.
(** modellearning.py 89-118, 181-217: the attributes that do change *)
Record lstate : Type := mkLS {
  ls_pm : pmap;                       (* pmap *)
  ls_model : dict quantity;           (* the model parameters the matrices of pmap.model were last computed from *)
  ls_inverse : bool;                  (* inverse *)
  ls_eval : Z;                        (* evaluation *)
  ls_draws : nat;                     (* number of calls of the sampling function so far *)
  ls_params : list (list R);          (* optim_status["params"] *)
  ls_goal : option R                  (* optim_status["goal"] *)
}.
(** modellearning.py 89-91: the state labels always have an entry for the target "all" *)
Definition init_labels (user : dict (list (list nat))) : dict (list (list nat)) :=
  fold_left (fun d kv => Base.dset (fst kv) (snd kv) d) user [("all"%string, [])].

(** modellearning.py 232, model.py 423-429: the parameters that enter the matrices of the model *)
Definition model_part (pm : pmap) : dict quantity :=
  filter (fun kv => smem (fst kv) (pm_model_ids pm)) (pm_pars pm).

(** modellearning.py 227-233: an assignment to the parameter map that may update the model *)
Definition assign_pm (s : lstate) (r : pmap * option exn) : result lstate :=
  match r with
  | (_, Some e) => Err e
  | (pm, None) =>
      Ok {| ls_pm := pm;
            ls_model := if Nat.eqb (pm_refreshes pm) (pm_refreshes (ls_pm s)) then ls_model s else model_part pm;
            ls_inverse := ls_inverse s; ls_eval := ls_eval s; ls_draws := ls_draws s;
            ls_params := ls_params s; ls_goal := ls_goal s |}
  end.
(** modellearning.py 232: pmap.model.update_model() *)
Definition update_model (s : lstate) : result lstate :=
  if pm_has_model (ls_pm s)
  then Ok {| ls_pm := refresh (ls_pm s); ls_model := model_part (ls_pm s); ls_inverse := ls_inverse s; ls_eval := ls_eval s;
             ls_draws := ls_draws s; ls_params := ls_params s; ls_goal := ls_goal s |}
  else Err AttributeError.

Section Run.
  (** modellearning.py 172: the sampling function; its first argument counts the calls, since a random
      sampling function may return something else each time *)
  Variable sampling : nat -> list dataset -> nat -> result (list nat).
  (** modellearning.py 236-241: set_opt_gates_seq, compute_propagators, evaluate and process, given the model
      parameters the matrices of the model were computed from, the current parameters, the sequences
      and the state labels *)
  Variable simulate : dict quantity -> dict quantity -> list (list string) -> list (list nat) -> result (list (list R)).
  (** tf.math.lgamma inside neg_loglkh_multinom_norm, modellearning.py 320 *)
  Variable lgamma : R -> R.

  (** modellearning.py 155-179 on a data file *)
  Definition select (s : lstate) (sets : list dataset) (batch_size : nat) : result (lstate * list nat) :=
    rbind (sampling (ls_draws s) sets batch_size) (fun indeces =>
      Ok ({| ls_pm := ls_pm s; ls_model := ls_model s; ls_inverse := ls_inverse s; ls_eval := ls_eval s;
             ls_draws := S (ls_draws s); ls_params := ls_params s; ls_goal := ls_goal s |},
          select_from_data indeces (length sets) (ls_inverse s))).

  (** modellearning.py 218-242; line 222 reads the same data set again.  Unscaled parameters are single numbers. *)
  Definition one_par_sim_vals (l : learner) (s : lstate) (x : list R) (om : list (list parid)) (m : dataset) (target : string)
    : result (lstate * list (list R)) :=
    rbind (if le_scaling l then assign_pm s (set_parameters_scaled (ls_pm s) x None)
           else assign_pm s (set_parameters (ls_pm s) (map (fun v => [v]) x) None false)) (fun s1 =>
    rbind (update_model s1) (fun s2 =>
    rbind (assign_pm s2 (set_parameters (ls_pm s2) (ds_params m) (Some om) false)) (fun s3 =>
      match dget target (le_labels l) with
      | None => Err KeyError
      | Some labels =>
          rbind (simulate (ls_model s3) (pm_pars (ls_pm s3)) (firstn (le_seqs_pp l) (ds_seqs m)) labels)
                (fun vals => Ok (s3, vals))
      end))).

  (** modellearning.py 327-332: g_LL_prime on arrays of shape [sequences, outcomes] with shots of shape
      [sequences, 1], which are repeated for each outcome *)
  Fixpoint spread (rows : list (list R)) (shots : list R) : list R :=
    match rows, shots with row :: rows', n :: shots' => repeat n (length row) ++ spread rows' shots' | _, _ => [] end.
  (** modellearning.py 319-332: the goal of one data set *)
  Definition one_goal (target : string) (ex sim stds : list (list R)) (shots : list R) : result R :=
    if String.eqb target "all" then neg_loglkh_multinom_norm lgamma ex sim stds shots
    else g_LL_prime (List.concat ex) (List.concat sim) (List.concat stds) (spread sim shots).
  (** modellearning.py 311-314: the weight of one data set *)
  Definition num_seqs (target : string) (seqs : list (list string)) : nat :=
    if String.eqb target "all" then length seqs * 3 else length seqs.

  (** modellearning.py 305-341: one round of the inner loop *)
  Definition one_point (l : learner) (x : list R) (target : string) (d : ldata) (ipar : nat)
             (acc : lstate * list R * list R) : result (lstate * list R * list R) :=
    let '(s, goals, weights) := acc in
    match nth_error (ld_sets d) ipar with
    | None => Err IndexError
    | Some m =>
        let pp := le_seqs_pp l in
        rbind (one_par_sim_vals l s x (ld_map d) m target) (fun sv =>
        rbind (one_goal target (firstn pp (ds_results m)) (snd sv) (firstn pp (ds_stds m)) (firstn pp (ds_shots m))) (fun g =>
          Ok (fst sv, goals ++ [g], weights ++ [INR (num_seqs target (firstn pp (ds_seqs m)))])))
    end.
  (** modellearning.py 305: for ipar in indeces *)
  Fixpoint all_points (l : learner) (x : list R) (target : string) (d : ldata) (is : list nat)
           (acc : lstate * list R * list R) : result (lstate * list R * list R) :=
    match is with
    | [] => Ok acc
    | i :: is' => rbind (one_point l x target d i acc) (all_points l x target d is')
    end.
  (** modellearning.py 300-341: for target, data in self.learn_data.items() *)
  Fixpoint all_targets (l : learner) (x : list R) (data : dict ldata) (acc : lstate * list R * list R)
    : result (lstate * list R * list R) :=
    match data with
    | [] => Ok acc
    | (target, d) :: data' =>
        match dget target (le_batch l) with
        | None => Err KeyError
        | Some b =>
            let '(s, goals, weights) := acc in
            rbind (select s (ld_sets d) b) (fun si =>
            rbind (all_points l x target d (snd si) (fst si, goals, weights)) (all_targets l x data'))
        end
    end.
  (** modellearning.py 275-360; 0 / 0 is NaN *)
  Definition goal_run (l : learner) (s : lstate) (x : list R) : result (lstate * R) :=
    rbind (all_targets l x (le_data l) (s, [], [])) (fun acc =>
      let '(s1, goals, weights) := acc in
      if Req_EM_T (rsum_l weights) 0 then Err NaNResult
      else
        let goal := g_LL_prime_combined goals weights in
        rbind (get_parameters (ls_pm s1) None) (fun qs =>
          Ok ({| ls_pm := ls_pm s1; ls_model := ls_model s1; ls_inverse := ls_inverse s1;
                 ls_eval := (ls_eval s1 + 1)%Z; ls_draws := ls_draws s1;
                 ls_params := map numpy qs; ls_goal := Some goal |}, goal))).

  (** modellearning.py 202-216 *)
  Definition confirm (l : learner) (s : lstate) : result (lstate * R) :=
    rbind (get_parameters_scaled (ls_pm s) None) (fun x_best =>
      goal_run l {| ls_pm := ls_pm s; ls_model := ls_model s; ls_inverse := true; ls_eval := (-1)%Z;
                    ls_draws := ls_draws s; ls_params := ls_params s; ls_goal := ls_goal s |} x_best).

  (** modellearning.py 189-198: the optimisation algorithm asks for the goal at some points, each
      chosen from the goals so far, and stops. *)
  CoInductive algorithm : Type := Stop | Ask (x : list R) (next : R -> algorithm).
  (** modellearning.py 189-198: the evaluations of the algorithm, at most [fuel] of them *)
  Fixpoint run_algorithm (fuel : nat) (l : learner) (a : algorithm) (s : lstate) : result lstate :=
    match fuel with
    | 0%nat => Err OutOfFuel
    | S fuel' =>
        match a with
        | Stop => Ok s
        | Ask x next => rbind (goal_run l s x) (fun sg => run_algorithm fuel' l (next (snd sg)) (fst sg))
        end
    end.
  (** modellearning.py 181-200 *)
  Definition learn_model (fuel : nat) (l : learner) (a : list R -> algorithm) (s : lstate) : result (lstate * R) :=
    rbind (get_parameters_scaled (ls_pm s) None) (fun x_init =>
    rbind (run_algorithm fuel l (a x_init) s) (confirm l)).
End Run.
