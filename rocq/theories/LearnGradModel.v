(** Model of the gradient of the goal of model learning (c3/optimizers/modellearning.py 362-446).

    The simplifications of LearnRunModel apply.  tf.GradientTape is an oracle that is given the
    recorded function of the watched parameters and the point; it may fail, as it does when the
    goal does not depend on the parameters (t.gradient returns None, line 422). *)
From Coq Require Import Reals.
From Verif Require Import Base QuantityModel PMapModel LearnModel EstModel LearnRunModel.
Local Open Scope list_scope.
Local Notation length := List.length.

Section GradRun.
  (** modellearning.py 172: the sampling function *)
  Variable sampling : nat -> list dataset -> nat -> result (list nat).
  (** modellearning.py 236-241: the simulation, as in LearnRunModel *)
  Variable simulate : dict quantity -> dict quantity -> list (list string) -> list (list nat) -> result (list (list R)).
  (** tf.math.lgamma inside neg_loglkh_multinom_norm, modellearning.py 402 *)
  Variable lgamma : R -> R.
  (** modellearning.py 394-395, 422: t.gradient(one_goal, current_params), one number per parameter *)
  Variable tape : (list R -> result R) -> list R -> result (list R).

  (** modellearning.py 396-415: the simulation and the goal of one data set, as recorded on the tape *)
  Definition set_goal (l : learner) (target : string) (d : ldata) (m : dataset) (s : lstate) (x : list R) : result (lstate * R) :=
    let pp := le_seqs_pp l in
    rbind (one_par_sim_vals simulate l s x (ld_map d) m target) (fun sv =>
    rbind (one_goal lgamma target (firstn pp (ds_results m)) (snd sv) (firstn pp (ds_stds m)) (firstn pp (ds_shots m))) (fun g =>
      Ok (fst sv, g))).

  (** modellearning.py 380-426: one round of the inner loop *)
  Definition grad_point (l : learner) (x : list R) (target : string) (d : ldata) (ipar : nat)
             (acc : lstate * list R * list R * list (list R)) : result (lstate * list R * list R * list (list R)) :=
    let '(s, goals, weights, grads) := acc in
    match nth_error (ld_sets d) ipar with
    | None => Err IndexError
    | Some m =>
        rbind (set_goal l target d m s x) (fun sg =>
        rbind (tape (fun y => rmap snd (set_goal l target d m s y)) x) (fun dv =>
          Ok (fst sg, goals ++ [snd sg], weights ++ [INR (num_seqs target (firstn (le_seqs_pp l) (ds_seqs m)))], grads ++ [dv])))
    end.
  (** modellearning.py 380: for ipar in indeces *)
  Fixpoint grad_points (l : learner) (x : list R) (target : string) (d : ldata) (is : list nat)
           (acc : lstate * list R * list R * list (list R)) : result (lstate * list R * list R * list (list R)) :=
    match is with
    | [] => Ok acc
    | i :: is' => rbind (grad_point l x target d i acc) (grad_points l x target d is')
    end.
  (** modellearning.py 376-426: for target, data in self.learn_data.items() *)
  Fixpoint grad_targets (l : learner) (x : list R) (data : dict ldata) (acc : lstate * list R * list R * list (list R))
    : result (lstate * list R * list R * list (list R)) :=
    match data with
    | [] => Ok acc
    | (target, d) :: data' =>
        match dget target (le_batch l) with
        | None => Err KeyError
        | Some b =>
            let '(s, goals, weights, grads) := acc in
            rbind (select sampling s (ld_sets d) b) (fun si =>
            rbind (grad_points l x target d (snd si) (fst si, goals, weights, grads)) (grad_targets l x data'))
        end
    end.
  (** modellearning.py 429, estimators.py 161-166: the weighted mean of the gradients, component by component *)
  Definition combined_gradient (n : nat) (goals : list R) (grads : list (list R)) (weights : list R) : list R :=
    map (fun i => dv_g_LL_prime goals (map (fun g => nth i g 0%R) grads) weights) (seq 0 n).
  (** modellearning.py 362-446; the third component is also stored in optim_status["gradient"] *)
  Definition goal_run_with_grad (l : learner) (s : lstate) (x : list R) : result (lstate * R * list R) :=
    rbind (grad_targets l x (le_data l) (s, [], [], [])) (fun acc =>
      let '(s1, goals, weights, grads) := acc in
      if Req_EM_T (rsum_l weights) 0 then Err NaNResult
      else
        let goal := g_LL_prime_combined goals weights in
        let grad := combined_gradient (length x) goals grads weights in
        rbind (get_parameters (ls_pm s1) None) (fun qs =>
          Ok ({| ls_pm := ls_pm s1; ls_model := ls_model s1; ls_inverse := ls_inverse s1;
                 ls_eval := (ls_eval s1 + 1)%Z; ls_draws := ls_draws s1;
                 ls_params := map numpy qs; ls_goal := Some goal |}, goal, grad))).
End GradRun.
