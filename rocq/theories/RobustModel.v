(** Model of the robust optimiser, c3/optimizers/optimalcontrol_robust.py.

    The store is the [ParameterMap] model of PMapModel.v.  The simulation
    (compute_propagators and the goal function, optimalcontrol_robust.py 100-112, and the gradient
    tape, optimalcontrol_robust.py 43-46) is the oracle [fid]: it maps the parameter store and the
    evaluation number to a goal and its gradient, or raises.  [self.exp.pmap] and
    [self.pmap] are one object (optimizer.py set_exp / __init__).  That cached
    Hamiltonians follow the store is C11's subject, not modelled here. *)
From Coq Require Import Reals.
From Verif Require Import Base QuantityModel PMapModel.
Local Open Scope list_scope.

Section Robust.
  Variable fid : dict quantity -> nat -> result (R * list R).

  (** optimalcontrol_robust.py 88-112: [goal_run]. *)
  Definition robust_goal_run (pm : pmap) (cur : list R) (evaluation : nat)
    : pmap * result (R * list R) :=
    match set_parameters_scaled pm cur None with
    | (pm', Some e) => (pm', Err e)
    | (pm', None) => (pm', fid (pm_pars pm') (evaluation + 1))
    end.

  (** optimalcontrol_robust.py 40-48: [noise_instance]. *)
  Definition noise_instance (pm : pmap) (cur : list R) (noise_val : list R)
             (noise_map : list parid) (evaluation : nat)
    : pmap * result (R * list R) :=
    match set_parameters pm [noise_val] (Some [noise_map]) false with
    | (pm', Some e) => (pm', Err e)
    | (pm', None) => robust_goal_run pm' cur evaluation
    end.

  (** optimalcontrol_robust.py 57-63: the loop over the values of one noise parameter. *)
  Fixpoint instances (pm : pmap) (cur : list R) (vals : list (list R))
           (noise_map : list parid) (evaluation : nat)
    : pmap * result (list (R * list R)) :=
    match vals with
    | [] => (pm, Ok [])
    | v :: vals' =>
        match noise_instance pm cur v noise_map evaluation with
        | (pm1, Err e) => (pm1, Err e)
        | (pm1, Ok g) =>
            match instances pm1 cur vals' noise_map evaluation with
            | (pm2, Err e) => (pm2, Err e)
            | (pm2, Ok gs) => (pm2, Ok (g :: gs))
            end
        end
    end.

  (** optimalcontrol_robust.py 55-64: the loop over the noise map.  [np.array] of the list of
      Quantities calls [Quantity.__array__] (c3objs.py 203), i.e. [numpy]. *)
  Fixpoint noise_loop (pm : pmap) (cur : list R)
           (nm : list (list (list R) * list parid)) (evaluation : nat)
    : pmap * result (list (R * list R)) :=
    match nm with
    | [] => (pm, Ok [])
    | (vals, ids) :: nm' =>
        match get_parameters pm (Some [ids]) with
        | Err e => (pm, Err e)
        | Ok qs =>
            let orig_val := map numpy qs in
            match instances pm cur vals ids evaluation with
            | (pm1, Err e) => (pm1, Err e)
            | (pm1, Ok gs) =>
                match set_parameters pm1 orig_val (Some [ids]) false with
                | (pm2, Some e) => (pm2, Err e)
                | (pm2, None) =>
                    match noise_loop pm2 cur nm' evaluation with
                    | (pm3, Err e) => (pm3, Err e)
                    | (pm3, Ok gs') => (pm3, Ok (gs ++ gs'))
                    end
                end
            end
        end
    end.

  (** optimalcontrol_robust.py 64-72: tf.reduce_mean of scalars / np.std of scalars; NaN for no entries. *)
  Definition mean_of (xs : list R) : R := (fold_right Rplus 0 xs / INR (List.length xs))%R.
  (** np.std, optimalcontrol_robust.py 66-70 *)
  Definition std_of (xs : list R) : R :=
    sqrt (mean_of (map (fun x => (x - mean_of xs) * (x - mean_of xs))%R xs)).
  (** optimalcontrol_robust.py 64-72: tf.reduce_mean(grads, axis=0) for gradients of [n] entries. *)
  Definition mean_vec (n : nat) (gs : list (list R)) : list R :=
    map (fun i => mean_of (map (fun g => nth i g 0%R) gs)) (seq 0 n).

  (** optimalcontrol_robust.py 66-70: the entries written to [optim_status]. *)
  Record status : Type := mkStatus {
    st_goals : list R; st_goal_std : R; st_goal : R }.

  (** optimalcontrol_robust.py 50-72: [goal_run_with_grad].  Gradients have one entry per entry of
      [current_params].  With no instance at all the means are NaN. *)
  Definition goal_run_with_grad (pm : pmap) (cur : list R)
             (nm : list (list (list R) * list parid)) (evaluation : nat)
    : pmap * result (status * (R * list R)) :=
    match noise_loop pm cur nm evaluation with
    | (pm', Err e) => (pm', Err e)
    | (pm', Ok []) => (pm', Err NaNResult)
    | (pm', Ok gs) =>
        let goals := map fst gs in
        (pm', Ok (mkStatus goals (std_of goals) (mean_of goals),
                  (mean_of goals, mean_vec (List.length cur) (map snd gs))))
    end.
End Robust.
