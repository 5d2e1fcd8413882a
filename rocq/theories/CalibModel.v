(** Model of the calibration optimiser (c3/optimizers/calibration.py).

    The optimiser attributes, the log and the best-point file are those of OptModel.v.
    Simplifications: an algorithm is the sequence of calls it makes; a KeyboardInterrupt only
    shortens that sequence; the time stamps, the copy of the source of the evaluation function
    and the loggers are left out; [log_setup] always finds a directory name that is not in use. *)
From Coq Require Import Reals.
From Verif Require Import Base QuantityModel PMapModel OptModel LearnRunModel.
Local Open Scope list_scope.
Local Open Scope nat_scope.
Local Notation length := List.length.

(** calibration.py 150: what the user's evaluation function returns; a goal of [None] is NaN *)
Record answer : Type := mkA {
  an_goal : option R; an_results : list (list R); an_stds : list (list R);
  an_seqs : list (list string); an_shots : list R
}.
(** calibration.py 178-184: one pickled entry; pickling copies the parameters *)
Record prec : Type := mkP {
  pr_params : list quantity; pr_seqs : list (list string); pr_results : list (list R);
  pr_stds : list (list R); pr_shots : list R
}.
(** calibration.py 118-129, 185-186: the file dataset.pickle holds entries one after the other until it is
    replaced by a dictionary of all entries and the map of the optimised parameters *)
Inductive pfile : Type := PRaw (l : list prec) | PDict (l : list prec) (om : optmap).
(** calibration.py 36-56: the attributes, and the files of the current log directory *)
Record cstate : Type := mkCS {
  c_opt : ostate;       (* the attributes of Optimizer, the log and the best-point file *)
  c_eval : nat;         (* evaluation *)
  c_calls : nat;        (* calls of the evaluation function so far *)
  c_pickle : option pfile  (* dataset.pickle *)
}.
(** calibration.py 36-56, optimizer.py 39-58: after [__init__] *)
Definition calib_init (pm : pmap) : cstate := mkCS (opt_init pm) 0 0 None.

(** calibration.py 160-186: [log_pickle] opens the file for appending *)
Definition log_pickle (f : option pfile) (r : prec) : option pfile :=
  match f with
  | None => Some (PRaw [r])
  | Some (PRaw l) => Some (PRaw (l ++ [r]))
  | Some (PDict l om) => Some (PDict l om)
  end.

Section Calibration.
  (** The evaluation function.  Its first argument counts the calls: an experiment may answer
      differently each time.  calibration.py 150 *)
  Variable eval_func : nat -> list quantity -> result answer.
  (** optimizer.py 207-215: the gradient of the goal, None if the tape finds no path *)
  Variable gradf : nat -> list R -> option (list fl).
  (** optimizer.py 230, 302: str(x) *)
  Variable show : list R -> string.

  (** assignment of the parameter map, calibration.py 145-149 *)
  Definition set_pm (st : cstate) (pm : pmap) : cstate :=
    mkCS (with_pmap (c_opt st) pm) (c_eval st) (c_calls st) (c_pickle st).

  (** calibration.py 131-159: [goal_run]; returns the parameters and the goal it writes to [optim_status] *)
  Definition calib_goal (st : cstate) (x : list R) : cstate * result (list (list R) * option R) :=
    match set_parameters_scaled (o_pmap (c_opt st)) x None with
    | (pm, Some e) => (set_pm st pm, Err e)
    | (pm, None) =>
        match get_parameters pm None with
        | Err e => (set_pm st pm, Err e)
        | Ok params =>
            match eval_func (c_calls st) params with
            | Err e => (mkCS (with_pmap (c_opt st) pm) (c_eval st) (S (c_calls st)) (c_pickle st), Err e)
            | Ok a =>
                (mkCS (with_pmap (c_opt st) pm) (S (c_eval st)) (S (c_calls st))
                      (log_pickle (c_pickle st) (mkP params (an_seqs a) (an_results a) (an_stds a) (an_shots a))),
                 Ok (map numpy params, an_goal a))
            end
        end
    end.

  (** optimizer.py 173-200: [log_parameters] *)
  Definition calib_log (st : cstate) (e : entry) : cstate * option exn :=
    let '(o, x) := log_parameters (c_opt st) e in (mkCS o (c_eval st) (c_calls st) (c_pickle st), x).

  (** optimizer.py 243-275: [fct_to_min]; the parameters written at line 264 are overwritten by goal_run *)
  Definition calib_fct (st : cstate) (x : list R) : cstate * option exn :=
    match get_parameters (o_pmap (c_opt st)) None with
    | Err e => (st, Some e)
    | Ok _ =>
        match calib_goal st x with
        | (st', Err e) => (st', Some e)
        | (st', Ok (pars, g)) => calib_log st' (mkE pars g None (o_pmap (c_opt st')))
        end
    end.

  (** optimizer.py 277-313: [fct_to_min_autograd]; line 296 fails if there is no gradient *)
  Definition calib_grad (st : cstate) (x : list R) : cstate * option exn :=
    match calib_goal st x with
    | (st', Err e) => (st', Some e)
    | (st', Ok (_, g)) =>
        match gradf (c_calls st) x with
        | None => (st', Some AttributeError)
        | Some gr =>
            let o1 := with_grads (c_opt st') (dset (show x) gr (o_grads (c_opt st'))) in
            match set_parameters_scaled (o_pmap o1) x None with
            | (pm2, Some e) => (mkCS (with_pmap o1 pm2) (c_eval st') (c_calls st') (c_pickle st'), Some e)
            | (pm2, None) =>
                let st2 := mkCS (with_pmap o1 pm2) (c_eval st') (c_calls st') (c_pickle st') in
                match get_parameters pm2 None with
                | Err e => (st2, Some e)
                | Ok qs => calib_log st2 (mkE (map numpy qs) g (Some gr) (o_pmap (c_opt st')))
                end
            end
        end
    end.

  (** optimizer.py 217-313: one call of the optimiser by an algorithm *)
  Definition calib_step (st : cstate) (ev : oevent) : cstate * option exn :=
    match ev with
    | EFun x => calib_fct st x
    | EGrad x => calib_grad st x
    | ELookup x => match lookup_gradient show (c_opt st) x with
                   | (o, Ok _) => (mkCS o (c_eval st) (c_calls st) (c_pickle st), None)
                   | (o, Err e) => (mkCS o (c_eval st) (c_calls st) (c_pickle st), Some e)
                   end
    end.
  (** calibration.py 101-111: the calls of the algorithm; an exception ends it *)
  Fixpoint calib_run (st : cstate) (evs : list oevent) : cstate * option exn :=
    match evs with
    | [] => (st, None)
    | ev :: evs' => match calib_step st ev with
                    | (st', None) => calib_run st' evs'
                    | (st', Some e) => (st', Some e)
                    end
    end.

  (** calibration.py 71-100: [log_setup] and [start_log] begin a new directory without any of the files *)
  Definition calib_start (st : cstate) : cstate :=
    let o := c_opt st in
    mkCS {| o_pmap := o_pmap o; o_grads := o_grads o; o_best := o_best o; o_best_params := o_best_params o;
            o_file := None; o_log := [] |} (c_eval st) (c_calls st) None.

  (** calibration.py 112-116: the best point is read back with the current map of optimised parameters *)
  Definition calib_best (st : cstate) : cstate * option exn :=
    match o_file (c_opt st) with
    | None => (st, Some FileNotFound)
    | Some f => let '(pm, x) := set_parameters (o_pmap (c_opt st)) (vf_params f) None false in (set_pm st pm, x)
    end.
  (** calibration.py 118-129: the data set is written; unpickling a second run's dictionary is not reachable,
      since the directory is new *)
  Definition calib_dataset (st : cstate) : cstate * option exn :=
    match c_pickle st with
    | None => (st, Some FileNotFound)
    | Some (PRaw l) | Some (PDict l _) =>
        (mkCS (c_opt st) (c_eval st) (c_calls st) (Some (PDict l (pm_opt_map (o_pmap (c_opt st))))), None)
    end.
  (** calibration.py 93-129: [optimize_controls] *)
  Definition calibrate (st : cstate) (evs : list oevent) : cstate * option exn :=
    let st0 := calib_start st in
    match get_parameters_scaled (o_pmap (c_opt st0)) None with
    | Err e => (st0, Some e)
    | Ok _ =>
        match calib_run st0 evs with
        | (st1, Some e) => (st1, Some e)
        | (st1, None) =>
            match calib_best st1 with
            | (st2, Some e) => (st2, Some e)
            | (st2, None) => calib_dataset st2
            end
        end
    end.
End Calibration.

(** modellearning.py 141-153: pickle.load returns the first object of the file; a data file is a dictionary.
    A raw entry has no "opt_map", which raises KeyError at modellearning.py 300-301. *)
Definition read_pickle (f : option pfile) : result ldata :=
  match f with
  | None => Err FileNotFound
  | Some (PRaw []) => Err FileNotFound
  | Some (PRaw _) => Err KeyError
  | Some (PDict l om) =>
      Ok (mkLD (map (fun r => mkDS (map numpy (pr_params r)) (pr_seqs r) (pr_results r) (pr_stds r) (pr_shots r)) l)
               (map (map PStr) om))
  end.
