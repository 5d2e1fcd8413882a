(** Model of the compiled goal function of OptimalControl (c3/optimizers/optimalcontrol.py
    93-116, 160-290; c3/optimizers/optimizer.py 32-58, 173-313).

    [goal_run] is decorated with tf.function.  The first call with a vector of a given
    length runs the Python code once, with a symbolic vector, and keeps the graph of
    tensor operations; what the code read on the way (the fidelity function, the
    experiment, the evaluation number and every parameter that is not optimised) is part
    of the graph as a constant.  Every later call with a vector of that length only
    evaluates the graph: no Python statement runs, no attribute changes.

    After tracing, the optimised quantities hold symbolic tensors.  The model keeps the
    values of the traced call; the code overwrites them before it reads any of them
    (optimizer.py 303, optimalcontrol.py 191). *)
From Coq Require Import Reals.
From Verif Require Import Base QuantityModel PMapModel OptModel.
Local Open Scope list_scope.
Local Notation length := List.length.

Section Trace.
(** optimalcontrol.py 70-92: what else the goal reads: fid_func, fid_func_kwargs, index, the experiment, the model *)
Context {St : Type}.
(** optimalcontrol.py 213-226: the goal; the number is n_eval *)
Variable goalf : St -> nat -> pmap -> option R.
(** optimizer.py 210-215: its gradient *)
Variable gradf : St -> nat -> pmap -> list R -> list fl.
(** optimizer.py 232: str(x) *)
Variable show : list R -> string.

(** optimalcontrol.py 200-227: what a graph keeps: evaluation number, setup and parameters at the time of tracing *)
Record graph : Type := mkG { g_eval : nat; g_setup : St; g_pmap : pmap }.
(** optimizer.py 32-58 with the cache of tf.function; [t_nums] are the evaluation
    numbers written into the log (optimizer.py 188-190). *)
Record tstate : Type := mkT {
  t_o : ostate; t_eval : nat; t_setup : St; t_graphs : list (nat * graph); t_nums : list nat
}.
(** optimizer.py 32-58 *)
Definition t_init (s : St) (pm : pmap) : tstate := mkT (opt_init pm) 0 s [] [].
(** tf.function (optimalcontrol.py 200): lookup by the length of the argument. *)
Fixpoint find_graph (n : nat) (gs : list (nat * graph)) : option graph :=
  match gs with [] => None | (m, g) :: r => if Nat.eqb n m then Some g else find_graph n r end.
(** assignment of the part of the state that OptModel describes, optimizer.py 202-313 *)
Definition with_o (t : tstate) (o : ostate) : tstate := mkT o (t_eval t) (t_setup t) (t_graphs t) (t_nums t).

(** optimalcontrol.py 200-227: [goal_run] as compiled.  The result is the goal, the parameter map at which it
    was evaluated and the gradient. *)
Definition goal_call (t : tstate) (x : list R) : tstate * result (option R * pmap * list fl) :=
  match find_graph (length x) (t_graphs t) with
  | Some g =>
      match set_parameters_scaled (g_pmap g) x None with
      | (pm', None) => (t, Ok (goalf (g_setup g) (g_eval g) pm', pm', gradf (g_setup g) (g_eval g) pm' x))
      | (_, Some e) => (t, Err e)
      end
  | None =>
      let pm := o_pmap (t_o t) in
      match set_parameters_scaled pm x None with
      | (pm', None) =>
          let n := S (t_eval t) in
          (mkT (with_pmap (t_o t) pm') n (t_setup t) ((length x, mkG n (t_setup t) pm) :: t_graphs t) (t_nums t),
           Ok (goalf (t_setup t) n pm', pm', gradf (t_setup t) n pm' x))
      | (pm', Some e) => (with_o t (with_pmap (t_o t) pm'), Err e)
      end
  end.
(** optimizer.py 173-200: [log_parameters] with the evaluation number. *)
Definition log_call (t : tstate) (e : entry) : tstate * option exn :=
  match log_parameters (t_o t) e with
  | (o, None) => (mkT o (t_eval t) (t_setup t) (t_graphs t) (t_nums t ++ [t_eval t]), None)
  | (o, Some x) => (with_o t o, Some x)
  end.
(** optimizer.py 243-275: [fct_to_min] *)
Definition t_fct_to_min (t : tstate) (x : list R) : tstate * option exn :=
  match get_parameters (o_pmap (t_o t)) None with
  | Err e => (t, Some e)
  | Ok qs =>
      let pars := map (fun qy => [get_other_value (fst qy) (snd qy)]) (combine qs x) in
      match goal_call t x with
      | (t', Err e) => (t', Some e)
      | (t', Ok (g, at_, _)) => log_call t' (mkE pars g None at_)
      end
  end.
(** optimizer.py 277-313: [fct_to_min_autograd] *)
Definition t_fct_to_min_autograd (t : tstate) (x : list R) : tstate * option exn :=
  match goal_call t x with
  | (t1, Err e) => (t1, Some e)
  | (t1, Ok (g, at_, gr)) =>
      let o1 := with_grads (t_o t1) (dset (show x) gr (o_grads (t_o t1))) in
      match set_parameters_scaled (o_pmap o1) x None with
      | (pm2, Some e) => (with_o t1 (with_pmap o1 pm2), Some e)
      | (pm2, None) =>
          match get_parameters pm2 None with
          | Err e => (with_o t1 (with_pmap o1 pm2), Some e)
          | Ok qs => log_call (with_o t1 (with_pmap o1 pm2)) (mkE (map numpy qs) g (Some gr) at_)
          end
      end
  end.
(** optimizer.py 202-313: one call of the optimiser by an algorithm *)
Definition t_step (t : tstate) (ev : oevent) : tstate * option exn :=
  match ev with
  | EFun x => t_fct_to_min t x
  | EGrad x => t_fct_to_min_autograd t x
  | ELookup x => match lookup_gradient show (t_o t) x with
                 | (o, Ok _) => (with_o t o, None)
                 | (o, Err e) => (with_o t o, Some e)
                 end
  end.
(** optimalcontrol.py 160-190 *)
Fixpoint t_run (t : tstate) (evs : list oevent) : tstate * option exn :=
  match evs with
  | [] => (t, None)
  | ev :: evs' => match t_step t ev with
                  | (t', None) => t_run t' evs'
                  | (t', Some e) => (t', Some e)
                  end
  end.
(** optimalcontrol.py 137-150, 164-170: [log_setup] and [start_log] begin a new directory: no
    best point and an empty log; the other attributes stay. *)
Definition log_setup (t : tstate) : tstate :=
  let o := t_o t in
  mkT (mkO (o_pmap o) (o_grads o) (o_best o) (o_best_params o) None []) (t_eval t) (t_setup t) (t_graphs t) [].
(** optimalcontrol.py 158-198: [optimize_controls] *)
Definition t_optimize (t : tstate) (evs : list oevent) : tstate * option exn :=
  match t_run (log_setup t) evs with
  | (t1, Some e) => (t1, Some e)
  | (t1, None) =>
      match o_file (t_o t1) with
      | None => (t1, Some FileNotFound)
      | Some f =>
          match load_values (o_pmap (t_o t1)) f false with
          | (pm', None) => (with_o t1 (with_pmap (t_o t1) pm'), None)
          | (pm', Some MapOOBError) => (with_o t1 (with_pmap (t_o t1) pm'), Some OptResultOOB)
          | (pm', Some e) => (with_o t1 (with_pmap (t_o t1) pm'), Some e)
          end
      end
  end.
(** What the user may do between two runs: assign any attribute of the setup and any
    parameters (parametermap.py 285-331, optimalcontrol.py 93-135). *)
Definition reconfigure (t : tstate) (s : St) (pm : pmap) : tstate :=
  mkT (with_pmap (t_o t) pm) (t_eval t) s (t_graphs t) (t_nums t).
End Trace.
