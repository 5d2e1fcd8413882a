(** Model of jobs on the Qiskit backend (c3/qiskit/c3_backend.py 78-98, 218-418, 496-589), as
    state transformers: what [run] returns and what it leaves in the backend, also when it raises.

    Simplifications: circuits are given as circuits, so that the job's configuration holds
    exactly the options of the call (assemble, c3_backend.py 273-275); the option
    initial_statevector is not given as None; unknown option names (AttributeError before
    anything happens, c3_backend.py 397-401) and a backend without a model (C3QiskitError) are
    left out; the returned Result object is the list of its experiment results. *)
From Coq Require Import Reals.
From Coquelicot Require Import Complex.
From Verif Require Import Base HilbertModel FidModel TaskModel MiscModel QiskitModel.
Local Open Scope list_scope.
Local Notation length := List.length.

(** c3_backend.py 404-416: a state vector given by the user: a list or an array *)
Record statevec : Type := mkSV { sv_array : bool; sv_values : list C }.
(** c3_backend.py 533-538: a circuit: the number of its qubits and its instructions *)
Record circuit : Type := mkCirc { ci_qubits : nat; ci_ops : list qgate }.

Section Backend.
  (** the values of all parameters of the experiment (exp.pmap), c3_backend.py 322 *)
  Context {P : Type}.
  (** c3_backend.py 312-322: an entry of the options params and opt_map *)
  Context {A B : Type}.

  (** c3_backend.py 218-275: options of one call of run: params, opt_map and initial_statevector
      may be missing *)
  Record request : Type := mkRQ { rq_params : option (list A); rq_map : option (list B); rq_sv : option statevec;
                                  rq_shots : R; rq_qubits : nat; rq_circuits : list circuit }.
  (** experiment.py 76-84: the experiment of the backend: the parameters and the propagators computed last *)
  Record xstate : Type := mkX { xs_par : P; xs_props : dict smat }.
  (** c3_backend.py 471-484, 402-404: what the backend keeps between jobs: the experiment,
      _number_of_qubits and the options params, opt_map and initial_statevector *)
  Record backend : Type := mkBK { bk_x : xstate; bk_nq : nat; bk_params : option (list A); bk_map : option (list B);
                                  bk_sv : option statevec }.

  (** model.dims, model.lindbladian, model.get_init_state(), experiment.py 323-326 *)
  Variable dims : list nat.
  (** model.lindbladian, experiment.py 333 *)
  Variable lind : bool.
  (** model.get_init_state(), experiment.py 325 *)
  Variable psi0 : smat.
  (** model.tasks, experiment.py 380-381 *)
  Variable readout : P -> tasks.
  (** pmap.set_parameters with the options, c3_backend.py 322: the new values and the exception *)
  Variable set_parameters : list A -> list B -> P -> P * option exn.
  (** pmap.set_parameters with the arguments of a gate, c3_backend.py 541-546 *)
  Variable gate_update : qgate -> P -> P * option exn.
  (** exp.compute_propagators(), c3_backend.py 324, 547 *)
  Variable compute_propagators : P -> result (dict smat).

  (** what a circuit reads of the experiment, c3_backend.py 549-570 *)
  Definition view (iv : option smat) (x : xstate) : qexp :=
    {| x_dims := dims; x_lind := lind; x_props := xs_props x;
       x_init := match iv with Some psi => psi | None => psi0 end; x_tasks := readout (xs_par x) |}.
  (** c3_backend.py 549-567 *)
  Definition eval_circuit (x : xstate) (levels : nat) (iv : option smat) (shots : R) (ops seq : list qgate) : result qresult :=
    let q := view iv x in
    rbind (key_error (rbind (evaluate_qasm (x_dims q) (x_lind q) (x_props q) (x_init q) [seq])
                            (fun pops => process (x_dims q) (x_tasks q) pops None)))
          (fun p => package q levels shots ops (fst p)).
  (** c3_backend.py 534-589 *)
  Definition run_circuit (x : xstate) (levels : nat) (iv : option smat) (shots : R) (c : circuit) : xstate * result qresult :=
    if Nat.ltb (length dims) (ci_qubits c) then (x, Err C3Error) else
    let sanitized := fst (sanitize_instructions (ci_ops c)) in
    match rev sanitized with
    | [] => (x, Err IndexError)
    | last :: before =>
        if String.eqb (qg_name last) "param_update" then
          match gate_update last (xs_par x) with
          | (p, Some e) => (mkX p (xs_props x), Err e)
          | (p, None) =>
              match compute_propagators p with
              | Err e => (mkX p (xs_props x), Err e)
              | Ok pr => (mkX p pr, eval_circuit (mkX p pr) levels iv shots (ci_ops c) (rev before))
              end
          end
        else (x, eval_circuit x levels iv shots (ci_ops c) sanitized)
    end.
  (** c3_backend.py 326-327: the loop; an exception ends it *)
  Fixpoint run_circuits (x : xstate) (levels : nat) (iv : option smat) (shots : R) (cs : list circuit) : xstate * result (list qresult) :=
    match cs with
    | [] => (x, Ok [])
    | c :: r =>
        match run_circuit x levels iv shots c with
        | (x1, Err e) => (x1, Err e)
        | (x1, Ok q) => match run_circuits x1 levels iv shots r with
                        | (x2, Err e) => (x2, Err e)
                        | (x2, Ok qs) => (x2, Ok (q :: qs))
                        end
        end
    end.

  (** c3_backend.py 402: Options.update_options, for one option *)
  Definition updated {T} (new old : option T) : option T := match new with Some v => Some v | None => old end.
  (** c3_backend.py 358-392: [_validate_initial_statevector]: a list has no shape; with one basis state the
      reference state is a number, whose shape no vector has *)
  Definition check_sv (nq levels : nat) (sv : option statevec) : result (option smat) :=
    match sv with
    | None => Ok None
    | Some v =>
        if negb (sv_array v) then Err AttributeError
        else if Nat.eqb (levels ^ nq) 1 then Err C3Error
        else rbind (validate_initial_statevector nq levels (sv_values v)) (fun psi => Ok (Some psi))
    end.
  (** c3_backend.py 404-416: the state vector of this call, converted to an array, or the stored option as it is *)
  Definition this_sv (rq : request) (stored : option statevec) : option statevec :=
    match rq_sv rq with Some v => Some (mkSV true (sv_values v)) | None => stored end.
  (** c3_backend.py 311-322: the runtime update: the experiment, the options params and opt_map, the exception *)
  Definition update_pars (x : xstate) (ps : option (list A)) (om : option (list B)) : xstate * option (list A) * option (list B) * option exn :=
    match ps with
    | None | Some [] => (x, ps, om, None)
    | Some values =>
        match om with
        | None | Some [] => (x, ps, om, Some KeyError)
        | Some ids => let '(p, e) := set_parameters values ids (xs_par x) in (mkX p (xs_props x), None, None, e)
        end
    end.
  (** c3_backend.py 78-98, 218-342, 347-356, 394-416: [run] with [_set_options] and [_run_job].  The number of qubits
      is known to the backend once a circuit was started, c3_backend.py 533. *)
  Definition run (b : backend) (rq : request) : backend * result (list qresult) :=
    let ps := updated (rq_params rq) (bk_params b) in
    let om := updated (rq_map rq) (bk_map b) in
    let sv := updated (rq_sv rq) (bk_sv b) in
    let stay := mkBK (bk_x b) (bk_nq b) ps om sv in
    if Nat.ltb 10 (rq_qubits rq) then (stay, Err C3Error) else
    match dims with
    | [] => (stay, Err IndexError)
    | levels :: _ =>
        match check_sv (bk_nq b) levels (this_sv rq (bk_sv b)) with
        | Err e => (stay, Err e)
        | Ok iv =>
            match update_pars (bk_x b) ps om with
            | (x, ps', om', Some e) => (mkBK x (bk_nq b) ps' om' sv, Err e)
            | (x, ps', om', None) =>
                match compute_propagators (xs_par x) with
                | Err e => (mkBK x (bk_nq b) ps' om' sv, Err e)
                | Ok pr =>
                    let '(x2, r) := run_circuits (mkX (xs_par x) pr) levels iv (rq_shots rq) (rq_circuits rq) in
                    let nq := match rq_circuits rq with [] => bk_nq b | _ => length dims end in
                    (mkBK x2 nq ps' om' sv, r)
                end
            end
        end
    end.
  (** a new backend with an experiment, c3_backend.py 462-494, 68-76 *)
  Definition new_backend (x : xstate) : backend := mkBK x 0 None None None.
End Backend.
