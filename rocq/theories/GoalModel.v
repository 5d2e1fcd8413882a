(** Model of how an OptimalControl picks its fidelity function, goal function and algorithm
    and of the calls it makes to them (c3/optimizers/optimalcontrol.py 50-145, 171-186, 200-291;
    c3/optimizers/optimizer.py 60-65; c3/libraries/fidelities.py; c3/libraries/algorithms.py 17-26).

    Python functions are modelled with the names of their parameters, since all calls of interest pass
    keyword arguments.  Tracing by tf.function is the subject of TraceModel and is left out here; so
    are log files and the optional initial point of the optimiser. *)
From Coq Require Import Reals.
From Verif Require Import Base.
Local Open Scope list_scope.
Local Open Scope string_scope.
Local Notation length := List.length.

(** the parameters of a Python function (fidelities.py 86-800): name, and whether it has no default value *)
Definition signature : Type := list (string * bool).
(** calls in optimalcontrol.py 180-186, 217-224: whether a name is among those given *)
Definition is_in (n : string) (l : list string) : bool := existsb (String.eqb n) l.
(** calls in optimalcontrol.py 180-186, 217-224, 249-255: binding of keyword arguments.  An unknown or repeated name
    and a missing argument raise TypeError. *)
Fixpoint bind_names (sig : signature) (seen given : list string) : bool :=
  match given with
  | [] => forallb (fun p => negb (snd p) || is_in (fst p) seen) sig
  | n :: given' => is_in n (map fst sig) && negb (is_in n seen) && bind_names sig (n :: seen) given'
  end.

(** fidelities.py 44-49, 84-806: the functions decorated with fid_reg_deco *)
Definition fidelities : dict signature :=
  [("state_transfer_infid_set", [("propagators", true); ("instructions", true); ("index", true); ("dims", true); ("psi_0", true); ("n_eval", false); ("proj", false)]);
   ("state_transfer_infid", [("ideal", true); ("actual", true); ("index", true); ("dims", true); ("psi_0", true)]);
   ("unitary_infid", [("ideal", true); ("actual", true); ("index", false); ("dims", false)]);
   ("unitary_infid_set", [("propagators", true); ("instructions", true); ("index", true); ("dims", true); ("n_eval", false)]);
   ("lindbladian_unitary_infid", [("ideal", true); ("actual", true); ("index", false); ("dims", false)]);
   ("lindbladian_unitary_infid_set", [("propagators", true); ("instructions", true); ("index", true); ("dims", true); ("n_eval", true)]);
   ("average_infid", [("ideal", true); ("actual", true); ("index", false); ("dims", false)]);
   ("average_infid_set", [("propagators", true); ("instructions", true); ("index", true); ("dims", true); ("n_eval", false)]);
   ("average_infid_seq", [("propagators", true); ("instructions", true); ("index", true); ("dims", true); ("n_eval", false)]);
   ("lindbladian_average_infid", [("ideal", true); ("actual", true); ("index", false); ("dims", false)]);
   ("lindbladian_average_infid_set", [("propagators", true); ("instructions", true); ("index", true); ("dims", true); ("n_eval", true)]);
   ("epc_analytical", [("propagators", true); ("index", true); ("dims", true); ("proj", true); ("cliffords", false)]);
   ("lindbladian_epc_analytical", [("propagators", true); ("index", true); ("dims", true); ("proj", true); ("cliffords", false)]);
   ("populations", [("state", true); ("lindbladian", true)]);
   ("population", [("propagators", true); ("lvl", true); ("gate", true)]);
   ("RB", [("propagators", true); ("min_length", false); ("max_length", false); ("num_lengths", false); ("num_seqs", false); ("logspace", false); ("lindbladian", false); ("padding", false)]);
   ("lindbladian_RB_left", [("propagators", true); ("gate", true); ("index", true); ("dims", true); ("proj", false)]);
   ("lindbladian_RB_right", [("propagators", true); ("gate", true); ("index", true); ("dims", true); ("proj", true)]);
   ("leakage_RB", [("propagators", true); ("min_length", false); ("max_length", false); ("num_lengths", false); ("num_seqs", false); ("logspace", false); ("lindbladian", false)]);
   ("orbit_infid", [("propagators", true); ("RB_number", false); ("RB_length", false); ("lindbladian", false); ("shots", false); ("seqs", false); ("noise", false)]);
   ("state_transfer_from_states", [("states", true); ("index", true); ("dims", true); ("params", true); ("n_eval", false)])].

(** algorithms.py 20-26, 28-670: the functions decorated with algo_reg_deco; the parameters besides x_init, which is passed by position *)
Definition algorithms : dict signature :=
  let usual := [("fun", false); ("fun_grad", false); ("grad_lookup", false); ("options", false)] in
  [("single_eval", usual); ("grid2D", usual); ("sweep", usual); ("adaptive_scan", usual); ("tf_sgd", usual); ("lbfgs", usual);
   ("lbfgs_grad_free", usual); ("cmaes", usual); ("cma_pre_lbfgs", usual); ("gcmaes", usual); ("oneplusone", [("goal_fun", true)])].

Section Goal.
  (** propagators, states, further values that users put into fid_func_kwargs, and the parameter map with everything computed from it *)
  Variables P St U W : Type.
  (** optimalcontrol.py 217-224, 249-255, 281-287: a keyword argument *)
  Inductive arg : Type := APropagators (p : P) | AStates (s : St) | AInstructions (w : W) | AIndex (i : list nat) | ADims (w : W) | AEval (n : Z) | AUser (u : U).
  (** a Python function that returns the goal *)
  Record fidfun : Type := mkFid { ff_name : string; ff_sig : signature; ff_body : dict arg -> result R }.
  (** optimalcontrol.py 118-119, 133-136: what a user may pass as fid_func or inside callback_fids *)
  Inductive fid_arg : Type := FName (n : string) | FFun (f : fidfun).
  (** the bodies of the functions in the library, fidelities.py *)
  Variable body : string -> dict arg -> result R.

  (** optimalcontrol.py 124-125: fidelities[fid] *)
  Definition lookup_fid (n : string) : option fidfun :=
    match dget n fidelities with Some s => Some (mkFid n s (body n)) | None => None end.
  (** optimalcontrol.py 118-131; an unknown name raises Exception *)
  Definition set_fid_func (lindbladian : bool) (f : fid_arg) : result fidfun :=
    match f with
    | FName n => let fid := if lindbladian then "lindbladian_" ++ n else n in
                 match lookup_fid fid with Some g => Ok g | None => Err C3Error end
    | FFun g => Ok g
    end.
  (** optimalcontrol.py 137-143: the loop; a function is not a key of the library *)
  Fixpoint add_callbacks (cbs : list fid_arg) (acc : list fidfun) : list fidfun * option exn :=
    match cbs with
    | [] => (acc, None)
    | FFun _ :: _ => (acc, Some C3Error)
    | FName n :: cbs' => match lookup_fid n with Some g => add_callbacks cbs' (acc ++ [g]) | None => (acc, Some C3Error) end
    end%list.
  (** optimalcontrol.py 134: "lindbladian_" + f for each f; a function cannot be added to a string *)
  Fixpoint prefixed (cbs : list fid_arg) : result (list fid_arg) :=
    match cbs with
    | [] => Ok []
    | FFun _ :: _ => Err TypeError
    | FName n :: cbs' => rbind (prefixed cbs') (fun r => Ok (FName ("lindbladian_" ++ n) :: r))
    end.
  (** optimalcontrol.py 133-145 *)
  Definition set_callback_fids (lindbladian : bool) (cbs : list fid_arg) (acc : list fidfun) : list fidfun * option exn :=
    if lindbladian then match prefixed cbs with Ok cbs' => add_callbacks cbs' acc | Err e => (acc, Some e) end
    else add_callbacks cbs acc.

  (** optimalcontrol.py 93-116: the goal function in use *)
  Inductive goal_kind : Type := GRun | GOde | GOdeFinal.
  (** optimalcontrol.py 99-101: the attributes ode_solver, ode_step_function and only_final_state *)
  Record mode : Type := mkMode { m_solver : option string; m_step : string; m_final : bool; m_kind : goal_kind }.
  (** optimalcontrol.py 93-116; the arguments of the call, None for one that is not given *)
  Definition set_goal_function (solver : option (option string)) (step : option string) (final : option bool) : mode :=
    let solver := match solver with Some s => s | None => None end in
    let step := match step with Some s => s | None => "schrodinger" end in
    let final := match final with Some b => b | None => false end in
    mkMode solver step final (match solver with Some _ => if final then GOdeFinal else GOde | None => GRun end).

  (** optimizer.py 60-65 with optimalcontrol.py 70-71: by name (KeyError if unknown), or None for the default *)
  Definition set_algorithm (a : option string) : result string :=
    match a with
    | Some n => match dget n algorithms with Some _ => Ok n | None => Err KeyError end
    | None => Ok "lbfgs"
    end.

  (** optimalcontrol.py 50-91: the attributes this model follows *)
  Record oc : Type := mkOC {
    oc_algorithm : string; oc_fid : fidfun; oc_callbacks : list fidfun; oc_mode : mode;
    oc_kwargs : dict U;          (* fid_func_kwargs *)
    oc_subspace : list string;   (* fid_subspace *)
    oc_eval : Z                  (* evaluation *)
  }.
  (** optimalcontrol.py 50-91 *)
  Definition init (lindbladian : bool) (fid : fid_arg) (callbacks : list fid_arg) (algorithm : option string) (kwargs : dict U)
             (subspace : list string) (solver : option (option string)) (step : option string) (final : option bool) : result oc :=
    rbind (set_algorithm algorithm) (fun a =>
    rbind (set_fid_func lindbladian fid) (fun f =>
    match set_callback_fids lindbladian callbacks [] with
    | (_, Some e) => Err e
    | (cbs, None) => Ok (mkOC a f cbs (set_goal_function solver step final) kwargs subspace 0)
    end)).

  (** optimalcontrol.py 171-174: model.names.index(name) for each name *)
  Fixpoint position (names : list string) (n : string) : result nat :=
    match names with
    | [] => Err ValueError
    | m :: names' => if String.eqb m n then Ok 0%nat else rbind (position names' n) (fun k => Ok (S k))
    end.
  (** optimalcontrol.py 171-174 *)
  Fixpoint subspace_index (names subspace : list string) : result (list nat) :=
    match subspace with
    | [] => Ok []
    | n :: rest => rbind (position names n) (fun k => rbind (subspace_index names rest) (fun ks => Ok (k :: ks)))
    end.

  (** parametermap.py set_parameters_scaled; experiment.py compute_propagators, compute_states and compute_final_state *)
  Variable assign : W -> list R -> result W.
  (** experiment.py compute_propagators *)
  Variable propagators : W -> result P.
  (** experiment.py compute_states, compute_final_state: solver, step function; result["states"] *)
  Variables all_states final_state : string -> string -> W -> result St.

  (** optimalcontrol.py 217-224: the call of the fidelity function *)
  Definition call (f : fidfun) (args : dict arg) : result R :=
    if bind_names (ff_sig f) [] (keys args) then ff_body f args else Err TypeError.
  (** optimalcontrol.py 200-291: the three goal functions.  Line 247 passes no instructions. *)
  Definition goal_function (o : oc) (index : list nat) (w : W) (x : list R) : result (W * oc * R) :=
    rbind (assign w x) (fun w1 =>
    let solver := match m_solver (oc_mode o) with Some s => s | None => "" end in
    let user := map (fun kv => (fst kv, AUser (snd kv))) (oc_kwargs o) in
    let common := [("index", AIndex index); ("dims", ADims w1); ("n_eval", AEval (oc_eval o + 1))] in
    rbind (match m_kind (oc_mode o) with
           | GRun => rbind (propagators w1) (fun p => Ok [("propagators", APropagators p); ("instructions", AInstructions w1)])
           | GOde => rbind (all_states solver (m_step (oc_mode o)) w1) (fun s => Ok [("states", AStates s)])
           | GOdeFinal => rbind (final_state solver (m_step (oc_mode o)) w1) (fun s => Ok [("states", AStates s)])
           end) (fun first =>
    rbind (call (oc_fid o) (first ++ common ++ user)%list) (fun g =>
      Ok (w1, mkOC (oc_algorithm o) (oc_fid o) (oc_callbacks o) (oc_mode o) (oc_kwargs o) (oc_subspace o) (oc_eval o + 1), g)))).

  (** optimalcontrol.py 180-186: the call of the algorithm; the result is the list of the arguments it receives (besides x_init) *)
  Definition algorithm_call (name : string) : result (list string) :=
    match dget name algorithms with
    | None => Err KeyError
    | Some sig => let given := ["fun"; "fun_grad"; "grad_lookup"; "options"] in if bind_names sig [] given then Ok given else Err TypeError
    end.
End Goal.
Arguments APropagators {P St U W}. Arguments AStates {P St U W}. Arguments AInstructions {P St U W}. Arguments AIndex {P St U W}.
Arguments ADims {P St U W}. Arguments AEval {P St U W}. Arguments AUser {P St U W}.
Arguments mkFid {P St U W}. Arguments ff_name {P St U W}. Arguments ff_sig {P St U W}. Arguments ff_body {P St U W}.
Arguments FName {P St U W}. Arguments FFun {P St U W}. Arguments lookup_fid {P St U W}. Arguments set_fid_func {P St U W}.
Arguments add_callbacks {P St U W}. Arguments prefixed {P St U W}. Arguments set_callback_fids {P St U W}.
Arguments mkOC {P St U W}. Arguments oc_algorithm {P St U W}. Arguments oc_fid {P St U W}. Arguments oc_callbacks {P St U W}. Arguments oc_mode {P St U W}.
Arguments oc_kwargs {P St U W}. Arguments oc_subspace {P St U W}. Arguments oc_eval {P St U W}.
Arguments init {P St U W}. Arguments call {P St U W}. Arguments goal_function {P St U W}.
