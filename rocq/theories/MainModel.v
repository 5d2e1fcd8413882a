(** Model of the command line entry point (c3/main.py 26-127) and of the arguments it passes to the
    optimisers (the constructors in c3/optimizers).

    What the steps do is not modelled here but in the other files; a step is an entry in a
    list of events, and an oracle decides, from the events so far, whether the step raises.  tf_setup, tf.device
    and printing are left out. *)
From Verif Require Import Base GoalModel.
Local Open Scope string_scope.
Local Open Scope list_scope.

(** a value of the configuration, main.py 34: a string, a list, or something else *)
Inductive cval : Type := VStr (s : string) | VList (l : list cval) | VOther (n : nat).
(** main.py 36-43: the classes of optim_lib *)
Inductive optim : Type := OControl | OCalib | OLearn | OSens.
(** main.py 54-127: the steps *)
Inductive event : Type :=
| EReadModel (v : cval)            (* Model().read_config *)
| EReadGenerator (v : cval)        (* Generator().read_config *)
| EReadInstructions (v : cval)     (* ParameterMap(model, generator).read_config *)
| ENewExp (prop : option cval)     (* Experiment(..., prop_method) *)
| EReadExp (v : cval)              (* exp.read_config *)
| EOptGates (v : option cval)      (* exp.set_opt_gates *)
| EOptMap (v : cval)               (* exp.pmap.set_opt_map *)
| EBuild (o : optim) (kw : dict cval)   (* the constructor of the optimiser *)
| ELoad (path : cval)              (* pmap.load_values *)
| EAdjust (path : cval)            (* opt.load_model_parameters *)
| ERun (o : optim).                (* opt.run: optimize_controls, learn_model or sensitivity *)

(** main.py 36-43 *)
Definition optim_lib : dict optim :=
  [("C1", OControl); ("C2", OCalib); ("C3", OLearn); ("C3_confirm", OLearn); ("confirm", OLearn); ("SET", OSens)].
(** optimalcontrol.py 50-69, calibration.py 36-47, modellearning.py 51-66, sensitivity.py 51-66: the parameters of the constructors *)
Definition ctor (o : optim) : signature :=
  match o with
  | OControl =>
      [("fid_func", true); ("fid_subspace", true); ("pmap", true); ("dir_path", false); ("callback_fids", false); ("algorithm", false);
       ("initial_point", false); ("store_unitaries", false); ("options", false); ("run_name", false); ("interactive", false);
       ("include_model", false); ("logger", false); ("fid_func_kwargs", false); ("ode_solver", false); ("ode_step_function", false); ("only_final_state", false)]
  | OCalib =>
      [("eval_func", true); ("pmap", true); ("algorithm", true); ("dir_path", false); ("exp_type", false); ("exp_right", false);
       ("options", false); ("run_name", false); ("logger", false)]
  | OLearn =>
      [("sampling", true); ("batch_sizes", true); ("pmap", true); ("datafiles", true); ("dir_path", false); ("estimator", false); ("seqs_per_point", false);
       ("state_labels", false); ("callback_foms", false); ("algorithm", false); ("run_name", false); ("options", false); ("logger", false)]
  | OSens =>
      [("sampling", true); ("batch_sizes", true); ("pmap", true); ("datafiles", true); ("state_labels", true); ("sweep_map", true); ("sweep_bounds", true);
       ("algorithm", true); ("estimator", false); ("estimator_list", false); ("dir_path", false); ("run_name", false); ("options", false)]
  end.

(** main.py 26-127: the events so far, and a result or an exception *)
Definition prog (A : Type) : Type := list event -> list event * result A.
(** main.py 26-127: statements in sequence *)
Definition bind {A B} (p : prog A) (f : A -> prog B) : prog B :=
  fun tr => match p tr with (tr1, Ok a) => f a tr1 | (tr1, Err e) => (tr1, Err e) end.
(** main.py 26-127 *)
Definition ret {A} (a : A) : prog A := fun tr => (tr, Ok a).
(** main.py 26-127 *)
Definition raise {A} (e : exn) : prog A := fun tr => (tr, Err e).

Section Main.
  (** whether a step raises, given the steps before it *)
  Variable oracle : list event -> event -> option exn.
  (** main.py 54-127: one step *)
  Definition step (e : event) : prog unit :=
    fun tr => (tr ++ [e], match oracle tr e with None => Ok tt | Some x => Err x end).

  (** cfg.pop(k), main.py 34 *)
  Definition pop (k : string) (cfg : dict cval) : option cval * dict cval := (dget k cfg, ddel k cfg).

  (** main.py 54-74: the experiment.  Line 74 looks for cfg["model"], which line 57 has removed. *)
  Definition setup (cfg : dict cval) : prog (dict cval) :=
    let '(prop, cfg) := pop "propagation_method" cfg in
    let '(model, cfg) := pop "model" cfg in
    bind (match model with Some v => step (EReadModel v) | None => ret tt end) (fun _ =>
    let '(gen, cfg) := pop "generator" cfg in
    bind (match gen with Some v => step (EReadGenerator v) | None => ret tt end) (fun _ =>
    let '(instr, cfg) := pop "instructions" cfg in
    bind (match instr with Some v => bind (step (EReadInstructions v)) (fun _ => step (ENewExp prop)) | None => ret tt end) (fun _ =>
    let '(ecfg, cfg) := pop "exp_cfg" cfg in
    bind (match ecfg with Some v => bind (step (ENewExp prop)) (fun _ => step (EReadExp v)) | None => ret tt end) (fun _ =>
    match instr, ecfg with
    | None, None => bind (step (ENewExp prop)) (fun _ => match dget "model" cfg with None => raise KeyError | Some _ => ret cfg end)
    | _, _ => ret cfg
    end)))).

  (** main.py 76-84: the gates and the optimisation map *)
  Definition maps (cfg : dict cval) : prog (dict cval) :=
    let '(gates, cfg) := pop "opt_gates" cfg in
    bind (step (EOptGates gates)) (fun _ =>
    let '(gmap, cfg) := pop "gateset_opt_map" cfg in
    bind (match gmap with Some v => step (EOptMap v) | None => ret tt end) (fun _ =>
    let '(emap, cfg) := pop "exp_opt_map" cfg in
    bind (match emap with Some v => step (EOptMap v) | None => ret tt end) (fun _ => ret cfg))).

  (** optimizer.py 51-53: the constructor of OptimalControl loads the initial point; only a path can be opened.  (The other
      constructors have no initial point; the lookup of the algorithm, which comes first, is left to the oracle.) *)
  Definition ctor_load (o : optim) (cfg : dict cval) : prog unit :=
    match o, dget "initial_point" cfg with
    | OControl, Some (VStr s) => if String.eqb s "" then ret tt else step (ELoad (VStr s))
    | OControl, Some _ => raise TypeError
    | _, _ => ret tt
    end.
  (** main.py 86: optim_lib[optim_type]( **cfg, pmap=exp.pmap).  modellearning.py 90 needs state_labels (None by default). *)
  Definition build (o : optim) (cfg : dict cval) : prog unit :=
    if bind_names (ctor o) [] (keys cfg ++ ["pmap"]) then
      bind (ctor_load o cfg) (fun _ => bind (step (EBuild o cfg)) (fun _ =>
        match o, dget "state_labels" cfg with OLearn, None => raise AttributeError | _, _ => ret tt end))
    else raise TypeError.

  (** main.py 99-110: for init_point in initial_points; FileNotFoundError becomes Exception *)
  Fixpoint load_all (l : list cval) : prog unit :=
    match l with
    | [] => ret tt
    | v :: l' => bind (fun tr => match step (ELoad v) tr with (tr1, Err FileNotFound) => (tr1, Err C3Error) | r => r end) (fun _ => load_all l')
    end.
  (** main.py 90-110 *)
  Definition initial (cfg : dict cval) : prog unit :=
    match dget "initial_point" cfg with
    | None => ret tt
    | Some (VStr s) => load_all [VStr s]
    | Some (VList l) => load_all l
    | Some (VOther _) => raise C3Error
    end.
  (** main.py 112-125 *)
  Definition adjust (o : option string) (cfg : dict cval) : prog unit :=
    match o with
    | Some "C1" => match dget "adjust_exp" cfg with
                   | Some v => fun tr => match step (EAdjust v) tr with (tr1, Err FileNotFound) => (tr1, Err C3Error) | r => r end
                   | None => ret tt
                   end
    | _ => ret tt
    end.

  (** main.py 26-127; a list is not a possible key of optim_lib *)
  Definition run_cfg (cfg : dict cval) (debug : bool) : prog unit :=
    match pop "optim_type" cfg with
    | (None, _) => raise KeyError
    | (Some (VList _), _) => raise TypeError
    | (Some (VOther _), _) => raise C3Error
    | (Some (VStr ty), cfg) =>
        match dget ty optim_lib with
        | None => raise C3Error
        | Some o =>
            bind (setup cfg) (fun cfg =>
            bind (maps cfg) (fun cfg =>
            bind (build o cfg) (fun _ =>
            bind (initial cfg) (fun _ =>
            bind (adjust (Some ty) cfg) (fun _ =>
            if debug then ret tt else step (ERun o))))))
        end
    end.
End Main.
