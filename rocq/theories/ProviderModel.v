(** The provider of the Qiskit backends: c3/qiskit/c3_provider.py 8-95,
    c3/qiskit/c3_options.py 22-36 and c3/qiskit/c3_backend.py 71-81.

    Simplifications: objects are numbered in the order of their creation; of a backend
    only the experiment it simulates is kept; the list SIMULATORS is a parameter, so that
    further backends can be listed. *)
From Verif Require Import Base.
Local Open Scope string_scope.
Local Open Scope list_scope.
Local Open Scope nat_scope.

(** c3_provider.py 49-51, 90-93: the exceptions of the Qiskit library *)
Inductive perr := BackendNotFound | NotInstantiable.
(** c3_provider.py 8: a backend class, the name of its instances and whether its
    constructor succeeds *)
Record bclass := { c_name : string; c_ok : bool }.
(** c3_provider.py 20-24: a provider, the backends keyed by name *)
Record provider := { p_backends : dict nat }.
(** c3_backend.py 71-81, 483: the experiments of the backends, and the next free number *)
Record world := { w_next : nat; w_exp : nat -> string }.

(** c3_provider.py 70-95: [_get_backend_instance]; a new backend has an empty experiment
    (c3_backend.py 483) *)
Definition get_backend_instance (w : world) (c : bclass) : (nat + perr) * world :=
  if c_ok c then
    (inl (w_next w), {| w_next := S (w_next w); w_exp := fun i => if Nat.eqb i (w_next w) then "" else w_exp w i |})
  else (inr NotInstantiable, w).
(** c3_provider.py 54-68: [_verify_backends] *)
Fixpoint verify_loop (w : world) (cs : list bclass) (ret : dict nat) : (dict nat + perr) * world :=
  match cs with
  | [] => (inl ret, w)
  | c :: cs' => match get_backend_instance w c with
                | (inl b, w') => verify_loop w' cs' (dset (c_name c) b ret)
                | (inr e, w') => (inr e, w')
                end
  end.
(** c3_provider.py 20-24: [__init__] *)
Definition provider_init (simulators : list bclass) (w : world) : (provider + perr) * world :=
  match verify_loop w simulators [] with
  | (inl d, w') => (inl {| p_backends := d |}, w')
  | (inr e, w') => (inr e, w')
  end.
(** c3_provider.py 26-52: [backends]; [filters] is accepted and not used *)
Definition backends (p : provider) (name : option string) (filters : option (nat -> bool)) : list nat + perr :=
  let all := map snd (p_backends p) in
  match name with
  | Some s => if String.eqb s "" then inl all
              else match dget s (p_backends p) with Some b => inl [b] | None => inr BackendNotFound end
  | None => inl all
  end.
(** c3_provider.py 4, 11: [get_backend] of the Qiskit base class ProviderV1: the only
    backend of the list *)
Definition get_backend (p : provider) (name : option string) : nat + perr :=
  match backends p name None with
  | inl [b] => inl b
  | inl _ => inr BackendNotFound
  | inr e => inr e
  end.
(** c3_backend.py 71-81: [set_c3_experiment] *)
Definition set_c3_experiment (w : world) (b : nat) (e : string) : world :=
  {| w_next := w_next w; w_exp := fun i => if Nat.eqb i b then e else w_exp w i |}.

(** c3_options.py 22-36: [to_dict]; a missing attribute raises AttributeError *)
Definition options_to_dict {V} (opts : dict V) : result (dict V) :=
  let get k f := match dget k opts with Some v => f v | None => Err AttributeError end in
  get "params" (fun p => get "opt_map" (fun o => get "shots" (fun s => get "memory" (fun m => get "initial_statevector" (fun i =>
    Ok [("params", p); ("opt_map", o); ("shots", s); ("memory", m); ("initial_statevector", i)]))))).
