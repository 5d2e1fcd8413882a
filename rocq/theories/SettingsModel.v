(** Model of the settings of `Model` and of the operators it stores for them
    (c3/model.py 43-57, 311-336, 353-366, 374-384, 417-451, 493-534).

    Simplifications:
    - the parameters of all components are one value [P]; what the components make of it
      (their Hamiltonians and collapse operators) are arbitrary functions of it;
    - there is no excitation cut-off (C137) and no signal (C95);
    - the conversion of the initial state at the end of [set_lindbladian] is C98. *)
From Coq Require Import Reals.
From Coquelicot Require Import Complex.
From Verif Require Import Base Mat HilbertModel PropModel ExpModel FrameModel.
Local Open Scope list_scope.
Local Open Scope nat_scope.

Section Settings.
  (** the parameters of the components, chip.py 38-46 *)
  Context {P : Type}.
  (** [tot_dim], model.py 157 *)
  Variable n : nat.
  (** model.py 434-438: [get_Hamiltonian] of the subsystems and couplings *)
  Variable hams : P -> dict mat.
  (** model.py 439-440: [get_Hamiltonian] of the drives *)
  Variable ctrls : P -> dict mat.
  (** model.py 449-450: [get_Lindbladian] of the subsystems, in their order.  Qubits without
      relaxation and dephasing times raise (chip.py 240-241, 465-466); resonators return None (chip.py 285-287). *)
  Variable collapse : P -> list (result (option mat)).
  (** model.py 496: [tf.linalg.eigh] *)
  Variable eigh : mat -> (nat -> R) * mat.

  (** The attributes of the model: model.py 43-57 and those written by the update methods.  [None]
      stands for an attribute that is None or has not been set. *)
  Record mstate := {
    ms_par : P; ms_dressed : bool; ms_lind : bool;
    ms_hams : dict mat; ms_drift : option mat; ms_ctrls : dict mat;
    ms_cols : option (list (option mat));
    ms_transform : option mat;
    ms_d_hams : dict mat; ms_d_drift : option mat; ms_d_ctrls : dict mat;
    ms_d_cols : option (list mat) }.

  (** model.py 43-57: the attributes before any component is added *)
  Definition blank (p : P) : mstate :=
    {| ms_par := p; ms_dressed := true; ms_lind := false; ms_hams := []; ms_drift := None; ms_ctrls := [];
       ms_cols := None; ms_transform := None; ms_d_hams := []; ms_d_drift := None; ms_d_ctrls := []; ms_d_cols := None |}.

  (** model.py 430-444: [update_Hamiltonians] *)
  Definition update_hamiltonians (s : mstate) : mstate :=
    {| ms_par := ms_par s; ms_dressed := ms_dressed s; ms_lind := ms_lind s;
       ms_hams := hams (ms_par s); ms_drift := Some (drift_of (hams (ms_par s))); ms_ctrls := ctrls (ms_par s);
       ms_cols := ms_cols s; ms_transform := ms_transform s;
       ms_d_hams := ms_d_hams s; ms_d_drift := ms_d_drift s; ms_d_ctrls := ms_d_ctrls s; ms_d_cols := ms_d_cols s |}.

  (** model.py 448-450: the loop over the subsystems; the first exception leaves it *)
  Fixpoint collect (l : list (result (option mat))) : result (list (option mat)) :=
    match l with
    | [] => Ok []
    | r :: l' => rbind r (fun x => rbind (collect l') (fun xs => Ok (x :: xs)))
    end.
  (** model.py 446-451: [update_Lindbladians]; the attribute is set after the loop *)
  Definition update_lindbladians (s : mstate) : mstate * option exn :=
    match collect (collapse (ms_par s)) with
    | Err e => (s, Some e)
    | Ok l =>
        ({| ms_par := ms_par s; ms_dressed := ms_dressed s; ms_lind := ms_lind s;
            ms_hams := ms_hams s; ms_drift := ms_drift s; ms_ctrls := ms_ctrls s;
            ms_cols := Some l; ms_transform := ms_transform s;
            ms_d_hams := ms_d_hams s; ms_d_drift := ms_d_drift s; ms_d_ctrls := ms_d_ctrls s; ms_d_cols := ms_d_cols s |}, None)
    end.

  (** model.py 493-502: [update_drift_eigen], the transformation *)
  Definition frame_of (drift : mat) (ordered : bool) : mat :=
    let '(e, v) := eigh drift in snd (reorder_frame n e v ordered).
  (** model.py 526-533: the loop over the collapse operators; [tf.matmul] refuses None *)
  Fixpoint dress_cols (T : mat) (l : list (option mat)) : result (list mat) :=
    match l with
    | [] => Ok []
    | None :: _ => Err ValueError
    | Some c :: l' => rbind (dress_cols T l') (fun cs => Ok (conjugated n T c :: cs))
    end.
  (** model.py 504-534: [update_dressed]; [eigh] refuses a missing drift.  The Hamiltonians are
      stored before the collapse operators are transformed. *)
  Definition update_dressed (s : mstate) (ordered : bool) : mstate * option exn :=
    match ms_drift s with
    | None => (s, Some ValueError)
    | Some drift =>
        let T := frame_of drift ordered in
        let stored cols :=
          {| ms_par := ms_par s; ms_dressed := ms_dressed s; ms_lind := ms_lind s;
             ms_hams := ms_hams s; ms_drift := ms_drift s; ms_ctrls := ms_ctrls s;
             ms_cols := ms_cols s; ms_transform := Some T;
             ms_d_hams := dmap (conjugated n T) (ms_hams s); ms_d_drift := Some (conjugated n T drift);
             ms_d_ctrls := dmap (conjugated n T) (ms_ctrls s); ms_d_cols := cols |} in
        if ms_lind s then
          match ms_cols s with
          | None => (stored (ms_d_cols s), Some AttributeError)
          | Some l => match dress_cols T l with
                      | Err e => (stored (ms_d_cols s), Some e)
                      | Ok cs => (stored (Some cs), None)
                      end
          end
        else (stored (ms_d_cols s), None)
    end.

  (** model.py 423-428: [update_model] *)
  Definition update_model (s : mstate) (ordered : bool) : mstate * option exn :=
    let s1 := update_hamiltonians s in
    match (if ms_lind s1 then update_lindbladians s1 else (s1, None)) with
    | (s2, Some e) => (s2, Some e)
    | (s2, None) => if ms_dressed s2 then update_dressed s2 ordered else (s2, None)
    end.

  (** model.py 320 *)
  Definition with_dressed (s : mstate) (b : bool) : mstate :=
    {| ms_par := ms_par s; ms_dressed := b; ms_lind := ms_lind s;
       ms_hams := ms_hams s; ms_drift := ms_drift s; ms_ctrls := ms_ctrls s;
       ms_cols := ms_cols s; ms_transform := ms_transform s;
       ms_d_hams := ms_d_hams s; ms_d_drift := ms_d_drift s; ms_d_ctrls := ms_d_ctrls s; ms_d_cols := ms_d_cols s |}.
  (** model.py 333 *)
  Definition with_lind (s : mstate) (b : bool) : mstate :=
    {| ms_par := ms_par s; ms_dressed := ms_dressed s; ms_lind := b;
       ms_hams := ms_hams s; ms_drift := ms_drift s; ms_ctrls := ms_ctrls s;
       ms_cols := ms_cols s; ms_transform := ms_transform s;
       ms_d_hams := ms_d_hams s; ms_d_drift := ms_d_drift s; ms_d_ctrls := ms_d_ctrls s; ms_d_cols := ms_d_cols s |}.
  (** [Quantity.set_value] on parameters of the components, c3objs.py 229-251; nothing is recomputed *)
  Definition with_par (s : mstate) (p : P) : mstate :=
    {| ms_par := p; ms_dressed := ms_dressed s; ms_lind := ms_lind s;
       ms_hams := ms_hams s; ms_drift := ms_drift s; ms_ctrls := ms_ctrls s;
       ms_cols := ms_cols s; ms_transform := ms_transform s;
       ms_d_hams := ms_d_hams s; ms_d_drift := ms_d_drift s; ms_d_ctrls := ms_d_ctrls s; ms_d_cols := ms_d_cols s |}.

  (** What a user or the parameter map does with a model: model.py 311-336, 423; parametermap.py 329-331 *)
  Inductive mcall := SetDressed (b : bool) | SetLindbladian (b : bool) | UpdateModel (ordered : bool) | SetParameters (p : P).
  (** model.py 311-321: [set_dressed] *)
  Definition set_dressed (s : mstate) (b : bool) : mstate * option exn := update_model (with_dressed s b) true.
  (** model.py 323-335: [set_lindbladian] *)
  Definition set_lindbladian (s : mstate) (b : bool) : mstate * option exn := update_model (with_lind s b) true.
  (** model.py 311-336, 423-428: one call *)
  Definition mstep (s : mstate) (c : mcall) : mstate * option exn :=
    match c with
    | SetDressed b => set_dressed s b
    | SetLindbladian b => set_lindbladian s b
    | UpdateModel ordered => update_model s ordered
    | SetParameters p => (with_par s p, None)
    end.
  (** model.py 311-336, 423-428: calls one after the other; the user catches exceptions *)
  Definition mrun (s : mstate) (cs : list mcall) : mstate := fold_left (fun s c => fst (mstep s c)) cs s.
  (** model.py 119-135, 173-196: the components are set; the last step is [update_model] *)
  Definition construct (p : P) : mstate * option exn := update_model (blank p) true.

  (** model.py 353-366: [get_Hamiltonians] *)
  Definition get_hamiltonians (s : mstate) : option mat * dict mat :=
    if ms_dressed s then (ms_d_drift s, ms_d_ctrls s) else (ms_drift s, ms_ctrls s).
  (** model.py 417-421: [get_Lindbladians] *)
  Definition get_lindbladians (s : mstate) : result (list (option mat)) :=
    if ms_dressed s
    then match ms_d_cols s with Some l => Ok (map Some l) | None => Err AttributeError end
    else match ms_cols s with Some l => Ok l | None => Err AttributeError end.
End Settings.
