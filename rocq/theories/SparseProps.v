(** Property C137: the excitation limit and the Hamiltonians read with it. *)
From Verif Require Import Base Mat MExp HilbertModel HilbertProofs HilbertProps Hilbert2Proofs Hilbert2Props SparseModel.
Local Open Scope list_scope.
Local Open Scope nat_scope.
Local Notation length := List.length.

(** The Hamiltonian of the frame in use is square over all states. *)
Definition active (s : sparse_state) : smat := if sp_dressed s then sp_dressed_drift s else sp_drift s.
Definition full (s : sparse_state) : Prop :=
  rows (active s) = prod_dims (sp_dims s) /\ cols (active s) = prod_dims (sp_dims s).

(** Without a limit the Hamiltonian of the frame in use is returned as it is. *)
Theorem C137_no_limit : forall s,
  get_hamiltonian (set_max_excitations 0 s) = Ok (active s).
Proof. reflexivity. Qed.
Print Assumptions C137_no_limit.

Lemma cut_set : forall m s, m <> 0 -> full s ->
  cut_op (set_max_excitations m s) (active s)
  = Ok {| rows := length (kept (sp_dims s) m); cols := length (kept (sp_dims s) m);
          ent := cut_excitations (sp_dims s) m (ent (active s)) |}.
Proof.
  intros m s Hm [F1 F2]. destruct m as [|m]; [congruence|].
  unfold cut_op, the_cutter. cbn [set_max_excitations sp_cutter rbind].
  destruct (cutter_shape (sp_dims s) (S m)) as [Hr Hc].
  unfold smatmul at 1. rewrite F1, Hc, Nat.eqb_refl. cbn [rbind]. unfold smatmul. cbn [rows cols ent strans].
  rewrite F2, Hc, Nat.eqb_refl, Hr. unfold cut_excitations. cbv zeta. rewrite Hc. reflexivity.
Qed.

Lemma get_set : forall m s, m <> 0 ->
  get_hamiltonian (set_max_excitations m s) = cut_op (set_max_excitations m s) (active s).
Proof. intros [|m] s H; [congruence|reflexivity]. Qed.

(** With a limit, row r and column c of the returned matrix belong to the r-th and
    c-th of the states that hold at most that many excitations. *)
Theorem C137_limited_hamiltonian : forall m s, m <> 0 -> full s ->
  exists h, get_hamiltonian (set_max_excitations m s) = Ok h
    /\ rows h = length (kept (sp_dims s) m) /\ cols h = length (kept (sp_dims s) m)
    /\ (forall r c, r < rows h -> c < cols h ->
          ent h r c = ent (active s) (pos (sp_dims s) (nth r (kept (sp_dims s) m) []))
                                     (pos (sp_dims s) (nth c (kept (sp_dims s) m) []))).
Proof.
  intros m s Hm F. eexists. split.
  - rewrite get_set by auto. exact (cut_set m s Hm F).
  - cbn [rows cols ent]. split; [reflexivity|]. split; [reflexivity|].
    intros r c Hr Hc. apply C31_cut_keeps_low_excitations; auto.
Qed.
Print Assumptions C137_limited_hamiltonian.

Lemma blowup_set : forall m s op, m <> 0 -> rows op = length (kept (sp_dims s) m) -> cols op = length (kept (sp_dims s) m) ->
  blowup_op (set_max_excitations m s) op
  = Ok {| rows := prod_dims (sp_dims s); cols := prod_dims (sp_dims s);
          ent := blowup_excitations (sp_dims s) m (ent op) |}.
Proof.
  intros m s op Hm R1 R2. destruct m as [|m]; [congruence|].
  unfold blowup_op, the_cutter. cbn [set_max_excitations sp_cutter rbind].
  destruct (cutter_shape (sp_dims s) (S m)) as [Hr Hc].
  unfold smatmul at 1. cbn [strans rows cols ent]. rewrite R1, Hr, Nat.eqb_refl. cbn [rbind].
  unfold smatmul. cbn [rows cols ent]. rewrite R2, Hr, Nat.eqb_refl, Hc.
  unfold blowup_excitations. cbv zeta. rewrite Hr. reflexivity.
Qed.

(** The sparse Hamiltonian has the full size; elements between two states within
    the limit are those of the Hamiltonian, all others are zero. *)
Theorem C137_sparse_hamiltonian : forall m s, m <> 0 -> full s ->
  exists h, get_sparse_hamiltonian (set_max_excitations m s) = Ok h
    /\ rows h = prod_dims (sp_dims s) /\ cols h = prod_dims (sp_dims s)
    /\ (forall l l', valid (sp_dims s) l -> valid (sp_dims s) l' ->
          ent h (pos (sp_dims s) l) (pos (sp_dims s) l')
          = if andb (Nat.leb (list_sum l) m) (Nat.leb (list_sum l') m)
            then ent (active s) (pos (sp_dims s) l) (pos (sp_dims s) l') else RtoC 0).
Proof.
  intros m s Hm F. eexists. split.
  - unfold get_sparse_hamiltonian. rewrite get_set, cut_set by auto. cbn [rbind].
    apply (blowup_set m s); auto.
  - cbn [rows cols ent]. split; [reflexivity|]. split; [reflexivity|].
    intros l l' V V'. destruct (Nat.leb_spec (list_sum l) m) as [L|L]; cbn [andb].
    + destruct (Nat.leb_spec (list_sum l') m) as [L'|L'].
      * apply C31_cut_after_blowup; auto.
      * apply C31_blowup_places_elements; auto.
    + apply C31_blowup_places_elements; auto.
Qed.
Print Assumptions C137_sparse_hamiltonian.

(** A later limit replaces an earlier one. *)
Theorem C137_last_limit_counts : forall m m' s, m' <> 0 ->
  get_hamiltonian (set_max_excitations m' (set_max_excitations m s)) = get_hamiltonian (set_max_excitations m' s)
  /\ get_sparse_hamiltonian (set_max_excitations m' (set_max_excitations m s))
     = get_sparse_hamiltonian (set_max_excitations m' s).
Proof. intros m [|m'] s H; [congruence|]. split; reflexivity. Qed.
Print Assumptions C137_last_limit_counts.

(** Finding: without a limit the sparse Hamiltonian, which would be the Hamiltonian
    itself, cannot be read: the cutter does not exist. *)
Theorem C137_sparse_without_limit_refuted : forall s, sp_cutter s = None ->
  get_hamiltonian (set_max_excitations 0 s) = Ok (active s)
  /\ get_sparse_hamiltonian (set_max_excitations 0 s) = Err AttributeError.
Proof.
  intros s H. split; [reflexivity|]. unfold get_sparse_hamiltonian, get_hamiltonian. cbn [set_max_excitations sp_max rbind].
  unfold blowup_op, the_cutter. cbn [set_max_excitations sp_cutter]. rewrite H. reflexivity.
Qed.
Print Assumptions C137_sparse_without_limit_refuted.

(** Finding: taking the limit back leaves the cutter behind.  The Hamiltonian is whole
    again, but the sparse one is refused as soon as some state is above the old limit. *)
Theorem C137_limit_taken_back_refuted : forall m s, m <> 0 -> full s ->
  length (kept (sp_dims s) m) <> prod_dims (sp_dims s) ->
  let s' := set_max_excitations 0 (set_max_excitations m s) in
  get_hamiltonian s' = Ok (active s) /\ get_sparse_hamiltonian s' = Err ValueError.
Proof.
  intros m s Hm [F1 F2] K s'. split; [reflexivity|]. subst s'.
  unfold get_sparse_hamiltonian. rewrite (C137_no_limit (set_max_excitations m s)). cbn [rbind].
  change (active (set_max_excitations m s)) with (active s).
  unfold blowup_op, the_cutter. destruct m as [|m]; [congruence|].
  cbn [set_max_excitations sp_cutter rbind]. destruct (cutter_shape (sp_dims s) (S m)) as [Hr Hc].
  unfold smatmul at 1. cbn [strans rows cols]. rewrite Hr, F1.
  apply Nat.eqb_neq in K. rewrite K. reflexivity.
Qed.
Print Assumptions C137_limit_taken_back_refuted.

(** Drift and controls of the frame in use, without a limit. *)
Theorem C137_hamiltonians : forall s,
  get_hamiltonians (set_max_excitations 0 s)
  = Ok (if sp_dressed s then (sp_dressed_drift s, sp_dressed_controls s) else (sp_drift s, sp_controls s)).
Proof. intro s. unfold get_hamiltonians. cbn [set_max_excitations sp_max sp_dressed sp_drift sp_controls sp_dressed_drift sp_dressed_controls]. destruct (sp_dressed s); reflexivity. Qed.
Print Assumptions C137_hamiltonians.

(** Finding: with a limit, drift and controls cannot be read, since the cut is applied
    to the dictionary of controls; and [get_sparse_Hamiltonians] never returns. *)
Theorem C137_limited_hamiltonians_refuted : forall m s, m <> 0 -> full s ->
  get_hamiltonians (set_max_excitations m s) = Err TypeError.
Proof.
  intros m s Hm F. pose proof (cut_set m s Hm F) as E. destruct m as [|m]; [congruence|].
  change (rbind (cut_op (set_max_excitations (S m) s) (active s)) (fun _ => Err TypeError : result (smat * dict smat)) = Err TypeError).
  rewrite E. reflexivity.
Qed.
Print Assumptions C137_limited_hamiltonians_refuted.

(** Finding: get_sparse_Hamiltonians always raises: it unpacks the method get_Hamiltonians instead of calling it. *)
Theorem C137_sparse_hamiltonians_refuted : forall s, get_sparse_hamiltonians s = Err TypeError.
Proof. reflexivity. Qed.
Print Assumptions C137_sparse_hamiltonians_refuted.

(** Two qutrits, at most two excitations: six of nine states. *)
Definition two_qutrits : sparse_state :=
  let h := {| rows := 9; cols := 9; ent := fun i j => RtoC (INR (i + j)) |} in
  {| sp_dims := [3; 3]; sp_max := 0; sp_cutter := None; sp_dressed := true; sp_drift := h; sp_controls := [];
     sp_dressed_drift := h; sp_dressed_controls := [] |}.
Example C137_example : full two_qutrits /\ length (kept (sp_dims two_qutrits) 2) = 6
  /\ prod_dims (sp_dims two_qutrits) = 9 /\ valid (sp_dims two_qutrits) [1; 2].
Proof. repeat split; repeat constructor. Qed.
