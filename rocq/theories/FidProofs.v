(** Facts behind the fidelity properties: the projected gate is a contraction,
    overlaps, and the (0, 0) element of the chi matrix. *)
From Coq Require Import Reals Lra Lia Setoid Morphisms Permutation.
From Coquelicot Require Import Coquelicot.
From Verif Require Import Base Mat RSum HilbertModel HilbertProofs Hilbert2Proofs Hilbert2Props GateModel PropModel SuperProofs FidModel.
Local Open Scope list_scope.
Local Open Scope nat_scope.
Local Notation length := List.length.

(** A selection of different subsystems with at least two levels. *)
Definition good_index (dims index : list nat) : Prop :=
  index <> [] /\ NoDup index /\ (forall k, In k index -> k < length dims /\ 2 <= nth k dims 0)
  /\ forall k, k < length dims -> 1 <= nth k dims 0.

Lemma mem_nat_in : forall k l, mem_nat k l = true <-> In k l.
Proof.
  intros k l. unfold mem_nat. rewrite existsb_exists. split.
  - intros (x & Hx & E). apply Nat.eqb_eq in E. subst. exact Hx.
  - intro H. exists k. split; [exact H|apply Nat.eqb_refl].
Qed.
Lemma prod_two : forall (P : nat -> bool) l,
  prod_dims (map (fun k => if P k then 2 else 1) l) = 2 ^ length (filter P l).
Proof.
  intros P l. induction l as [|k l IH]; [reflexivity|]. cbn [map filter]. rewrite prod_dims_cons, IH.
  destruct (P k); cbn [length Nat.pow]; lia.
Qed.
Lemma good_comp : forall dims index, good_index dims index -> prod_dims (comp_dims dims index) = 2 ^ length index.
Proof.
  intros dims index (Hne & Hnd & Hk & _). unfold comp_dims.
  replace (project_index dims index) with index by (destruct index; [congruence|reflexivity]).
  rewrite (prod_two (fun k => mem_nat k index)). f_equal. apply Permutation_length.
  apply NoDup_Permutation; [apply NoDup_filter, seq_NoDup|exact Hnd|].
  intro k. rewrite filter_In, in_seq, mem_nat_in. split; [tauto|]. intro H. split; [|exact H].
  destruct (Hk k H). lia.
Qed.

Lemma labels_nth_ok : forall dims x, x < prod_dims dims ->
  valid dims (nth x (labels dims) []) /\ pos dims (nth x (labels dims) []) = x.
Proof.
  intros dims x Hx. destruct (pos_surj dims x Hx) as (l & Hl & <-).
  rewrite (nth_error_nth _ _ _ (labels_nth dims l Hl)). auto.
Qed.

(** The projector places the computational states among all states. *)
Lemma projector_emb : forall dims index, good_index dims index ->
  let N := prod_dims dims in let d := 2 ^ length index in
  exists emb : nat -> nat,
    (forall u, u < d -> emb u < N)
    /\ (forall u v, u < d -> v < d -> emb u = emb v -> u = v)
    /\ (forall z u, z < N -> u < d ->
        ent (projector dims (project_index dims index)) z u = if Nat.eqb z (emb u) then RtoC 1 else RtoC 0)
    /\ (forall u, u < d -> emb u = pos dims (nth u (labels (comp_dims dims index)) [])
                 /\ valid (comp_dims dims index) (nth u (labels (comp_dims dims index)) [])).
Proof.
  intros dims index G N d. pose proof (good_comp dims index G) as E. destruct G as (Hne & Hnd & Hk & H1).
  set (c := comp_dims dims index) in *. fold d in E.
  exists (fun u => pos dims (nth u (labels c) [])).
  assert (V : forall u, u < d -> valid c (nth u (labels c) []) /\ pos c (nth u (labels c) []) = u).
  { intros u Hu. apply labels_nth_ok. lia. }
  assert (W : forall u, valid c u -> valid dims u).
  { intros u Hu. apply (comp_valid dims index); auto. intros k Hkl Hm.
    apply mem_nat_in in Hm. replace (project_index dims index) with index in Hm by (destruct index; [congruence|reflexivity]).
    apply Hk, Hm. }
  split; [|split; [|split]].
  - intros u Hu. apply pos_lt, W, V, Hu.
  - intros u v Hu Hv X. destruct (V u Hu) as [A B]. destruct (V v Hv) as [A' B'].
    apply pos_inj in X; auto. congruence.
  - intros z u Hz Hu. destruct (V u Hu) as [A B]. destruct (pos_surj dims z Hz) as (l & Hl & <-).
    rewrite <- B at 1. unfold c in *. rewrite projector_ent by assumption.
    destruct (Nat.eqb_spec (pos dims l) (pos dims (nth u (labels (comp_dims dims index)) []))) as [X|X].
    + apply pos_inj in X; auto. rewrite X at 1. rewrite (proj2 (list_eqb_eq _ _) eq_refl). reflexivity.
    + destruct (list_eqb l (nth u (labels (comp_dims dims index)) [])) eqn:Y; [|reflexivity].
      apply list_eqb_eq in Y. exfalso. apply X. rewrite Y at 1. reflexivity.
  - intros u Hu. split; [reflexivity|apply V, Hu].
Qed.

Lemma isometry_norm : forall n d m P psi, meq d d (mmul n (madj P) P) mid ->
  nrm2 n m (mmul d P psi) = nrm2 d m psi.
Proof.
  intros n d m P psi H. apply RtoC_inj.
  rewrite <- !nrm2_inner, !inner_trace, (mtrace_mmul n m (mmul d P psi)), (mtrace_mmul d m psi).
  apply mtrace_proper.
  transitivity (mmul n (mmul d (madj psi) (madj P)) (mmul d P psi)).
  - apply mmul_mor; [apply madj_mmul|reflexivity].
  - rewrite <- (mmul_assoc m m n d). apply mmul_mor; [reflexivity|].
    rewrite (mmul_assoc d m d n). rewrite (mmul_mor d d m _ mid psi psi H (reflexivity _)). apply mmul_id_l.
Qed.

Lemma project_dims : forall A dims index, good_index dims index ->
  rows (tf_project_to_comp A dims index false) = 2 ^ length index
  /\ cols (tf_project_to_comp A dims index false) = 2 ^ length index.
Proof.
  intros A dims index G. unfold tf_project_to_comp. cbn [rows cols].
  destruct (projector_dims dims index) as [_ E]. rewrite E, good_comp by exact G. auto.
Qed.

(** The computational block of a unitary does not increase norms. *)
Lemma project_contract : forall U dims index m psi, good_index dims index -> unitary (prod_dims dims) U ->
  let d := 2 ^ length index in
  (nrm2 d m (mmul d (ent (tf_project_to_comp U dims index false)) psi) <= nrm2 d m psi)%R.
Proof.
  intros U dims index m psi G HU d.
  destruct (projector_emb dims index G) as (emb & Hr & Hi & HP & _). fold d in Hr, Hi, HP.
  unfold tf_project_to_comp. cbn [ent].
  destruct (projector_dims dims index) as [E _]. rewrite E.
  set (N := prod_dims dims) in *. set (P := ent (projector dims (project_index dims index))) in *.
  assert (Iso : meq d d (mmul N (madj P) P) mid).
  { intros u v Hu Hv. unfold mmul, madj. rewrite (csum_single N (emb v)); [|apply Hr, Hv|].
    - rewrite !HP by auto. rewrite Nat.eqb_refl. unfold mid.
      destruct (Nat.eqb_spec (emb v) (emb u)) as [X|X].
      + apply Hi in X; auto. subst. rewrite Nat.eqb_refl, conj_R. ring.
      + destruct (Nat.eqb_spec u v); [congruence|]. rewrite conj_R. ring.
    - intros z Hz X. rewrite (HP z v) by auto. destruct (Nat.eqb_spec z (emb v)); [congruence|]. ring. }
  set (w := mmul N U (mmul d P psi)).
  assert (S : meq d m (mmul d (mmul N (mmul N (mtrans P) U) P) psi) (mmul N (mtrans P) w)).
  { rewrite <- (mmul_assoc d m d N). rewrite <- (mmul_assoc d m N N).  reflexivity. }
  rewrite (nrm2_proper d m _ _ S).
  assert (B : (nrm2 d m (mmul N (mtrans P) w) <= nrm2 N m w)%R).
  { unfold nrm2.
    rewrite (rs_ext d _ (fun u => rs m (fun j => Cmod (w (emb u) j) ^ 2)%R)).
    - apply (rs_inj d N (fun z => rs m (fun j => Cmod (w z j) ^ 2)%R) emb); auto.
      intros i _. apply rs_nonneg. intros. apply pow2_ge_0.
    - intros u Hu. apply rs_ext. intros j _. f_equal. f_equal. unfold mmul at 1, mtrans.
      rewrite (csum_single N (emb u)); [rewrite HP, Nat.eqb_refl by auto; ring|apply Hr, Hu|].
      intros z Hz X. rewrite HP by auto. destruct (Nat.eqb_spec z (emb u)); [congruence|]. ring. }
  unfold w in *. rewrite (unitary_norm N m U _ HU), (isometry_norm N d m P psi Iso) in B. exact B.
Qed.

Lemma nrm2_id : forall n, nrm2 n n mid = INR n.
Proof. intro n. apply nrm2_unitary, unitary_id. Qed.
Lemma project_block : forall U dims index, good_index dims index -> unitary (prod_dims dims) U ->
  let d := 2 ^ length index in (nrm2 d d (ent (tf_project_to_comp U dims index false)) <= INR d)%R.
Proof.
  intros U dims index G HU d. rewrite <- (nrm2_id d).
  rewrite <- (nrm2_proper d d _ _ (mmul_id_r d d (ent (tf_project_to_comp U dims index false)))).
  apply project_contract; assumption.
Qed.

Lemma abs_squared : forall z, tf_abs_squared z = (Cmod z ^ 2)%R.
Proof. intro z. unfold tf_abs_squared. rewrite conj_mod2. reflexivity. Qed.
Lemma abs_mod : forall z, tf_abs z = Cmod z.
Proof. intro z. unfold tf_abs. rewrite abs_squared. replace (Cmod z ^ 2)%R with (Rsqr (Cmod z)) by (unfold Rsqr; ring). apply sqrt_Rsqr, Cmod_ge_0. Qed.
Lemma two_pow_pos : forall k, (0 < INR (2 ^ k))%R.
Proof. intro k. apply lt_0_INR. apply Nat.neq_0_lt_0, Nat.pow_nonzero. lia. Qed.
Lemma two_pow_nz : forall k, RtoC (INR (2 ^ k)) <> RtoC 0.
Proof. intros k H. apply RtoC_inj in H. pose proof (two_pow_pos k). lra. Qed.

(** The two figures in terms of the overlap tr(A B+). *)
Lemma overlap_value : forall n A B k, tf_unitary_overlap n A B (2 ^ k) = ((Cmod (inner n n A B) / INR (2 ^ k)) ^ 2)%R.
Proof.
  intros. unfold tf_unitary_overlap. rewrite abs_squared, inner_trace. f_equal. unfold Cdiv, Rdiv.
  rewrite Cmod_mult, Cmod_inv by apply two_pow_nz. rewrite Cmod_R, Rabs_pos_eq by (pose proof (two_pow_pos k); lra). reflexivity.
Qed.

Lemma pauli_length : forall k, length (pauli_strings k) = 4 ^ k.
Proof.
  unfold pauli_strings. induction k as [|k IH]; [reflexivity|]. cbn [repeat].
  set (r := repeat _ k) in *. cbn [list_product map flat_map PAULI_LITERALS]. rewrite !app_length, !map_length, IH. cbn [length Nat.pow]. lia.
Qed.
Lemma pauli_first : forall k, nth 0 (pauli_strings k) [] = repeat (lit_smat (0, [[i1; i0]; [i0; i1]])) k.
Proof.
  unfold pauli_strings. induction k as [|k IH]; [reflexivity|]. cbn [repeat].
  pose proof (pauli_length k) as L. unfold pauli_strings in L. set (r := repeat (map _ _) k) in *.
  cbn [list_product map flat_map PAULI_LITERALS].
  destruct (list_product r) as [|x l]; [exfalso; assert (4 ^ k <> 0) by (apply Nat.pow_nonzero; lia); cbn [length] in L; lia|].
  cbn [map nth app] in *. f_equal. exact IH.
Qed.
Lemma lit_id_entry : forall i j, i < 2 -> j < 2 -> ent (lit_smat (0, [[i1; i0]; [i0; i1]])) i j = mid i j.
Proof.
  intros i j Hi Hj. unfold lit_smat, gl, mid. cbn [ent fst snd].
  destruct i as [|[|i]]; [| |lia]; (destruct j as [|[|j]]; [| |lia]); cbn; unfold gev; apply C_ext; cbn; ring.
Qed.
Lemma kron_ids_id : forall k acc, rows acc = cols acc ->
  let r := fold_left skron (repeat (lit_smat (0, [[i1; i0]; [i0; i1]])) k) acc in
  rows r = (rows acc * 2 ^ k) /\ cols r = (rows acc * 2 ^ k)
  /\ (meq (rows acc) (rows acc) (ent acc) mid -> meq (rows r) (rows r) (ent r) mid).
Proof.
  induction k as [|k IH]; intros acc Hs; cbn [repeat fold_left].
  - cbn [Nat.pow]. rewrite Nat.mul_1_r. auto.
  - destruct (IH (skron acc (lit_smat (0, [[i1; i0]; [i0; i1]])))) as (A & B & D).
    { cbn [skron rows cols lit_smat snd length]. rewrite Hs. reflexivity. }
    cbv zeta. rewrite A, B. cbn [skron rows cols lit_smat snd length] in *. split; [cbn [Nat.pow]; lia|]. split; [cbn [Nat.pow]; lia|].
    intro E. rewrite A in D. apply D. cbn [skron ent rows cols lit_smat snd length].
    rewrite <- (kron_id (rows acc) 2). apply kron_mor; [exact E|]. intros i j Hi Hj. apply lit_id_entry; assumption.
Qed.
(** The first column of the Pauli basis is the flattened identity. *)
Lemma pauli_column : forall k a, a < 2 ^ k * 2 ^ k ->
  pauli_basis k a 0 = mid (a / 2 ^ k) (a mod 2 ^ k).
Proof.
  intros k a Ha. unfold pauli_basis. rewrite pauli_first. unfold np_kron_n.
  destruct (kron_ids_id k (seye 1 1) eq_refl) as (A & _ & D). cbn [seye rows ent] in *.
  destruct (divmod_lt _ _ _ Ha) as [H1 H2]. unfold mtrans.
  rewrite A, Nat.mul_1_l in D. rewrite (D (reflexivity _) _ _ H2 H1).
  unfold mid. rewrite (Nat.eqb_sym (a mod 2 ^ k)). destruct (Nat.eqb (a / 2 ^ k) (a mod 2 ^ k)); apply conj_R.
Qed.
Lemma chi00 : forall k U, let n := 2 ^ k in
  tf_choi_to_chi k (super_to_choi n (tf_super n U)) 0 0 = (mtrace n U * Cconj (mtrace n U))%C.
Proof.
  intros k U n. unfold tf_choi_to_chi. cbv zeta. fold n.
  assert (Pn : 0 < n) by (unfold n; apply Nat.neq_0_lt_0, Nat.pow_nonzero; lia).
  assert (D : forall (f : nat -> C), csum (n * n) (fun a => mid (a / n)%nat (a mod n)%nat * f a)%C = csum n (fun p => f (p * n + p))).
  { intro f. rewrite csum_prod. apply csum_ext. intros p Hp.
    rewrite (csum_single n p); [|exact Hp|].
    - destruct (divmod_add p p n Hp) as [-> ->]. unfold mid. rewrite Nat.eqb_refl. ring.
    - intros q Hq X. destruct (divmod_add p q n Hq) as [-> ->]. unfold mid.
      destruct (Nat.eqb_spec p q); [congruence|ring]. }
  unfold mmul at 1.
  rewrite (csum_ext _ _ (fun b => mid (b / n)%nat (b mod n)%nat *
     csum (n * n) (fun a => mid (a / n)%nat (a mod n)%nat * super_to_choi n (tf_super n U) a b))%C).
  - rewrite D. rewrite (csum_ext n _ (fun q => csum n (fun p => U q q * Cconj (U p p))%C)).
    + unfold mtrace. rewrite conj_sum, <- csum_scale_r. apply csum_ext. intros q _. apply csum_scale.
    + intros q Hq. rewrite D. apply csum_ext. intros p Hp. unfold super_to_choi.
      destruct (divmod_add p p n Hp) as [-> ->]. destruct (divmod_add q q n Hq) as [-> ->].
      rewrite (super_kron n U) by nia. unfold kron, mconj.
      destruct (divmod_add q p n Hp) as [-> ->]. reflexivity.
  - intros b Hb. rewrite pauli_column by exact Hb. fold n. rewrite Cmult_comm. f_equal.
    unfold mmul. apply csum_ext. intros a Ha. f_equal. unfold madj. rewrite pauli_column by exact Ha. fold n.
    unfold mid. destruct (Nat.eqb _ _); apply conj_R.
Qed.
Lemma average_value : forall k A B, let n := 2 ^ k in
  tf_average_fidelity k A B
  = ((Cmod (inner n n A B) ^ 2 / INR n + 1) / (INR n + 1))%R.
Proof.
  intros k A B n. unfold tf_average_fidelity, tf_super_to_fid. cbv zeta. rewrite chi00, abs_mod. fold n.
  assert (T : (mtrace n (mmul n (madj A) B) * Cconj (mtrace n (mmul n (madj A) B)))%C = RtoC (Cmod (inner n n A B) ^ 2)).
  { rewrite Cmult_comm, conj_mod2. f_equal. f_equal.
    rewrite inner_trace, <- conj_mod, <- mtrace_adj.
    rewrite (mtrace_mmul n n A). f_equal. apply mtrace_proper.
    rewrite madj_mmul, madj_madj. reflexivity. }
  rewrite T. pose proof (two_pow_pos k) as P. fold n in P.
  unfold Cdiv. rewrite <- RtoC_inv by lra. rewrite <- RtoC_mult, <- !RtoC_plus, <- RtoC_inv, <- RtoC_mult by lra.
  rewrite Cmod_R. apply Rabs_pos_eq. apply Rmult_le_pos.
  - apply Rplus_le_le_0_compat; [|lra]. apply Rmult_le_pos; [apply pow2_ge_0|]. left. apply Rinv_0_lt_compat, P.
  - left. apply Rinv_0_lt_compat. lra.
Qed.
