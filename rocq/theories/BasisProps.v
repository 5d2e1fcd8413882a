From Coq Require Import Reals Lra Lia Setoid Morphisms.
From Coquelicot Require Import Complex.
From Verif Require Import Base Mat RSum MExp HilbertModel HilbertProofs HilbertProps PropModel PropProofs Prop2Props
  FoldModel FoldProps ExpModel ExpProps ChipModel Chip2Props FrameModel FrameProps Frame2Props BasisModel.
Local Open Scope R_scope.
Local Notation length := List.length.

(** ** C128: a model in the user's basis *)
(** Every vector of the basis has a component of weight above one half, whose real part does
    not vanish. *)
Definition labelled (n : nat) (U : mat) : Prop :=
  forall j, (j < n)%nat -> exists i, (i < n)%nat /\ 1 / 2 < Cmod (U i j) ^ 2 /\ fst (U i j) <> 0.
(** [T] has the vectors of [U] as columns, relabelled by [s] and up to signs. *)
Definition relabelled (n : nat) (U T : mat) (s : nat -> nat) : Prop :=
  permutes n s /\ exists q : nat -> R, (forall i, (i < n)%nat -> q i = 1 \/ q i = -1)
  /\ forall a i, (a < n)%nat -> (i < n)%nat -> T a i = (RtoC (q i) * U a (s i))%C.

Lemma sgn_pm : forall x, x <> 0 -> sgn x = 1 \/ sgn x = -1.
Proof. intros x H. unfold sgn, rltb. destruct (Rlt_dec 0 x); auto. destruct (Rlt_dec x 0); auto. lra. Qed.
Lemma sgn_pos : forall x, 0 < x -> sgn x = 1.
Proof. intros x H. unfold sgn, rltb. destruct (Rlt_dec 0 x); auto. lra. Qed.

Lemma basis_T : forall n (U : mat) P s, permutation_matrix n P s ->
  forall a i, (a < n)%nat -> (i < n)%nat ->
  mmul n U (mtrans (fun i j => RtoC (sgn (fst (U i j)) * P i j))) a i = (RtoC (sgn (fst (U i (s i)))) * U a (s i))%C.
Proof.
  intros n U P s HP a i Ha Hi. destruct HP as ((Bs & Is) & HP). unfold mmul. rewrite (csum_single n (s i)); [|auto|].
  - unfold mtrans. rewrite (HP i (s i)), Nat.eqb_refl by auto. rewrite Rmult_1_r. apply Cmult_comm.
  - intros b Hb N. unfold mtrans. rewrite (HP i b), (proj2 (Nat.eqb_neq b (s i))) by auto. rewrite Rmult_0_r. ring.
Qed.
Lemma basis_dominant : forall n (U : mat), (0 < n)%nat -> (forall j, (j < n)%nat -> exists i, (i < n)%nat /\ 1 / 2 < Cmod (U i j) ^ 2) ->
  basis_change n (Some U) true = (reorder_dominant U, mmul n U (mtrans (fun i j => RtoC (sgn (fst (U i j)) * reorder_dominant U i j)))).
Proof. intros n U Hn D. unfold basis_change, reorder_frame, basis_of. rewrite (proj2 (dominant_test n U Hn) D). reflexivity. Qed.
Lemma labelled_dom : forall n U, labelled n U -> forall j, (j < n)%nat -> exists i, (i < n)%nat /\ 1 / 2 < Cmod (U i j) ^ 2.
Proof. intros n U D j Hj. destruct (D j Hj) as (i & A & B & _). eauto. Qed.
Lemma labelled_perm : forall n U, (0 < n)%nat -> unitary n U -> labelled n U ->
  exists s, permutation_matrix n (reorder_dominant U) s
  /\ forall i, (i < n)%nat -> 1 / 2 < Cmod (U i (s i)) ^ 2 /\ fst (U i (s i)) <> 0.
Proof.
  intros n U Hn HU D. destruct (dominant_permutation n U Hn HU (labelled_dom n U D)) as (s & P & M). exists s. split; [exact P|].
  intros i Hi. specialize (M i Hi). assert (M' := M). rewrite v_sq_mod in M. split; [exact M|].
  destruct (D (s i)) as (i' & Hi' & A & B); [apply P; auto|]. rewrite <- v_sq_mod in A.
  assert (I : i' = i); [|rewrite I in B; exact B].
  apply (one_dominant n (fun k => v_sq U k (s i)) i' i); auto; [intros; apply v_sq_nonneg|]. apply col_sum; auto. apply P; auto.
Qed.

(** The basis the model works in consists of the given vectors, each labelled by its largest
    component and with the sign that makes that component's real part positive. *)
Theorem C128_relabelled :
  forall n U reorder T, (0 < n)%nat -> unitary n U -> labelled n U -> basis_change n (Some U) true = (reorder, T) ->
  exists s, permutation_matrix n reorder s /\ relabelled n U T s /\ unitary n T
  /\ forall i, (i < n)%nat -> 1 / 2 < Cmod (T i i) ^ 2 /\ 0 < fst (T i i).
Proof.
  intros n U reorder T Hn HU D E. rewrite (basis_dominant n U Hn (labelled_dom n U D)) in E. injection E as <- <-.
  destruct (labelled_perm n U Hn HU D) as (s & P & M). exists s. split; [exact P|]. split.
  { split; [apply P|]. exists (fun i => sgn (fst (U i (s i)))). split.
    - intros i Hi. apply sgn_pm, M, Hi.
    - intros a i Ha Hi. apply basis_T; auto. }
  assert (Re : forall i, (i < n)%nat -> fst (U i (s i)) <> 0) by (intros i Hi; apply M, Hi).
  split; [apply unitary_mmul; [exact HU|exact (Q_unitary n U _ s P Re)]|].
  intros i Hi. rewrite (basis_T n U _ s P i i Hi Hi). destruct (sgn_nonzero _ (Re i Hi)) as [A B]. split.
  - rewrite Cmod_mult, Cmod_R. replace (Rabs _) with 1; [rewrite Rmult_1_l; apply M, Hi|]. symmetry.
    destruct (sgn_pm _ (Re i Hi)) as [-> | ->]; [apply Rabs_R1|]. rewrite Rabs_left; lra.
  - cbn. rewrite Rmult_0_l, Rminus_0_r. exact B.
Qed.
Print Assumptions C128_relabelled.

(** Without ordering the given matrix is used as it is. *)
Theorem C128_unordered :
  forall n U, basis_change n (Some U) false = (fun i j => if Nat.eqb i j then 1 else 0, U).
Proof. reflexivity. Qed.
Print Assumptions C128_unordered.

Lemma mid_unitary : forall n, unitary n mid.
Proof.
  intro n. assert (A : meq n n (madj mid) mid).
  { intros i j _ _. unfold madj, mid. rewrite Nat.eqb_sym. destruct (Nat.eqb i j); apply conj_R. }
  split; rewrite A; apply mmul_id_l.
Qed.
Lemma relabel_id : forall n U T s, meq n n U mid -> relabelled n U T s -> (forall i, (i < n)%nat -> 0 < fst (T i i)) -> meq n n T mid.
Proof.
  intros n U T s HU ((Bs & _) & q & Q & E) Pos a i Ha Hi. rewrite (E a i Ha Hi), (HU a (s i) Ha (Bs i Hi)).
  assert (Si : s i = i /\ q i = 1).
  { specialize (Pos i Hi). rewrite (E i i Hi Hi), (HU i (s i) Hi (Bs i Hi)) in Pos. unfold mid in Pos.
    destruct (Nat.eqb_spec i (s i)) as [Z|Z].
    - split; [auto|]. destruct (Q i Hi) as [R|R]; [exact R|]. rewrite R in Pos. cbn in Pos. lra.
    - cbn in Pos. lra. }
  destruct Si as [-> ->]. ring.
Qed.
Lemma mid_labelled : forall n, labelled n mid.
Proof. intros n j Hj. exists j. unfold mid. rewrite Nat.eqb_refl, Cmod_1. cbn. repeat split; auto; lra. Qed.

(** Without a matrix the model works in the bare basis. *)
Theorem C128_default :
  forall n ordered, (0 < n)%nat -> meq n n (snd (basis_change n None ordered)) mid.
Proof.
  intros n [|] Hn; [|intros i j _ _; reflexivity].
  destruct (basis_change n (Some mid) true) as [r T] eqn:E.
  replace (basis_change n None true) with (r, T) by (rewrite <- E; reflexivity). cbn [snd].
  destruct (C128_relabelled n mid r T Hn (mid_unitary n) (mid_labelled n) E) as (s & _ & R & _ & P).
  apply (relabel_id n mid T s); [reflexivity|exact R|]. intros i Hi. apply P, Hi.
Qed.
Print Assumptions C128_default.

Theorem C128_default_operators :
  forall n ordered o k, (0 < n)%nat ->
  match dget k (o_controls o), dget k (o_controls (basis_operators n None ordered o)) with
  | Some h, Some h' => meq n n h' h | None, None => True | _, _ => False end
  /\ match dget k (o_hams o), dget k (o_hams (basis_operators n None ordered o)) with
  | Some h, Some h' => meq n n h' h | None, None => True | _, _ => False end
  /\ Forall2 (meq n n) (o_cols (basis_operators n None ordered o)) (o_cols o).
Proof.
  intros n ordered o k Hn. pose proof (C128_default n ordered Hn) as E. unfold basis_operators.
  set (T := snd _) in *. clearbody T.
  assert (A : meq n n (madj mid) mid).
  { intros i j _ _. unfold madj, mid. rewrite Nat.eqb_sym. destruct (Nat.eqb i j); apply conj_R. }
  assert (C : forall h, meq n n (conjugated n T h) h).
  { intro h. unfold conjugated. rewrite E, A, mmul_id_l, mmul_id_r. reflexivity. }
  cbn [dressed_operators o_controls o_hams o_cols]. rewrite !dget_dmap. split; [|split].
  - destruct (dget k (o_controls o)); auto.
  - destruct (dget k (o_hams o)); auto.
  - induction (o_cols o); constructor; auto.
Qed.
Print Assumptions C128_default_operators.

(** The propagator is the bare one seen from the given basis: its entries are those between
    the given basis vectors, up to labels and signs. *)
Theorem C128_propagation :
  forall n dims U o signal stack batch r reorder T, (0 < n)%nat -> unitary n U -> labelled n U ->
  basis_change n (Some U) true = (reorder, T) ->
  pwc_controlled (model_view n dims false None o) signal stack batch = Ok r ->
  exists r' s, pwc_controlled (basis_view n dims false (Some U) true o) signal stack batch = Ok r'
  /\ relabelled n U T s
  /\ meq n n (pr_U r') (mmul n (mmul n (madj T) (pr_U r)) T)
  /\ (forall i j, (i < n)%nat -> (j < n)%nat ->
        Cmod (pr_U r' i j) = Cmod (mmul n (mmul n (madj U) (pr_U r)) U (s i) (s j)))
  /\ pr_ts r' = pr_ts r.
Proof.
  intros n dims U o signal stack batch r reorder T Hn HU D E H.
  destruct (C128_relabelled n U reorder T Hn HU D E) as (s & _ & R & UT & _).
  destruct (C81_propagation n dims false T o signal stack batch r UT H) as (r' & E' & X). cbn zeta in X.
  destruct X as (_ & X & _ & Ht). exists r', s.
  split; [unfold basis_view; rewrite E; exact E'|]. split; [exact R|]. split; [exact X|]. split; [|exact Ht].
  intros i j Hi Hj. rewrite (X i j Hi Hj). destruct R as ((Bs & _) & q & Q & Et).
  set (A := pr_U r).
  assert (Y : mmul n (mmul n (madj T) A) T i j = (RtoC (q i * q j) * mmul n (mmul n (madj U) A) U (s i) (s j))%C).
  { unfold mmul. rewrite <- csum_scale. apply csum_ext. intros b Hb. rewrite (Et b j Hb Hj).
    assert (Z : csum n (fun l => madj T i l * A l b)%C = (RtoC (q i) * csum n (fun l => madj U (s i) l * A l b))%C).
    { rewrite <- csum_scale. apply csum_ext. intros l Hl. unfold madj. rewrite (Et l i Hl Hi), conj_mult, conj_R. ring. }
    rewrite Z. rewrite RtoC_mult. ring. }
  rewrite Y, Cmod_mult, Cmod_R. replace (Rabs _) with 1; [ring|].
  destruct (Q i Hi) as [-> | ->], (Q j Hj) as [-> | ->]; rewrite ?Rmult_1_l, ?Rmult_1_r; unfold Rabs; destruct (Rcase_abs _); lra.
Qed.
Print Assumptions C128_propagation.

(** Giving the model its own basis changes nothing. *)
Theorem C128_stable :
  forall n U reorder T reorder' T', (0 < n)%nat -> unitary n U -> labelled n U ->
  basis_change n (Some U) true = (reorder, T) -> basis_change n (Some T) true = (reorder', T') -> meq n n T' T.
Proof.
  intros n U reorder T reorder' T' Hn HU D E E'.
  destruct (C128_relabelled n U reorder T Hn HU D E) as (s & _ & R & UT & P).
  assert (DT : labelled n T).
  { intros j Hj. exists j. destruct (P j Hj) as [A B]. repeat split; auto. lra. }
  destruct (C128_relabelled n T reorder' T' Hn UT DT E') as (s' & _ & ((Bs & _) & q & Q & Et) & _ & P').
  assert (S' : forall i, (i < n)%nat -> s' i = i).
  { intros i Hi. destruct (P i Hi) as [A _]. destruct (P' i Hi) as [B _]. rewrite (Et i i Hi Hi), Cmod_mult, Cmod_R in B.
    replace (Rabs (q i)) with 1 in B by (destruct (Q i Hi) as [-> | ->]; unfold Rabs; destruct (Rcase_abs _); lra).
    rewrite Rmult_1_l in B. rewrite <- v_sq_mod in A, B.
    apply (one_dominant n (fun k => v_sq T i k) (s' i) i); auto; [intros; apply v_sq_nonneg|]. apply row_sum; auto. }
  intros a i Ha Hi. rewrite (Et a i Ha Hi), (S' i Hi). destruct (P i Hi) as [_ A]. destruct (P' i Hi) as [_ B].
  rewrite (Et i i Hi Hi), (S' i Hi) in B. destruct (Q i Hi) as [-> | Z]; [ring|]. rewrite Z in B. cbn in B. lra.
Qed.
Print Assumptions C128_stable.

(** Finding: a basis change that only relabels the states, or flips signs, is silently undone: the model works in
    the bare basis. *)
Theorem C128_relabelling_refuted :
  forall n p q, (0 < n)%nat -> permutes n p -> (forall i, (i < n)%nat -> q i = 1 \/ q i = -1) ->
  let U : mat := fun a i => if Nat.eqb a (p i) then RtoC (q i) else RtoC 0 in
  unitary n U /\ meq n n (snd (basis_change n (Some U) true)) mid.
Proof.
  intros n p q Hn Pp Q U.
  destruct (inverse_perm n p Pp) as (t & (Bt & It) & Et). destruct Pp as [Bp Ip].
  assert (HU : unitary n U).
  { assert (X : permutation_matrix n (fun i j => if Nat.eqb j (p i) then 1 else 0) p) by (split; [split; auto|auto]).
    pose (w := (fun i _ => RtoC (q i)) : mat).
    pose proof (Q_unitary n w _ p X) as Y.
    assert (Re : forall i, (i < n)%nat -> fst (w i (p i)) <> 0) by (intros i Hi; unfold w; cbn; destruct (Q i Hi); lra).
    specialize (Y Re). assert (Z : meq n n (mtrans (fun i j => RtoC (sgn (fst (w i j)) * (if Nat.eqb j (p i) then 1 else 0)))) U).
    { intros a i Ha Hi. unfold mtrans, U, w. cbn [fst RtoC].
      destruct (Nat.eqb a (p i)); rewrite ?Rmult_1_r, ?Rmult_0_r; f_equal. unfold sgn, rltb.
      destruct (Q i Hi) as [-> | ->]; repeat destruct (Rlt_dec _ _); lra. }
    destruct Y as [Y1 Y2]. rewrite Z in Y1, Y2. split; assumption. }
  split; [exact HU|].
  assert (D : labelled n U).
  { intros j Hj. exists (p j). unfold U. rewrite Nat.eqb_refl, Cmod_R. split; [auto|]. cbn [fst RtoC].
    destruct (Q j Hj) as [-> | ->]; unfold Rabs; destruct (Rcase_abs _); split; lra. }
  destruct (basis_change n (Some U) true) as [r T] eqn:E. cbn [snd].
  destruct (C128_relabelled n U r T Hn HU D E) as (s & _ & ((Bs & _) & q' & Q' & Eq) & _ & P).
  intros a i Ha Hi. rewrite (Eq a i Ha Hi). destruct (P i Hi) as [_ B]. rewrite (Eq i i Hi Hi) in B. unfold U in B |- *.
  destruct (Nat.eqb_spec i (p (s i))) as [Z|Z]; [|cbn in B; lra]. rewrite <- Z. unfold mid.
  destruct (Nat.eqb a i); [|ring]. cbn in B. rewrite <- RtoC_mult. f_equal.
  destruct (Q' i Hi) as [R' | R'], (Q (s i) (Bs i Hi)) as [R2 | R2]; rewrite R', R2 in *; lra.
Qed.
Print Assumptions C128_relabelling_refuted.

(** Finding: a unitary basis change with a purely imaginary largest component, such as a phase gate, is accepted, but
    the model drops that basis vector: its transformation is not unitary and the level vanishes from
    every operator. *)
Theorem C128_phase_refuted :
  exists U, unitary 2 U /\ forall reorder T, basis_change 2 (Some U) true = (reorder, T) ->
  ~ unitary 2 T /\ (forall a, T a 1%nat = RtoC 0)
  /\ forall dims lind o, p_h0 (basis_view 2 dims lind (Some U) true o) 1%nat 1%nat = RtoC 0.
Proof.
  pose (U := (fun i j : nat => if Nat.eqb i j then (if Nat.eqb i 0 then RtoC 1 else Ci) else RtoC 0) : mat).
  assert (HU : unitary 2 U).
  { split; intros i j Hi Hj; destruct i as [|[|i]]; destruct j as [|[|j]]; try lia; unfold mmul, madj, mid, U; cbn;
      apply C_ext; cbn; ring. }
  exists U. split; [exact HU|]. intros r T E.
  assert (Z : forall a, T a 1%nat = RtoC 0).
  { intro a. unfold basis_change, reorder_frame, basis_of in E. injection E as _ <-. unfold mmul, mtrans. cbn [csum].
    assert (S0 : sgn (fst (U 1%nat 0%nat)) = 0) by (unfold U, sgn, rltb; cbn; destruct (Rlt_dec 0 0); [lra|reflexivity]).
    assert (S1 : sgn (fst (U 1%nat 1%nat)) = 0) by (unfold U, sgn, rltb; cbn; destruct (Rlt_dec 0 0); [lra|reflexivity]).
    rewrite S0, S1. apply C_ext; cbn; ring. }
  split; [|split; [exact Z|]].
  - intros [V _]. specialize (V 1 1 ltac:(lia) ltac:(lia))%nat. unfold mmul, madj in V. cbn [csum] in V. rewrite !Z in V.
    apply (f_equal fst) in V. cbn in V. lra.
  - intros dims lind o. unfold basis_view. rewrite E. cbn [snd model_view p_h0]. unfold dressed_drift, conjugated, mmul at 1. cbn [csum].
    rewrite !Z. ring.
Qed.
Print Assumptions C128_phase_refuted.

(** Finding: the matrix is not checked to be unitary, although it is documented as one and the project's own test gives
    a random matrix: c times the identity multiplies all energies by c squared. *)
Theorem C128_unchecked_refuted :
  forall n c dims lind o, (0 < n)%nat -> 1 < c ->
  let U : mat := mscale (RtoC c) mid in
  ~ unitary n U /\ meq n n (p_h0 (basis_view n dims lind (Some U) true o)) (mscale (RtoC (c * c)) (drift_of (o_hams o))).
Proof.
  intros n c dims lind o Hn Hc U. split.
  { intros [V _]. specialize (V 0 0 Hn Hn)%nat. unfold mmul, madj, U, mscale, mid in V.
    rewrite (csum_single n 0%nat) in V; [|exact Hn|].
    - cbn in V. apply (f_equal fst) in V. cbn in V. nra.
    - intros b Hb N. rewrite (proj2 (Nat.eqb_neq b 0)) by exact N. ring. }
  assert (Ue : forall i j, U i j = if Nat.eqb i j then RtoC c else RtoC 0).
  { intros i j. unfold U, mscale, mid. destruct (Nat.eqb i j); ring. }
  assert (D : forall j, (j < n)%nat -> exists i, (i < n)%nat /\ 1 / 2 < Cmod (U i j) ^ 2).
  { intros j Hj. exists j. split; [exact Hj|]. rewrite Ue, Nat.eqb_refl, Cmod_R, Rabs_right by lra. nra. }
  assert (P : permutation_matrix n (reorder_dominant U) (fun i => i)).
  { split; [split; auto|]. intros i j Hi Hj. unfold reorder_dominant. rewrite v_sq_mod, Ue, Nat.eqb_sym.
    destruct (Nat.eqb j i).
    - rewrite (proj2 (rltb_spec _ _)); [reflexivity|]. rewrite Cmod_R, Rabs_right by lra. nra.
    - rewrite (proj2 (rltb_false _ _)); [reflexivity|]. rewrite Cmod_R, Rabs_R0. lra. }
  unfold basis_view. rewrite (basis_dominant n U Hn D). cbn [snd model_view p_h0].
  set (T := mmul n U _).
  assert (Te : meq n n T (mscale (RtoC c) mid)).
  { intros a i Ha Hi. unfold T. rewrite (basis_T n U _ _ P a i Ha Hi). rewrite !Ue, Nat.eqb_refl. cbn [fst RtoC]. rewrite (sgn_pos c) by lra.
    unfold mscale, mid. destruct (Nat.eqb a i); ring. }
  clearbody T. unfold dressed_drift, conjugated. rewrite Te.
  assert (A : meq n n (madj (mscale (RtoC c) mid)) (mscale (RtoC c) mid)).
  { intros i j _ _. unfold madj, mscale, mid. rewrite Nat.eqb_sym. rewrite conj_mult, conj_R. destruct (Nat.eqb i j); rewrite ?conj_R; reflexivity. }
  rewrite A. set (h := drift_of _). intros i j Hi Hj. unfold mmul at 1. rewrite (csum_single n j); [|exact Hj|].
  - unfold mmul. rewrite (csum_single n i); [|exact Hi|].
    + unfold mscale, mid. rewrite !Nat.eqb_refl. rewrite RtoC_mult. ring.
    + intros b Hb N. unfold mscale, mid. rewrite (proj2 (Nat.eqb_neq i b)) by auto. ring.
  - intros b Hb N. unfold mscale, mid. rewrite (proj2 (Nat.eqb_neq b j)) by auto. ring.
Qed.
Print Assumptions C128_unchecked_refuted.

(** A rotation by more than 45 degrees: the model works with the same two vectors in the other
    order. *)
Example C128_example :
  exists U : mat, unitary 2 U /\ labelled 2 U /\ forall reorder T, basis_change 2 (Some U) true = (reorder, T) ->
  unitary 2 T /\ ~ meq 2 2 T U.
Proof.
  pose (U := (fun i j : nat => match i, j with 0%nat, 0%nat => RtoC (3/5) | 0%nat, _ => RtoC (-4/5) | _, 0%nat => RtoC (4/5) | _, _ => RtoC (3/5) end) : mat).
  assert (HU : unitary 2 U).
  { split; intros i j Hi Hj; destruct i as [|[|i]]; destruct j as [|[|j]]; try lia; unfold mmul, madj, mid, U; cbn;
      apply C_ext; cbn; field. }
  assert (D : labelled 2 U).
  { intros j Hj. exists (1 - j)%nat. split; [lia|]. rewrite <- v_sq_mod.
    destruct j as [|[|j]]; [| |lia]; unfold v_sq, U; cbn; lra. }
  exists U. split; [exact HU|]. split; [exact D|]. intros r T E.
  destruct (C128_relabelled 2 U r T ltac:(lia) HU D E) as (s & _ & _ & UT & P). split; [exact UT|].
  intro X. destruct (P 0%nat ltac:(lia)) as [A _]. rewrite (X 0%nat 0%nat ltac:(lia) ltac:(lia)), <- v_sq_mod in A.
  unfold v_sq, U in A. cbn in A. lra.
Qed.
Print Assumptions C128_example.
