(** Further facts on the matrix exponential: commuting summands, Kronecker
    factors, and invariant vectors. *)
From Coq Require Import Reals Lra Lia Setoid Morphisms.
From Coquelicot Require Import Coquelicot.
From Verif Require Import Base Mat MExp.
Local Open Scope C_scope.

Section Commuting.
  Variables (n : nat) (A B : mat).
  Hypothesis comm : meq n n (mmul n A B) (mmul n B A).

  Lemma tt_S : forall X k, meq n n (mscale (RtoC (INR (S k))) (taylor_term n X (S k)))
                               (mmul n (taylor_term n X k) X).
  Proof.
    intros X k. unfold taylor_term. cbn [mpow]. rewrite mmul_scale_l, mscale_mscale.
    apply mscale_proper; [|reflexivity].
    rewrite fact_simpl, mult_INR, RtoC_mult.
    assert (H1 : RtoC (INR (S k)) <> 0).
    { intro E. apply (f_equal fst) in E. apply (not_0_INR (S k)); [lia|exact E]. }
    field. split; [apply fact_C_neq_0|exact H1].
  Qed.
  Lemma pow_comm : forall k, meq n n (mmul n A (mpow n B k)) (mmul n (mpow n B k) A).
  Proof.
    induction k; cbn [mpow].
    - rewrite mmul_id_l, mmul_id_r. reflexivity.
    - rewrite mmul_assoc, IHk, <- !mmul_assoc, comm. reflexivity.
  Qed.
  Lemma tt_comm : forall k, meq n n (mmul n A (taylor_term n B k)) (mmul n (taylor_term n B k) A).
  Proof. intro k. unfold taylor_term. rewrite mmul_scale_r, mmul_scale_l, pow_comm. reflexivity. Qed.

  Definition conv (k : nat) : mat :=
    msum (S k) (fun p => mmul n (taylor_term n A p) (taylor_term n B (k - p))).

  Lemma msum_mmul : forall k f X, meq n n (mmul n (msum k f) X) (msum k (fun p => mmul n (f p) X)).
  Proof.
    induction k; intros f X; cbn [msum].
    - apply mmul_zero_l.
    - rewrite mmul_add_r, IHk. reflexivity.
  Qed.
  Lemma msum_proper : forall k f g, (forall p, (p < k)%nat -> meq n n (f p) (g p)) ->
      meq n n (msum k f) (msum k g).
  Proof.
    induction k; intros f g H; cbn [msum]; [reflexivity|].
    rewrite (IHk f g) by auto. rewrite (H k) by lia. reflexivity.
  Qed.
  Lemma msum_add : forall k f g, meq n n (msum k (fun p => madd (f p) (g p))) (madd (msum k f) (msum k g)).
  Proof.
    intros k f g i j _ _. unfold madd. rewrite !msum_entry. apply (csum_plus k (fun p => f p i j)).
  Qed.
  Lemma msum_scale : forall k c f, meq n n (mscale c (msum k f)) (msum k (fun p => mscale c (f p))).
  Proof. intros k c f i j _ _. unfold mscale. rewrite !msum_entry. symmetry. apply csum_scale. Qed.
  Lemma msum_head : forall k f, meq n n (msum (S k) f) (madd (f 0%nat) (msum k (fun p => f (S p)))).
  Proof. intros k f i j _ _. unfold madd at 1. rewrite !msum_entry. apply (csum_head k (fun l => f l i j)). Qed.

  Lemma conv_S : forall k, meq n n (mscale (RtoC (INR (S k))) (conv (S k))) (mmul n (conv k) (madd A B)).
  Proof.
    intro k. unfold conv at 1.
    rewrite msum_scale.
    set (t := fun p => mmul n (taylor_term n A p) (taylor_term n B (S k - p))).
    transitivity (madd (msum (S (S k)) (fun p => mscale (RtoC (INR p)) (t p)))
                       (msum (S (S k)) (fun p => mscale (RtoC (INR (S k - p))) (t p)))).
    { rewrite <- msum_add. apply msum_proper. intros p Hp i j _ _. unfold madd, mscale.
      rewrite <- Cmult_plus_distr_r, <- RtoC_plus, <- plus_INR. do 3 f_equal. lia. }
    rewrite mmul_add_l. unfold conv. rewrite !msum_mmul.
    apply madd_proper.
    - rewrite msum_head.
      transitivity (madd mzero (msum (S k) (fun p => mscale (RtoC (INR (S p))) (t (S p))))).
      { apply madd_proper; [|reflexivity]. intros i j _ _. unfold mscale, mzero. simpl INR. ring. }
      rewrite madd_zero_l. apply msum_proper. intros p Hp. unfold t.
      rewrite <- mmul_scale_l, tt_S. replace (S k - S p)%nat with (k - p)%nat by lia.
      rewrite <- !mmul_assoc, tt_comm. reflexivity.
    - change (msum (S (S k)) (fun p => mscale (RtoC (INR (S k - p))) (t p)))
        with (madd (msum (S k) (fun p => mscale (RtoC (INR (S k - p))) (t p)))
                   (mscale (RtoC (INR (S k - S k))) (t (S k)))).
      transitivity (madd (msum (S k) (fun p => mscale (RtoC (INR (S k - p))) (t p))) mzero).
      { apply madd_proper; [reflexivity|]. intros i j _ _. unfold mscale, mzero.
        rewrite Nat.sub_diag. simpl INR. ring. }
      rewrite madd_zero_r. apply msum_proper. intros p Hp. unfold t.
      replace (S k - p)%nat with (S (k - p)) by lia.
      rewrite <- mmul_scale_r, tt_S. apply mmul_assoc.
  Qed.

  Lemma conv_taylor : forall k, meq n n (conv k) (taylor_term n (madd A B) k).
  Proof.
    induction k.
    - unfold conv, taylor_term. cbn [msum mpow Nat.sub]. rewrite madd_zero_l.
      rewrite mmul_scale_l, mmul_scale_r, mmul_id_l, mscale_mscale.
      apply mscale_proper; [|reflexivity]. change (fact 0) with 1%nat. change (INR 1) with 1%R.
      field. intro E. apply (f_equal fst) in E. simpl in E. lra.
    - assert (H1 : RtoC (INR (S k)) <> 0).
      { intro E. apply (f_equal fst) in E. apply (not_0_INR (S k)); [lia|exact E]. }
      rewrite <- (mscale_1 n n (conv (S k))), <- (mscale_1 n n (taylor_term n (madd A B) (S k))).
      replace (RtoC 1) with (/ RtoC (INR (S k)) * RtoC (INR (S k))) by (field; exact H1).
      rewrite <- !mscale_mscale, conv_S, tt_S, IHk. reflexivity.
  Qed.

  (** exp(A + B) = exp(A) exp(B) for commuting A and B. *)
  Lemma mexp_commute : meq n n (mexp n (madd A B)) (mmul n (mexp n A) (mexp n B)).
  Proof.
    intros i j Hi Hj. apply mexp_eq. unfold mmul.
    eapply is_cser_ext; [|apply (is_cser_sum n
       (fun k l => csum (S k) (fun p => taylor_term n A p i l * taylor_term n B (k - p)%nat l j)))].
    - intro k. cbv beta. rewrite csum_swap. rewrite <- (conv_taylor k i j Hi Hj). unfold conv.
      rewrite msum_entry. reflexivity.
    - intros l Hl. apply (is_cser_cauchy (fun p => taylor_term n A p i l) (fun q => taylor_term n B q l j));
      try apply mexp_is; try apply taylor_abs; auto.
  Qed.
End Commuting.

(** exp(A (x) 1) = exp(A) (x) 1 and exp(1 (x) B) = 1 (x) exp(B). *)
Lemma mpow_kron_l : forall n p A k, meq (n * p) (n * p) (mpow (n * p) (kron p p A mid) k) (kron p p (mpow n A k) mid).
Proof.
  induction k; cbn [mpow].
  - symmetry. apply kron_id.
  - rewrite IHk, kron_mmul.
    apply kron_mor; [reflexivity|apply mmul_id_l].
Qed.
Lemma mpow_kron_r : forall n p A k, meq (n * p) (n * p) (mpow (n * p) (kron p p mid A) k) (kron p p mid (mpow p A k)).
Proof.
  induction k; cbn [mpow].
  - symmetry. apply kron_id.
  - rewrite IHk, kron_mmul.
    apply kron_mor; [apply mmul_id_l|reflexivity].
Qed.
Lemma mexp_kron_l : forall n p A, meq (n * p) (n * p) (mexp (n * p) (kron p p A mid)) (kron p p (mexp n A) mid).
Proof.
  intros n p A i j Hi Hj. apply mexp_eq.
  destruct (divmod_lt _ _ _ Hi), (divmod_lt _ _ _ Hj).
  eapply is_cser_ext; [|unfold kron; rewrite Cmult_comm; apply is_cser_scale, mexp_is; assumption].
  intro k. cbv beta. unfold taylor_term, mscale. rewrite (mpow_kron_l n p A k i j Hi Hj). unfold kron. ring.
Qed.
Lemma mexp_kron_r : forall n p A, meq (n * p) (n * p) (mexp (n * p) (kron p p mid A)) (kron p p mid (mexp p A)).
Proof.
  intros n p A i j Hi Hj. apply mexp_eq.
  destruct (divmod_lt _ _ _ Hi), (divmod_lt _ _ _ Hj).
  eapply is_cser_ext; [|unfold kron; apply is_cser_scale, mexp_is; assumption].
  intro k. cbv beta. unfold taylor_term, mscale. rewrite (mpow_kron_r n p A k i j Hi Hj). unfold kron. ring.
Qed.
(** exp of the transpose. *)
Lemma mpow_trans : forall n A k, meq n n (mpow n (mtrans A) k) (mtrans (mpow n A k)).
Proof.
  induction k.
  - intros i j _ _. unfold mtrans. cbn [mpow]. unfold mid. rewrite Nat.eqb_sym. reflexivity.
  - rewrite mpow_S_l, IHk. cbn [mpow]. rewrite mtrans_mmul. reflexivity.
Qed.
Lemma mexp_trans : forall n A, meq n n (mexp n (mtrans A)) (mtrans (mexp n A)).
Proof.
  intros n A i j Hi Hj. apply mexp_eq. unfold mtrans at 2.
  eapply is_cser_ext; [|apply mexp_is; assumption].
  intro k. unfold taylor_term, mscale. rewrite (mpow_trans n A k i j Hi Hj). reflexivity.
Qed.

(** Vectors: the action of exp(A) on a vector as a series. *)
Lemma mexp_vec : forall n A (v : nat -> C) i, (i < n)%nat ->
    is_cser (fun k => csum n (fun l => taylor_term n A k i l * v l)) (csum n (fun l => mexp n A i l * v l)).
Proof.
  intros n A v i Hi. apply (is_cser_sum n (fun k l => taylor_term n A k i l * v l)).
  intros l Hl. eapply is_cser_ext; [|rewrite Cmult_comm; apply is_cser_scale, mexp_is; assumption].
  intro k. cbv beta. ring.
Qed.
