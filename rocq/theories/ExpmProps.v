(** C25: series exponentials. *)
From Verif Require Import Base Mat MExp ExpmModel.
Local Open Scope C_scope.

(** Specification: the partial sums of the Taylor terms A^k/k!
    ([MExp.taylor_term]). *)
Definition taylor (n : nat) (A : mat) (terms : nat) : mat := msum terms (taylor_term n A).

Lemma INR_S_C_neq_0 : forall k, RtoC (INR (S k)) <> RtoC 0.
Proof. intros k E. apply (not_0_INR (S k)); [lia|]. apply (f_equal fst) in E. exact E. Qed.

Lemma taylor_term_S : forall n A k p, meq n n p (taylor_term n A k) ->
    meq n n (mscale (/ RtoC (INR (S k))) (mmul n p A)) (taylor_term n A (S k)).
Proof.
  intros n A k p H. rewrite H. unfold taylor_term. rewrite mmul_scale_l, mscale_mscale.
  cbn [mpow]. intros i j Hi Hj. unfold mscale. f_equal.
  change (fact (S k)) with (S k * fact k)%nat.
  rewrite mult_INR, RtoC_mult. field. split; [apply fact_C_neq_0|apply INR_S_C_neq_0].
Qed.
Lemma taylor_term_0 : forall n A, meq n n (taylor_term n A 0) mid.
Proof. intros n A i j Hi Hj. unfold taylor_term, mscale. simpl. field. intro E. apply (f_equal fst) in E. simpl in E. lra. Qed.
Lemma taylor_term_1 : forall n A, meq n n (taylor_term n A 1) A.
Proof.
  intros n A. unfold taylor_term. cbn [mpow]. rewrite mmul_id_l.
  intros i j Hi Hj. unfold mscale. simpl. field. intro E. apply (f_equal fst) in E. simpl in E. lra.
Qed.
Lemma taylor_term_1s : forall n A, meq n n A (taylor_term n A 1).
Proof. intros. symmetry. apply taylor_term_1. Qed.
Lemma taylor_2 : forall n A, meq n n (madd mid A) (taylor n A 2).
Proof.
  intros. unfold taylor. cbn [msum]. rewrite taylor_term_0, taylor_term_1.
  rewrite madd_zero_l. reflexivity.
Qed.

(** The result is the sum of the first max(terms, 2) Taylor terms. *)
Theorem C25_tf_expm_is_taylor :
  forall n A terms, meq n n (tf_expm n A terms) (taylor n A (Nat.max 2 terms)).
Proof.
  intros n A terms. unfold tf_expm.
  assert (G : forall m s r p, meq n n r (taylor n A (S (S s))) -> meq n n p (taylor_term n A (S s)) ->
     meq n n (fst (fold_left (expm_step n A) (seq (S (S s)) m) (r, p))) (taylor n A (S (S s) + m))).
  { induction m as [|m IH]; intros s r p Hr Hp.
    - rewrite Nat.add_0_r. exact Hr.
    - cbn [seq fold_left]. unfold expm_step at 2. cbn [fst snd].
      replace (S (S s) + S m)%nat with (S (S (S s)) + m)%nat by lia.
      pose proof (taylor_term_S n A (S s) p Hp) as Hq.
      apply IH; auto. unfold taylor in *.
      change (msum (S (S (S s))) (taylor_term n A))
        with (madd (msum (S (S s)) (taylor_term n A)) (taylor_term n A (S (S s)))).
      rewrite Hr, Hq. reflexivity. }
  replace (Nat.max 2 terms) with (2 + (terms - 2))%nat by lia.
  apply (G (terms - 2)%nat 0%nat).
  - apply taylor_2.
  - symmetry. apply taylor_term_1.
Qed.
Print Assumptions C25_tf_expm_is_taylor.

(** For one or zero requested terms the function still returns I + A, not the
    requested truncation. *)
Theorem C25_single_term_refuted :
  ~ (forall n A, meq n n (tf_expm n A 1) (taylor n A 1)).
Proof.
  intro H. specialize (H 1%nat mid). rewrite C25_tf_expm_is_taylor in H.
  change (Nat.max 2 1) with 2%nat in H. rewrite <- taylor_2 in H.
  unfold taylor in H. cbn [msum] in H. rewrite taylor_term_0, madd_zero_l in H.
  specialize (H 0%nat 0%nat ltac:(lia) ltac:(lia)). unfold madd, mid in H. simpl in H.
  apply (f_equal fst) in H. simpl in H. lra.
Qed.
Print Assumptions C25_single_term_refuted.

(** [max_abs] is the largest modulus (0 for the empty matrix). *)
Lemma rmax_upto_ub : forall n f i, (i < n)%nat -> (f i <= rmax_upto n f)%R.
Proof.
  induction n; intros f i H; [lia|]. cbn [rmax_upto].
  destruct (Nat.eq_dec i n) as [->|]; [apply Rmax_r|].
  eapply Rle_trans; [apply IHn; lia|apply Rmax_l].
Qed.
Lemma rmax_upto_lub : forall n f b, (0 <= b)%R -> (forall i, (i < n)%nat -> (f i <= b)%R) -> (rmax_upto n f <= b)%R.
Proof. induction n; intros f b Hb H; cbn [rmax_upto]; auto. apply Rmax_lub; auto. Qed.
Lemma max_abs_spec : forall n A b, (0 <= b)%R ->
    (max_abs n A <= b)%R <-> forall i j, (i < n)%nat -> (j < n)%nat -> (Cmod (A i j) <= b)%R.
Proof.
  intros n A b Hb. split.
  - intros H i j Hi Hj. eapply Rle_trans; [|exact H]. unfold max_abs.
    eapply Rle_trans; [|apply (rmax_upto_ub n (fun i => rmax_upto n (fun j => Cmod (A i j))) i Hi)].
    apply (rmax_upto_ub n (fun j => Cmod (A i j)) j Hj).
  - intros H. apply rmax_upto_lub; auto. intros i Hi. apply rmax_upto_lub; auto.
Qed.

Lemma expm_loop_spec : forall n A acc fuel k r p res, (0 <= acc)%R ->
    meq n n r (taylor n A (S (S k))) -> meq n n p (taylor_term n A (S k)) ->
    expm_loop n A acc fuel (S (S k)) r p = Ok res ->
    exists K, (k <= K)%nat /\ meq n n res (taylor n A (S (S K)))
      /\ (forall i j, (i < n)%nat -> (j < n)%nat -> (Cmod (taylor_term n A (S K) i j) <= acc)%R)
      /\ (forall l, (k <= l < K)%nat -> exists i j, (i < n /\ j < n)%nat /\ (acc < Cmod (taylor_term n A (S l) i j))%R).
Proof.
  intros n A acc fuel. induction fuel as [|f IH]; intros k r p res Hacc Hr Hp H; [discriminate|].
  cbn [expm_loop] in H. destruct (Rlt_dec acc (max_abs n p)) as [L|L].
  - pose proof (taylor_term_S n A (S k) p Hp) as Hq.
    apply IH in H; auto.
    + destruct H as (K & HK & H1 & H2 & H3). exists K. split; [lia|]. split; [exact H1|]. split; [exact H2|].
      intros l Hl. destruct (Nat.eq_dec l k) as [->|]; [|apply H3; lia].
      destruct (Rlt_dec acc (max_abs n p)); [|lra].
      assert (NN : ~ (forall i j, (i < n)%nat -> (j < n)%nat -> (Cmod (p i j) <= acc)%R)).
      { intro X. apply (max_abs_spec n p acc Hacc) in X. lra. }
      assert (D : forall N M, (exists i j, (i < N /\ j < M)%nat /\ (acc < Cmod (p i j))%R)
                   \/ forall i j, (i < N)%nat -> (j < M)%nat -> (Cmod (p i j) <= acc)%R).
      { clear. intros N M. induction N as [|N [IH|IH]].
        - right. intros. lia.
        - left. destruct IH as (i & j & [Hi Hj] & X). exists i, j. split; auto.
        - assert (E : (exists j, (j < M)%nat /\ (acc < Cmod (p N j))%R) \/ forall j, (j < M)%nat -> (Cmod (p N j) <= acc)%R).
          { induction M as [|M IHM].
            - right. intros. lia.
            - destruct IHM as [(j & Hj & X)|X].
              + intros. apply IH; lia.
              + left. exists j. split; auto.
              + destruct (Rlt_dec acc (Cmod (p N M))) as [Y|Y].
                * left. exists M. auto.
                * right. intros j Hj. destruct (Nat.eq_dec j M) as [->|]; [lra|apply X; lia]. }
          destruct E as [(j & Hj & X)|X].
          + left. exists N, j. auto.
          + right. intros i j Hi Hj. destruct (Nat.eq_dec i N) as [->|]; [auto|apply IH; lia]. }
      destruct (D n n) as [(i & j & [Hi Hj] & X)|X]; [|contradiction].
      exists i, j. split; auto. rewrite <- (Hp i j Hi Hj). exact X.
    + unfold taylor in *.
      change (msum (S (S (S k))) (taylor_term n A))
        with (madd (msum (S (S k)) (taylor_term n A)) (taylor_term n A (S (S k)))).
      rewrite Hr, Hq. reflexivity.
  - inversion H; subst. exists k. split; [lia|]. split; [exact Hr|]. split; [|intros; lia].
    intros i j Hi Hj. rewrite <- (Hp i j Hi Hj).
    revert i j Hi Hj. apply max_abs_spec; auto. lra.
Qed.

(** The dynamic version stops exactly at the first term all of whose entries
    are at most [acc], and returns the Taylor sum up to and including it. *)
Theorem C25_tf_expm_dynamic_is_taylor :
  forall fuel n A acc res, (0 <= acc)%R ->
  tf_expm_dynamic fuel n A acc = Ok res ->
  exists K, meq n n res (taylor n A (S (S K)))
   /\ (forall i j, (i < n)%nat -> (j < n)%nat -> (Cmod (taylor_term n A (S K) i j) <= acc)%R)
   /\ (forall l, (l < K)%nat -> exists i j, (i < n /\ j < n)%nat /\ (acc < Cmod (taylor_term n A (S l) i j))%R).
Proof.
  intros fuel n A acc res Hacc H.
  destruct (expm_loop_spec n A acc fuel 0 _ _ res Hacc (taylor_2 n A)
              (taylor_term_1s n A) H) as (K & _ & H1 & H2 & H3).
  exists K. split; [exact H1|]. split; [exact H2|]. intros l Hl. apply H3. lia.
Qed.
Print Assumptions C25_tf_expm_dynamic_is_taylor.

(** It terminates on every matrix for every positive accuracy. *)
Theorem C25_tf_expm_dynamic_terminates :
  forall n A acc, (0 < acc)%R -> exists fuel res, tf_expm_dynamic fuel n A acc = Ok res.
Proof.
  intros n A acc Hacc.
  set (x := (INR n * max_abs n A)%R).
  assert (H0 : (0 <= max_abs n A)%R).
  { unfold max_abs. destruct n; cbn [rmax_upto]; [lra|].
    eapply Rle_trans; [|apply Rmax_r]. destruct n; cbn [rmax_upto].
    - apply Rmax_l.
    - eapply Rle_trans; [apply Cmod_ge_0|apply Rmax_r]. }
  assert (HA : forall i j, (i < n)%nat -> (j < n)%nat -> (Cmod (A i j) <= max_abs n A)%R).
  { apply max_abs_spec; auto. lra. }
  destruct (cv_speed_pow_fact x acc Hacc) as [N HN].
  assert (Small : forall k, (N <= k)%nat -> (max_abs n (taylor_term n A k) <= acc)%R).
  { intros k Hk. apply max_abs_spec; [lra|]. intros i j Hi Hj.
    unfold taylor_term, mscale. rewrite Cmod_mult, Cmod_inv by apply fact_C_neq_0.
    rewrite Cmod_R, Rabs_right by (apply Rle_ge, pos_INR).
    specialize (HN k Hk). unfold R_dist in HN. rewrite Rminus_0_r in HN.
    pose proof (mpow_bound n A _ H0 HA k i j Hi Hj) as B. fold x in B.
    assert (P : (0 < / INR (fact k))%R) by (apply Rinv_0_lt_compat, INR_fact_lt_0).
    apply Rabs_def2 in HN. unfold Rdiv in HN. nra. }
  assert (G : forall d k r p, (N <= k + d)%nat -> meq n n p (taylor_term n A (S k)) ->
             exists res, expm_loop n A acc (S d) (S (S k)) r p = Ok res).
  { induction d as [|d IH]; intros k r p Hk Hp.
    - cbn [expm_loop]. destruct (Rlt_dec acc (max_abs n p)) as [L|L]; [|eauto]. exfalso.
      assert (E : (max_abs n p <= acc)%R).
      { apply max_abs_spec; [lra|]. intros i j Hi Hj. rewrite (Hp i j Hi Hj).
        revert i j Hi Hj. apply max_abs_spec; [lra|]. apply Small. lia. }
      lra.
    - change (expm_loop n A acc (S (S d)) (S (S k)) r p) with
        (if Rlt_dec acc (max_abs n p)
         then let p' := mscale (/ RtoC (INR (S (S k)))) (mmul n p A) in
              expm_loop n A acc (S d) (S (S (S k))) (madd r p') p'
         else Ok r).
      destruct (Rlt_dec acc (max_abs n p)) as [L|L]; [|eauto].
      apply IH; [lia|]. apply (taylor_term_S n A (S k) p Hp). }
  destruct (G N 0%nat (madd mid A) A ltac:(lia) (taylor_term_1s n A)) as [res H].
  exists (S N), res. exact H.
Qed.
Print Assumptions C25_tf_expm_dynamic_terminates.

(** Non-trivial instance: three terms of a nilpotent matrix. *)
Example C25_example :
  let A : mat := fun i j => if andb (Nat.eqb i 0) (Nat.eqb j 1) then RtoC 2 else RtoC 0 in
  tf_expm 2 A 5 0%nat 1%nat = RtoC 2 /\ tf_expm 2 A 5 0%nat 0%nat = RtoC 1.
Proof.
  split; unfold tf_expm; cbn [seq Nat.sub fold_left];
    unfold expm_step, madd, mscale, mmul, mid; cbn; ring.
Qed.
