(** The matrix exponential as the entrywise limit of its Taylor series, and the
    facts about it used for the propagators: tf.linalg.expm is modelled by
    [mexp]. *)
From Verif Require Import Base Mat.
From Coq Require Import Setoid Morphisms.
From Coquelicot Require Import Coquelicot.
Local Open Scope C_scope.

Fixpoint Cpow (c : C) (k : nat) : C :=
  match k with 0%nat => RtoC 1 | S k' => c * Cpow c k' end.

(** ** Complex series *)
Definition is_cser (a : nat -> C) (l : C) : Prop :=
  is_series (fun k => fst (a k)) (fst l) /\ is_series (fun k => snd (a k)) (snd l).
Definition acser (a : nat -> C) : Prop := ex_series (fun k => Cmod (a k)).
Definition cser (a : nat -> C) : C := (Series (fun k => fst (a k)), Series (fun k => snd (a k))).

Lemma fst_le_Cmod : forall z, (Rabs (fst z) <= Cmod z)%R.
Proof.
  intros [x y]. unfold Cmod. simpl. rewrite <- sqrt_Rsqr_abs. apply sqrt_le_1_alt. unfold Rsqr. nra.
Qed.
Lemma snd_le_Cmod : forall z, (Rabs (snd z) <= Cmod z)%R.
Proof.
  intros [x y]. unfold Cmod. simpl. rewrite <- sqrt_Rsqr_abs. apply sqrt_le_1_alt. unfold Rsqr. nra.
Qed.
Lemma Cmod_le_sum : forall z, (Cmod z <= Rabs (fst z) + Rabs (snd z))%R.
Proof.
  intros [x y]. unfold Cmod. simpl.
  assert (P : (0 <= Rabs x + Rabs y)%R) by (pose proof (Rabs_pos x); pose proof (Rabs_pos y); lra).
  rewrite <- (sqrt_Rsqr (Rabs x + Rabs y)) by exact P.
  apply sqrt_le_1_alt. unfold Rsqr.
  assert (Ex : (x * (x * 1) = Rabs x * Rabs x)%R) by (rewrite <- Rabs_mult, Rabs_right; [ring|nra]).
  assert (Ey : (y * (y * 1) = Rabs y * Rabs y)%R) by (rewrite <- Rabs_mult, Rabs_right; [ring|nra]).
  rewrite Ex, Ey. pose proof (Rabs_pos x). pose proof (Rabs_pos y). nra.
Qed.

Lemma acser_fst : forall a, acser a -> ex_series (fun k => Rabs (fst (a k))).
Proof.
  intros a H. apply (@ex_series_le R_AbsRing R_CompleteNormedModule _ (fun k => Cmod (a k))); auto.
  intro k. unfold norm; simpl; unfold abs; simpl. rewrite Rabs_Rabsolu. apply fst_le_Cmod.
Qed.
Lemma acser_snd : forall a, acser a -> ex_series (fun k => Rabs (snd (a k))).
Proof.
  intros a H. apply (@ex_series_le R_AbsRing R_CompleteNormedModule _ (fun k => Cmod (a k))); auto.
  intro k. unfold norm; simpl; unfold abs; simpl. rewrite Rabs_Rabsolu. apply snd_le_Cmod.
Qed.
Lemma cser_correct : forall a, acser a -> is_cser a (cser a).
Proof.
  intros a H. split; apply Series_correct; apply ex_series_Rabs; [apply acser_fst|apply acser_snd]; auto.
Qed.
Lemma cser_unique : forall a l, is_cser a l -> cser a = l.
Proof.
  intros a l [H1 H2]. unfold cser. rewrite (is_series_unique _ _ H1), (is_series_unique _ _ H2).
  destruct l; auto.
Qed.
Lemma is_cser_det : forall a l l', is_cser a l -> is_cser a l' -> l = l'.
Proof. intros a l l' H H'. rewrite <- (cser_unique _ _ H). apply cser_unique; auto. Qed.
Lemma is_cser_ext : forall a b l, (forall k, a k = b k) -> is_cser a l -> is_cser b l.
Proof.
  intros a b l E [H1 H2]. split; eapply is_series_ext; eauto; intro k; simpl; rewrite E; auto.
Qed.
Lemma is_cser_plus : forall a b la lb, is_cser a la -> is_cser b lb -> is_cser (fun k => a k + b k) (la + lb).
Proof.
  intros a b la lb [A1 A2] [B1 B2]. split.
  - apply (is_series_plus (V := R_NormedModule) _ _ _ _ A1 B1).
  - apply (is_series_plus (V := R_NormedModule) _ _ _ _ A2 B2).
Qed.
Lemma is_cser_0 : is_cser (fun _ => RtoC 0) (RtoC 0).
Proof.
  assert (H : is_series (fun _ : nat => 0%R) 0%R).
  { apply is_series_Reals. intros eps He. exists 0%nat. intros n _.
    rewrite sum_eq_R0 by auto. unfold R_dist. rewrite Rminus_0_r, Rabs_R0. exact He. }
  split; exact H.
Qed.
Lemma is_cser_scale : forall c a l, is_cser a l -> is_cser (fun k => c * a k) (c * l).
Proof.
  intros [x y] a [u v] [H1 H2]. simpl in H1, H2. split; simpl.
  - apply (is_series_ext (fun k => plus (scal x (fst (a k))) (opp (scal y (snd (a k)))))).
    + intro k. unfold plus, opp, scal; simpl; unfold mult; simpl. ring.
    + replace (x * u - y * v)%R with (plus (scal x u) (opp (scal y v)))
        by (unfold plus, opp, scal; simpl; unfold mult; simpl; ring).
      apply (is_series_minus (V := R_NormedModule)); apply (is_series_scal (V := R_NormedModule)); auto.
  - apply (is_series_ext (fun k => plus (scal x (snd (a k))) (scal y (fst (a k))))).
    + intro k. unfold plus, opp, scal; simpl; unfold mult; simpl. ring.
    + replace (x * v + y * u)%R with (plus (scal x v) (scal y u))
        by (unfold plus, opp, scal; simpl; unfold mult; simpl; ring).
      apply (is_series_plus (V := R_NormedModule)); apply (is_series_scal (V := R_NormedModule)); auto.
Qed.
Lemma is_cser_conj : forall a l, is_cser a l -> is_cser (fun k => Cconj (a k)) (Cconj l).
Proof.
  intros a l [H1 H2]. split; simpl; auto. apply (is_series_opp (V := R_NormedModule)). auto.
Qed.
Lemma is_cser_sum : forall n (a : nat -> nat -> C) l,
    (forall i, (i < n)%nat -> is_cser (fun k => a k i) (l i)) ->
    is_cser (fun k => csum n (a k)) (csum n l).
Proof.
  induction n; intros a l H; simpl.
  - apply is_cser_0.
  - apply is_cser_plus; auto.
Qed.

Lemma sum_csum_fst : forall (f : nat -> C) n, sum_f_R0 (fun k => fst (f k)) n = fst (csum (S n) f).
Proof. intros f. induction n; simpl in *; [ring|]. rewrite IHn. reflexivity. Qed.
Lemma sum_csum_snd : forall (f : nat -> C) n, sum_f_R0 (fun k => snd (f k)) n = snd (csum (S n) f).
Proof. intros f. induction n; simpl in *; [ring|]. rewrite IHn. reflexivity. Qed.

Lemma is_cser_cauchy : forall a b la lb, is_cser a la -> is_cser b lb -> acser a -> acser b ->
    is_cser (fun n => csum (S n) (fun k => a k * b (n - k)%nat)) (la * lb).
Proof.
  intros a b la lb [A1 A2] [B1 B2] Ha Hb.
  pose proof (acser_fst _ Ha) as HA1. pose proof (acser_snd _ Ha) as HA2.
  pose proof (acser_fst _ Hb) as HB1. pose proof (acser_snd _ Hb) as HB2.
  pose proof (is_series_mult _ _ _ _ A1 B1 HA1 HB1) as M11.
  pose proof (is_series_mult _ _ _ _ A2 B2 HA2 HB2) as M22.
  pose proof (is_series_mult _ _ _ _ A1 B2 HA1 HB2) as M12.
  pose proof (is_series_mult _ _ _ _ A2 B1 HA2 HB1) as M21.
  split.
  - apply (is_series_ext (fun n => plus (sum_f_R0 (fun k => (fst (a k) * fst (b (n - k)%nat))%R) n)
                             (opp (sum_f_R0 (fun k => (snd (a k) * snd (b (n - k)%nat))%R) n)))).
    + intro n. rewrite <- sum_csum_fst. unfold plus, opp; simpl.
      replace (- sum_f_R0 (fun k : nat => snd (a k) * snd (b (n - k)%nat)) n)%R
        with (- (1) * sum_f_R0 (fun k : nat => snd (a k) * snd (b (n - k)%nat)) n)%R by ring.
      rewrite scal_sum, <- sum_plus. apply sum_eq. intros; simpl; ring.
    + apply (is_series_minus (V := R_NormedModule)); auto.
  - apply (is_series_ext (fun n => plus (sum_f_R0 (fun k => (fst (a k) * snd (b (n - k)%nat))%R) n)
                             (sum_f_R0 (fun k => (snd (a k) * fst (b (n - k)%nat))%R) n))).
    + intro n. rewrite <- sum_csum_snd. unfold plus; simpl. rewrite <- sum_plus. apply sum_eq. intros; simpl; ring.
    + apply (is_series_plus (V := R_NormedModule)); auto.
Qed.

(** ** The exponential *)
(** k-th Taylor term A^k/k!. *)
Definition taylor_term (n : nat) (A : mat) (k : nat) : mat :=
  mscale (/ RtoC (INR (fact k))) (mpow n A k).
Definition mexp (n : nat) (A : mat) : mat := fun i j => cser (fun k => taylor_term n A k i j).

Lemma fact_C_neq_0 : forall k, RtoC (INR (fact k)) <> RtoC 0.
Proof. intros k E. apply (INR_fact_neq_0 k). apply (f_equal fst) in E. exact E. Qed.

Lemma mpow_bound : forall n A a, (0 <= a)%R ->
    (forall i j, (i < n)%nat -> (j < n)%nat -> (Cmod (A i j) <= a)%R) ->
    forall k i j, (i < n)%nat -> (j < n)%nat -> (Cmod (mpow n A k i j) <= (INR n * a) ^ k)%R.
Proof.
  intros n A a Ha HA. induction k as [|k IH]; intros i j Hi Hj.
  - cbn [mpow pow]. unfold mid. destruct (Nat.eqb i j).
    + rewrite Cmod_1. lra.
    + rewrite Cmod_0. lra.
  - cbn [mpow]. unfold mmul.
    assert (B : forall m, (m <= n)%nat ->
       (Cmod (csum m (fun l => (mpow n A k i l * A l j)%C)) <= INR m * ((INR n * a) ^ k * a))%R).
    { induction m as [|m IHm]; intro Hm.
      - cbn [csum]. rewrite Cmod_0. simpl. lra.
      - cbn [csum]. rewrite S_INR. eapply Rle_trans; [apply Cmod_triangle|].
        rewrite Cmod_mult. assert (Hl : (m < n)%nat) by lia.
        specialize (IHm ltac:(lia)). pose proof (IH i m Hi Hl). pose proof (HA m j Hl Hj).
        assert ((Cmod (mpow n A k i m) * Cmod (A m j) <= (INR n * a) ^ k * a)%R).
        { apply Rmult_le_compat; auto using Cmod_ge_0. }
        lra. }
    eapply Rle_trans; [apply (B n); lia|]. cbn [pow].
    apply Req_le. ring.
Qed.

Lemma entries_bounded : forall n (A : mat), exists a, (0 <= a)%R /\
    forall i j, (i < n)%nat -> (j < n)%nat -> (Cmod (A i j) <= a)%R.
Proof.
  intros n A.
  assert (R1 : forall (f : nat -> R) m, (forall i, (0 <= f i)%R) -> exists a, (0 <= a)%R /\ forall i, (i < m)%nat -> (f i <= a)%R).
  { intros f m Hf. induction m as [|m (a & Ha & H)].
    - exists 0%R. split; [lra|]. intros; lia.
    - exists (a + f m)%R. split; [specialize (Hf m); lra|]. intros i Hi.
      destruct (Nat.eq_dec i m) as [->|]; [lra|]. specialize (H i ltac:(lia)). specialize (Hf m). lra. }
  assert (R2 : forall m, exists a, (0 <= a)%R /\ forall i j, (i < m)%nat -> (j < n)%nat -> (Cmod (A i j) <= a)%R).
  { induction m as [|m (a & Ha & H)].
    - exists 0%R. split; [lra|]. intros; lia.
    - destruct (R1 (fun j => Cmod (A m j)) n (fun j => Cmod_ge_0 _)) as (b & Hb & Hb').
      exists (a + b)%R. split; [lra|]. intros i j Hi Hj.
      destruct (Nat.eq_dec i m) as [->|]; [specialize (Hb' j Hj); simpl in Hb'; lra|].
      specialize (H i j ltac:(lia) Hj). lra. }
  apply R2.
Qed.

Lemma taylor_abs : forall n A i j, (i < n)%nat -> (j < n)%nat -> acser (fun k => taylor_term n A k i j).
Proof.
  intros n A i j Hi Hj. destruct (entries_bounded n A) as (a & Ha & HA). unfold acser.
  apply (@ex_series_le R_AbsRing R_CompleteNormedModule _
           (fun k => (/ INR (fact k) * (INR n * a) ^ k)%R)).
  - intro k. unfold norm; simpl; unfold abs; simpl. rewrite Rabs_right by (apply Rle_ge, Cmod_ge_0).
    unfold taylor_term, mscale. rewrite Cmod_mult, Cmod_inv by apply fact_C_neq_0.
    rewrite Cmod_R, Rabs_right by (apply Rle_ge, pos_INR).
    apply Rmult_le_compat_l; [left; apply Rinv_0_lt_compat, INR_fact_lt_0|].
    apply mpow_bound; auto.
  - exists (exp (INR n * a)). pose proof (is_exp_Reals (INR n * a)) as H.
    unfold is_pseries in H. eapply is_series_ext; [|exact H].
    intro k. unfold scal; simpl; unfold mult; simpl. rewrite pow_n_pow. ring.
Qed.
Lemma mexp_is : forall n A i j, (i < n)%nat -> (j < n)%nat ->
    is_cser (fun k => taylor_term n A k i j) (mexp n A i j).
Proof. intros. apply cser_correct, taylor_abs; auto. Qed.
Lemma mexp_eq : forall n A i j l, is_cser (fun k => taylor_term n A k i j) l -> mexp n A i j = l.
Proof. intros. apply cser_unique; auto. Qed.

Lemma mpow_mor : forall n A B, meq n n A B -> forall k, meq n n (mpow n A k) (mpow n B k).
Proof.
  intros n A B H. induction k as [|k IH]; cbn [mpow].
  - reflexivity.
  - rewrite IH, H. reflexivity.
Qed.
Global Instance taylor_proper : forall n, Proper (meq n n ==> eq ==> meq n n) (taylor_term n).
Proof. intros n A B H k k' <-. unfold taylor_term. rewrite (mpow_mor n A B H k). reflexivity. Qed.
Global Instance mexp_proper : forall n, Proper (meq n n ==> meq n n) (mexp n).
Proof.
  intros n A B H i j Hi Hj. apply mexp_eq. eapply is_cser_ext; [|apply mexp_is; auto].
  intro k. symmetry. apply (taylor_proper n A B H k k eq_refl); auto.
Qed.

Lemma mpow_S_l : forall n A k, meq n n (mpow n A (S k)) (mmul n A (mpow n A k)).
Proof.
  intros n A. induction k as [|k IH].
  - cbn [mpow]. rewrite mmul_id_l, mmul_id_r. reflexivity.
  - change (mpow n A (S (S k))) with (mmul n (mpow n A (S k)) A).
    rewrite IH at 1. rewrite <- mmul_assoc. reflexivity.
Qed.
Lemma mpow_adj : forall n A k, meq n n (mpow n (madj A) k) (madj (mpow n A k)).
Proof.
  intros n A. induction k as [|k IH].
  - cbn [mpow]. symmetry. apply madj_id.
  - rewrite mpow_S_l, IH. cbn [mpow]. rewrite madj_mmul. reflexivity.
Qed.
Lemma mpow_add : forall n A p q, meq n n (mpow n A (p + q)) (mmul n (mpow n A p) (mpow n A q)).
Proof.
  intros n A p q. induction q as [|q IH].
  - rewrite Nat.add_0_r. cbn [mpow]. rewrite mmul_id_r. reflexivity.
  - rewrite Nat.add_succ_r. cbn [mpow]. rewrite IH, mmul_assoc. reflexivity.
Qed.
Lemma mpow_scale : forall n c A k, meq n n (mpow n (mscale c A) k) (mscale (Cpow c k) (mpow n A k)).
Proof.
  intros n c A. induction k as [|k IH]; cbn [mpow Cpow].
  - rewrite mscale_1. reflexivity.
  - rewrite IH, mmul_scale_l, mmul_scale_r, mscale_mscale.
    intros i j Hi Hj. unfold mscale. ring.
Qed.

(** exp(A)† = exp(A†) *)
Lemma mexp_adj : forall n A, meq n n (madj (mexp n A)) (mexp n (madj A)).
Proof.
  intros n A i j Hi Hj. symmetry. apply mexp_eq. unfold madj at 2.
  eapply is_cser_ext; [|apply is_cser_conj, (mexp_is n A j i); auto].
  intro k. unfold taylor_term, mscale. rewrite (mpow_adj n A k i j Hi Hj). unfold madj.
  rewrite conj_mult. f_equal.
  assert (E : / RtoC (INR (fact k)) = RtoC (/ INR (fact k))%R).
  { symmetry. apply RtoC_inv. apply INR_fact_neq_0. }
  rewrite E. apply conj_R.
Qed.

(** exp(sA) exp(tA) = exp((s+t)A) for real s, t *)
Lemma binom_C : forall (s t : R) k,
    csum (S k) (fun i => RtoC (s ^ i / INR (fact i) * (t ^ (k - i) / INR (fact (k - i))))%R)
    = RtoC ((s + t) ^ k / INR (fact k))%R.
Proof.
  intros s t k. rewrite binomial. 
  assert (G : forall f m, csum (S m) (fun i => RtoC (f i)) = RtoC (sum_f_R0 f m)).
  { intros f m. induction m; [simpl; ring|]. change (csum (S (S m)) (fun i => RtoC (f i)))
      with (csum (S m) (fun i => RtoC (f i)) + RtoC (f (S m))). rewrite IHm, <- RtoC_plus. reflexivity. }
  rewrite (G (fun i => (s ^ i / INR (fact i) * (t ^ (k - i) / INR (fact (k - i))))%R)). f_equal.
  unfold Rdiv at 3. rewrite Rmult_comm, scal_sum. apply sum_eq. intros i Hi.
  unfold Binomial.C. field. repeat split; apply INR_fact_neq_0.
Qed.

Lemma RtoC_pow : forall (s : R) k, Cpow (RtoC s) k = RtoC (s ^ k)%R.
Proof. induction k; simpl; auto. rewrite IHk. symmetry. apply RtoC_mult. Qed.

Lemma taylor_real : forall n A s k i j, (i < n)%nat -> (j < n)%nat ->
    taylor_term n (mscale (RtoC s) A) k i j = RtoC (s ^ k / INR (fact k))%R * mpow n A k i j.
Proof.
  intros n A s k i j Hi Hj. unfold taylor_term, mscale at 1. rewrite (mpow_scale n (RtoC s) A k i j Hi Hj).
  unfold mscale. rewrite RtoC_pow. unfold Rdiv. rewrite RtoC_mult, RtoC_inv by apply INR_fact_neq_0. ring.
Qed.

Lemma mexp_add : forall n A (s t : R),
    meq n n (mmul n (mexp n (mscale (RtoC s) A)) (mexp n (mscale (RtoC t) A)))
            (mexp n (mscale (RtoC (s + t)) A)).
Proof.
  intros n A s t i j Hi Hj. symmetry. apply mexp_eq. unfold mmul.
  eapply is_cser_ext; [|apply (is_cser_sum n
     (fun k l => csum (S k) (fun p => taylor_term n (mscale (RtoC s) A) p i l
                                     * taylor_term n (mscale (RtoC t) A) (k - p)%nat l j)))].
  - intro k. cbv beta. rewrite csum_swap.
    rewrite taylor_real by auto. rewrite <- binom_C.
    rewrite <- csum_scale_r. apply csum_ext. intros p Hp.
    transitivity (csum n (fun l => RtoC (s ^ p / INR (fact p) * (t ^ (k - p) / INR (fact (k - p))))%R
                              * (mpow n A p i l * mpow n A (k - p) l j))).
    + apply csum_ext. intros l Hl. rewrite !taylor_real by auto. rewrite (RtoC_mult (s ^ p / INR (fact p))). ring.
    + rewrite csum_scale. f_equal. symmetry.
      replace k with (p + (k - p))%nat at 1 by lia. apply (mpow_add n A p (k - p) i j Hi Hj).
  - intros l Hl.
    apply (is_cser_cauchy (fun p => taylor_term n (mscale (RtoC s) A) p i l)
                          (fun q => taylor_term n (mscale (RtoC t) A) q l j));
      try apply mexp_is; try apply taylor_abs; auto.
Qed.

Lemma mpow_zero : forall n k, meq n n (mpow n mzero (S k)) mzero.
Proof. intros. cbn [mpow]. apply mmul_zero_r. Qed.
Lemma is_cser_first : forall a l, a 0%nat = l -> (forall k, a (S k) = RtoC 0) -> is_cser a l.
Proof.
  intros a l H0 H.
  assert (G : forall f : nat -> R, (forall k, f (S k) = 0%R) -> is_series f (f 0%nat)).
  { intros f Hf. apply is_series_decr_1. 
    apply (is_series_ext (fun _ => 0%R)); [intro; symmetry; apply Hf|].
    rewrite plus_opp_r.
    apply (proj1 is_cser_0). }
  subst l. split.
  - apply (G (fun k => fst (a k))). intro k. rewrite H. reflexivity.
  - apply (G (fun k => snd (a k))). intro k. rewrite H. reflexivity.
Qed.
Lemma mexp_0 : forall n, meq n n (mexp n mzero) mid.
Proof.
  intros n i j Hi Hj. apply mexp_eq. apply is_cser_first.
  - unfold taylor_term, mscale. cbn [mpow]. simpl fact. change (INR 1) with 1%R. field.
    intro E. apply (f_equal fst) in E. simpl in E. lra.
  - intro k. unfold taylor_term, mscale. rewrite (mpow_zero n k i j Hi Hj). unfold mzero. ring.
Qed.

(** exp(A) exp(-A) = 1 *)
Lemma mexp_inv : forall n A, meq n n (mmul n (mexp n A) (mexp n (mscale (RtoC (-1)) A))) mid
                          /\ meq n n (mmul n (mexp n (mscale (RtoC (-1)) A)) (mexp n A)) mid.
Proof.
  intros n A.
  assert (E1 : meq n n A (mscale (RtoC 1) A)) by (symmetry; apply mscale_1).
  assert (Z : forall s, s = 0%R -> meq n n (mscale (RtoC s) A) mzero).
  { intros s ->. intros i j _ _. unfold mscale, mzero. ring. }
  split.
  - rewrite E1 at 1. rewrite mexp_add, Z by ring. apply mexp_0.
  - rewrite E1 at 2. rewrite mexp_add, Z by ring. apply mexp_0.
Qed.

(** The exponential of -i t H is unitary for Hermitian H. *)
Lemma mexp_unitary : forall n H (t : R), hermitian n H -> unitary n (mexp n (mscale (- Ci * RtoC t) H)).
Proof.
  intros n H t HH. unfold hermitian in HH.
  assert (E : meq n n (madj (mexp n (mscale (- Ci * RtoC t) H)))
                      (mexp n (mscale (RtoC (-1)) (mscale (- Ci * RtoC t) H)))).
  { rewrite mexp_adj. apply mexp_proper. rewrite madj_scale. rewrite HH.
    intros i j _ _. unfold mscale. rewrite conj_mult, conj_opp, conj_i, conj_R.
    replace (RtoC (-1)) with (- RtoC 1) by (rewrite <- RtoC_opp; reflexivity). ring. }
  destruct (mexp_inv n (mscale (- Ci * RtoC t) H)) as [I1 I2].
  split; rewrite E; auto.
Qed.

(** Conjugation by an invertible matrix. *)
Lemma mexp_conj : forall n V W A, meq n n (mmul n W V) mid -> meq n n (mmul n V W) mid ->
    meq n n (mexp n (mmul n (mmul n V A) W)) (mmul n (mmul n V (mexp n A)) W).
Proof.
  intros n V W A HWV HVW.
  assert (P : forall k, meq n n (mpow n (mmul n (mmul n V A) W) k) (mmul n (mmul n V (mpow n A k)) W)).
  { induction k as [|k IH]; cbn [mpow].
    - rewrite mmul_id_r. symmetry. exact HVW.
    - rewrite IH. rewrite <- !mmul_assoc. rewrite (mmul_assoc n n n n W V). rewrite HWV, mmul_id_l.
      reflexivity. }
  revert P. generalize (mmul n (mmul n V A) W). intros B P.
  intros i j Hi Hj. apply mexp_eq. unfold mmul.
  eapply is_cser_ext; [|apply (is_cser_sum n (fun k l => csum n (fun m => V i m * taylor_term n A k m l) * W l j))].
  - intro k. cbv beta. unfold taylor_term at 2. unfold mscale. rewrite (P k i j Hi Hj).
    unfold mmul. rewrite <- csum_scale. apply csum_ext. intros l Hl.
    rewrite <- !csum_scale_r, <- csum_scale. apply csum_ext. intros m Hm. unfold taylor_term, mscale. ring.
  - intros l Hl. cbv beta.
    eapply is_cser_ext; [|rewrite Cmult_comm; apply is_cser_scale].
    + intro k. cbv beta. rewrite Cmult_comm. reflexivity.
    + apply (is_cser_sum n (fun k m => V i m * taylor_term n A k m l)). intros m Hm.
      apply is_cser_scale. apply mexp_is; auto.
Qed.
(** A row annihilated by A is preserved by exp(A) (conservation laws). *)
Lemma mexp_row : forall n (v : nat -> C) A,
    (forall j, (j < n)%nat -> csum n (fun i => v i * A i j) = RtoC 0) ->
    forall j, (j < n)%nat -> csum n (fun i => v i * mexp n A i j) = v j.
Proof.
  intros n v A H j Hj.
  assert (P : forall k i, (i < n)%nat -> csum n (fun l => v l * mpow n A (S k) l i) = RtoC 0).
  { intros k i Hi.
    transitivity (csum n (fun l => csum n (fun m => v l * A l m * mpow n A k m i))).
    - apply csum_ext. intros l Hl. rewrite (mpow_S_l n A k l i Hl Hi). unfold mmul.
      rewrite <- csum_scale. apply csum_ext. intros; ring.
    - rewrite csum_swap. apply csum_0. intros m Hm. rewrite csum_scale_r, H by auto. ring. }
  apply (is_cser_det (fun k => csum n (fun i => v i * taylor_term n A k i j))).
  - apply (is_cser_sum n (fun k i => v i * taylor_term n A k i j)). intros i Hi.
    apply is_cser_scale, mexp_is; auto.
  - apply is_cser_first.
    + rewrite (csum_ext n _ (fun i => v i * (if Nat.eqb i j then RtoC 1 else RtoC 0))).
      * apply csum_delta_r; auto.
      * intros i Hi. unfold taylor_term, mscale. cbn [mpow]. simpl fact. change (INR 1) with 1%R.
        unfold mid. destruct (Nat.eqb i j); field; intro E; apply (f_equal fst) in E; simpl in E; lra.
    + intro k. transitivity (/ RtoC (INR (fact (S k))) * csum n (fun l => v l * mpow n A (S k) l j)).
      * rewrite <- csum_scale. apply csum_ext. intros i Hi. unfold taylor_term, mscale. ring.
      * rewrite P by auto. ring.
Qed.

(** ** exp(i theta) and diagonal matrices *)
Definition expi (t : R) : C := (cos t, sin t).
Lemma expi_add : forall s t, expi (s + t) = expi s * expi t.
Proof. intros. unfold expi, Cmult. simpl. rewrite cos_plus, sin_plus. f_equal; ring. Qed.
Lemma expi_0 : expi 0 = RtoC 1.
Proof. unfold expi, RtoC. rewrite cos_0, sin_0. reflexivity. Qed.
Lemma expi_conj : forall t, Cconj (expi t) = expi (- t).
Proof. intros. unfold expi, Cconj. simpl. rewrite cos_neg, sin_neg. reflexivity. Qed.
Lemma expi_mod : forall t, Cmod (expi t) = 1%R.
Proof.
  intros. unfold Cmod, expi. simpl. replace (cos t * (cos t * 1) + sin t * (sin t * 1))%R with 1%R.
  - apply sqrt_1.
  - pose proof (sin2_cos2 t) as H. unfold Rsqr in H. lra.
Qed.

Lemma is_cser_expi : forall t, is_cser (fun k => / RtoC (INR (fact k)) * Cpow (Ci * RtoC t) k) (expi t).
Proof.
  intro t.
  assert (Pw : forall m, Cpow (Ci * RtoC t) (2 * m) = RtoC ((-1) ^ m * (t ^ 2) ^ m)%R
                    /\ Cpow (Ci * RtoC t) (S (2 * m)) = Ci * RtoC ((-1) ^ m * (t ^ 2) ^ m * t)%R).
  { assert (S2 : forall k, Cpow (Ci * RtoC t) (S (S k)) = RtoC (- (t ^ 2))%R * Cpow (Ci * RtoC t) k).
    { intro k. cbn [Cpow]. rewrite RtoC_opp. simpl pow. rewrite !RtoC_mult. 
      transitivity (Ci * Ci * (RtoC t * RtoC t) * Cpow (Ci * RtoC t) k); [ring|]. rewrite Ci_sqr. ring. }
    induction m as [|m [IH1 IH2]].
    - cbn [Nat.mul Nat.add Cpow pow]. split; [f_equal; ring|]. rewrite !RtoC_mult. ring.
    - replace (2 * S m)%nat with (S (S (2 * m))) by lia. rewrite S2, IH1.
      split; [rewrite <- RtoC_mult; f_equal; simpl; ring|].
      rewrite S2, IH2. transitivity (Ci * (RtoC (- t ^ 2) * RtoC ((-1) ^ m * (t ^ 2) ^ m * t))); [ring|].
      rewrite <- RtoC_mult. do 2 f_equal. simpl. ring. }
  assert (Inv : forall k, / RtoC (INR (fact k)) = RtoC (/ INR (fact k))%R).
  { intro. symmetry. apply RtoC_inv, INR_fact_neq_0. }
  assert (T : forall m, / RtoC (INR (fact (2 * m))) * Cpow (Ci * RtoC t) (2 * m) = RtoC (cos_n m * (Rsqr t) ^ m)%R
        /\ / RtoC (INR (fact (S (2 * m)))) * Cpow (Ci * RtoC t) (S (2 * m)) = Ci * RtoC (sin_n m * (Rsqr t) ^ m * t)%R).
  { intro m. destruct (Pw m) as [-> ->]. rewrite !Inv. unfold cos_n, sin_n.
    replace (t ^ 2)%R with (Rsqr t) by (unfold Rsqr; ring).
    replace (S (2 * m)) with (2 * m + 1)%nat by lia. split.
    - rewrite <- RtoC_mult. f_equal. unfold Rdiv. ring.
    - transitivity (Ci * (RtoC (/ INR (fact (2 * m + 1))) * RtoC ((-1) ^ m * Rsqr t ^ m * t))); [ring|].
      rewrite <- RtoC_mult. do 2 f_equal. unfold Rdiv. ring. }
  assert (Comb : forall (f : nat -> R) l1 l2, is_series (fun m => f (2 * m)%nat) l1 ->
       is_series (fun m => f (S (2 * m))) l2 -> is_series f (l1 + l2)%R).
  { intros f l1 l2 H1 H2.
    assert (G : is_pseries f 1%R (l1 + 1 * l2)%R).
    { apply is_pseries_odd_even; unfold is_pseries.
      - eapply is_series_ext; [|exact H1]. intro m. cbv beta. unfold scal; simpl; unfold mult; simpl.
        rewrite pow_n_pow. rewrite !Rmult_1_r, pow1. ring.
      - eapply is_series_ext; [|exact H2]. intro m. cbv beta. unfold scal; simpl; unfold mult; simpl.
        rewrite pow_n_pow. rewrite !Rmult_1_r, pow1. rewrite Rmult_1_l. f_equal. lia. }
    unfold is_pseries in G. replace (l1 + l2)%R with (l1 + 1 * l2)%R by ring.
    eapply is_series_ext; [|exact G]. intro k. unfold scal; simpl; unfold mult; simpl.
    rewrite pow_n_pow, pow1. ring. }
  assert (Z : is_series (fun _ : nat => 0%R) 0%R) by apply (proj1 is_cser_0).
  split.
  - change (fst (expi t)) with (cos t). replace (cos t) with (cos t + 0)%R by ring. apply Comb.
    + apply (is_series_ext (fun m => (cos_n m * Rsqr t ^ m)%R)).
      * intro m. destruct (T m) as [-> _]. reflexivity.
      * unfold cos. destruct (exist_cos (Rsqr t)) as [l Hl]. apply is_series_Reals. exact Hl.
    + apply (is_series_ext (fun m => 0%R)); [|exact Z].
      intro m. destruct (T m) as [_ ->]. simpl. ring.
  - change (snd (expi t)) with (sin t). replace (sin t) with (0 + sin t)%R by ring. apply Comb.
    + apply (is_series_ext (fun m => 0%R)); [|exact Z].
      intro m. destruct (T m) as [-> _]. reflexivity.
    + apply (is_series_ext (fun m => scal t (sin_n m * Rsqr t ^ m)%R)).
      * intro m. destruct (T m) as [_ ->]. unfold scal; simpl; unfold mult; simpl. ring.
      * unfold sin. destruct (exist_sin (Rsqr t)) as [l Hl].
        apply (is_series_scal (V := R_NormedModule)). apply is_series_Reals. exact Hl.
Qed.

Lemma mpow_diag : forall n A (d : nat -> C),
    meq n n A (fun i j => if Nat.eqb i j then d i else RtoC 0) ->
    forall k, meq n n (mpow n A k) (fun i j => if Nat.eqb i j then Cpow (d i) k else RtoC 0).
Proof.
  intros n A d HA. induction k as [|k IH]; cbn [mpow].
  - intros i j _ _. unfold mid. cbn [Cpow]. reflexivity.
  - rewrite IH, HA. intros i j Hi Hj. unfold mmul.
    rewrite (csum_single n i); auto.
    + rewrite Nat.eqb_refl. destruct (Nat.eqb i j); cbn [Cpow]; ring.
    + intros l Hl E. destruct (Nat.eqb_spec i l); [congruence|]. ring.
Qed.

(** Exponential of i times a real diagonal matrix. *)
Lemma mexp_diag : forall n A (w : nat -> R),
    meq n n A (fun i j => if Nat.eqb i j then Ci * RtoC (w i) else RtoC 0) ->
    meq n n (mexp n A) (fun i j => if Nat.eqb i j then expi (w i) else RtoC 0).
Proof.
  intros n A w HA i j Hi Hj. apply mexp_eq.
  pose proof (fun k => mpow_diag n A (fun i => Ci * RtoC (w i)) HA k i j Hi Hj) as P.
  destruct (Nat.eqb_spec i j) as [<-|E].
  - eapply is_cser_ext; [|apply is_cser_expi]. intro k. unfold taylor_term, mscale.
    rewrite P, Nat.eqb_refl. reflexivity.
  - eapply is_cser_ext; [|apply is_cser_0]. intro k. unfold taylor_term, mscale.
    rewrite P. destruct (Nat.eqb_spec i j); [contradiction|ring].
Qed.
