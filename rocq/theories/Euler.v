(** The row sum norm of complex matrices, error bounds for the Taylor series of the
    exponential, and Euler's limit exp(A) = lim (1 + A/m + E/m^2)^m. *)
From Coq Require Import Reals Lra Lia Setoid Morphisms.
From Coquelicot Require Import Coquelicot.
From Verif Require Import Base Mat MExp RSum.
Local Open Scope R_scope.

(** Every row of the [N] x [N] block of [M] has absolute sum at most [b]. *)
Definition bnd (N : nat) (M : mat) (b : R) : Prop :=
  forall i, (i < N)%nat -> rs N (fun j => Cmod (M i j)) <= b.

Lemma Cmod_csum : forall n f, Cmod (csum n f) <= rs n (fun i => Cmod (f i)).
Proof.
  induction n as [|n IH]; intro f; cbn [csum rs]; [rewrite Cmod_0; lra|].
  eapply Rle_trans; [apply Cmod_triangle|]. specialize (IH f). lra.
Qed.
Lemma bnd_proper : forall N M M' b, meq N N M M' -> bnd N M b -> bnd N M' b.
Proof.
  intros N M M' b E H i Hi. rewrite (rs_ext N _ (fun j => Cmod (M i j))); [apply H, Hi|].
  intros j Hj. rewrite (E i j Hi Hj). reflexivity.
Qed.
Lemma bnd_le : forall N M b b', bnd N M b -> b <= b' -> bnd N M b'.
Proof. intros N M b b' H L i Hi. eapply Rle_trans; [apply H, Hi|exact L]. Qed.
Lemma bnd_entry : forall N M b i j, bnd N M b -> (i < N)%nat -> (j < N)%nat -> Cmod (M i j) <= b.
Proof.
  intros N M b i j H Hi Hj. eapply Rle_trans; [|apply (H i Hi)].
  apply (rs_member N (fun j => Cmod (M i j))); [intros; apply Cmod_ge_0|exact Hj].
Qed.
Lemma bnd_pos : forall N M b, bnd N M b -> (0 < N)%nat -> 0 <= b.
Proof. intros N M b H HN. eapply Rle_trans; [|apply (H 0%nat HN)]. apply rs_nonneg. intros; apply Cmod_ge_0. Qed.
Lemma bnd_id : forall N, bnd N mid 1.
Proof.
  intros N i Hi. rewrite (rs_single N i); [|exact Hi|].
  - unfold mid. rewrite Nat.eqb_refl, Cmod_1. lra.
  - intros j _ Hj. unfold mid. destruct (Nat.eqb_spec i j); [congruence|apply Cmod_0].
Qed.
Lemma bnd_add : forall N A B a b, bnd N A a -> bnd N B b -> bnd N (madd A B) (a + b).
Proof.
  intros N A B a b HA HB i Hi. eapply Rle_trans.
  - apply (rs_le N _ (fun j => Cmod (A i j) + Cmod (B i j))). intros; apply Cmod_triangle.
  - rewrite rs_plus. specialize (HA i Hi). specialize (HB i Hi). lra.
Qed.
Lemma bnd_scale : forall N c A a, bnd N A a -> bnd N (mscale c A) (Cmod c * a).
Proof.
  intros N c A a HA i Hi. rewrite (rs_ext N _ (fun j => Cmod c * Cmod (A i j))) by (intros; apply Cmod_mult).
  rewrite rs_scale. apply Rmult_le_compat_l; [apply Cmod_ge_0|apply HA, Hi].
Qed.
Lemma bnd_mmul : forall N A B a b, (0 < N)%nat -> bnd N A a -> bnd N B b -> bnd N (mmul N A B) (a * b).
Proof.
  intros N A B a b HN HA HB i Hi. pose proof (bnd_pos _ _ _ HB HN) as Pb.
  eapply Rle_trans.
  - apply (rs_le N _ (fun j => rs N (fun k => Cmod (A i k) * Cmod (B k j)))). intros j Hj.
    unfold mmul. eapply Rle_trans; [apply Cmod_csum|]. apply Req_le, rs_ext. intros; apply Cmod_mult.
  - rewrite rs_swap. eapply Rle_trans.
    + apply (rs_le N _ (fun k => b * Cmod (A i k))). intros k Hk. rewrite rs_scale, Rmult_comm.
      apply Rmult_le_compat_r; [apply Cmod_ge_0|apply HB, Hk].
    + rewrite rs_scale, Rmult_comm. apply Rmult_le_compat_r; [exact Pb|apply HA, Hi].
Qed.
Lemma bnd_mpow : forall N A a k, (0 < N)%nat -> bnd N A a -> bnd N (mpow N A k) (a ^ k).
Proof.
  intros N A a k HN HA. induction k as [|k IH]; cbn [mpow pow]; [apply bnd_id|].
  rewrite Rmult_comm. apply bnd_mmul; assumption.
Qed.
Lemma bnd_exists : forall N A, exists a, 0 <= a /\ bnd N A a.
Proof.
  intros N A. destruct (entries_bounded N A) as (a & Ha & H). exists (INR N * a). split.
  - apply Rmult_le_pos; [apply pos_INR|exact Ha].
  - intros i Hi. rewrite <- rs_const. apply rs_le. intros j Hj. apply H; assumption.
Qed.

(** ** Series *)
Lemma is_series_le' : forall a b la lb, (forall k, a k <= b k) -> is_series a la -> is_series b lb -> la <= lb.
Proof.
  intros a b la lb H Ha Hb. apply (is_lim_seq_le (sum_n a) (sum_n b) la lb); [|exact Ha|exact Hb].
  intro n. apply sum_n_m_le. exact H.
Qed.
Lemma is_series_zero : is_series (fun _ : nat => 0) 0.
Proof.
  unfold is_series. apply filterlim_ext with (f := fun _ => 0).
  - intro n. rewrite sum_n_const. ring.
  - apply filterlim_const.
Qed.
Lemma is_series_rs : forall N (a : nat -> nat -> R) l, (forall j, (j < N)%nat -> is_series (fun k => a k j) (l j)) ->
  is_series (fun k => rs N (a k)) (rs N l).
Proof.
  induction N as [|N IH]; intros a l H; cbn [rs].
  - apply is_series_zero.
  - apply (is_series_plus (fun k => rs N (a k)) (fun k => a k N)); [apply IH; intros; apply H; lia|apply H; lia].
Qed.
(** A unit factor that turns [z] into its modulus. *)
Definition phase (z : C) : C := if Req_EM_T (Cmod z) 0 then RtoC 1 else (Cconj z * RtoC (/ Cmod z))%C.
Lemma phase_spec : forall z : C, Cmod (phase z) <= 1 /\ fst (phase z * z)%C = Cmod z.
Proof.
  intro z. unfold phase. destruct (Req_EM_T (Cmod z) 0) as [E|E].
  - rewrite Cmod_1. split; [lra|]. apply Cmod_eq_0 in E. subst z. rewrite Cmod_0. cbn. ring.
  - split.
    + rewrite Cmod_mult, conj_mod, Cmod_R, Rabs_right; [|apply Rle_ge, Rlt_le, Rinv_0_lt_compat; pose proof (Cmod_ge_0 z); lra].
      rewrite Rinv_r by exact E. lra.
    + replace (Cconj z * RtoC (/ Cmod z) * z)%C with ((Cconj z * z) * RtoC (/ Cmod z))%C by ring.
      rewrite conj_mod2. unfold RtoC, Cmult. cbn [fst snd]. field. exact E.
Qed.
Lemma cser_bound : forall N (T : nat -> nat -> C) (l : nat -> C) (u : nat -> R) U,
  (forall j, (j < N)%nat -> is_cser (fun k => T k j) (l j)) ->
  (forall k, rs N (fun j => Cmod (T k j)) <= u k) -> is_series u U ->
  rs N (fun j => Cmod (l j)) <= U.
Proof.
  intros N T l u U H Hu HU.
  apply (is_series_le' (fun k => rs N (fun j => fst (phase (l j) * T k j)%C)) u); [| |exact HU].
  - intro k. eapply Rle_trans; [|apply Hu]. apply rs_le. intros j Hj.
    eapply Rle_trans; [apply Rle_abs|]. eapply Rle_trans; [apply fst_le_Cmod|]. rewrite Cmod_mult.
    destruct (phase_spec (l j)) as [P _]. rewrite <- (Rmult_1_l (Cmod (T k j))) at 2.
    apply Rmult_le_compat_r; [apply Cmod_ge_0|exact P].
  - rewrite (rs_ext N (fun j => Cmod (l j)) (fun j => fst (phase (l j) * l j)%C)).
    + apply is_series_rs. intros j Hj. exact (proj1 (is_cser_scale (phase (l j)) _ _ (H j Hj))).
    + intros j Hj. symmetry. apply phase_spec.
Qed.

(** ** Taylor remainders *)
Lemma exp_series : forall a, is_series (fun k => / INR (fact k) * a ^ k) (exp a).
Proof.
  intro a. pose proof (is_exp_Reals a) as H. unfold is_pseries in H. eapply is_series_ext; [|exact H].
  intro k. unfold scal; simpl; unfold mult; simpl. rewrite pow_n_pow. ring.
Qed.
Lemma bnd_taylor : forall N A a k, (0 < N)%nat -> bnd N A a -> bnd N (taylor_term N A k) (/ INR (fact k) * a ^ k).
Proof.
  intros N A a k HN H. unfold taylor_term.
  replace (/ INR (fact k) * a ^ k) with (Cmod (/ RtoC (INR (fact k)))%C * a ^ k).
  - apply bnd_scale, bnd_mpow; assumption.
  - rewrite Cmod_inv by apply fact_C_neq_0. rewrite Cmod_R, Rabs_right by (apply Rle_ge, pos_INR). reflexivity.
Qed.
(** The Taylor polynomial with [r] terms. *)
Definition taylor_sum (N : nat) (A : mat) (r : nat) : mat := fun i j => csum r (fun k => taylor_term N A k i j).
Lemma is_cser_tail : forall a l r, is_cser a l -> is_cser (fun k => a (k + r)%nat) (l - csum r a)%C.
Proof.
  intros a l r. revert a l. induction r as [|r IH]; intros a l H.
  - cbn [csum]. replace (l - RtoC 0)%C with l by (apply C_ext; cbn; ring).
    eapply is_cser_ext; [|exact H]. intro k. cbv beta. f_equal. lia.
  - assert (TS : is_cser (fun k => a (S k)) (l - a 0%nat)%C).
    { destruct H as [H1 H2]. split; cbn [fst snd].
      - apply (is_series_incr_1 (fun k => fst (a k))). cbn. replace (plus _ (fst (a 0%nat))) with (fst l); [exact H1|].
        unfold plus; simpl; unfold Cminus, Cplus, Copp; cbn; ring.
      - apply (is_series_incr_1 (fun k => snd (a k))). cbn. replace (plus _ (snd (a 0%nat))) with (snd l); [exact H2|].
        unfold plus; simpl; unfold Cminus, Cplus, Copp; cbn; ring. }
    apply IH in TS. rewrite csum_head. replace (l - (a 0%nat + csum r (fun i => a (S i))))%C with (l - a 0%nat - csum r (fun i => a (S i)))%C by ring.
    eapply is_cser_ext; [|exact TS]. intro k. cbv beta. f_equal. lia.
Qed.
Lemma fact_le_prod : forall k r, INR (fact k) * INR (fact r) <= INR (fact (k + r)).
Proof.
  intros k r. rewrite <- mult_INR. apply le_INR. induction k as [|k IH]; [cbn; lia|].
  change (fact (S k)) with (S k * fact k)%nat. change (fact (S k + r)) with (S (k + r) * fact (k + r))%nat.
  rewrite <- Nat.mul_assoc. apply Nat.mul_le_mono; [lia|exact IH].
Qed.
Lemma tail_coef : forall a k r, 0 <= a -> / INR (fact (k + r)) * a ^ (k + r) <= (a ^ r / INR (fact r)) * (/ INR (fact k) * a ^ k).
Proof.
  intros a k r Ha. rewrite pow_add. pose proof (INR_fact_lt_0 k). pose proof (INR_fact_lt_0 r).
  assert (P : 0 <= a ^ k * a ^ r) by (apply Rmult_le_pos; apply pow_le; exact Ha).
  replace (a ^ r / INR (fact r) * (/ INR (fact k) * a ^ k)) with (/ (INR (fact k) * INR (fact r)) * (a ^ k * a ^ r)) by (field; lra).
  apply Rmult_le_compat_r; [exact P|]. apply Rinv_le_contravar; [nra|apply fact_le_prod].
Qed.
(** The Taylor polynomial with [r] terms misses exp(A) by at most a^r/r! exp(a). *)
Lemma taylor_remainder : forall N A a r, (0 < N)%nat -> bnd N A a ->
  bnd N (msub (mexp N A) (taylor_sum N A r)) (a ^ r / INR (fact r) * exp a).
Proof.
  intros N A a r HN H i Hi. pose proof (bnd_pos _ _ _ H HN) as Pa.
  apply (cser_bound N (fun k j => taylor_term N A (k + r) i j) (fun j => msub (mexp N A) (taylor_sum N A r) i j)
           (fun k => a ^ r / INR (fact r) * (/ INR (fact k) * a ^ k))).
  - intros j Hj. unfold msub, taylor_sum. apply (is_cser_tail (fun k => taylor_term N A k i j)). apply mexp_is; assumption.
  - intro k. eapply Rle_trans; [apply (bnd_taylor N A a (k + r) HN H i Hi)|]. apply tail_coef, Pa.
  - apply (is_series_scal_l (a ^ r / INR (fact r)) (fun k => / INR (fact k) * a ^ k)). apply exp_series.
Qed.
Lemma bnd_mexp : forall N A a, (0 < N)%nat -> bnd N A a -> bnd N (mexp N A) (exp a).
Proof.
  intros N A a HN H. eapply bnd_proper; [|eapply bnd_le; [apply (taylor_remainder N A a 0 HN H)|]].
  - intros i j _ _. unfold msub, taylor_sum. cbn [csum]. apply C_ext; cbn; ring.
  - cbn. lra.
Qed.

(** ** Euler's limit *)
Lemma bnd_sub : forall N A B a b, bnd N A a -> bnd N B b -> bnd N (msub A B) (a + b).
Proof.
  intros N A B a b HA HB. apply (bnd_proper N (madd A (mscale (RtoC (-1)) B))).
  - intros i j _ _. unfold madd, mscale, msub. apply C_ext; cbn; ring.
  - apply bnd_add; [exact HA|]. replace b with (Cmod (RtoC (-1)) * b); [apply bnd_scale, HB|].
    rewrite Cmod_R, Rabs_left by lra. ring.
Qed.
(** Powers of two matrices of norm at most [b] that differ by [d]. *)
Lemma power_difference : forall N X Y b d, (0 < N)%nat -> 1 <= b -> bnd N X b -> bnd N Y b -> bnd N (msub X Y) d ->
  forall m, bnd N (msub (mpow N X m) (mpow N Y m)) (INR m * b ^ m * d).
Proof.
  intros N X Y b d HN Hb HX HY HD. pose proof (bnd_pos _ _ _ HD HN) as Pd.
  induction m as [|m IH].
  - cbn [mpow]. apply (bnd_proper N mzero); [intros i j _ _; unfold msub, mzero, mid; apply C_ext; cbn; ring|].
    intros i Hi. rewrite rs_0; [cbn; lra|]. intros; apply Cmod_0.
  - apply (bnd_proper N (madd (mmul N (mpow N X m) (msub X Y)) (mmul N (msub (mpow N X m) (mpow N Y m)) Y))).
    + cbn [mpow]. rewrite mmul_sub_l, mmul_sub_r. intros i j _ _. unfold madd, msub. ring.
    + eapply bnd_le; [apply bnd_add; [apply bnd_mmul; [exact HN|apply bnd_mpow; [exact HN|exact HX]|exact HD]|
                                       apply bnd_mmul; [exact HN|exact IH|exact HY]]|].
      rewrite S_INR. cbn [pow].
      assert (P : 1 <= b ^ m) by (apply pow_R1_Rle; exact Hb).
      assert (Q : b ^ m * d <= b * b ^ m * d) by (apply Rmult_le_compat_r; [exact Pd|]; nra).
      assert (Z : 0 <= INR m) by apply pos_INR. nra.
Qed.
Lemma mpow_mexp : forall N A m, (0 < m)%nat ->
  forall k, meq N N (mpow N (mexp N (mscale (RtoC (/ INR m)) A)) k) (mexp N (mscale (RtoC (INR k / INR m)) A)).
Proof.
  intros N A m Hm. induction k as [|k IH]; cbn [mpow].
  - transitivity (mexp N mzero); [symmetry; apply mexp_0|]. apply mexp_proper. intros i j _ _. unfold mscale, mzero.
    cbn [INR]. unfold Rdiv. rewrite Rmult_0_l. apply C_ext; cbn; ring.
  - rewrite IH, mexp_add. apply mexp_proper. rewrite S_INR. intros i j _ _. unfold mscale. f_equal. f_equal.
    field. apply not_0_INR. lia.
Qed.
Lemma exp_ge_1 : forall x, 1 + x <= exp x.
Proof. intro x. destruct (Req_dec x 0) as [->|E]; [rewrite exp_0; lra|]. left. apply exp_ineq1. exact E. Qed.
Lemma exp_pow : forall x m, exp x ^ m = exp (INR m * x).
Proof.
  intros x m. induction m as [|m IH]; [cbn; rewrite Rmult_0_l, exp_0; reflexivity|].
  cbn [pow]. rewrite IH, S_INR, <- exp_plus. f_equal. ring.
Qed.

(** One Euler step of size 1/m with a second order correction [E]. *)
Definition euler_step (A E : mat) (m : nat) : mat :=
  madd mid (madd (mscale (RtoC (/ INR m)) A) (mscale (RtoC (/ INR m * / INR m)) E)).
Theorem euler_limit : forall N A E, (0 < N)%nat ->
  exists K, 0 <= K /\ forall m, (0 < m)%nat ->
  bnd N (msub (mexp N A) (mpow N (euler_step A E m) m)) (K / INR m).
Proof.
  intros N A E HN. destruct (bnd_exists N A) as (a & Pa & Ha). destruct (bnd_exists N E) as (e & Pe & He).
  exists (exp (a + e) * (a ^ 2 * exp a + e)). split.
  { apply Rmult_le_pos; [left; apply exp_pos|]. pose proof (exp_pos a). pose proof (pow2_ge_0 a). nra. }
  intros m Hm. assert (Im : 1 <= INR m) by (apply (le_INR 1); lia).
  set (h := / INR m). assert (Ph : 0 < h) by (apply Rinv_0_lt_compat; lra).
  assert (Lh : h <= 1) by (unfold h; rewrite <- Rinv_1; apply Rinv_le_contravar; lra).
  assert (Mh : INR m * h = 1) by (unfold h; apply Rinv_r; lra).
  set (X := mexp N (mscale (RtoC h) A)). set (Y := euler_step A E m). set (b := exp ((a + e) * h)).
  assert (Ch : forall r, 0 <= r -> Cmod (RtoC r) = r) by (intros r Hr; rewrite Cmod_R; apply Rabs_right; lra).
  assert (HhA : bnd N (mscale (RtoC h) A) (h * a)) by (rewrite <- (Ch h) at 2 by lra; apply bnd_scale, Ha).
  assert (HhE : bnd N (mscale (RtoC (h * h)) E) (h * h * e)) by (rewrite <- (Ch (h * h)) at 2 by nra; apply bnd_scale, He).
  assert (HX : bnd N X b).
  { eapply bnd_le; [apply bnd_mexp; [exact HN|exact HhA]|]. unfold b. destruct (Req_dec (h * a) ((a + e) * h)) as [->|F]; [lra|].
    left. apply exp_increasing. nra. }
  assert (HY : bnd N Y b).
  { eapply bnd_le; [apply bnd_add; [apply bnd_id|apply bnd_add; [exact HhA|exact HhE]]|].
    assert (Q : h * h * e <= h * e) by (apply Rmult_le_compat_r; [exact Pe|nra]).
    unfold b. eapply Rle_trans; [|apply exp_ge_1]. lra. }
  assert (HD : bnd N (msub X Y) (h * h * (a ^ 2 * exp a + e))).
  { apply (bnd_proper N (msub (msub X (taylor_sum N (mscale (RtoC h) A) 2)) (mscale (RtoC (h * h)) E))).
    - intros i j Hi Hj. unfold Y, euler_step. fold h. unfold msub, madd, taylor_sum. cbn [csum].
      unfold taylor_term. cbn [fact mpow]. unfold mscale at 2 4. rewrite (mmul_id_l N N (mscale (RtoC h) A) i j Hi Hj).
      unfold mscale. change (1 * 1)%nat with 1%nat. replace (/ RtoC (INR 1))%C with (RtoC 1) by (cbn [INR]; rewrite <- RtoC_inv by lra; f_equal; field). ring.
    - eapply bnd_le; [apply bnd_sub; [apply (taylor_remainder N _ _ 2 HN HhA)|exact HhE]|].
      assert (X1 : exp (h * a) <= exp a). { destruct (Req_dec (h * a) a) as [->|F]; [lra|]. left. apply exp_increasing. nra. }
      cbn [fact]. replace (INR (2 * (1 * 1))) with 2 by (cbn; ring).
      assert (X2 : 0 <= (h * a) ^ 2 / 2) by (pose proof (pow2_ge_0 (h * a)); lra).
      assert (X3 : (h * a) ^ 2 / 2 * exp (h * a) <= (h * a) ^ 2 / 2 * exp a) by (apply Rmult_le_compat_l; assumption).
      assert (X4 : 0 <= (h * a) ^ 2 / 2 * exp a) by (apply Rmult_le_pos; [exact X2|left; apply exp_pos]).
      replace ((h * a) ^ 2 / 2 * exp a) with (h * h * (a ^ 2 * exp a) / 2) in * by (cbn; field). lra. }
  assert (Hb : 1 <= b) by (unfold b; eapply Rle_trans; [|apply exp_ge_1]; nra).
  pose proof (power_difference N X Y b _ HN Hb HX HY HD m) as PD. eapply bnd_proper; [|eapply bnd_le; [exact PD|]].
  - assert (Z : meq N N (mpow N X m) (mexp N A)).
    { unfold X, h. rewrite (mpow_mexp N A m Hm m). apply mexp_proper. intros i j _ _. unfold mscale.
      replace (INR m / INR m) with 1 by (field; lra). apply C_ext; cbn; ring. }
    intros i j Hi Hj. unfold msub. rewrite (Z i j Hi Hj). reflexivity.
  - unfold b. rewrite exp_pow. replace (INR m * ((a + e) * h)) with (a + e) by (transitivity ((a + e) * (INR m * h)); [rewrite Mh|]; ring).
    unfold Rdiv. fold h. replace (INR m * exp (a + e) * (h * h * (a ^ 2 * exp a + e))) with ((INR m * h) * (exp (a + e) * (a ^ 2 * exp a + e) * h)) by ring.
    rewrite Mh. lra.
Qed.
