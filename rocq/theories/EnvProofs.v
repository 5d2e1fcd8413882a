(** Lemmas on sigmoid, clip, gaussian integrals and interpolation. *)
From Coq Require Import Reals Lra Lia.
From Coquelicot Require Import Coquelicot.
From Verif Require Import Base QuantityModel QuantityProofs Erf EnvModel.
Local Open Scope list_scope.
Local Open Scope nat_scope.
Local Notation length := List.length.

(** ** sigmoid *)
Lemma sigmoid_bound : forall x, (0 < sigmoid x < 1)%R.
Proof.
  intro x. unfold sigmoid. pose proof (exp_pos (- x)). split; [apply Rinv_0_lt_compat; lra|].
  rewrite <- Rinv_1 at 2. apply Rinv_lt_contravar; lra.
Qed.
Lemma sigmoid_low : forall x, (1 - exp (- x) <= sigmoid x)%R.
Proof.
  intro x. unfold sigmoid. pose proof (exp_pos (- x)) as P. apply Rmult_le_reg_r with (1 + exp (- x))%R; [lra|].
  rewrite Rinv_l by lra. nra.
Qed.
Lemma sigmoid_high : forall x, (sigmoid x <= exp x)%R.
Proof.
  intro x. unfold sigmoid. pose proof (exp_pos (- x)) as P. pose proof (exp_pos x) as P2.
  assert (E : (exp x * exp (- x) = 1)%R) by (rewrite <- exp_plus, Rplus_opp_r; apply exp_0).
  apply Rmult_le_reg_r with (1 + exp (- x))%R; [lra|]. rewrite Rinv_l by lra. nra.
Qed.
Lemma is_derive_sigmoid : forall x, is_derive sigmoid x (sigmoid x * (1 - sigmoid x))%R.
Proof.
  intro x. pose proof (exp_pos (- x)). unfold sigmoid. auto_derive; [lra|]. field. lra.
Qed.
Lemma exp_le : forall x y, (x <= y)%R -> (exp x <= exp y)%R.
Proof. intros x y [H|<-]; [left; apply exp_increasing, H|right; reflexivity]. Qed.

Lemma exp_m1000 : (exp (- 1000) < (/ 2) ^ 1075)%R.
Proof.
  assert (Q : (5 / 4 <= exp (/ 4))%R) by (pose proof (exp_ineq1 (/ 4)); lra).
  assert (P : forall n : nat, exp (INR n * / 4) = (exp (/ 4) ^ n)%R).
  { induction n; [cbn; rewrite Rmult_0_l; apply exp_0|]. rewrite S_INR, Rmult_plus_distr_r, exp_plus, IHn, Rmult_1_l. cbn. ring. }
  assert (K : (2 ^ 1075 < exp 1000)%R).
  { apply Rlt_le_trans with ((5 / 4) ^ 3991)%R.
    - apply Rlt_le_trans with (16 ^ 307)%R.
      + replace 16%R with (2 ^ 4)%R by ring. rewrite <- pow_mult. apply Rlt_pow; [lra|].
        apply Nat.ltb_lt. vm_compute. reflexivity.
      + replace ((5 / 4) ^ 3991)%R with (((5 / 4) ^ 13) ^ 307)%R.
        2: { rewrite <- pow_mult. f_equal. }
        apply pow_incr. split; [lra|]. cbn. lra.
    - replace 1000%R with (INR 4000 * / 4)%R.
      2: { rewrite INR_IZR_INZ. change (Z.of_nat 4000) with 4000%Z. lra. }
      rewrite P. apply Rle_trans with ((5 / 4) ^ 4000)%R.
      + apply Rle_pow; [lra|]. apply Nat.leb_le. vm_compute. reflexivity.
      + apply pow_incr. lra. }
  replace (-1000)%R with (Ropp 1000) by lra. rewrite exp_Ropp, pow_inv. apply Rinv_lt_contravar; [|exact K].
  apply Rmult_lt_0_compat; [apply pow_lt; lra|apply exp_pos].
Qed.

(** ** the mask *)
Lemma mask_bound : forall T dt t, (0 < mask_at T dt t < 1)%R.
Proof.
  intros T dt t. unfold mask_at. pose proof (sigmoid_bound ((t / dt + 1 / 1000) * 1000000)).
  pose proof (sigmoid_bound ((999 / 1000 * T - t) / dt * 1000000)). nra.
Qed.
Lemma inside_args : forall T dt t, (0 < dt)%R -> (0 <= t)%R -> (t <= 999 / 1000 * T - dt / 1000)%R ->
  ((1000 <= (t / dt + 1 / 1000) * 1000000)%R /\ (1000 <= (999 / 1000 * T - t) / dt * 1000000)%R).
Proof.
  intros T dt t D H1 H2. assert (0 < / dt)%R by (apply Rinv_0_lt_compat; exact D). split.
  - assert (0 <= t / dt)%R by (unfold Rdiv; nra). lra.
  - assert (1 / 1000 <= (999 / 1000 * T - t) / dt)%R; [|lra].
    apply Rmult_le_reg_r with dt; [exact D|]. unfold Rdiv at 2. rewrite Rmult_assoc, Rinv_l by lra. lra.
Qed.
Lemma mask_inside : forall T dt t, (0 < dt)%R -> (0 <= t)%R -> (t <= 999 / 1000 * T - dt / 1000)%R ->
  (1 - 2 * exp (- 1000) <= mask_at T dt t)%R.
Proof.
  intros T dt t D H1 H2. destruct (inside_args T dt t D H1 H2) as (A & B). unfold mask_at.
  set (a := ((t / dt + 1 / 1000) * 1000000)%R) in *. set (b := ((999 / 1000 * T - t) / dt * 1000000)%R) in *.
  pose proof (sigmoid_low a). pose proof (sigmoid_low b). pose proof (sigmoid_bound a). pose proof (sigmoid_bound b).
  assert (exp (- a) <= exp (-1000))%R by (apply exp_le; lra). assert (exp (- b) <= exp (-1000))%R by (apply exp_le; lra). nra.
Qed.
Lemma mask_outside : forall T dt t, (0 < dt)%R ->
  (t <= - (dt / 500) \/ 999 / 1000 * T + dt / 1000 <= t)%R -> (mask_at T dt t <= exp (- 1000))%R.
Proof.
  intros T dt t D H. assert (0 < / dt)%R by (apply Rinv_0_lt_compat; exact D). unfold mask_at.
  set (a := ((t / dt + 1 / 1000) * 1000000)%R) in *. set (b := ((999 / 1000 * T - t) / dt * 1000000)%R) in *.
  pose proof (sigmoid_bound a). pose proof (sigmoid_bound b). destruct H as [H|H].
  - assert (a <= -1000)%R.
    { subst a. assert (t / dt <= - (1 / 500))%R; [|lra]. apply Rmult_le_reg_r with dt; [exact D|]. unfold Rdiv at 1. rewrite Rmult_assoc, Rinv_l by lra. lra. }
    assert (sigmoid a <= exp (-1000))%R by (eapply Rle_trans; [apply sigmoid_high|apply exp_le; lra]). nra.
  - assert (b <= -1000)%R.
    { subst b. assert ((999 / 1000 * T - t) / dt <= - (1 / 1000))%R; [|lra]. apply Rmult_le_reg_r with dt; [exact D|]. unfold Rdiv at 1. rewrite Rmult_assoc, Rinv_l by lra. lra. }
    assert (sigmoid b <= exp (-1000))%R by (eapply Rle_trans; [apply sigmoid_high|apply exp_le; lra]). nra.
Qed.
Definition mask_der (T dt t : R) : R :=
  let a := sigmoid ((t / dt + 1 / 1000) * 1000000)%R in
  let b := sigmoid ((999 / 1000 * T - t) / dt * 1000000)%R in
  (1000000 / dt * (a * (1 - a) * b - a * (b * (1 - b))))%R.
Lemma is_derive_mask : forall T dt t, (0 < dt)%R -> is_derive (mask_at T dt) t (mask_der T dt t).
Proof.
  intros T dt t D. unfold mask_at.
  pose proof (is_derive_comp sigmoid (fun t => (t / dt + 1 / 1000) * 1000000)%R t _ (1000000 / dt)%R (is_derive_sigmoid _)) as A.
  pose proof (is_derive_comp sigmoid (fun t => (999 / 1000 * T - t) / dt * 1000000)%R t _ (- (1000000 / dt))%R (is_derive_sigmoid _)) as B.
  assert (A1 : is_derive (fun t => (t / dt + 1 / 1000) * 1000000)%R t (1000000 / dt)%R) by (auto_derive; [exact I|field; lra]).
  assert (B1 : is_derive (fun t => (999 / 1000 * T - t) / dt * 1000000)%R t (- (1000000 / dt))%R) by (auto_derive; [exact I|field; lra]).
  specialize (A A1). specialize (B B1). pose proof (is_derive_mult _ _ t _ _ A B Rmult_comm) as M.
  evar_last; [exact M|]. unfold mask_der.
  change scal with Rmult. change plus with Rplus. change mult with Rmult. cbv beta. 
  set (a := sigmoid ((t / dt + 1 / 1000) * 1000000)). set (b := sigmoid ((999 / 1000 * T - t) / dt * 1000000)). 
  match goal with |- ?x = ?y => change (@eq R x y) end. field. lra.
Qed.
Lemma mask_der_inside : forall T dt t, (0 < dt)%R -> (0 <= t)%R -> (t <= 999 / 1000 * T - dt / 1000)%R ->
  (Rabs (mask_der T dt t) <= 2 * exp (- 1000) * (1000000 / dt))%R.
Proof.
  intros T dt t D H1 H2. destruct (inside_args T dt t D H1 H2) as (A & B). unfold mask_der. cbv zeta.
  set (a := ((t / dt + 1 / 1000) * 1000000)%R) in *. set (b := ((999 / 1000 * T - t) / dt * 1000000)%R) in *.
  pose proof (sigmoid_low a). pose proof (sigmoid_low b). pose proof (sigmoid_bound a) as Ba. pose proof (sigmoid_bound b) as Bb.
  assert (Ea : (exp (- a) <= exp (-1000))%R) by (apply exp_le; lra). assert (Eb : (exp (- b) <= exp (-1000))%R) by (apply exp_le; lra).
  assert (0 < 1000000 / dt)%R by (apply Rdiv_lt_0_compat; lra). pose proof (exp_pos (-1000)).
  rewrite Rabs_mult, (Rabs_right (1000000 / dt)) by lra. rewrite (Rmult_comm (2 * exp (-1000))). apply Rmult_le_compat_l; [lra|].
  assert (0 <= sigmoid a * (1 - sigmoid a) * sigmoid b <= exp (-1000))%R by (split; [apply Rmult_le_pos; [apply Rmult_le_pos|]; lra|]; assert (sigmoid a * (1 - sigmoid a) <= exp (-1000))%R by nra; nra).
  assert (0 <= sigmoid a * (sigmoid b * (1 - sigmoid b)) <= exp (-1000))%R by (split; [apply Rmult_le_pos; [lra|apply Rmult_le_pos; lra]|]; assert (0 <= sigmoid b * (1 - sigmoid b) <= exp (-1000))%R by nra; nra).
  apply Rabs_le. lra.
Qed.

(** ** gaussians *)
Lemma sqrt8 : sqrt 8 = (2 * sqrt 2)%R.
Proof. replace 8%R with (2 ^ 2 * 2)%R by ring. rewrite sqrt_mult by lra. rewrite sqrt_pow2 by lra. reflexivity. Qed.
Lemma sqrt2_pos : (0 < sqrt 2)%R.
Proof. apply sqrt_lt_R0. lra. Qed.
Lemma sqrt2_sq : (sqrt 2 * sqrt 2 = 2)%R.
Proof. apply sqrt_sqrt. lra. Qed.
Lemma gauss_pt_cont : forall T s t, s <> 0%R -> continuous (gauss_pt T s) t.
Proof. intros T s t H. apply (ex_derive_continuous (gauss_pt T s)). unfold gauss_pt. auto_derive. repeat split. Qed.
Lemma gauss_pt_int : forall T s a b, s <> 0%R -> ex_RInt (gauss_pt T s) a b.
Proof. intros. apply (ex_RInt_continuous (V:=R_CompleteNormedModule)). intros z _. apply gauss_pt_cont. assumption. Qed.
Lemma gauss_area : forall T s, (0 < s)%R ->
  RInt (gauss_pt T s) 0 T = (sqrt (2 * PI * s ^ 2) * erf (T / (sqrt 8 * s)))%R.
Proof.
  intros T s Hs. pose proof sqrt2_pos as P2. pose proof sqrt2_sq as Q2. pose proof sqrt_PI_pos as PP.
  set (k := (/ (sqrt 2 * s))%R). set (v := (- (T / (sqrt 8 * s)))%R).
  assert (Pk : (0 < sqrt 2 * s)%R) by nra.
  assert (C : RInt (fun y => scal k (gauss0 (k * y + v))) 0 T = RInt gauss0 (k * 0 + v) (k * T + v)).
  { apply (RInt_comp_lin gauss0 k v 0 T). apply gauss0_int. }
  replace (k * 0 + v)%R with v in C by ring.
  assert (Ev : (k * T + v)%R = (- v)%R) by (subst k v; rewrite sqrt8; field; split; lra).
  rewrite Ev in C.
  assert (E1 : RInt (fun y => scal k (gauss0 (k * y + v))) 0 T = (k * RInt (gauss_pt T s) 0 T)%R).
  { etransitivity; [|apply (RInt_scal (V:=R_CompleteNormedModule) (gauss_pt T s) 0 T k (gauss_pt_int T s 0 T (Rgt_not_eq _ _ Hs)))].
    apply RInt_ext. intros t _. f_equal. unfold gauss_pt, gauss0. f_equal. subst k v. rewrite sqrt8.
    replace (/ (sqrt 2 * s) * t + - (T / (2 * sqrt 2 * s)))%R with ((t - T / 2) / (sqrt 2 * s))%R by (field; split; lra).
    replace (2 * s ^ 2)%R with ((sqrt 2 * s) ^ 2)%R by (cbn [pow]; transitivity (sqrt 2 * sqrt 2 * s ^ 2)%R; [ring|rewrite Q2; ring]).
    apply f_equal with (f := fun z => z). field. split; lra. }
  rewrite E1 in C.
  assert (E2 : RInt gauss0 v (- v) = (2 * RInt gauss0 0 (- v))%R).
  { assert (H1 : RInt gauss0 v (- v) = (RInt gauss0 0 (- v) - RInt gauss0 0 v)%R).
    { pose proof (RInt_Chasles gauss0 0 v (- v) (gauss0_int 0 v) (gauss0_int v (- v))) as X. change (RInt gauss0 0 v + RInt gauss0 v (- v) = RInt gauss0 0 (- v))%R in X. lra. }
    rewrite H1. pose proof (erf_odd (- v)) as O. unfold erf in O. rewrite Ropp_involutive in O.
    set (g1 := RInt gauss0 0 (- v) : R) in *. set (g2 := RInt gauss0 0 v : R) in *.
    assert (g2 = - g1)%R; [|lra]. apply Rmult_eq_reg_l with (2 / sqrt PI)%R; [rewrite O; ring|]. apply Rgt_not_eq. apply Rdiv_lt_0_compat; lra. }
  rewrite E2 in C. unfold erf. replace (T / (sqrt 8 * s))%R with (- v)%R by (subst v; ring).
  replace (sqrt (2 * PI * s ^ 2)) with (sqrt 2 * sqrt PI * s)%R.
  2: { rewrite sqrt_mult, sqrt_mult, sqrt_pow2; try reflexivity; try lra; [pose proof PI_RGT_0; lra|pose proof PI_RGT_0; lra|apply pow2_ge_0]. }
  set (g := RInt gauss0 0 (- v) : R) in *. set (G := RInt (gauss_pt T s) 0 T : R) in *. clearbody g G. subst k.
  apply Rmult_eq_reg_l with (/ (sqrt 2 * s))%R; [|apply Rinv_neq_0_compat; lra]. rewrite C. field. split; lra.
Qed.

Lemma div_pow_le : forall a b c, (0 < c)%R -> (a ^ 2 <= b ^ 2)%R -> (- b ^ 2 / c <= - a ^ 2 / c)%R.
Proof.
  intros a b c P H. assert (0 < / c)%R by (apply Rinv_0_lt_compat; exact P). unfold Rdiv. nra.
Qed.
Lemma offset_is_end : forall T s, s <> 0%R -> gauss_offset T s = gauss_pt T s 0 /\ gauss_offset T s = gauss_pt T s T.
Proof. intros T s H. unfold gauss_offset, gauss_pt. split; f_equal; field; exact H. Qed.
Lemma gauss_above_offset : forall T s t, s <> 0%R -> (0 <= t <= T)%R -> (gauss_offset T s <= gauss_pt T s t)%R.
Proof.
  intros T s t H B. destruct (offset_is_end T s H) as [-> _]. unfold gauss_pt. apply exp_le. apply div_pow_le; [|nra].
  assert (0 < s ^ 2)%R by (apply pow2_gt_0; exact H). lra.
Qed.
Lemma gauss_above_offset_strict : forall T s t, s <> 0%R -> (0 < t < T)%R -> (gauss_offset T s < gauss_pt T s t)%R.
Proof.
  intros T s t H B. destruct (offset_is_end T s H) as [-> _]. unfold gauss_pt. apply exp_increasing.
  assert (0 < s ^ 2)%R by (apply pow2_gt_0; exact H). assert (0 < / (2 * s ^ 2))%R by (apply Rinv_0_lt_compat; lra). unfold Rdiv.
  apply Rmult_lt_compat_r; [assumption|]. nra.
Qed.
Lemma is_RInt_gauss_sub : forall T s, (0 < s)%R ->
  is_RInt (fun t => gauss_pt T s t - gauss_offset T s)%R 0 T (gauss_norm T s).
Proof.
  intros T s H. unfold gauss_norm. rewrite <- (gauss_area T s H).
  pose proof (RInt_correct (V:=R_CompleteNormedModule) (gauss_pt T s) 0 T (gauss_pt_int T s 0 T (Rgt_not_eq _ _ H))) as A.
  pose proof (is_RInt_const (V:=R_NormedModule) 0 T (gauss_offset T s)) as B.
  pose proof (is_RInt_minus (V:=R_NormedModule) _ _ 0 T _ _ A B) as M. cbv beta in M.
  evar_last; [exact M|]. change (RInt (gauss_pt T s) 0 T - (T - 0) * gauss_offset T s = RInt (gauss_pt T s) 0 T - T * gauss_offset T s)%R. 
  f_equal. f_equal. ring.
Qed.
Lemma gauss_norm_pos : forall T s, (0 < T)%R -> (0 < s)%R -> (0 < gauss_norm T s)%R.
Proof.
  intros T s HT Hs. rewrite <- (is_RInt_unique _ _ _ _ (is_RInt_gauss_sub T s Hs)). apply RInt_gt_0; [exact HT| |].
  - intros t B. pose proof (gauss_above_offset_strict T s t (Rgt_not_eq _ _ Hs) B). lra.
  - intros t _. apply (ex_derive_continuous (fun t => gauss_pt T s t - gauss_offset T s)%R). unfold gauss_pt. auto_derive. repeat split.
Qed.
Lemma is_derive_gauss : forall T s t, s <> 0%R ->
  is_derive (gauss_pt T s) t (- (gauss_pt T s t * (t - T / 2) / s ^ 2))%R.
Proof.
  intros T s t H. unfold gauss_pt. auto_derive; [exact I|].
  change (t + - (T * / 2))%R with (t - T / 2)%R. change ((t - T / 2) * ((t - T / 2) * 1))%R with ((t - T / 2) ^ 2)%R.
  change (s * (s * 1))%R with (s ^ 2)%R. fold (Rdiv (- (t - T / 2) ^ 2) (2 * s ^ 2))%R. set (E := exp _).
  match goal with |- ?x = ?y => change (@eq R x y) end. field. exact H.
Qed.

(** ** clip *)
Lemma clip_range : forall x lo hi, (lo <= hi)%R -> (lo <= clip x lo hi <= hi)%R.
Proof. intros. unfold clip, Rmin, Rmax. repeat destruct Rle_dec; lra. Qed.

Lemma rleb_true : forall x y, Rleb x y = true <-> (x <= y)%R.
Proof. intros. unfold Rleb. destruct Rle_dec; split; intros; try assumption; try reflexivity; try discriminate; contradiction. Qed.
Lemma rltb_true : forall x y, Rltb x y = true <-> (x < y)%R.
Proof. intros. unfold Rltb. destruct Rlt_dec; split; intros; try assumption; try reflexivity; try discriminate; contradiction. Qed.
