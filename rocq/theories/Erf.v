(** The error function as an integral: odd, increasing, between -1 and 1. *)
From Coq Require Import Reals Lra.
From Coquelicot Require Import Coquelicot.
Local Open Scope R_scope.

(** tf.math.erf *)
Definition gauss0 (u : R) : R := exp (- u ^ 2).
Definition erf (x : R) : R := 2 / sqrt PI * RInt gauss0 0 x.

Lemma gauss0_cont : forall x, continuous gauss0 x.
Proof. intro x. apply (ex_derive_continuous gauss0). unfold gauss0. auto_derive. exact I. Qed.
Lemma gauss0_int : forall a b, ex_RInt gauss0 a b.
Proof. intros a b. apply (ex_RInt_continuous (V:=R_CompleteNormedModule)). intros z _. apply gauss0_cont. Qed.
Lemma gauss0_pos : forall x, 0 < gauss0 x.
Proof. intro x. apply exp_pos. Qed.
Lemma is_derive_G : forall x, is_derive (fun x => RInt gauss0 0 x) x (gauss0 x).
Proof.
  intro x. apply is_derive_RInt with 0; [|apply gauss0_cont]. apply filter_forall. intro y. apply RInt_correct, gauss0_int.
Qed.
Lemma sqrt_PI_pos : 0 < sqrt PI.
Proof. apply sqrt_lt_R0, PI_RGT_0. Qed.

Lemma erf_0 : erf 0 = 0.
Proof. unfold erf. rewrite RInt_point. change zero with 0. ring. Qed.
Lemma is_derive_erf : forall x, is_derive erf x (2 / sqrt PI * gauss0 x).
Proof. intro x. unfold erf. apply (is_derive_scal (fun x => RInt gauss0 0 x) x (2 / sqrt PI)). apply is_derive_G. Qed.
Lemma erf_odd : forall x, erf (- x) = - erf x.
Proof.
  intro x. unfold erf.
  assert (E : RInt gauss0 0 (- x) = - RInt gauss0 0 x).
  { assert (C : RInt (fun y => scal (-1) (gauss0 (-1 * y + 0))) 0 x = RInt gauss0 (-1 * 0 + 0) (-1 * x + 0)).
    { apply (RInt_comp_lin gauss0 (-1) 0 0 x). apply gauss0_int. }
    replace (-1 * 0 + 0) with 0 in C by ring. replace (-1 * x + 0) with (- x) in C by ring. rewrite <- C.
    rewrite (RInt_ext _ (fun y => scal (-1) (gauss0 y))).
    - etransitivity; [apply (RInt_scal (V:=R_CompleteNormedModule) gauss0 0 x (-1)); apply gauss0_int|].
      change (-1 * RInt gauss0 0 x = - RInt gauss0 0 x). ring.
    - intros y _. f_equal. unfold gauss0. f_equal. ring. }
  rewrite E. ring.
Qed.
Lemma erf_incr : forall x y, x < y -> erf x < erf y.
Proof.
  intros x y H. unfold erf. pose proof sqrt_PI_pos as P.
  assert (E : RInt gauss0 0 y = RInt gauss0 0 x + RInt gauss0 x y).
  { symmetry. apply (RInt_Chasles gauss0 0 x y); apply gauss0_int. }
  rewrite E. assert (0 < RInt gauss0 x y).
  { apply RInt_gt_0; [exact H|intros; apply gauss0_pos|]. intros z _. apply gauss0_cont. }
  assert (0 < 2 / sqrt PI) by (apply Rdiv_lt_0_compat; lra). nra.
Qed.

(** The classical identity behind the value of the Gauss integral. *)
Definition hfun (x t : R) : R := exp (- x ^ 2 * (1 + t ^ 2)) / (1 + t ^ 2).
Lemma den_pos : forall t, 0 < 1 + t ^ 2.
Proof. intro t. pose proof (pow2_ge_0 t). lra. Qed.
Lemma hfun_derive : forall x t, is_derive (fun x => hfun x t) x (- 2 * x * exp (- x ^ 2 * (1 + t ^ 2))).
Proof. intros x t. pose proof (den_pos t). unfold hfun. auto_derive; [exact I|]. 
  change (x * (x * 1)) with (x ^ 2). change (t * (t * 1)) with (t ^ 2). set (E := exp _). change R in x. field. lra.
Qed.
Lemma hfun_int : forall x, ex_RInt (fun t => hfun x t) 0 1.
Proof.
  intro x. apply (ex_RInt_continuous (V:=R_CompleteNormedModule)). intros t _. apply (ex_derive_continuous (fun t => hfun x t)). pose proof (den_pos t). unfold hfun. auto_derive. lra.
Qed.
Lemma H_derive : forall x, is_derive (fun x => RInt (fun t => hfun x t) 0 1) x (RInt (fun t => - 2 * x * exp (- x ^ 2 * (1 + t ^ 2))) 0 1).
Proof.
  intro x.
  replace (RInt (fun t => - 2 * x * exp (- x ^ 2 * (1 + t ^ 2))) 0 1) with (RInt (fun t => Derive (fun u => hfun u t) x) 0 1).
  2: { apply RInt_ext. intros t _. apply is_derive_unique, hfun_derive. }
  apply is_derive_RInt_param.
  - apply filter_forall. intros y t _. eexists. apply hfun_derive.
  - intros t _. apply continuity_2d_pt_ext with (fun u v => - 2 * u * exp (- u ^ 2 * (1 + v ^ 2))).
    { intros u v. symmetry. apply is_derive_unique, hfun_derive. }
    apply continuity_2d_pt_mult.
    + apply continuity_2d_pt_mult; [apply continuity_2d_pt_const|apply continuity_2d_pt_id1].
    + apply continuity_1d_2d_pt_comp with (f := exp); [apply derivable_continuous_pt, derivable_pt_exp|].
      apply continuity_2d_pt_ext with (fun u v => - (u * u) * (1 + v * v)); [intros; ring|].
      apply continuity_2d_pt_mult.
      * apply continuity_2d_pt_opp, continuity_2d_pt_mult; apply continuity_2d_pt_id1.
      * apply continuity_2d_pt_plus; [apply continuity_2d_pt_const|]. apply continuity_2d_pt_mult; apply continuity_2d_pt_id2.
  - apply filter_forall. intro y. apply hfun_int.
Qed.
Lemma H_inner : forall x, RInt (fun t => - 2 * x * exp (- x ^ 2 * (1 + t ^ 2))) 0 1 = - 2 * gauss0 x * RInt gauss0 0 x.
Proof.
  intro x.
  assert (C : RInt (fun y => scal x (gauss0 (x * y + 0))) 0 1 = RInt gauss0 (x * 0 + 0) (x * 1 + 0)) by (apply (RInt_comp_lin gauss0 x 0 0 1), gauss0_int).
  replace (x * 0 + 0) with 0 in C by ring. replace (x * 1 + 0) with x in C by ring. rewrite <- C.
  assert (I1 : ex_RInt (fun y => scal x (gauss0 (x * y + 0))) 0 1).
  { apply (ex_RInt_continuous (V:=R_CompleteNormedModule)). intros z _. apply (ex_derive_continuous (fun y => scal x (gauss0 (x * y + 0)))).
    unfold gauss0. change (ex_derive (fun y => x * exp (- (x * y + 0) ^ 2)) z). auto_derive. exact I. }
  transitivity (scal (- 2 * gauss0 x) (RInt (fun y => scal x (gauss0 (x * y + 0))) 0 1)); [|reflexivity].
  etransitivity; [|apply (RInt_scal (V:=R_CompleteNormedModule) (fun y => scal x (gauss0 (x * y + 0))) 0 1 (- 2 * gauss0 x) I1)].
  apply RInt_ext. intros t _.
  change (-2 * x * exp (- x ^ 2 * (1 + t ^ 2)) = (- 2 * gauss0 x) * (x * gauss0 (x * t + 0))). unfold gauss0.
  replace (- x ^ 2 * (1 + t ^ 2)) with (- x ^ 2 + - (x * t + 0) ^ 2) by ring. rewrite exp_plus. ring.
Qed.
Lemma GH_derive : forall x, is_derive (fun x => (RInt gauss0 0 x) ^ 2 + RInt (fun t => hfun x t) 0 1) x 0.
Proof.
  intro x. assert (Z : 2 * gauss0 x * RInt gauss0 0 x + (- 2 * gauss0 x * RInt gauss0 0 x) = 0) by ring.
  cut (is_derive (fun x => (RInt gauss0 0 x) ^ 2 + RInt (fun t => hfun x t) 0 1) x (2 * gauss0 x * RInt gauss0 0 x + (- 2 * gauss0 x * RInt gauss0 0 x))).
  { intro K. rewrite Z in K. exact K. }
  apply (is_derive_plus (V:=R_NormedModule) (fun x => (RInt gauss0 0 x) ^ 2) (fun x => RInt (fun t => hfun x t) 0 1) x
           (2 * gauss0 x * RInt gauss0 0 x) (- 2 * gauss0 x * RInt gauss0 0 x)).
  - pose proof (is_derive_G x) as D. replace (2 * gauss0 x * RInt gauss0 0 x) with (INR 2 * gauss0 x * (RInt gauss0 0 x) ^ pred 2) by (cbn; ring).
    apply (is_derive_pow (fun x => RInt gauss0 0 x) 2 x (gauss0 x) D).
  - rewrite <- H_inner. apply H_derive.
Qed.
Lemma GH_zero : (RInt gauss0 0 0) ^ 2 + RInt (fun t => hfun 0 t) 0 1 = PI / 4.
Proof.
  rewrite RInt_point. change (zero : R) with 0. replace (0 ^ 2) with 0 by ring. rewrite Rplus_0_l.
  rewrite (RInt_ext _ (fun t => / (1 + t ^ 2))).
  - assert (R : is_RInt (fun t => / (1 + t ^ 2)) 0 1 (minus (atan 1) (atan 0))).
    { apply (is_RInt_derive atan (fun t => / (1 + t ^ 2))).
      - intros t _. apply is_derive_Reals. apply (derivable_pt_lim_atan t).
      - intros t _. apply (ex_derive_continuous (fun t => / (1 + t ^ 2))). pose proof (den_pos t). auto_derive. lra. }
    rewrite (is_RInt_unique _ _ _ _ R). assert (Z : atan 1 + - atan 0 = PI / 4) by (rewrite atan_1, atan_0; lra). exact Z.
  - intros t _. unfold hfun. replace (- 0 ^ 2 * (1 + t ^ 2)) with 0 by ring. rewrite exp_0. apply Rmult_1_l.
Qed.
Lemma GH_const : forall x, 0 <= x -> (RInt gauss0 0 x) ^ 2 + RInt (fun t => hfun x t) 0 1 = PI / 4.
Proof.
  intros x Hx. rewrite <- GH_zero. set (F := fun x => (RInt gauss0 0 x) ^ 2 + RInt (fun t => hfun x t) 0 1). change (F x = F 0).
  destruct (MVT_gen F 0 x (fun _ => 0)) as (c & _ & E).
  - intros y _. apply GH_derive.
  - intros y _. apply continuity_pt_filterlim. apply (ex_derive_continuous F). eexists. apply GH_derive.
  - lra.
Qed.
Lemma erf_lt_1 : forall x, 0 <= x -> erf x <= 1.
Proof.
  intros x Hx. pose proof (GH_const x Hx) as E. pose proof sqrt_PI_pos as P.
  assert (0 <= RInt (fun t => hfun x t) 0 1).
  { apply RInt_ge_0; [lra|apply hfun_int|]. intros t _. unfold hfun. left. apply Rdiv_lt_0_compat; [apply exp_pos|apply den_pos]. }
  assert (S : sqrt PI * sqrt PI = PI) by (apply sqrt_sqrt; left; apply PI_RGT_0).
  assert (G : RInt gauss0 0 x <= sqrt PI / 2) by nra.
  unfold erf. set (g := RInt gauss0 0 x : R) in *. clearbody g. apply Rmult_le_reg_r with (sqrt PI / 2); [lra|]. replace (2 / sqrt PI * g * (sqrt PI / 2)) with g by (field; apply Rgt_not_eq; exact P). lra.
Qed.
Lemma erf_bound : forall x, -1 < erf x < 1.
Proof.
  assert (K : forall x, erf x < 1).
  { intro x. destruct (Rle_dec 0 x) as [H|H].
    - apply Rlt_le_trans with (erf (x + 1)); [apply erf_incr; lra|apply erf_lt_1; lra].
    - apply Rlt_le_trans with (erf 0); [apply erf_incr; lra|rewrite erf_0; lra]. }
  intro x. split; [|apply K]. specialize (K (- x)). rewrite erf_odd in K. lra.
Qed.
Lemma erf_nonneg : forall x, 0 <= x -> 0 <= erf x.
Proof. intros x [H|<-]; [pose proof (erf_incr 0 x H); rewrite erf_0 in *; lra|rewrite erf_0; lra]. Qed.
