(** C126: Slepian pulses, plateau pulses, delta pulses and the types of the envelopes. *)
From Coq Require Import Reals Lra Lia.
From Coquelicot Require Import Coquelicot.
From Verif Require Import Base QuantityModel Erf EnvModel EnvMoreModel.
Local Open Scope list_scope.
Local Open Scope nat_scope.
Local Open Scope R_scope.
Local Notation length := List.length.

Ltac cases := unfold Rltb in *; repeat match goal with
  | |- context [Rlt_dec ?a ?b] => destruct (Rlt_dec a b)
  | H : context [Rlt_dec ?a ?b] |- _ => destruct (Rlt_dec a b) end; cbn [andb] in *.

Lemma list_max_spec : forall l x, In (list_max x l) (x :: l) /\ forall y, In y (x :: l) -> y <= list_max x l.
Proof.
  unfold list_max. induction l as [|a l IH]; intro x; cbn [fold_left].
  - split; [left; reflexivity|]. intros y [<-|[]]. lra.
  - destruct (IH (Rmax x a)) as [A B]. split.
    + destruct A as [A|A]; [|right; right; exact A]. rewrite <- A. unfold Rmax. destruct Rle_dec; [right; left; reflexivity|left; reflexivity].
    + intros y [<-|[<-|I]].
      * eapply Rle_trans; [apply Rmax_l|]. apply B. left. reflexivity.
      * eapply Rle_trans; [apply Rmax_r|]. apply B. left. reflexivity.
      * apply B. right. exact I.
Qed.
Lemma reduce_max_spec : forall l, l <> [] -> In (reduce_max l) l /\ forall y, In y l -> y <= reduce_max l.
Proof. intros [|x l] H; [congruence|]. apply list_max_spec. Qed.
Lemma list_min_spec : forall l x, In (list_min x l) (x :: l) /\ forall y, In y (x :: l) -> list_min x l <= y.
Proof.
  unfold list_min. induction l as [|a l IH]; intro x; cbn [fold_left].
  - split; [left; reflexivity|]. intros y [<-|[]]. lra.
  - destruct (IH (Rmin x a)) as [A B]. split.
    + destruct A as [A|A]; [|right; right; exact A]. rewrite <- A. unfold Rmin. destruct Rle_dec; [left; reflexivity|right; left; reflexivity].
    + intros y [<-|[<-|I]].
      * eapply Rle_trans; [apply B; left; reflexivity|]. apply Rmin_l.
      * eapply Rle_trans; [apply B; left; reflexivity|]. apply Rmin_r.
      * apply B. right. exact I.
Qed.

(** ** Slepian pulses *)
Section Slepian.
  Variables (t_final width offset amp : R) (fourier : list R) (risefall : option R) (sin_coeffs : option (list R)).
  Let raw := slepian_raw t_final width fourier risefall sin_coeffs.
  (** The length of rise and fall together, and the flat part between them. *)
  Definition ramps : R := match risefall with Some rf => rf * 2 | None => width end.
  Definition flat : R := match risefall with Some rf => width - rf * 2 | None => 0 end.

  Lemma slepian_value : forall ts vs, slepian_fourier t_final width fourier offset amp risefall sin_coeffs ts = Ok vs ->
    ts <> [] /\ amp <> 0 /\ reduce_max (map raw ts) <> 0
    /\ vs = map (fun t => raw t / reduce_max (map raw ts) * (1 - offset / amp) + offset / amp) ts.
  Proof.
    intros ts vs H. unfold slepian_fourier, slepian_scale in H. fold raw in H. destruct ts as [|t ts]; [discriminate|]. split; [discriminate|].
    cbn [map] in H. destruct (Req_EM_T (reduce_max (raw t :: map raw ts)) 0); [discriminate|]. destruct (Req_EM_T amp 0); [discriminate|].
    injection H as <-. split; [auto|]. split; [exact n|]. cbn [map]. f_equal. rewrite map_map. reflexivity.
  Qed.
  Lemma value_at : forall ts vs i, slepian_fourier t_final width fourier offset amp risefall sin_coeffs ts = Ok vs -> (i < length ts)%nat ->
    length vs = length ts /\ nth i vs 0 = raw (nth i ts 0) / reduce_max (map raw ts) * (1 - offset / amp) + offset / amp.
  Proof.
    intros ts vs i H Hi. destruct (slepian_value ts vs H) as (_ & _ & _ & ->). split; [apply map_length|].
    rewrite (nth_indep _ 0 ((fun t => raw t / reduce_max (map raw ts) * (1 - offset / amp) + offset / amp) 0)) by (rewrite map_length; exact Hi).
    apply (map_nth (fun t => raw t / reduce_max (map raw ts) * (1 - offset / amp) + offset / amp)).
  Qed.
End Slepian.

Lemma cos_mirror : forall n u L, L <> 0 -> cos (2 * PI * (INR n + 1) * (L - u) / L) = cos (2 * PI * (INR n + 1) * u / L).
Proof.
  intros n u L HL. replace (2 * PI * (INR n + 1) * (L - u) / L) with (- (2 * PI * (INR n + 1) * u / L) + 2 * INR (S n) * PI) by (rewrite S_INR; field; exact HL).
  rewrite cos_period, cos_neg. reflexivity.
Qed.
Lemma sin_mirror : forall n u L, L <> 0 -> sin (PI * (2 * INR n + 1) * (L - u) / L) = sin (PI * (2 * INR n + 1) * u / L).
Proof.
  intros n u L HL. replace (PI * (2 * INR n + 1) * (L - u) / L) with ((PI - PI * (2 * INR n + 1) * u / L) + 2 * INR n * PI) by (field; exact HL).
  rewrite sin_period. apply sin_PI_x.
Qed.
Lemma series_mirror : forall tf L x, L <> 0 -> forall cs n,
  cos_series tf L n cs (tf - x) = cos_series tf L n cs x /\ sin_series tf L n cs (tf - x) = sin_series tf L n cs x.
Proof.
  intros tf L x HL. induction cs as [|c cs IH]; intro n; cbn [cos_series sin_series]; [auto|]. destruct (IH (S n)) as [-> ->].
  replace (tf - x - (tf - L) / 2) with (L - (x - (tf - L) / 2)) by field.
  rewrite (cos_mirror n _ L HL), (sin_mirror n _ L HL). auto.
Qed.
Lemma position_mirror : forall tf p t, 0 <= p -> slepian_position tf p (tf - t) = tf - slepian_position tf p t.
Proof.
  intros tf p t Hp. unfold slepian_position.
  replace (tf - t - tf / 2) with (- (t - tf / 2)) by field. rewrite Rabs_Ropp. cases; lra.
Qed.
Lemma raw_mirror : forall tf w f rf s t, ramps w rf <> 0 -> 0 <= flat w rf -> slepian_raw tf w f rf s (tf - t) = slepian_raw tf w f rf s t.
Proof.
  intros tf w f rf s t HL HF. unfold slepian_raw. replace (tf / 2 - (tf - t)) with (- (tf / 2 - t)) by field. rewrite Rabs_Ropp.
  destruct rf as [r|]; cbn [ramps flat] in *.
  - rewrite position_mirror by exact HF.
    destruct (series_mirror tf (r * 2) (slepian_position tf (w - r * 2) t) HL f 0%nat) as [-> _].
    destruct s as [s|]; [|reflexivity]. destruct (series_mirror tf (r * 2) (slepian_position tf (w - r * 2) t) HL s 0%nat) as [_ ->]. reflexivity.
  - destruct (series_mirror tf w t HL f 0%nat) as [-> _].
    destruct s as [s|]; [|reflexivity]. destruct (series_mirror tf w t HL s 0%nat) as [_ ->]. reflexivity.
Qed.

(** The pulse is symmetric about the middle of the gate, whatever the coefficients. *)
Theorem C126_slepian_symmetric :
  forall t_final width fourier offset amp risefall sin_coeffs ts vs i j,
  slepian_fourier t_final width fourier offset amp risefall sin_coeffs ts = Ok vs ->
  ramps width risefall <> 0 -> 0 <= flat width risefall ->
  (i < length ts)%nat -> (j < length ts)%nat -> nth i ts 0 = t_final - nth j ts 0 -> nth i vs 0 = nth j vs 0.
Proof.
  intros tf w f o a rf s ts vs i j H HL HF Hi Hj E.
  rewrite (proj2 (value_at tf w o a f rf s ts vs i H Hi)), (proj2 (value_at tf w o a f rf s ts vs j H Hj)), E, raw_mirror by auto. reflexivity.
Qed.
Print Assumptions C126_slepian_symmetric.

(** Outside the window of length [width] around the middle, and at its two ends, the value is offset / amp. *)
Lemma series_edge : forall tf L cs n, cos_series tf L n cs ((tf - L) / 2) = 0 /\ sin_series tf L n cs ((tf - L) / 2) = 0.
Proof.
  intros tf L. induction cs as [|c cs IH]; intro n; cbn [cos_series sin_series]; [auto|]. destruct (IH (S n)) as [-> ->].
  replace ((tf - L) / 2 - (tf - L) / 2) with 0 by ring. unfold Rdiv. rewrite !Rmult_0_r, !Rmult_0_l, cos_0, sin_0. split; ring.
Qed.
Theorem C126_slepian_outside :
  forall t_final width fourier offset amp risefall sin_coeffs ts vs i,
  slepian_fourier t_final width fourier offset amp risefall sin_coeffs ts = Ok vs ->
  0 < ramps width risefall -> 0 <= flat width risefall ->
  (i < length ts)%nat -> width / 2 <= Rabs (t_final / 2 - nth i ts 0) -> nth i vs 0 = offset / amp.
Proof.
  intros tf w f o a rf s ts vs i H HL HF Hi HB. rewrite (proj2 (value_at tf w o a f rf s ts vs i H Hi)).
  set (t := nth i ts 0) in *.
  assert (Z : slepian_raw tf w f rf s t = 0); [|rewrite Z; unfold Rdiv; ring].
  assert (L : forall t, t = (tf - w) / 2 -> slepian_raw tf w f rf s t = 0).
  { clear - HL HF. intros t ->. unfold slepian_raw. destruct rf as [r|]; cbn [ramps flat] in *.
    - assert (P : slepian_position tf (w - r * 2) ((tf - w) / 2) = (tf - r * 2) / 2).
      { unfold slepian_position. replace ((tf - w) / 2 - tf / 2) with (- (w / 2)) by field. rewrite Rabs_Ropp. rewrite (Rabs_pos_eq (w / 2)) by lra. cases; lra. }
      rewrite P. destruct (series_edge tf (r * 2) f 0%nat) as [-> _].
      destruct s as [s|]; [destruct (series_edge tf (r * 2) s 0%nat) as [_ ->]|]; destruct (Rltb _ _); ring.
    - destruct (series_edge tf w f 0%nat) as [-> _].
      destruct s as [s|]; [destruct (series_edge tf w s 0%nat) as [_ ->]|]; destruct (Rltb _ _); ring. }
  destruct HB as [HB|HB].
  - unfold slepian_raw. destruct (match rf with Some _ => _ | None => _ end) as [x len]. unfold Rltb. destruct (Rlt_dec _ _); [reflexivity|contradiction].
  - unfold Rabs in HB. destruct (Rcase_abs (tf / 2 - t)).
    + rewrite <- (raw_mirror tf w f rf s t) by lra. apply L. lra.
    + apply L. lra.
Qed.
Print Assumptions C126_slepian_outside.

(** Between rise and fall the pulse is flat. *)
Theorem C126_slepian_flat :
  forall t_final width fourier offset amp rf sin_coeffs ts vs i j,
  slepian_fourier t_final width fourier offset amp (Some rf) sin_coeffs ts = Ok vs -> 0 <= rf ->
  (i < length ts)%nat -> (j < length ts)%nat ->
  Rabs (nth i ts 0 - t_final / 2) < width / 2 - rf -> Rabs (nth j ts 0 - t_final / 2) < width / 2 - rf ->
  nth i vs 0 = nth j vs 0.
Proof.
  intros tf w f o a rf s ts vs i j H Hr Hi Hj A B.
  assert (R : forall t, Rabs (t - tf / 2) < w / 2 - rf -> slepian_raw tf w f (Some rf) s t = slepian_raw tf w f (Some rf) s (tf / 2)).
  { intros t Ht. unfold slepian_raw. replace (tf / 2 - tf / 2) with 0 by ring. rewrite Rabs_R0.
    replace (tf / 2 - t) with (- (t - tf / 2)) by ring. rewrite Rabs_Ropp. pose proof (Rabs_pos (t - tf / 2)).
    assert (P : forall t', Rabs (t' - tf / 2) < w / 2 - rf -> slepian_position tf (w - rf * 2) t' = tf / 2).
    { intros t' Ht'. unfold slepian_position. unfold Rltb at 1. destruct (Rlt_dec _ ((w - rf * 2) / 2)); [reflexivity|lra]. }
    rewrite (P t Ht), (P (tf / 2)) by (replace (tf / 2 - tf / 2) with 0 by ring; rewrite Rabs_R0; lra).
    unfold Rltb. destruct (Rlt_dec (w / 2) (Rabs (t - tf / 2))); [lra|]. destruct (Rlt_dec (w / 2) 0); [lra|]. reflexivity. }
  rewrite (proj2 (value_at tf w o a f (Some rf) s ts vs i H Hi)), (proj2 (value_at tf w o a f (Some rf) s ts vs j H Hj)), (R _ A), (R _ B). reflexivity.
Qed.
Print Assumptions C126_slepian_flat.

(** If some sample of the series is positive, the largest value of the pulse is 1. *)
Theorem C126_slepian_peak :
  forall t_final width fourier offset amp risefall sin_coeffs ts vs,
  slepian_fourier t_final width fourier offset amp risefall sin_coeffs ts = Ok vs ->
  (exists t, In t ts /\ 0 < slepian_raw t_final width fourier risefall sin_coeffs t) -> offset / amp <= 1 ->
  In 1 vs /\ forall v, In v vs -> v <= 1.
Proof.
  intros tf w f o a rf s ts vs H (t & It & Pt) HO.
  destruct (slepian_value tf w o a f rf s ts vs H) as (NE & _ & NZ & ->).
  set (raw := slepian_raw tf w f rf s) in *.
  destruct (reduce_max_spec (map raw ts)) as [IM MX]; [destruct ts; [congruence|discriminate]|].
  set (M := reduce_max (map raw ts)) in *.
  assert (PM : 0 < M). { assert (raw t <= M) by (apply MX, in_map, It). lra. }
  split.
  - apply in_map_iff in IM. destruct IM as (t1 & E1 & I1). apply in_map_iff. exists t1. split; [|exact I1]. rewrite E1. unfold Rdiv at 1. rewrite Rinv_r by lra. ring.
  - intros v Iv. apply in_map_iff in Iv. destruct Iv as (t1 & <- & I1).
    assert (B : raw t1 / M <= 1). { apply Rmult_le_reg_r with M; [exact PM|]. unfold Rdiv. rewrite Rmult_assoc, Rinv_l by lra. rewrite Rmult_1_r, Rmult_1_l. apply MX, in_map, I1. }
    assert ((raw t1 / M) * (1 - o / a) <= 1 * (1 - o / a)) by (apply Rmult_le_compat_r; lra). lra.
Qed.
Print Assumptions C126_slepian_peak.

Lemma cos_series_nonneg : forall tf L x cs n, Forall (fun c => 0 <= c) cs -> 0 <= cos_series tf L n cs x.
Proof.
  intros tf L x. induction cs as [|c cs IH]; intros n F; cbn [cos_series]; [lra|]. inversion F as [|? ? Hc F']; subst.
  specialize (IH (S n) F'). match goal with |- context [cos ?z] => pose proof (COS_bound z) as [_ B]; set (q := cos z) in * end.
  assert (0 <= c * (1 - q)) by (apply Rmult_le_pos; lra). lra.
Qed.
Lemma cos_lt_1 : forall x, 0 < x < 2 * PI -> cos x < 1.
Proof.
  intros x [A B]. pose proof PI_RGT_0. replace x with (2 * (x / 2)) by field. rewrite cos_2a_sin.
  assert (0 < sin (x / 2)) by (apply sin_gt_0; lra). nra.
Qed.
(** Pulses with coefficients that are not negative: the values lie between offset / amp and 1, and 1 is reached. *)
Theorem C126_slepian_range :
  forall t_final width c cs offset amp ts t,
  0 < width -> 0 < c -> Forall (fun c => 0 <= c) cs -> amp <> 0 -> 0 <= offset / amp <= 1 ->
  In t ts -> Rabs (t_final / 2 - t) < width / 2 ->
  exists vs, slepian_fourier t_final width (c :: cs) offset amp None None ts = Ok vs
   /\ In 1 vs /\ forall v, In v vs -> offset / amp <= v <= 1.
Proof.
  intros tf w c cs o a ts t Hw Hc Hcs Ha HO It Ht.
  set (raw := slepian_raw tf w (c :: cs) None None).
  assert (P : 0 < raw t).
  { unfold raw, slepian_raw. cbn [cos_series]. unfold Rltb. destruct (Rlt_dec (w / 2) (Rabs (tf / 2 - t))); [lra|].
    pose proof (cos_series_nonneg tf w t cs 1%nat Hcs) as N. rewrite Rplus_0_r. change (INR 0) with 0. rewrite Rplus_0_l.
    set (u := t - (tf - w) / 2). assert (U : 0 < u < w). { unfold u. apply Rabs_def2 in Ht. lra. }
    assert (Q : cos (2 * PI * 1 * u / w) < 1).
    { apply cos_lt_1. pose proof PI_RGT_0. assert (0 < u / w < 1).
      { split; [apply Rdiv_lt_0_compat; lra|]. apply Rmult_lt_reg_r with w; [lra|]. unfold Rdiv. rewrite Rmult_assoc, Rinv_l by lra. lra. }
      replace (2 * PI * 1 * u / w) with (2 * PI * (u / w)) by (field; lra). split; [apply Rmult_lt_0_compat; lra|].
      apply Rlt_le_trans with (2 * PI * 1); [apply Rmult_lt_compat_l; lra|lra]. }
    assert (0 < c * (1 - cos (2 * PI * 1 * u / w))) by (apply Rmult_lt_0_compat; lra). lra. }
  assert (NN : forall t, 0 <= raw t).
  { intro t'. unfold raw, slepian_raw. destruct (Rltb _ _); [lra|]. rewrite Rplus_0_r. apply cos_series_nonneg. constructor; [lra|exact Hcs]. }
  destruct (slepian_fourier tf w (c :: cs) o a None None ts) as [vs|x] eqn:E.
  - exists vs. split; [reflexivity|]. destruct (C126_slepian_peak _ _ _ _ _ _ _ _ _ E) as [A B]; [exists t; auto|lra|]. split; [exact A|].
    intros v Iv. split; [|apply B, Iv].
    destruct (slepian_value tf w o a (c :: cs) None None ts vs E) as (NE & _ & NZ & ->). fold raw in NZ, Iv |- *.
    destruct (reduce_max_spec (map raw ts)) as [_ MX]; [destruct ts; [congruence|discriminate]|].
    set (M := reduce_max (map raw ts)) in *. assert (PM : 0 < M) by (assert (raw t <= M) by (apply MX, in_map, It); lra).
    apply in_map_iff in Iv. destruct Iv as (t1 & <- & _).
    assert (0 <= raw t1 / M) by (apply Rmult_le_pos; [apply NN|left; apply Rinv_0_lt_compat, PM]).
    assert (0 <= raw t1 / M * (1 - o / a)) by (apply Rmult_le_pos; lra). lra.
  - exfalso. unfold slepian_fourier, slepian_scale in E. fold raw in E. destruct (map raw ts) as [|x0 l] eqn:EM.
    + destruct ts; [destruct It|discriminate EM].
    + destruct (Req_EM_T (reduce_max (x0 :: l)) 0) as [Z|_].
      * destruct (reduce_max_spec (x0 :: l)) as [_ MX]; [discriminate|]. assert (raw t <= reduce_max (x0 :: l)) by (apply MX; rewrite <- EM; apply in_map, It). lra.
      * destruct (Req_EM_T a 0); [contradiction|discriminate].
Qed.
Print Assumptions C126_slepian_range.

(** Only the ratios of the coefficients matter. *)
Theorem C126_slepian_relative :
  forall t_final width fourier offset amp risefall sin_coeffs ts k, 0 < k ->
  slepian_fourier t_final width (map (Rmult k) fourier) offset amp risefall (option_map (map (Rmult k)) sin_coeffs) ts
  = slepian_fourier t_final width fourier offset amp risefall sin_coeffs ts.
Proof.
  intros tf w f o a rf s ts k Hk.
  assert (CS : forall L x cs n, cos_series tf L n (map (Rmult k) cs) x = k * cos_series tf L n cs x).
  { intros L x. induction cs as [|c cs IH]; intro n; cbn [cos_series map]; [ring|]. rewrite IH. ring. }
  assert (SS : forall L x cs n, sin_series tf L n (map (Rmult k) cs) x = k * sin_series tf L n cs x).
  { intros L x. induction cs as [|c cs IH]; intro n; cbn [sin_series map]; [ring|]. rewrite IH. ring. }
  assert (RW : forall t, slepian_raw tf w (map (Rmult k) f) rf (option_map (map (Rmult k)) s) t = k * slepian_raw tf w f rf s t).
  { intro t. unfold slepian_raw. destruct (match rf with Some _ => _ | None => _ end) as [x len]. rewrite CS.
    destruct (Rltb _ _); [ring|]. destruct s as [s|]; cbn [option_map]; [rewrite SS|]; ring. }
  unfold slepian_fourier. rewrite (map_ext _ _ RW). rewrite <- (map_map (slepian_raw tf w f rf s) (Rmult k)).
  set (l := map (slepian_raw tf w f rf s) ts). clearbody l. unfold slepian_scale. destruct l as [|x l]; [reflexivity|].
  assert (MK : reduce_max (map (Rmult k) (x :: l)) = k * reduce_max (x :: l)).
  { destruct (reduce_max_spec (x :: l)) as [A B]; [discriminate|]. destruct (reduce_max_spec (map (Rmult k) (x :: l))) as [A' B']; [discriminate|].
    apply Rle_antisym.
    - apply in_map_iff in A'. destruct A' as (y & Ey & Iy). rewrite <- Ey. apply Rmult_le_compat_l; [lra|]. apply B, Iy.
    - apply B', in_map, A. }
  cbn [map] in *. rewrite MK. destruct (Req_EM_T (reduce_max (x :: l)) 0) as [Z|NZ].
  - rewrite Z, Rmult_0_r. destruct (Req_EM_T 0 0); [reflexivity|congruence].
  - destruct (Req_EM_T (k * reduce_max (x :: l)) 0) as [Z|_]; [exfalso; apply Rmult_integral in Z; destruct Z; lra|].
    destruct (Req_EM_T a 0); [reflexivity|]. f_equal. f_equal; [field; split; [lra|split; lra]|]. rewrite map_map. apply map_ext. intro y. field. split; [lra|split; lra].
Qed.
Print Assumptions C126_slepian_relative.

(** Finding: coefficients that are all negative turn the pulse upside down and are scaled by the smallest sample
    instead of the largest: the samples -1 and -2 become 1 and 2, so the pulse exceeds its amplitude. *)
Theorem C126_slepian_negative_refuted :
  ~ (forall t_final width fourier offset amp ts vs, 0 < width -> 0 < amp ->
     slepian_fourier t_final width fourier offset amp None None ts = Ok vs -> forall v, In v vs -> v <= 1).
Proof.
  intro H.
  assert (R1 : slepian_raw 4 4 [-1] None None 1 = -1).
  { unfold slepian_raw. cbn [cos_series INR]. unfold Rltb. rewrite Rabs_pos_eq by lra. destruct (Rlt_dec _ _); [lra|].
    replace (2 * PI * (0 + 1) * (1 - (4 - 4) / 2) / 4) with (PI / 2) by field. rewrite cos_PI2. ring. }
  assert (R2 : slepian_raw 4 4 [-1] None None 2 = -2).
  { unfold slepian_raw. cbn [cos_series INR]. unfold Rltb. rewrite Rabs_pos_eq by lra. destruct (Rlt_dec _ _); [lra|].
    replace (2 * PI * (0 + 1) * (2 - (4 - 4) / 2) / 4) with PI by field. rewrite cos_PI. ring. }
  assert (E : slepian_fourier 4 4 [-1] 0 1 None None [1; 2] = Ok [1; 2]).
  { unfold slepian_fourier. cbn [map]. rewrite R1, R2. unfold slepian_scale.
    assert (M : reduce_max [-1; -2] = -1) by (unfold reduce_max, list_max; cbn [fold_left]; apply Rmax_left; lra).
    rewrite M. destruct (Req_EM_T (-1) 0); [lra|]. destruct (Req_EM_T 1 0); [lra|]. cbn [map]. f_equal. f_equal; [field|]. f_equal. field. }
  specialize (H 4 4 [-1] 0 1 [1; 2] [1; 2]). assert (2 <= 1); [|lra]. apply H; [lra|lra|exact E|right; left; reflexivity].
Qed.
Print Assumptions C126_slepian_negative_refuted.

(** Finding: at the two instants where the flat part begins and ends the strict comparisons leave the time as it is, so
    the series is read at the end of the flat part instead of the middle: with a flat part as long as the ramps the
    pulse drops to zero there. *)
Theorem C126_slepian_notch_refuted :
  ~ (forall t_final width fourier offset amp rf ts vs i j, 0 < rf -> 0 < amp ->
     slepian_fourier t_final width fourier offset amp (Some rf) None ts = Ok vs ->
     (i < length ts)%nat -> (j < length ts)%nat ->
     Rabs (nth i ts 0 - t_final / 2) <= width / 2 - rf -> Rabs (nth j ts 0 - t_final / 2) <= width / 2 - rf ->
     nth i vs 0 = nth j vs 0).
Proof.
  intro H.
  assert (R1 : slepian_raw 4 4 [1] (Some 1) None 2 = 2).
  { unfold slepian_raw, slepian_position. cbn [cos_series INR]. replace (2 - 4 / 2) with 0 by field. replace (4 / 2 - 2) with 0 by field. rewrite !Rabs_R0. unfold Rltb.
    destruct (Rlt_dec (4 / 2) 0); [lra|]. destruct (Rlt_dec 0 ((4 - 1 * 2) / 2)); [|lra].
    replace (2 * PI * (0 + 1) * (4 / 2 - (4 - 1 * 2) / 2) / (1 * 2)) with PI by field. rewrite cos_PI. ring. }
  assert (R2 : slepian_raw 4 4 [1] (Some 1) None 3 = 0).
  { unfold slepian_raw, slepian_position. cbn [cos_series INR]. replace (3 - 4 / 2) with 1 by field. replace (4 / 2 - 3) with (- (1)) by field. rewrite Rabs_Ropp, !Rabs_R1. unfold Rltb.
    destruct (Rlt_dec 1 ((4 - 1 * 2) / 2)); [lra|]. destruct (Rlt_dec 3 ((4 - (4 - 1 * 2)) / 2)); [lra|]. destruct (Rlt_dec ((4 + (4 - 1 * 2)) / 2) 3); [lra|].
    replace (2 * PI * (0 + 1) * (3 - (4 - 1 * 2) / 2) / (1 * 2)) with (2 * PI) by field. rewrite cos_2PI. destruct (Rlt_dec _ _); ring. }
  assert (E : slepian_fourier 4 4 [1] 0 1 (Some 1) None [2; 3] = Ok [1; 0]).
  { unfold slepian_fourier. cbn [map]. rewrite R1, R2. unfold slepian_scale.
    assert (M : reduce_max [2; 0] = 2) by (unfold reduce_max, list_max; cbn [fold_left]; apply Rmax_left; lra).
    rewrite M. destruct (Req_EM_T 2 0); [lra|]. destruct (Req_EM_T 1 0); [lra|]. cbn [map]. f_equal. f_equal; [field|]. f_equal. field. }
  specialize (H 4 4 [1] 0 1 1 [2; 3] [1; 0] 0%nat 1%nat). cbn [nth length] in H.
  replace (2 - 4 / 2) with 0 in H by field. replace (3 - 4 / 2) with 1 in H by field. rewrite Rabs_R0, Rabs_R1 in H.
  assert (1 = 0); [|lra]. apply H; try lra; try lia. exact E.
Qed.
Print Assumptions C126_slepian_notch_refuted.

(** The failures: no sample, no amplitude, or no positive or negative largest sample. *)
Theorem C126_slepian_fails :
  forall t_final width fourier offset amp risefall sin_coeffs ts,
  let m := reduce_max (map (slepian_raw t_final width fourier risefall sin_coeffs) ts) in
  (ts = [] \/ amp = 0 \/ m = 0 -> slepian_fourier t_final width fourier offset amp risefall sin_coeffs ts = Err NaNResult)
  /\ (ts <> [] -> amp <> 0 -> m <> 0 -> is_ok (slepian_fourier t_final width fourier offset amp risefall sin_coeffs ts) = true).
Proof.
  intros tf w f o a rf s ts m. unfold slepian_fourier, slepian_scale. split.
  - intros H. destruct ts as [|t ts]; [reflexivity|]. fold m. cbn [map] in *. change (reduce_max _) with m. destruct (Req_EM_T m 0); [reflexivity|].
    destruct (Req_EM_T a 0); [reflexivity|]. destruct H as [H|[H|H]]; [discriminate|contradiction|contradiction].
  - intros HT HA HM. destruct ts as [|t ts]; [congruence|]. fold m. cbn [map] in *. change (reduce_max _) with m. destruct (Req_EM_T m 0); [contradiction|].
    destruct (Req_EM_T a 0); [contradiction|]. reflexivity.
Qed.
Print Assumptions C126_slepian_fails.

(** ** Pulses with a plateau in the middle *)
(** Samples starting at time 0: the first half of the interpolated shape, then 1 for [width - T], then the second
    half; outside [0, width] nothing.  Without [width] it is the interpolated shape. *)
Theorem C126_plateau :
  forall T width y t, 0 < T -> T <= width ->
  pwc_shape_plateau 0 T y None t = pwc_shape 0 T y t
  /\ (t < T / 2 -> pwc_shape_plateau 0 T y (Some width) t = pwc_shape 0 T y t)
  /\ (T / 2 <= t < T / 2 + (width - T) -> pwc_shape_plateau 0 T y (Some width) t = 1)
  /\ (T / 2 + (width - T) < t -> pwc_shape_plateau 0 T y (Some width) t = pwc_shape 0 T y (t - (width - T)))
  /\ (t < 0 \/ width < t -> pwc_shape_plateau 0 T y (Some width) t = 0).
Proof.
  intros T w y t HT HW.
  assert (A : t < T / 2 -> pwc_shape_plateau 0 T y (Some w) t = pwc_shape 0 T y t).
  { intro H. unfold pwc_shape_plateau, plateau_position, pwc_shape. cases; try lra; destruct (Req_EM_T _ _); try lra; reflexivity. }
  assert (B : T / 2 + (w - T) < t -> pwc_shape_plateau 0 T y (Some w) t = pwc_shape 0 T y (t - (w - T))).
  { intro H. unfold pwc_shape_plateau, plateau_position, pwc_shape.
    replace (T - 0) with T by ring. cases; try lra; destruct (Req_EM_T _ _); try lra; reflexivity. }
  split; [reflexivity|]. split; [exact A|]. split; [|split; [exact B|]].
  - intro H. unfold pwc_shape_plateau, plateau_position. cases; try lra; destruct (Req_EM_T _ _); try lra; reflexivity.
  - intros [H|H].
    + rewrite A by lra. unfold pwc_shape, interp_grid. cases; try reflexivity; lra.
    + rewrite B by lra. unfold pwc_shape, interp_grid. cases; try reflexivity; lra.
Qed.
Print Assumptions C126_plateau.

(** Finding: the middle of the samples is taken to be half their length, whatever the time of the first sample.  With
    samples from 2 to 4 and no plateau (width 2) the pulse is 1 at time 1, before it begins. *)
Theorem C126_plateau_start_refuted :
  ~ (forall lo hi y t, 0 <= lo -> lo < hi -> t < lo -> pwc_shape_plateau lo hi y (Some (hi - lo)) t = 0).
Proof.
  intro H. specialize (H 2 4 [0; 0; 0] 1 ltac:(lra) ltac:(lra) ltac:(lra)).
  unfold pwc_shape_plateau, plateau_position in H. cases; try lra; destruct (Req_EM_T _ _); lra.
Qed.
Print Assumptions C126_plateau_start_refuted.

(** Finding: the plateau has height 1 whatever the samples: a pulse with samples 0, 0, 0 is 1 on the plateau. *)
Theorem C126_plateau_height_refuted :
  ~ (forall T width y t, 0 < T -> T <= width -> Forall (fun v => v = 0) y -> pwc_shape_plateau 0 T y (Some width) t = 0).
Proof.
  intro H. specialize (H 2 4 [0; 0; 0] 2 ltac:(lra) ltac:(lra) ltac:(repeat constructor)).
  rewrite (proj1 (proj2 (proj2 (C126_plateau 2 4 [0; 0; 0] 2 ltac:(lra) ltac:(lra))))) in H by lra. lra.
Qed.
Print Assumptions C126_plateau_height_refuted.

(** Finding: at the instant the plateau ends the strict comparisons leave the time as it is, so that the samples are read
    there instead of in the middle: with a plateau longer than half the samples the pulse is 0 at this instant. *)
Theorem C126_plateau_end :
  forall T width y, 0 < T -> T < width ->
  pwc_shape_plateau 0 T y (Some width) (T / 2 + (width - T)) = pwc_shape 0 T y (T / 2 + (width - T)).
Proof.
  intros T w y HT HW. unfold pwc_shape_plateau, plateau_position, pwc_shape.
  cases; try lra; destruct (Req_EM_T _ _); try lra; reflexivity.
Qed.
Print Assumptions C126_plateau_end.
(** Finding: at the last moment of the plateau the pulse has the value of the interpolated
    shape there, not the plateau value. *)
Theorem C126_plateau_end_refuted :
  ~ (forall T width y t, 0 < T -> T < width -> T / 2 <= t <= T / 2 + (width - T) -> pwc_shape_plateau 0 T y (Some width) t = 1).
Proof.
  intro H. specialize (H 2 6 [0; 1; 0] (2 / 2 + (6 - 2)) ltac:(lra) ltac:(lra) ltac:(lra)). rewrite C126_plateau_end in H by lra.
  unfold pwc_shape, interp_grid in H. cases; lra.
Qed.
Print Assumptions C126_plateau_end_refuted.

(** ** Delta pulses *)
(** A sample is nearest to [s] if no sample is nearer. *)
Definition nearest (ts : list R) (t s : R) : Prop := forall t', In t' ts -> Rabs (t - s) <= Rabs (t' - s).

Lemma delta_step_spec : forall ts s shape i, length shape = length ts -> (i < length ts)%nat ->
  length (delta_step ts s shape) = length ts
  /\ (nearest ts (nth i ts 0) (s + 1 / 1000000000) -> nth i (delta_step ts s shape) 0 = 1)
  /\ (~ nearest ts (nth i ts 0) (s + 1 / 1000000000) -> nth i (delta_step ts s shape) 0 = nth i shape 0).
Proof.
  intros ts s shape i HL Hi. unfold delta_step. cbv zeta. set (dist := fun t => (t - s - 1 / 1000000000) ^ 2).
  set (least := match ts with [] => 0 | t :: r => list_min (dist t) (map dist r) end).
  assert (LM : In least (map dist ts) /\ forall t, In t ts -> least <= dist t).
  { unfold least. destruct ts as [|t r]; [cbn in Hi; lia|]. destruct (list_min_spec (map dist r) (dist t)) as [A B]. split; [exact A|].
    intros t' I. apply B. apply (in_map dist (t :: r) t' I). }
  assert (DS : forall t, dist t = (Rabs (t - (s + 1 / 1000000000))) ^ 2).
  { intro t. rewrite <- Rsqr_pow2, <- Rsqr_abs, Rsqr_pow2. unfold dist. f_equal. ring. }
  assert (NR : forall t, In t ts -> (nearest ts t (s + 1 / 1000000000) <-> least = dist t)).
  { intros t I. destruct LM as [A B]. split.
    - intro N. apply Rle_antisym; [apply B, I|]. apply in_map_iff in A. destruct A as (t1 & <- & I1). rewrite !DS. apply pow_incr. split; [apply Rabs_pos|apply N, I1].
    - intros E t' I'. specialize (B t' I'). rewrite E, !DS in B. apply Rsqr_incr_0; try apply Rabs_pos. rewrite !Rsqr_pow2. exact B. }
  split; [rewrite map_length, combine_length; lia|].
  set (g := fun p : R * R => if Req_EM_T least (dist (fst p)) then 1 else snd p).
  assert (E : nth i (map g (combine ts shape)) 0 = g (nth i ts 0, nth i shape 0)).
  { rewrite (nth_indep _ 0 (g (0, 0))) by (rewrite map_length, combine_length; lia). rewrite map_nth, combine_nth by auto. reflexivity. }
  specialize (NR (nth i ts 0) (nth_In ts 0 Hi)).
  match goal with |- (_ -> nth i (map ?h _) 0 = 1) /\ _ => change h with g end.
  rewrite E. unfold g. cbn [fst snd]. destruct (Req_EM_T least (dist (nth i ts 0))) as [Q|Q]; split; intro N; try reflexivity; exfalso; apply N || apply Q; apply NR; assumption.
Qed.
(** The pulse is 1 exactly at the samples nearest to 1 ns after one of the listed times. *)
Theorem C126_delta :
  forall ts t_sig i, (i < length ts)%nat ->
  length (delta_pulse ts t_sig) = length ts
  /\ ((exists s, In s t_sig /\ nearest ts (nth i ts 0) (s + 1 / 1000000000)) -> nth i (delta_pulse ts t_sig) 0 = 1)
  /\ (~ (exists s, In s t_sig /\ nearest ts (nth i ts 0) (s + 1 / 1000000000)) -> nth i (delta_pulse ts t_sig) 0 = 0).
Proof.
  intros ts t_sig i Hi. unfold delta_pulse.
  assert (G : forall shape, length shape = length ts ->
    length (fold_left (fun shape t_s => delta_step ts t_s shape) t_sig shape) = length ts
    /\ ((exists s, In s t_sig /\ nearest ts (nth i ts 0) (s + 1 / 1000000000)) \/ nth i shape 0 = 1 ->
        nth i (fold_left (fun shape t_s => delta_step ts t_s shape) t_sig shape) 0 = 1)
    /\ (~ (exists s, In s t_sig /\ nearest ts (nth i ts 0) (s + 1 / 1000000000)) ->
        nth i (fold_left (fun shape t_s => delta_step ts t_s shape) t_sig shape) 0 = nth i shape 0)).
  { induction t_sig as [|s l IH]; intros shape HL; cbn [fold_left].
    - split; [exact HL|]. split; [|reflexivity]. intros [(s & [] & _)|E]; exact E.
    - destruct (delta_step_spec ts s shape i HL Hi) as (D1 & D2 & D3). destruct (IH _ D1) as (I1 & I2 & I3). split; [exact I1|].
      assert (ND : nearest ts (nth i ts 0) (s + 1 / 1000000000) \/ ~ nearest ts (nth i ts 0) (s + 1 / 1000000000)).
      { clear. unfold nearest. generalize (nth i ts 0) as t0. generalize (s + 1 / 1000000000) as s0. intros s0 t0. induction ts as [|t r IH].
        - left. intros t' [].
        - destruct IH as [IH|IH].
          + destruct (Rle_dec (Rabs (t0 - s0)) (Rabs (t - s0))) as [L|L].
            * left. intros t' [<-|I]; [exact L|apply IH, I].
            * right. intro N. apply L, N. left. reflexivity.
          + right. intro N. apply IH. intros t' I. apply N. right. exact I. }
      split.
      + intros [(s' & [<-|I] & N)|E].
        * apply I2. right. apply D2, N.
        * apply I2. left. exists s'. auto.
        * apply I2. right. destruct ND as [N|N]; [apply D2, N|rewrite (D3 N); exact E].
      + intro N. rewrite I3.
        * apply D3. intro N'. apply N. exists s. split; [left; reflexivity|exact N'].
        * intros (s' & I & N'). apply N. exists s'. split; [right; exact I|exact N']. }
  destruct (G (map (fun _ => 0) ts)) as (G1 & G2 & G3); [apply map_length|]. split; [exact G1|]. split; [intro E; apply G2; left; exact E|].
  intro N. rewrite (G3 N). clear. revert i. induction ts as [|t r IH]; intros [|i]; cbn; auto.
Qed.
Print Assumptions C126_delta.

(** Finding: the nanosecond is added whatever the sampling, so a signal at time 0 with samples at 0, 1 and 2 ns comes out
    one sample late. *)
Theorem C126_delta_refuted :
  ~ (forall ts t_sig i, (i < length ts)%nat -> In (nth i ts 0) t_sig -> nth i (delta_pulse ts t_sig) 0 = 1).
Proof.
  intro H. specialize (H [0; 1 / 1000000000; 2 / 1000000000] [0] 0%nat ltac:(cbn; lia) ltac:(left; reflexivity)).
  destruct (C126_delta [0; 1 / 1000000000; 2 / 1000000000] [0] 0%nat ltac:(cbn; lia)) as (_ & _ & Z).
  rewrite Z in H; [lra|]. intros (s & [<-|[]] & N). specialize (N (1 / 1000000000) ltac:(right; left; reflexivity)). cbn [nth] in N.
  replace (1 / 1000000000 - (0 + 1 / 1000000000)) with 0 in N by ring. rewrite Rabs_R0 in N.
  replace (0 - (0 + 1 / 1000000000)) with (- (1 / 1000000000)) in N by ring. rewrite Rabs_Ropp, Rabs_pos_eq in N by lra. lra.
Qed.
Print Assumptions C126_delta_refuted.

(** ** The remaining envelopes and the type of the values *)
Theorem C126_simple :
  (forall ts, no_drive ts = TComplex (repeat (RtoC 0) (length ts)))
  /\ (forall ts i q, length i = length q -> exists l, pwc ts i q = Ok (TComplex l) /\ map fst l = i /\ map snd l = q)
  /\ (forall ts i q, length i <> length q -> pwc ts i q = Err ValueError).
Proof.
  split; [|split].
  - intro ts. unfold no_drive. f_equal. induction ts as [|t ts IH]; cbn; [reflexivity|f_equal; exact IH].
  - intros ts i q H. unfold pwc. rewrite H, Nat.eqb_refl. exists (combine i q). split; [reflexivity|]. revert q H.
    induction i as [|a i IH]; intros [|b q] H; try discriminate; cbn; [auto|]. injection H as H. destruct (IH q H) as [-> ->]. auto.
  - intros ts i q H. unfold pwc. apply Nat.eqb_neq in H. rewrite H. reflexivity.
Qed.
Print Assumptions C126_simple.

(** flattop_risefall_1ns is flattop_risefall with a rise time of 1 ns; it writes this rise time into the parameters, and
    leaves the others. *)
Theorem C126_flattop_1ns :
  forall params ts,
  (forall t_final, dget "t_final" params = Some t_final ->
     fst (flattop_risefall_1ns params ts) = Ok (TComplex (map (fun t => RtoC (flattop_risefall t_final (1 / 1000000000) t)) ts)))
  /\ (dget "t_final" params = None -> fst (flattop_risefall_1ns params ts) = Err KeyError)
  /\ dget "risefall" (snd (flattop_risefall_1ns params ts)) = Some (1 / 1000000000)
  /\ (forall k, k <> "risefall"%string -> dget k (snd (flattop_risefall_1ns params ts)) = dget k params).
Proof.
  intros params ts. unfold flattop_risefall_1ns. cbv zeta. cbn [fst snd]. rewrite dget_dset_same. rewrite (dget_dset_other "t_final"%string "risefall"%string) by discriminate.
  split; [|split; [|split]].
  - intros tf ->. cbn [tf_complexify]. rewrite map_map. reflexivity.
  - intros ->. reflexivity.
  - reflexivity.
  - intros k Hk. apply dget_dset_other. congruence.
Qed.
Print Assumptions C126_flattop_1ns.

(** Finding: flattop_risefall and the gaussian of given sigma return real numbers, unlike the other envelopes, and the
    product with the complex mask of Envelope.get_shape_values fails. *)
Theorem C126_real_envelopes_refuted :
  ~ (forall mask t_final risefall ts, length mask = length ts -> is_ok (times_mask mask (flattop_risefall_env t_final risefall ts)) = true)
  /\ ~ (forall mask t_final sigma ts, length mask = length ts -> is_ok (times_mask mask (gaussian_sigma_env t_final sigma ts)) = true).
Proof. split; intro H; specialize (H [] 1 1 [] eq_refl); discriminate. Qed.
Print Assumptions C126_real_envelopes_refuted.

(** A Slepian pulse of one coefficient on 4 ns is 0, 1/2, 1, 1/2, 0 at the times 0, 1, 2, 3, 4. *)
Example C126_example : slepian_fourier 4 4 [1] 0 1 None None [0; 1; 2] = Ok [0; 1 / 2; 1] /\ delta_pulse [0; 1; 2] [1] = [0; 1; 0].
Proof.
  split.
  - assert (R0 : slepian_raw 4 4 [1] None None 0 = 0).
    { unfold slepian_raw. cbn [cos_series INR]. unfold Rltb. rewrite Rabs_pos_eq by lra. destruct (Rlt_dec _ _); [lra|].
      replace (2 * PI * (0 + 1) * (0 - (4 - 4) / 2) / 4) with 0 by field. rewrite cos_0. ring. }
    assert (R1 : slepian_raw 4 4 [1] None None 1 = 1).
    { unfold slepian_raw. cbn [cos_series INR]. unfold Rltb. rewrite Rabs_pos_eq by lra. destruct (Rlt_dec _ _); [lra|].
      replace (2 * PI * (0 + 1) * (1 - (4 - 4) / 2) / 4) with (PI / 2) by field. rewrite cos_PI2. ring. }
    assert (R2 : slepian_raw 4 4 [1] None None 2 = 2).
    { unfold slepian_raw. cbn [cos_series INR]. unfold Rltb. rewrite Rabs_pos_eq by lra. destruct (Rlt_dec _ _); [lra|].
      replace (2 * PI * (0 + 1) * (2 - (4 - 4) / 2) / 4) with PI by field. rewrite cos_PI. ring. }
    unfold slepian_fourier. cbn [map]. rewrite R0, R1, R2. unfold slepian_scale.
    assert (M : reduce_max [0; 1; 2] = 2) by (unfold reduce_max, list_max; cbn [fold_left]; rewrite (Rmax_right 0 1), (Rmax_right 1 2) by lra; reflexivity).
    rewrite M. destruct (Req_EM_T 2 0); [lra|]. destruct (Req_EM_T 1 0); [lra|]. cbn [map]. f_equal. repeat (f_equal; try field).
  - assert (L : list_min ((0 - 1 - 1 / 1000000000) ^ 2) [(1 - 1 - 1 / 1000000000) ^ 2; (2 - 1 - 1 / 1000000000) ^ 2] = (1 / 1000000000) ^ 2).
    { unfold list_min. cbn [fold_left]. rewrite (Rmin_right ((0 - 1 - 1 / 1000000000) ^ 2)) by nra. rewrite Rmin_left by nra. ring. }
    unfold delta_pulse, delta_step. cbn [fold_left map combine fst snd]. rewrite L.
    destruct (Req_EM_T _ ((0 - 1 - 1 / 1000000000) ^ 2)); [nra|]. destruct (Req_EM_T _ ((2 - 1 - 1 / 1000000000) ^ 2)); [nra|].
    destruct (Req_EM_T _ ((1 - 1 - 1 / 1000000000) ^ 2)) as [_|N]; [reflexivity|exfalso; apply N; ring].
Qed.
