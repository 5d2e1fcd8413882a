(** Envelope properties: window mask (C60), symmetric bounded shapes (C63), DRAG
    derivative (C64), net-zero envelopes (C70). *)
From Coq Require Import Reals Lra Lia.
From Coquelicot Require Import Coquelicot.
From Verif Require Import Base QuantityModel QuantityProofs Erf EnvModel EnvProofs.
Local Open Scope list_scope.
Local Open Scope nat_scope.
Local Notation length := List.length.

(** ** Specification vocabulary *)
(** mirror image about the time [c] *)
Definition symmetric_about (c : R) (f : R -> R) : Prop := forall t, f (2 * c - t)%R = f t.
Definition between (lo hi : R) (f : R -> R) : Prop := forall t, (lo <= f t <= hi)%R.
(** what an unmasked envelope should give: the shape, or the shape minus its value
    one sample before the first *)
Definition unmasked (before : bool) (shape : R -> C) (t0 t1 t : R) : C :=
  if before then (shape t - shape (t0 - (t1 - t0))%R)%C else shape t.

(** ** C60 Envelopes are confined to their window *)

Lemma shape_values_inv : forall b shape pt ts t_end vs,
  shape_values b shape pt ts t_end = Ok vs ->
  exists t0 t1 r, ts = t0 :: t1 :: r /\
    vs = map (fun t => RtoC (mask_at (Rmin pt t_end) (t1 - t0) t) * unmasked b shape t0 t1 t)%C ts.
Proof.
  intros b shape pt ts t_end vs H. destruct b; cbn [shape_values] in H; unfold shape_values_before, shape_values_just in H;
  destruct ts as [|t0 [|t1 r]]; try discriminate; injection H as <-; exists t0, t1, r; (split; [reflexivity|]).
  - unfold unmasked. replace (2 * t0 - t1)%R with (t0 - (t1 - t0))%R by ring. reflexivity.
  - reflexivity.
Qed.
Lemma nth_map_lt : forall {A B} (f : A -> B) l i d d', i < length l -> nth i (map f l) d = f (nth i l d').
Proof. intros A B f l. induction l; intros i d d' H; cbn in *; [lia|]. destruct i; [reflexivity|]. apply IHl. lia. Qed.

(** One value per sample; at every sample between 0 and 0.999 of the window
    length (up to a thousandth of a sample) the shape is reproduced up to a
    relative error 2 exp(-1000), and at every sample before 0 or after 0.999 of
    the window length the output is below exp(-1000) of the shape.  The window
    length is the smaller of the envelope's t_final and its time slot. *)
Theorem C60_window : forall b shape pt ts t_end vs,
  shape_values b shape pt ts t_end = Ok vs ->
  (nth 0 ts 0 < nth 1 ts 0)%R ->
  length vs = length ts /\
  forall i, i < length ts ->
    let t := nth i ts 0%R in
    let dt := (nth 1 ts 0 - nth 0 ts 0)%R in
    let len := Rmin pt t_end in
    let want := unmasked b shape (nth 0 ts 0%R) (nth 1 ts 0%R) t in
    ((0 <= t)%R -> (t <= 999 / 1000 * len - dt / 1000)%R ->
       (Cmod (nth i vs (RtoC 0) - want)%C <= 2 * exp (- 1000) * Cmod want)%R) /\
    ((t <= - (dt / 500) \/ 999 / 1000 * len + dt / 1000 <= t)%R ->
       (Cmod (nth i vs (RtoC 0)) <= exp (- 1000) * Cmod want)%R) /\
    (Cmod (nth i vs (RtoC 0)) <= Cmod want)%R.
Proof.
  intros b shape pt ts t_end vs H D. destruct (shape_values_inv _ _ _ _ _ _ H) as (t0 & t1 & r & -> & ->).
  cbn [nth] in D. split; [apply map_length|]. intros i Hi t dt len want.
  assert (E : nth i (map (fun t => RtoC (mask_at (Rmin pt t_end) (t1 - t0) t) * unmasked b shape t0 t1 t)%C (t0 :: t1 :: r)) (RtoC 0)
              = (RtoC (mask_at len dt t) * want)%C).
  { rewrite (nth_map_lt _ _ _ _ 0%R) by exact Hi. reflexivity. }
  rewrite E. cbn [nth] in dt.
  assert (Hd : (0 < dt)%R) by (subst dt; lra). pose proof (mask_bound len dt t) as MB. pose proof (Cmod_ge_0 want) as Cw.
  assert (AM : Cmod (RtoC (mask_at len dt t) * want)%C = (mask_at len dt t * Cmod want)%R).
  { rewrite Cmod_mult, Cmod_R, Rabs_right by lra. reflexivity. }
  split; [|split].
  - intros G1 G2. replace (RtoC (mask_at len dt t) * want - want)%C with (RtoC (mask_at len dt t - 1) * want)%C by (rewrite RtoC_minus; ring).
    rewrite Cmod_mult, Cmod_R, Rabs_left by lra. apply Rmult_le_compat_r; [exact Cw|]. pose proof (mask_inside len dt t Hd G1 G2). lra.
  - intros G. rewrite AM. apply Rmult_le_compat_r; [exact Cw|]. apply mask_outside; assumption.
  - rewrite AM. nra.
Qed.
Print Assumptions C60_window.

(** The bound is below half of the smallest positive binary64 number (2^-1074), so
    the factor outside the window rounds to zero in double precision. *)
Theorem C60_underflow : (exp (- 1000) < (/ 2) ^ 1075)%R.
Proof. exact exp_m1000. Qed.
Print Assumptions C60_underflow.

(** In particular nothing comes out before the slot or from its end on. *)
Theorem C60_outside_slot : forall b shape pt ts t_end vs i,
  shape_values b shape pt ts t_end = Ok vs ->
  (nth 0 ts 0 < nth 1 ts 0)%R -> i < length ts ->
  let t := nth i ts 0%R in let dt := (nth 1 ts 0 - nth 0 ts 0)%R in
  (dt <= Rmin pt t_end)%R ->
  (t <= - (dt / 500) \/ Rmin pt t_end <= t)%R ->
  (Cmod (nth i vs (RtoC 0)) <= exp (- 1000) * Cmod (unmasked b shape (nth 0 ts 0) (nth 1 ts 0) t))%R.
Proof.
  intros b shape pt ts t_end vs i H D Hi t dt G O. destruct (C60_window b shape pt ts t_end vs H D) as (_ & W).
  destruct (W i Hi) as (_ & W2 & _). apply W2. destruct O as [O|O]; [left; exact O|right]. fold t dt. lra.
Qed.
Print Assumptions C60_outside_slot.

(** The literal claim "unscaled everywhere inside the window" is false: the last
    thousandth of the window is cut, whole samples once it has more than 1000. *)
Theorem C60_last_thousandth_refuted : forall b shape pt ts t_end vs i,
  shape_values b shape pt ts t_end = Ok vs ->
  (nth 0 ts 0 < nth 1 ts 0)%R -> i < length ts ->
  let t := nth i ts 0%R in let dt := (nth 1 ts 0 - nth 0 ts 0)%R in
  (999 / 1000 * Rmin pt t_end + dt / 1000 <= t < Rmin pt t_end)%R ->
  (Cmod (nth i vs (RtoC 0)) <= exp (- 1000) * Cmod (unmasked b shape (nth 0 ts 0) (nth 1 ts 0) t))%R.
Proof.
  intros b shape pt ts t_end vs i H D Hi t dt G. destruct (C60_window b shape pt ts t_end vs H D) as (_ & W).
  destruct (W i Hi) as (_ & W2 & _). apply W2. right. apply G.
Qed.
Print Assumptions C60_last_thousandth_refuted.
Definition C60_ts : list R := map (fun i => (INR i + / 2)%R) (seq 0 2000).
Example C60_cut_example : (* 2000 samples of length 1 and a pulse of length 2000: the sample at 1999.5 is cut *)
  nth 1999 C60_ts 0%R = (1999 + / 2)%R /\
  (999 / 1000 * Rmin 2000 2000 + (nth 1 C60_ts 0 - nth 0 C60_ts 0) / 1000 <= nth 1999 C60_ts 0 < Rmin 2000 2000)%R /\
  exists vs, shape_values false (fun _ => RtoC 1) 2000 C60_ts 2000 = Ok vs.
Proof.
  assert (N : forall i, i < 2000 -> nth i C60_ts 0%R = (INR i + / 2)%R).
  { intros i Hi. unfold C60_ts. rewrite (nth_map_lt _ _ _ _ 0); [|rewrite seq_length; exact Hi]. rewrite seq_nth by exact Hi. reflexivity. }
  assert (B : 1999 < 2000) by (apply Nat.ltb_lt; vm_compute; reflexivity).
  assert (E : nth 1999 C60_ts 0%R = (1999 + / 2)%R). { rewrite N by exact B. rewrite INR_IZR_INZ. reflexivity. }
  split; [exact E|]. split.
  - rewrite E. rewrite (N 0) by lia. rewrite (N 1) by lia. unfold Rmin. destruct Rle_dec; cbn [INR]; lra.
  - unfold shape_values, shape_values_just, C60_ts. cbn [seq map]. eexists. reflexivity.
Qed.
Example C60_example : (* four unit samples, window of length 3, cosine shape *)
  exists vs, shape_values true (fun t => RtoC (cosine 3 t)) 3 [/2; 3/2; 5/2; 7/2]%R 5 = Ok vs /\
  (nth 0 [/2; 3/2; 5/2; 7/2] 0 < nth 1 [/2; 3/2; 5/2; 7/2] 0)%R /\
  (0 <= nth 1 [/2; 3/2; 5/2; 7/2] 0 <= 999 / 1000 * Rmin 3 5 - (3 / 2 - / 2) / 1000)%R /\
  (Rmin 3 5 <= nth 3 [/2; 3/2; 5/2; 7/2] 0)%R.
Proof. eexists. split; [reflexivity|]. cbn [nth]. unfold Rmin. destruct Rle_dec; lra. Qed.

(** ** C63 Symmetric bounded pulse shapes *)

Theorem C63_cosine : forall T, (0 < T)%R ->
  symmetric_about (T / 2) (cosine T) /\ between 0 1 (cosine T) /\
  cosine T 0 = 0%R /\ cosine T T = 0%R /\ cosine T (T / 2) = 1%R.
Proof.
  intros T H. repeat split.
  - intro t. unfold cosine. replace (2 * PI * (2 * (T / 2) - t) / T)%R with (- (2 * PI * t / T) + 2 * INR 1 * PI)%R by (cbn [INR]; field; lra).
    rewrite cos_period, cos_neg. reflexivity.
  - unfold cosine. pose proof (COS_bound (2 * PI * t / T)). lra.
  - unfold cosine. pose proof (COS_bound (2 * PI * t / T)). lra.
  - unfold cosine. replace (2 * PI * 0 / T)%R with 0%R by (field; lra). rewrite cos_0. lra.
  - unfold cosine. replace (2 * PI * T / T)%R with (2 * PI)%R by (field; lra). rewrite cos_2PI. lra.
  - unfold cosine. replace (2 * PI * (T / 2) / T)%R with PI by (field; lra). rewrite cos_PI. lra.
Qed.
Print Assumptions C63_cosine.

(** Non-normalised gaussian: maximum 1 at the centre, falling off with the distance
    from it. *)
Theorem C63_gaussian_nonorm : forall T s, s <> 0%R ->
  symmetric_about (T / 2) (gaussian_nonorm T s) /\
  (forall t, 0 < gaussian_nonorm T s t <= 1)%R /\
  gaussian_nonorm T s (T / 2) = 1%R /\
  (forall t u, Rabs (t - T / 2) < Rabs (u - T / 2) -> gaussian_nonorm T s u < gaussian_nonorm T s t)%R.
Proof.
  intros T s H. assert (P : (0 < s ^ 2)%R) by (apply pow2_gt_0; exact H).
  assert (Pi : (0 < / (2 * s ^ 2))%R) by (apply Rinv_0_lt_compat; lra). repeat split.
  - intro t. unfold gaussian_nonorm, gauss_pt. f_equal. field. exact H.
  - apply exp_pos.
  - unfold gaussian_nonorm, gauss_pt. rewrite <- exp_0. apply exp_le. unfold Rdiv. pose proof (pow2_ge_0 (t - T * / 2)). nra.
  - unfold gaussian_nonorm, gauss_pt. rewrite <- exp_0. f_equal. field. exact H.
  - intros t u L. unfold gaussian_nonorm, gauss_pt. apply exp_increasing. unfold Rdiv at 1 3. apply Rmult_lt_compat_r; [exact Pi|].
    apply Ropp_lt_contravar. rewrite <- (pow2_abs (t - T / 2)), <- (pow2_abs (u - T / 2)). pose proof (Rabs_pos (t - T / 2)). nra.
Qed.
Print Assumptions C63_gaussian_nonorm.

(** Normalised gaussian: starts and ends at zero, positive in between, total area
    one (the documented normalisation). *)
Theorem C63_gaussian_sigma : forall T s, (0 < T)%R -> (0 < s)%R ->
  symmetric_about (T / 2) (gaussian_sigma T s) /\
  gaussian_sigma T s 0 = 0%R /\ gaussian_sigma T s T = 0%R /\
  (forall t, 0 < t < T -> 0 < gaussian_sigma T s t)%R /\
  is_RInt (gaussian_sigma T s) 0 T 1%R.
Proof.
  intros T s HT Hs. pose proof (gauss_norm_pos T s HT Hs) as N. pose proof (Rgt_not_eq _ _ Hs) as Hs'.
  destruct (offset_is_end T s Hs') as [O1 O2]. repeat split.
  - intro t. unfold gaussian_sigma. f_equal. f_equal. unfold gauss_pt. f_equal. field. exact Hs'.
  - unfold gaussian_sigma. rewrite <- O1. unfold Rdiv. ring.
  - unfold gaussian_sigma. rewrite <- O2. unfold Rdiv. ring.
  - intros t B. pose proof (gauss_above_offset_strict T s t Hs' B). unfold gaussian_sigma. apply Rdiv_lt_0_compat; lra.
  - pose proof (is_RInt_scal (V:=R_NormedModule) _ 0 T (/ gauss_norm T s) _ (is_RInt_gauss_sub T s Hs)) as A.
    evar_last; [eapply is_RInt_ext; [|exact A]|].
    + intros t _. unfold gaussian_sigma. apply Rmult_comm.
    + apply Rinv_l. lra.
Qed.
Print Assumptions C63_gaussian_sigma.
Theorem C63_gaussian : forall T, (0 < T)%R ->
  symmetric_about (T / 2) (gaussian T) /\ gaussian T 0 = 0%R /\ gaussian T T = 0%R /\
  is_RInt (gaussian T) 0 T 1%R.
Proof.
  intros T HT. destruct (C63_gaussian_sigma T (T / 6) HT) as (A & B & C & _ & D); [lra|]. repeat split; assumption.
Qed.
Print Assumptions C63_gaussian.

(** Second order gaussian: zero value and zero slope at both ends. *)
Theorem C63_drag_sigma : forall T s, (0 < T)%R -> (0 < s)%R ->
  symmetric_about (T / 2) (drag_sigma T s) /\ (forall t, 0 <= drag_sigma T s t)%R /\
  drag_sigma T s 0 = 0%R /\ drag_sigma T s T = 0%R /\
  is_derive (drag_sigma T s) 0%R 0%R /\ is_derive (drag_sigma T s) T 0%R.
Proof.
  intros T s HT Hs. pose proof (gauss_norm_pos T s HT Hs) as N. pose proof (Rgt_not_eq _ _ Hs) as Hs'.
  destruct (offset_is_end T s Hs') as [O1 O2].
  assert (D : forall t, is_derive (drag_sigma T s) t (2 * (gauss_pt T s t - gauss_offset T s) * (- (gauss_pt T s t * (t - T / 2) / s ^ 2)) / gauss_norm T s)%R).
  { intro t. pose proof (is_derive_gauss T s t Hs') as G. unfold drag_sigma. 
    assert (X : ex_derive (gauss_pt T s) t) by (eexists; exact G). auto_derive; [first [exact X|split; [exact X|exact I]]|].
    replace (Derive (fun x : R => gauss_pt T s x) t) with (- (gauss_pt T s t * (t - T / 2) / s ^ 2))%R by (symmetry; apply is_derive_unique, G). match goal with |- ?x = ?y => change (@eq R x y) end. field. split; lra. }
  split; [|split; [|split; [|split; [|split]]]].
  - intro t. unfold drag_sigma. f_equal. f_equal. f_equal. unfold gauss_pt. f_equal. field. exact Hs'.
  - intro t. unfold drag_sigma. apply Rmult_le_pos; [apply pow2_ge_0|]. left. apply Rinv_0_lt_compat, N.
  - unfold drag_sigma. rewrite <- O1. unfold Rdiv. ring.
  - unfold drag_sigma. rewrite <- O2. unfold Rdiv. ring.
  - evar_last; [apply D|]. rewrite <- O1. match goal with |- ?x = ?y => change (@eq R x y) end. unfold Rdiv. ring.
  - evar_last; [apply D|]. rewrite <- O2. match goal with |- ?x = ?y => change (@eq R x y) end. unfold Rdiv. ring.
Qed.
Print Assumptions C63_drag_sigma.

(** Error function flat tops. *)
Theorem C63_flattop : forall t_up t_down rf, rf <> 0%R ->
  symmetric_about ((t_up + t_down) / 2) (flattop t_up t_down rf) /\
  (forall t, 0 < flattop t_up t_down rf t < 1)%R.
Proof.
  intros u d rf H. split.
  - intro t. unfold flattop. replace ((2 * ((u + d) / 2) - t - u) / rf)%R with ((- t + d) / rf)%R by (field; exact H).
    replace ((- (2 * ((u + d) / 2) - t) + d) / rf)%R with ((t - u) / rf)%R by (field; exact H). field.
  - intro t. unfold flattop. pose proof (erf_bound ((t - u) / rf)). pose proof (erf_bound ((- t + d) / rf)).
    set (a := erf ((t - u) / rf)) in *. set (b := erf ((- t + d) / rf)) in *.
    replace ((1 + a) / 2 * (1 + b) / 2)%R with (((1 + a) / 2) * ((1 + b) / 2))%R by field.
    assert (0 < (1 + a) / 2 < 1)%R by lra. assert (0 < (1 + b) / 2 < 1)%R by lra. nra.
Qed.
Print Assumptions C63_flattop.
Theorem C63_flattop_risefall : forall T rf, rf <> 0%R ->
  symmetric_about (T / 2) (flattop_risefall T rf) /\ (forall t, 0 < flattop_risefall T rf t < 1)%R.
Proof.
  intros T rf H. destruct (C63_flattop rf (T - rf) rf H) as (A & B). split; [|exact B].
  intro t. unfold flattop_risefall. rewrite <- (A t). f_equal. field.
Qed.
Print Assumptions C63_flattop_risefall.

Lemma clip_erf_range : forall x y hi, (1 <= hi)%R -> (0 <= clip (erf x * erf y) 0 hi <= 1)%R.
Proof.
  intros x y hi H. pose proof (erf_bound x). pose proof (erf_bound y). assert (erf x * erf y < 1)%R by nra.
  unfold clip, Rmin, Rmax. repeat destruct Rle_dec; lra.
Qed.
(** Cut flat top: zero outside [t_up, t_down] (up to the centre of the ramps). *)
Theorem C63_flattop_cut_center : forall T w rf, (0 <= w)%R -> (0 < rf)%R ->
  symmetric_about (T / 2) (flattop_cut_center T w rf) /\ between 0 1 (flattop_cut_center T w rf) /\
  (forall t, w / 2 <= Rabs (t - T / 2) -> flattop_cut_center T w rf t = 0)%R.
Proof.
  intros T w rf Hw H. split; [|split].
  - intro t. unfold flattop_cut_center. cbv zeta.
    replace ((2 * (T / 2) - t - (T / 2 - w / 2)) / rf)%R with ((- t + (T / 2 + w / 2)) / rf)%R by (field; lra).
    replace ((- (2 * (T / 2) - t) + (T / 2 + w / 2)) / rf)%R with ((t - (T / 2 - w / 2)) / rf)%R by (field; lra).
    f_equal. apply Rmult_comm.
  - intro t. apply clip_erf_range. lra.
  - intros t B. unfold flattop_cut_center. cbv zeta. assert (Pi : (0 < / rf)%R) by (apply Rinv_0_lt_compat; exact H).
    assert (M : forall a, (a <= 0 -> erf (a / rf) <= 0)%R).
    { intros a Ha. assert (0 <= erf (- a / rf))%R by (apply erf_nonneg; unfold Rdiv; nra). replace (- a / rf)%R with (- (a / rf))%R in * by (unfold Rdiv; ring). rewrite erf_odd in *. lra. }
    assert (Q : forall a, (0 <= a -> 0 <= erf (a / rf))%R) by (intros a Ha; apply erf_nonneg; unfold Rdiv; nra).
    assert (Neg : (erf ((t - (T / 2 - w / 2)) / rf) * erf ((- t + (T / 2 + w / 2)) / rf) <= 0)%R).
    { unfold Rabs in B. destruct Rcase_abs as [L|L].
      - pose proof (M (t - (T / 2 - w / 2))%R ltac:(lra)). pose proof (Q (- t + (T / 2 + w / 2))%R ltac:(lra)). nra.
      - pose proof (Q (t - (T / 2 - w / 2))%R ltac:(lra)). pose proof (M (- t + (T / 2 + w / 2))%R ltac:(lra)). nra. }
    unfold clip, Rmin, Rmax. repeat destruct Rle_dec; lra.
Qed.
Print Assumptions C63_flattop_cut_center.

Lemma list_max_ge : forall l x v, In v (x :: l) -> (v <= list_max x l)%R.
Proof.
  induction l as [|y l IH]; intros x v H; cbn [list_max fold_left].
  - destruct H as [<-|[]]. lra.
  - change (fold_left Rmax l (Rmax x y)) with (list_max (Rmax x y) l). destruct H as [<-|[<-|H]].
    + apply Rle_trans with (Rmax x y); [apply Rmax_l|apply IH; left; reflexivity].
    + apply Rle_trans with (Rmax x y); [apply Rmax_r|apply IH; left; reflexivity].
    + apply IH. right. exact H.
Qed.
Lemma list_max_in : forall l x, In (list_max x l) (x :: l).
Proof.
  induction l as [|y l IH]; intros x; cbn [list_max fold_left]; [left; reflexivity|].
  change (fold_left Rmax l (Rmax x y)) with (list_max (Rmax x y) l). destruct (IH (Rmax x y)) as [E|E]; [|right; right; exact E].
  rewrite <- E. unfold Rmax. destruct Rle_dec; [right; left|left]; reflexivity.
Qed.
(** The normalised cut flat top has its values in [0,1] and reaches 1, as soon as
    one sample lies on the pulse. *)
Theorem C63_flattop_cut : forall t_up t_down rf ts,
  (exists t, In t ts /\ 0 < flattop_cut_raw t_up t_down rf t)%R ->
  let out := flattop_cut t_up t_down rf ts in
  length out = length ts /\ (forall v, In v out -> 0 <= v <= 1)%R /\ In 1%R out.
Proof.
  intros u d rf ts (t & Ht & Hp) out. subst out. unfold flattop_cut. set (sh := map _ ts).
  assert (Hi : In (flattop_cut_raw u d rf t) sh) by (apply in_map, Ht).
  destruct sh as [|x r] eqn:Es; [destruct Hi|]. cbn [reduce_max].
  pose proof (list_max_ge r x) as G. assert (Pm : (0 < list_max x r)%R) by (eapply Rlt_le_trans; [exact Hp|apply G, Hi]).
  split; [rewrite map_length, <- Es; apply map_length|]. split.
  - intros v Hv. apply in_map_iff in Hv. destruct Hv as (w & <- & Hw).
    assert (W0 : (0 <= w)%R). { rewrite <- Es in Hw. apply in_map_iff in Hw. destruct Hw as (z & <- & _). unfold flattop_cut_raw. apply clip_range. lra. }
    split; [apply Rmult_le_pos; [exact W0|left; apply Rinv_0_lt_compat, Pm]|].
    apply Rmult_le_reg_r with (list_max x r); [exact Pm|]. unfold Rdiv. rewrite Rmult_assoc, Rinv_l by lra. specialize (G w Hw). lra.
  - apply in_map_iff. exists (list_max x r). split; [field; lra|apply list_max_in].
Qed.
Print Assumptions C63_flattop_cut.

(** Trapezoid whose ramps do not overlap. *)
Theorem C63_trapezoid : forall T rf, (0 < rf)%R -> (5 * rf <= T)%R ->
  symmetric_about (T / 2) (fun t => trapezoid T rf t) /\
  (forall t, 0 <= t <= T -> 0 <= trapezoid T rf t <= 1)%R /\
  trapezoid T rf 0 = 0%R /\ trapezoid T rf T = 0%R /\
  (forall t, 5 / 2 * rf <= t <= T - 5 / 2 * rf -> trapezoid T rf t = 1)%R.
Proof.
  intros T rf H L. assert (Pd : (0 < rf * (5 / 2))%R) by lra. assert (Pi : (0 < / (rf * (5 / 2)))%R) by (apply Rinv_0_lt_compat; exact Pd).
  assert (One : (rf * (5 / 2) * / (rf * (5 / 2)) = 1)%R) by (apply Rinv_r; lra).
  assert (K : forall t, (t <= rf * (5 / 2) -> trapezoid T rf t = t / (rf * (5 / 2)))%R).
  { intros t Ht. unfold trapezoid. cbv zeta. unfold Rleb. destruct Rle_dec as [A|A].
    - replace (T - t)%R with t by lra. reflexivity.
    - destruct Rle_dec; [reflexivity|lra]. }
  assert (K2 : forall t, (T - rf * (5 / 2) <= t -> trapezoid T rf t = (T - t) / (rf * (5 / 2)))%R).
  { intros t Ht. unfold trapezoid. cbv zeta. unfold Rleb. destruct Rle_dec; [reflexivity|lra]. }
  assert (K3 : forall t, (rf * (5 / 2) < t < T - rf * (5 / 2) -> trapezoid T rf t = 1)%R).
  { intros t Ht. unfold trapezoid. cbv zeta. unfold Rleb. destruct Rle_dec; [lra|]. destruct Rle_dec; [lra|reflexivity]. }
  split; [|split; [|split; [|split]]].
  - intro t. cbv beta. destruct (Rle_dec t (rf * (5 / 2))) as [A|A].
    + rewrite (K t A), K2 by lra. f_equal. lra.
    + destruct (Rle_dec (T - rf * (5 / 2)) t) as [B|B].
      * rewrite (K2 t B), K by lra. f_equal. lra.
      * rewrite !K3 by lra. reflexivity.
  - intros t Ht. destruct (Rle_dec t (rf * (5 / 2))) as [A|A].
    + rewrite (K t A). unfold Rdiv. split; [nra|]. rewrite <- One. nra.
    + destruct (Rle_dec (T - rf * (5 / 2)) t) as [B|B].
      * rewrite (K2 t B). unfold Rdiv. split; [nra|]. rewrite <- One. nra.
      * rewrite K3 by lra. lra.
  - rewrite K by lra. unfold Rdiv. ring.
  - rewrite K2 by lra. unfold Rdiv. ring.
  - intros t Ht. destruct (Req_dec t (rf * (5 / 2))) as [->|N].
    + rewrite K by lra. exact One.
    + destruct (Req_dec t (T - rf * (5 / 2))) as [->|N2]; [|apply K3; lra].
      rewrite K2 by lra. replace (T - (T - rf * (5 / 2)))%R with (rf * (5 / 2))%R by ring. exact One.
Qed.
Print Assumptions C63_trapezoid.
(** With overlapping ramps the falling ramp overrides the rising one: the pulse
    starts at full amplitude (and exceeds it), so neither claim survives. *)
Theorem C63_trapezoid_overlap_refuted : forall T rf, (0 < T)%R -> (T <= 5 / 2 * rf)%R ->
  trapezoid T rf 0 = (T / (rf * (5 / 2)))%R /\ trapezoid T rf T = 0%R /\
  ~ symmetric_about (T / 2) (trapezoid T rf).
Proof.
  intros T rf HT L. assert (E0 : trapezoid T rf 0 = (T / (rf * (5 / 2)))%R).
  { unfold trapezoid. cbv zeta. unfold Rleb. destruct Rle_dec; [f_equal; ring|lra]. }
  assert (E1 : trapezoid T rf T = 0%R). { unfold trapezoid. cbv zeta. unfold Rleb. destruct Rle_dec; [unfold Rdiv; ring|lra]. }
  split; [exact E0|]. split; [exact E1|]. intro S. specialize (S 0%R). replace (2 * (T / 2) - 0)%R with T in S by field. rewrite E0, E1 in S.
  assert (0 < T / (rf * (5 / 2)))%R by (apply Rdiv_lt_0_compat; lra). lra.
Qed.
Print Assumptions C63_trapezoid_overlap_refuted.

(** flattop_variant: zero outside [t_up, t_down], 1 on the plateau, in [0,1]. *)
Theorem C63_flattop_variant : forall t_up t_down ramp, (t_up < t_down)%R -> (0 < ramp)%R ->
  symmetric_about ((t_up + t_down) / 2) (flattop_variant t_up t_down ramp) /\
  between 0 1 (flattop_variant t_up t_down ramp) /\
  (forall t, t < t_up \/ t_down < t -> flattop_variant t_up t_down ramp t = 0)%R /\
  (forall t, t_up + ramp <= t <= t_down - ramp -> flattop_variant t_up t_down ramp t = 1)%R.
Proof.
  intros u d rp H Hr. unfold flattop_variant.
  set (r := if Rltb ((d - u) / 2) rp then ((d - u) / 2)%R else rp).
  assert (Br : (0 < r /\ r <= rp /\ u + r <= d - r)%R). { subst r. unfold Rltb. destruct Rlt_dec; lra. }
  set (c := (2 * (sqrt 2 * r * (1 / 5)) ^ 2)%R). pose proof sqrt2_pos as S2.
  assert (Pc : (0 < / c)%R). { apply Rinv_0_lt_compat. subst c. assert (0 < sqrt 2 * r)%R by nra. assert (0 < sqrt 2 * r * (1 / 5))%R by lra. nra. }
  set (f := fun t : R => if Rleb u t && Rleb t (u + r) then exp (- (t - u - r) ^ 2 / c)
            else if Rltb (u + r) t && Rltb t (d - r) then 1%R
            else if Rleb t d && Rleb (d - r) t then exp (- (t - d + r) ^ 2 / c) else 0%R).
  change (symmetric_about ((u + d) / 2) f /\ between 0 1 f /\ (forall t, t < u \/ d < t -> f t = 0)%R /\ (forall t, u + rp <= t <= d - rp -> f t = 1)%R).
  assert (Z : forall t, (t < u \/ d < t)%R -> f t = 0%R).
  { intros t B. unfold f, Rleb, Rltb. repeat destruct Rle_dec; repeat destruct Rlt_dec; cbn; try reflexivity; lra. }
  assert (Up : forall t, (u <= t <= u + r)%R -> f t = exp (- (t - u - r) ^ 2 / c)).
  { intros t B. unfold f, Rleb. destruct Rle_dec; [|lra]. destruct Rle_dec; [reflexivity|lra]. }
  assert (Mid : forall t, (u + r < t < d - r)%R -> f t = 1%R).
  { intros t B. unfold f, Rleb, Rltb. destruct (Rle_dec t (u + r)); [lra|]. rewrite andb_false_r. repeat (destruct Rlt_dec; [|lra]). reflexivity. }
  assert (Dn : forall t, (d - r <= t <= d)%R -> f t = exp (- (t - d + r) ^ 2 / c)).
  { intros t B. destruct (Rle_dec t (u + r)) as [A|A].
    - rewrite Up by lra. f_equal. f_equal. f_equal. f_equal. lra.
    - unfold f, Rleb, Rltb. destruct (Rle_dec t (u + r)); [lra|]. rewrite andb_false_r. destruct (Rlt_dec t (d - r)); [lra|]. rewrite andb_false_r.
      repeat (destruct Rle_dec; [|lra]). reflexivity. }
  assert (Cases : forall t, ((t < u \/ d < t) \/ u <= t <= u + r \/ u + r < t < d - r \/ d - r <= t <= d)%R).
  { intro t. destruct (Rlt_dec t u); [lra|]. destruct (Rlt_dec d t); [lra|]. destruct (Rle_dec t (u + r)); [lra|]. destruct (Rlt_dec t (d - r)); lra. }
  split; [|split; [|split; [exact Z|]]].
  - intro t. replace (2 * ((u + d) / 2) - t)%R with (u + d - t)%R by field. destruct (Cases t) as [B|[B|[B|B]]].
    + rewrite (Z t B), Z by lra. reflexivity.
    + rewrite (Up t B), Dn by lra. f_equal. f_equal. f_equal. ring.
    + rewrite !Mid by lra. reflexivity.
    + rewrite (Dn t B), Up by lra. f_equal. f_equal. f_equal. ring.
  - intro t. assert (X : forall a, (0 <= exp (- a ^ 2 / c) <= 1)%R).
    { intro a. split; [left; apply exp_pos|]. rewrite <- exp_0. apply exp_le. unfold Rdiv. pose proof (pow2_ge_0 a). nra. }
    destruct (Cases t) as [B|[B|[B|B]]]; [rewrite Z by exact B; lra|rewrite Up by exact B; apply X|rewrite Mid by exact B; lra|rewrite Dn by exact B; apply X].
  - intros t B. destruct (Req_dec t (u + r)) as [->|N1].
    + rewrite Up by lra. replace (u + r - u - r)%R with 0%R by ring. rewrite <- exp_0. f_equal. unfold Rdiv. ring.
    + destruct (Req_dec t (d - r)) as [->|N2]; [|apply Mid; lra].
      rewrite Dn by lra. replace (d - r - d + r)%R with 0%R by ring. rewrite <- exp_0. f_equal. unfold Rdiv. ring.
Qed.
Print Assumptions C63_flattop_variant.

(** *** Interpolated shapes *)
Lemma floor_nat_spec : forall x, (0 <= x)%R -> (INR (floor_nat x) <= x < INR (floor_nat x) + 1)%R.
Proof.
  intros x H. unfold floor_nat. destruct (base_Int_part x) as [A B].
  assert (0 <= Int_part x)%Z. { apply Z.lt_succ_r. apply lt_IZR. rewrite succ_IZR. lra. }
  rewrite INR_IZR_INZ, Z2Nat.id by assumption. lra.
Qed.
Lemma floor_nat_INR : forall n, floor_nat (INR n) = n.
Proof.
  intro n. pose proof (floor_nat_spec (INR n) (pos_INR n)) as [A B]. apply INR_le in A. rewrite <- S_INR in B. apply INR_lt in B. lia.
Qed.
Lemma interp_cell : forall lo hi y t, (lo < hi)%R -> 2 <= length y -> (lo <= t <= hi)%R ->
  exists k w, S k < length y /\ (0 <= w <= 1)%R /\
    interp_grid lo hi y t = ((1 - w) * nth k y 0 + w * nth (S k) y 0)%R /\
    (INR k + w = (t - lo) / (hi - lo) * INR (length y - 1))%R.
Proof.
  intros lo hi y t H L B. set (pos := ((t - lo) / (hi - lo) * INR (length y - 1))%R).
  assert (Pi : (0 < / (hi - lo))%R) by (apply Rinv_0_lt_compat; lra).
  assert (F : (0 <= (t - lo) / (hi - lo) <= 1)%R).
  { split; [unfold Rdiv; nra|]. apply Rmult_le_reg_r with (hi - lo)%R; [lra|]. unfold Rdiv. rewrite Rmult_assoc, Rinv_l by lra. lra. }
  assert (Pp : (0 <= pos <= INR (length y - 1))%R). { subst pos. pose proof (pos_INR (length y - 1)). nra. }
  pose proof (floor_nat_spec pos (proj1 Pp)) as FS.
  exists (Nat.min (floor_nat pos) (length y - 2)), (pos - INR (Nat.min (floor_nat pos) (length y - 2)))%R.
  split; [lia|]. split.
  - destruct (Nat.min_spec (floor_nat pos) (length y - 2)) as [[C ->]|[C ->]]; [lra|]. split.
    + apply le_INR in C. lra.
    + replace (length y - 1) with (S (length y - 2)) in Pp by lia. rewrite S_INR in Pp. lra.
  - split; [|ring]. unfold interp_grid. fold pos. unfold Rltb. destruct Rlt_dec; [lra|]. destruct Rlt_dec; [lra|]. ring.
Qed.
(** Interpolation reproduces its knots, stays within their range and vanishes
    outside the bins; the symmetric version is mirrored about t_final/2. *)
Theorem C63_pwc : forall lo hi y, (lo < hi)%R -> 2 <= length y ->
  (forall k, k < length y -> pwc_shape lo hi y (lo + INR k * ((hi - lo) / INR (length y - 1)))%R = nth k y 0%R) /\
  (forall m M, (forall v, In v y -> m <= v <= M)%R -> forall t, (lo <= t <= hi -> m <= pwc_shape lo hi y t <= M)%R) /\
  (forall t, t < lo \/ hi < t -> pwc_shape lo hi y t = 0)%R /\
  (forall T, symmetric_about (T / 2) (pwc_symmetric T lo hi y)) /\
  (forall T t, t <= T / 2 -> pwc_symmetric T lo hi y t = pwc_shape lo hi y t)%R.
Proof.
  intros lo hi y H L. unfold pwc_shape.
  assert (Pn : (0 < INR (length y - 1))%R) by (apply lt_0_INR; lia).
  split; [|split; [|split; [|split]]].
  - intros k Hk. set (t := (lo + INR k * ((hi - lo) / INR (length y - 1)))%R).
    assert (Hp : ((t - lo) / (hi - lo) * INR (length y - 1) = INR k)%R) by (subst t; field; split; lra).
    assert (Kk : (INR k <= INR (length y - 1))%R) by (apply le_INR; lia).
    assert (B : (lo <= t <= hi)%R).
    { subst t. pose proof (pos_INR k). assert (0 < (hi - lo) / INR (length y - 1))%R by (apply Rdiv_lt_0_compat; lra).
      split; [nra|]. assert (INR k * ((hi - lo) / INR (length y - 1)) <= INR (length y - 1) * ((hi - lo) / INR (length y - 1)))%R by (apply Rmult_le_compat_r; lra).
      replace (INR (length y - 1) * ((hi - lo) / INR (length y - 1)))%R with (hi - lo)%R in * by (field; lra). lra. }
    unfold interp_grid, Rltb. destruct Rlt_dec; [lra|]. destruct Rlt_dec; [lra|]. rewrite Hp, floor_nat_INR.
    destruct (Nat.min_spec k (length y - 2)) as [[C ->]|[C ->]]; [ring|].
    assert (k = length y - 2 \/ k = S (length y - 2)) as [->| ->] by lia; [ring|]. rewrite S_INR. ring.
  - intros m M R t B. destruct (interp_cell lo hi y t H L B) as (k & w & K1 & W & -> & _).
    assert (K0 : k < length y) by lia. pose proof (R (nth k y 0%R) (nth_In y 0%R K0)). pose proof (R (nth (S k) y 0%R) (nth_In y 0%R K1)). nra.
  - intros t B. unfold interp_grid, Rltb. destruct Rlt_dec; [reflexivity|]. destruct Rlt_dec; [reflexivity|lra].
  - intros T t. unfold pwc_symmetric. cbv zeta. f_equal. unfold Rltb. repeat destruct Rlt_dec; lra.
  - intros T t B. unfold pwc_symmetric. cbv zeta. f_equal. unfold Rltb. destruct Rlt_dec; lra.
Qed.
Print Assumptions C63_pwc.

(** Fourier shapes are bounded by the sum of the amplitudes. *)
Theorem C63_fourier : forall (cs : list (R * R * R)) (cc : list (R * R)) t,
  (Rabs (fourier_sin cs t) <= fsum (map (fun '(a, _, _) => Rabs a) cs))%R /\
  (Rabs (fourier_cos cc t) <= fsum (map (fun '(a, _) => Rabs a) cc))%R.
Proof.
  assert (G : forall x a, (Rabs x <= 1 -> Rabs (a * x) <= Rabs a)%R).
  { intros x a H. rewrite Rabs_mult. pose proof (Rabs_pos a). nra. }
  intros cs cc t. split.
  - unfold fourier_sin. induction cs as [|[[a w] p] cs IH]; cbn [map fsum]; [rewrite Rabs_R0; lra|].
    eapply Rle_trans; [apply Rabs_triang|]. apply Rplus_le_compat; [|exact IH]. apply G. apply Rabs_le. apply SIN_bound.
  - unfold fourier_cos. induction cc as [|[a w] cc IH]; cbn [map fsum]; [rewrite Rabs_R0; lra|].
    eapply Rle_trans; [apply Rabs_triang|]. apply Rplus_le_compat; [|exact IH]. apply G. apply Rabs_le. apply COS_bound.
Qed.
Print Assumptions C63_fourier.
(** They are superpositions of harmonics: components add, a single one has its period,
    shifting a component in time by s is a phase of freq*s, and a phase of a quarter
    turn makes a sine series the cosine series, which is even in time. *)
Theorem C63_fourier_harmonics : forall (cs cs' : list (R * R * R)) (cc : list (R * R)) a w p s t,
  (fourier_sin (cs ++ cs') t = fourier_sin cs t + fourier_sin cs' t)%R /\
  (w <> 0 -> fourier_sin [(a, w, p)] (t + 2 * PI / w) = fourier_sin [(a, w, p)] t)%R /\
  (fourier_sin [(a, w, p)] 0 = a * sin p)%R /\
  fourier_sin (map (fun '(a, w, p) => (a, w, (p + w * s)%R)) cs) t = fourier_sin cs (t + s) /\
  fourier_sin (map (fun '(a, w) => (a, w, (PI / 2)%R)) cc) t = fourier_cos cc t /\
  fourier_cos cc (- t) = fourier_cos cc t.
Proof.
  intros cs cs' cc a w p s t. repeat split.
  - unfold fourier_sin. induction cs as [|[[b v] q] cs IH]; cbn [map fsum app]; [ring|]. rewrite IH. ring.
  - intro W. unfold fourier_sin. cbn [map fsum]. f_equal. f_equal.
    replace (w * (t + 2 * PI / w) + p)%R with ((w * t + p) + 2 * INR 1 * PI)%R by (cbn; field; exact W). apply sin_period.
  - unfold fourier_sin. cbn [map fsum]. rewrite Rmult_0_r, Rplus_0_l. ring.
  - unfold fourier_sin. induction cs as [|[[b v] q] cs IH]; cbn [map fsum]; [reflexivity|]. rewrite IH. f_equal. f_equal. f_equal. ring.
  - unfold fourier_sin, fourier_cos. induction cc as [|[b v] cc IH]; cbn [map fsum]; [reflexivity|]. rewrite IH. f_equal. f_equal.
    rewrite Rplus_comm. rewrite cos_sin. reflexivity.
  - unfold fourier_cos. induction cc as [|[b v] cc IH]; cbn [map fsum]; [reflexivity|]. rewrite IH. f_equal. f_equal.
    rewrite Ropp_mult_distr_r_reverse. apply cos_neg.
Qed.
Print Assumptions C63_fourier_harmonics.

(** cosine_flattop on slice centres with a rise time of [n] slices. *)
Definition centres (dt : R) (N : nat) : list R := map (fun i => (INR i + / 2) * dt)%R (seq 0 N).
Lemma nth_centres : forall dt N i d, i < N -> nth i (centres dt N) d = ((INR i + / 2) * dt)%R.
Proof. intros. unfold centres. rewrite (nth_map_lt _ _ _ _ 0) by (rewrite seq_length; assumption). rewrite seq_nth by assumption. reflexivity. Qed.
Lemma firstn_centres : forall dt N n, n <= N -> firstn n (centres dt N) = centres dt n.
Proof.
  intros dt N n H. unfold centres. rewrite firstn_map. f_equal. replace N with (n + (N - n)) by lia. rewrite seq_app.
  rewrite firstn_app, seq_length, Nat.sub_diag, firstn_O, app_nil_r. rewrite <- (seq_length n 0) at 1. apply firstn_all.
Qed.
Theorem C63_cosine_flattop : forall dt N n, (0 < dt)%R -> 1 <= n -> 2 * n <= N ->
  exists out, cosine_flattop (INR n * dt) (centres dt N) = Ok out /\ length out = N /\
    (forall v, In v out -> 0 <= v <= 1)%R /\
    (forall i, i < N -> nth i out 0%R = nth (N - 1 - i) out 0%R) /\
    (forall i, n <= i < N - n -> nth i out 0%R = 1%R).
Proof.
  intros dt N n H Hn L. destruct N as [|[|N]]; [lia|lia|].
  assert (Pn : (0 < INR n)%R) by (apply lt_0_INR; lia).
  assert (E : cosine_flattop (INR n * dt) (centres dt (S (S N))) =
    Ok (map (fun t => 1 / 2 * (1 - cos (PI * t / (INR n * dt))))%R (centres dt n) ++ repeat 1%R (S (S N) - 2 * n)
        ++ map (fun t => 1 / 2 * (1 + cos (PI * t / (INR n * dt))))%R (centres dt n))).
  { unfold cosine_flattop. unfold centres at 1. cbn [seq map].
    assert (F : floor_nat (INR n * dt / ((INR 1 + / 2) * dt - (INR 0 + / 2) * dt)) = n).
    { replace (INR n * dt / ((INR 1 + / 2) * dt - (INR 0 + / 2) * dt))%R with (INR n) by (cbn [INR]; field; lra). apply floor_nat_INR. }
    rewrite F. change (((INR 0 + / 2) * dt)%R :: ((INR 1 + / 2) * dt)%R :: map (fun i => ((INR i + / 2) * dt)%R) (seq 2 N)) with (centres dt (S (S N))).
    assert (Lc : length (centres dt (S (S N))) = S (S N)) by (unfold centres; rewrite map_length, seq_length; reflexivity).
    rewrite Lc. destruct (Nat.ltb_spec (S (S N)) (2 * n)); [lia|]. rewrite firstn_centres by lia. reflexivity. }
  assert (Lc : length (centres dt n) = n) by (unfold centres; rewrite map_length, seq_length; reflexivity).
  set (M := S (S N)) in *. set (up := fun t : R => _) in E. set (dn := fun t : R => (1 / 2 * (1 + _))%R) in E.
  set (out := map up (centres dt n) ++ repeat 1%R (M - 2 * n) ++ map dn (centres dt n)) in E.
  assert (N1 : forall i, i < n -> nth i out 0%R = up ((INR i + / 2) * dt)%R).
  { intros i Hi. unfold out. rewrite app_nth1 by (rewrite map_length, Lc; exact Hi). rewrite (nth_map_lt up _ _ _ 0%R) by (rewrite Lc; exact Hi). rewrite nth_centres by exact Hi. reflexivity. }
  assert (N2 : forall i, n <= i < M - n -> nth i out 0%R = 1%R).
  { intros i Hi. unfold out. rewrite app_nth2 by (rewrite map_length, Lc; lia). rewrite map_length, Lc.
    rewrite app_nth1 by (rewrite repeat_length; lia). rewrite nth_indep with (d' := 1%R) by (rewrite repeat_length; lia). apply nth_repeat. }
  assert (N3 : forall i, i < n -> nth (M - n + i) out 0%R = dn ((INR i + / 2) * dt)%R).
  { intros i Hi. unfold out. rewrite app_nth2 by (rewrite map_length, Lc; lia). rewrite map_length, Lc.
    rewrite app_nth2 by (rewrite repeat_length; lia). rewrite repeat_length. replace (M - n + i - n - (M - 2 * n)) with i by lia.
    rewrite (nth_map_lt dn _ _ _ 0%R) by (rewrite Lc; exact Hi). rewrite nth_centres by exact Hi. reflexivity. }
  assert (Mir : forall i, i < n -> up ((INR i + / 2) * dt)%R = dn ((INR (n - 1 - i) + / 2) * dt)%R).
  { intros i Hi. unfold up, dn. replace (INR (n - 1 - i)) with (INR n - 1 - INR i)%R by (rewrite !minus_INR by lia; cbn [INR]; reflexivity).
    replace (PI * ((INR n - 1 - INR i + / 2) * dt) / (INR n * dt))%R with (PI - PI * ((INR i + / 2) * dt) / (INR n * dt))%R by (field; lra).
    rewrite Rtrigo_facts.cos_pi_minus. ring. }
  exists out. split; [exact E|]. split; [unfold out; rewrite !app_length, !map_length, repeat_length, Lc; lia|]. split; [|split].
  - intros v Hv. unfold out in Hv. apply in_app_or in Hv. destruct Hv as [Hv|Hv]; [|apply in_app_or in Hv; destruct Hv as [Hv|Hv]].
    + apply in_map_iff in Hv. destruct Hv as (t & <- & _). unfold up. pose proof (COS_bound (PI * t / (INR n * dt))). lra.
    + apply repeat_spec in Hv. lra.
    + apply in_map_iff in Hv. destruct Hv as (t & <- & _). unfold dn. pose proof (COS_bound (PI * t / (INR n * dt))). lra.
  - intros i Hi. destruct (Nat.lt_ge_cases i n) as [A|A].
    + rewrite N1 by exact A. rewrite Mir by exact A. replace (M - 1 - i) with (M - n + (n - 1 - i)) by lia. rewrite N3 by lia. reflexivity.
    + destruct (Nat.lt_ge_cases i (M - n)) as [B|B].
      * rewrite N2 by lia. rewrite N2 by lia. reflexivity.
      * replace i with (M - n + (i - (M - n))) at 1 by lia. rewrite N3 by lia. rewrite N1 by lia. rewrite Mir by lia. f_equal. f_equal. f_equal. f_equal. lia.
  - exact N2.
Qed.
Print Assumptions C63_cosine_flattop.
(** On any grid the falling ramp re-uses the times of the first samples, so for a
    grid that starts at 0 the last sample is not the mirror image of the first. *)
Theorem C63_cosine_flattop_refuted :
  exists out, cosine_flattop 2 [0; 1; 2; 3; 4; 5]%R = Ok out /\ nth 0 out 0%R = 0%R /\ nth 5 out 0%R = (/ 2)%R.
Proof.
  unfold cosine_flattop. replace (2 / (1 - 0))%R with (INR 2) by (cbn; field). rewrite floor_nat_INR. cbn [length Nat.ltb Nat.leb Nat.mul Nat.add Nat.sub firstn map app repeat].
  eexists. split; [reflexivity|]. cbn [nth]. split.
  - replace (PI * 0 / 2)%R with 0%R by field. rewrite cos_0. lra.
  - replace (PI * 1 / 2)%R with (PI / 2)%R by field. rewrite cos_PI2. lra.
Qed.
Print Assumptions C63_cosine_flattop_refuted.
Example C63_example : (* a trapezoid and a cut flat top meet their hypotheses *)
  (0 < 1 /\ 5 * 1 <= 8)%R /\ (exists t, In t [2]%R /\ 0 < flattop_cut_raw 0 4 1 t)%R.
Proof.
  split; [lra|]. exists 2%R. split; [left; reflexivity|]. unfold flattop_cut_raw.
  replace ((2 - 0) / 1)%R with 2%R by field. replace ((Ropp 2 + 4) / 1)%R with 2%R by field.
  pose proof (erf_incr 0 2 ltac:(lra)) as P. rewrite erf_0 in P. pose proof (erf_bound 2) as B.
  assert (0 < erf 2 * erf 2 < 1)%R by nra. unfold clip, Rmin, Rmax. repeat destruct Rle_dec; lra.
Qed.

(** ** C64 DRAG derivative *)
Theorem C64_drag_der : forall T s t, (0 < T)%R -> (0 < s)%R -> is_derive (drag_sigma T s) t (drag_der T s t).
Proof.
  intros T s t HT Hs. pose proof (gauss_norm_pos T s HT Hs) as N. pose proof (Rgt_not_eq _ _ Hs) as Hs'.
  pose proof (is_derive_gauss T s t Hs') as G. unfold drag_sigma.
  assert (X : ex_derive (gauss_pt T s) t) by (eexists; exact G). auto_derive; [first [exact X|split; [exact X|exact I]]|].
  replace (Derive (fun x : R => gauss_pt T s x) t) with (- (gauss_pt T s t * (t - T / 2) / s ^ 2))%R by (symmetry; apply is_derive_unique, G). unfold drag_der. match goal with |- ?x = ?y => change (@eq R x y) end. field. split; lra.
Qed.
Print Assumptions C64_drag_der.
(** gaussian_der and gaussian_der_nonorm are the negatives of the derivatives. *)
Theorem C64_gaussian_der_sign_refuted : forall T s t, (0 < T)%R -> (0 < s)%R ->
  is_derive (gaussian_sigma T s) t (- gaussian_der T s t)%R /\
  is_derive (gaussian_nonorm T s) t (- gaussian_der_nonorm T s t)%R /\
  (t <> T / 2 -> ~ is_derive (gaussian_sigma T s) t (gaussian_der T s t) /\
                 ~ is_derive (gaussian_nonorm T s) t (gaussian_der_nonorm T s t))%R.
Proof.
  intros T s t HT Hs. pose proof (gauss_norm_pos T s HT Hs) as N. pose proof (Rgt_not_eq _ _ Hs) as Hs'.
  pose proof (is_derive_gauss T s t Hs') as G.
  assert (D1 : is_derive (gaussian_sigma T s) t (- gaussian_der T s t)%R).
  { unfold gaussian_sigma. assert (X : ex_derive (gauss_pt T s) t) by (eexists; exact G). auto_derive; [first [exact X|split; [exact X|exact I]]|].
    replace (Derive (fun x : R => gauss_pt T s x) t) with (- (gauss_pt T s t * (t - T / 2) / s ^ 2))%R by (symmetry; apply is_derive_unique, G). unfold gaussian_der, gaussian_der_nonorm. match goal with |- ?x = ?y => change (@eq R x y) end. field. split; lra. }
  assert (D2 : is_derive (gaussian_nonorm T s) t (- gaussian_der_nonorm T s t)%R) by exact G.
  assert (Nz : (t <> T / 2 -> gaussian_der_nonorm T s t <> 0)%R).
  { intros Ht. unfold gaussian_der_nonorm. pose proof (exp_pos (- (t - T / 2) ^ 2 / (2 * s ^ 2))) as E. fold (gauss_pt T s t) in E.
    apply Rmult_integral_contrapositive_currified; [apply Rmult_integral_contrapositive_currified; lra|]. apply Rinv_neq_0_compat, pow_nonzero, Hs'. }
  split; [exact D1|]. split; [exact D2|]. intros Ht. specialize (Nz Ht). split; intro K.
  - pose proof (is_derive_unique _ _ _ D1) as A. rewrite (is_derive_unique _ _ _ K) in A.
    assert (gaussian_der T s t = 0)%R by lra. apply Nz. unfold gaussian_der in *.
    apply Rmult_eq_reg_r with (/ gauss_norm T s)%R; [unfold Rdiv in *; lra|apply Rinv_neq_0_compat; lra].
  - pose proof (is_derive_unique _ _ _ D2) as A. rewrite (is_derive_unique _ _ _ K) in A. lra.
Qed.
Print Assumptions C64_gaussian_der_sign_refuted.

(** The DRAG envelope: the in-phase part is the masked shape, and inside the window
    the quadrature is -delta times the derivative of the shape per time bin, up to
    exp(-1000). *)
Theorem C64_drag_envelope : forall b (shape dshape : R -> R) pt delta ts t_end vs,
  drag_values b shape pt delta ts t_end = Ok vs ->
  (nth 0 ts 0 < nth 1 ts 0)%R ->
  (forall t, is_derive shape t (dshape t)) ->
  length vs = length ts /\
  forall i, i < length ts ->
    let t := nth i ts 0%R in
    let dt := (nth 1 ts 0 - nth 0 ts 0)%R in
    let s := (shape t - (if b then shape (nth 0 ts 0 - dt) else 0))%R in
    (0 <= t <= 999 / 1000 * Rmin pt t_end - dt / 1000)%R ->
    (Rabs (fst (nth i vs (RtoC 0)) - s) <= 2 * exp (- 1000) * Rabs s)%R /\
    (Rabs (snd (nth i vs (RtoC 0)) - - delta * dt * dshape t)
       <= 2 * exp (- 1000) * Rabs delta * (dt * Rabs (dshape t) + 1000000 * Rabs s))%R.
Proof.
  intros b shape ds pt delta ts t_end vs H D HD. unfold drag_values in H. destruct ts as [|t0 [|t1 r]]; try discriminate. cbv zeta in H.
  match type of H with Ok ?l = Ok _ => assert (Hv : vs = l) by congruence end. subst vs. clear H.
  cbn [nth] in D. split; [apply map_length|]. intros i Hi t dt s [G1 G2]. cbn [nth] in dt, s.
  set (off := if b then shape (2 * t0 - t1)%R else 0%R).
  assert (Eoff : (if b then shape (t0 - dt) else 0)%R = off) by (subst off dt; destruct b; [f_equal; ring|reflexivity]).
  assert (Es : s = (shape t - off)%R) by (subst s; rewrite Eoff; reflexivity). clearbody s. subst s.
  set (len := mask_len pt t_end). change (Rmin pt t_end) with len in G2.
  match goal with |- context[@nth ?A i ?L ?d] => match L with @map _ _ ?f ?l =>
    assert (E : @nth A i L d = f t) by (exact (nth_map_lt f l i d 0%R Hi)); set (w := @nth A i L d) in *; clearbody w; subst w end end.
  cbv beta. fold off. fold len. subst dt. set (dt := (t1 - t0)%R) in *. cbn [fst snd].
  assert (Hd : (0 < dt)%R) by (subst dt; lra). pose proof (mask_bound len dt t) as MB. pose proof (mask_inside len dt t Hd G1 G2) as MI.
  pose proof (mask_der_inside len dt t Hd G1 G2) as MD.
  assert (DD : is_derive (fun u => mask_at len dt u * (shape u - off))%R t (mask_der len dt t * (shape t - off) + mask_at len dt t * ds t)%R).
  { assert (S1 : is_derive (fun u => shape u - off)%R t (ds t)). { evar_last; [apply (is_derive_minus (V:=R_NormedModule) shape (fun _ => off)); [apply HD|apply is_derive_const]|]. apply Rminus_0_r. }
    apply (is_derive_mult _ _ t _ _ (is_derive_mask len dt t Hd) S1 Rmult_comm). }
  apply is_derive_unique in DD. match goal with |- context[Derive ?f t] => change (Derive f t = (mask_der len dt t * (shape t - off) + mask_at len dt t * ds t)%R) in DD; rewrite DD end. set (m := mask_at len dt t) in *. set (m' := mask_der len dt t) in *. set (x := (shape t - off)%R). set (d := ds t). split.
  - replace (m * x - x)%R with ((m - 1) * x)%R by ring. rewrite Rabs_mult. apply Rmult_le_compat_r; [apply Rabs_pos|]. rewrite Rabs_left by lra. lra.
  - replace (- ((m' * x + m * d) * dt) * delta - - delta * dt * d)%R with (- delta * (dt * ((m - 1) * d) + dt * (m' * x)))%R by ring.
    rewrite Rabs_mult, Rabs_Ropp. pose proof (Rabs_pos delta). rewrite (Rmult_comm (2 * exp (- 1000)) (Rabs delta)), Rmult_assoc. apply Rmult_le_compat_l; [assumption|].
    eapply Rle_trans; [apply Rabs_triang|]. rewrite !Rabs_mult. rewrite (Rabs_right dt) by lra. rewrite (Rabs_left (m - 1)) by lra.
    pose proof (Rabs_pos d). pose proof (Rabs_pos x). pose proof (exp_pos (-1000)).
    assert (dt * (- (m - 1) * Rabs d) <= 2 * exp (- 1000) * (dt * Rabs d))%R.
    { replace (dt * (- (m - 1) * Rabs d))%R with ((1 - m) * (dt * Rabs d))%R by ring. apply Rmult_le_compat_r; [apply Rmult_le_pos; lra|lra]. }
    assert (dt * (Rabs m' * Rabs x) <= 2 * exp (- 1000) * (1000000 * Rabs x))%R.
    { replace (2 * exp (-1000) * (1000000 * Rabs x))%R with (dt * (2 * exp (-1000) * (1000000 / dt)) * Rabs x)%R by (field; lra).
      rewrite <- Rmult_assoc. apply Rmult_le_compat_r; [lra|]. apply Rmult_le_compat_l; [lra|exact MD]. }
    lra.
Qed.
Print Assumptions C64_drag_envelope.
Example C64_example : exists vs, drag_values true (gaussian_nonorm 4 1) 4 (/ 2) (centres 1 4) 4 = Ok vs /\
  (nth 0 (centres 1 4) 0 < nth 1 (centres 1 4) 0)%R /\
  (0 <= nth 2 (centres 1 4) 0 <= 999 / 1000 * Rmin 4 4 - (nth 1 (centres 1 4) 0 - nth 0 (centres 1 4) 0) / 1000)%R /\
  (forall t, is_derive (gaussian_nonorm 4 1) t (- (gauss_pt 4 1 t * (t - 4 / 2) / 1 ^ 2))%R).
Proof.
  unfold centres. cbn [seq map]. unfold drag_values. eexists. split; [reflexivity|]. cbn [nth INR]. unfold Rmin. destruct Rle_dec; (split; [lra|]); (split; [lra|]); intro t; apply is_derive_gauss; lra.
Qed.

(** ** C70 Net-zero envelopes *)
Fixpoint ctotal (l : list C) : C := match l with [] => RtoC 0 | x :: r => (x + ctotal r)%C end.
Lemma ctotal_app : forall a b, ctotal (a ++ b) = (ctotal a + ctotal b)%C.
Proof. induction a; intro b; cbn [app ctotal]; [ring|rewrite IHa; ring]. Qed.
(** The values sum to zero and there is one per time sample; the first half is the
    base envelope on the first half of the grid and the second half its negative. *)
Theorem C70_net_zero : forall base ts vs,
  (forall us ws, base us = Ok ws -> length ws = length us) ->
  netzero_values base ts = Ok vs ->
  ctotal vs = RtoC 0 /\ length vs = length ts /\
  (exists v, base (firstn (Nat.div (length ts) 2) ts) = Ok v /\
     forall i, i < Nat.div (length ts) 2 ->
       nth i vs (RtoC 0) = nth i v (RtoC 0) /\ nth (Nat.div (length ts) 2 + i) vs (RtoC 0) = Copp (nth i v (RtoC 0))).
Proof.
  intros base ts vs HB H. unfold netzero_values in H. remember (Nat.div (length ts) 2) as n eqn:En.
  destruct (base (firstn n ts)) as [v|e] eqn:E; [|discriminate].
  match type of H with Ok ?l = Ok _ => assert (Hv : vs = l) by congruence end. subst vs. clear H.
  assert (Lv : length v = n).
  { rewrite (HB _ _ E), firstn_length. apply Nat.min_l. subst n. apply Nat.div_le_upper_bound; lia. }
  split; [|split].
  - rewrite !ctotal_app. assert (Z : forall k, ctotal (repeat (RtoC 0) k) = RtoC 0) by (induction k; cbn [repeat ctotal]; [reflexivity|rewrite IHk; ring]).
    rewrite Z. assert (O : forall l, ctotal (map Copp l) = Copp (ctotal l)) by (induction l; cbn [map ctotal]; [ring|rewrite IHl; ring]). rewrite O. ring.
  - rewrite !app_length, map_length, repeat_length, Lv. pose proof (Nat.div_mod (length ts) 2 ltac:(lia)). lia.
  - exists v. split; [reflexivity|]. intros i Hi. split.
    + rewrite app_nth1 by lia. reflexivity.
    + rewrite app_nth2 by lia. rewrite Lv. replace (n + i - n) with i by lia. rewrite app_nth1 by (rewrite map_length; lia).
      apply nth_map_lt. lia.
Qed.
Print Assumptions C70_net_zero.
Theorem C70_base_length : forall b shape pt us ws,
  shape_values b shape pt us 1 = Ok ws -> length ws = length us.
Proof. intros b shape pt us ws H. destruct (shape_values_inv _ _ _ _ _ _ H) as (t0 & t1 & r & -> & ->). apply map_length. Qed.
Print Assumptions C70_base_length.
Example C70_example : exists vs, netzero_values (fun us => shape_values false (fun t => RtoC (cosine 4 t)) 4 us 1) (centres 1 5) = Ok vs.
Proof. unfold centres. cbn [seq map]. eexists. reflexivity. Qed.
(** The literal claim fails for the way instructions use envelopes: get_awg_signal
    passes two arguments, get_shape_values of the net-zero class takes one. *)
Theorem C70_arity_refuted : forall b shape pt ts t_end,
  get_shape_values_call CNetZero b shape pt ts t_end = Err TypeError.
Proof. reflexivity. Qed.
Print Assumptions C70_arity_refuted.
