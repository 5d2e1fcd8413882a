From Coq Require Import Reals Lra Lia.
From Coquelicot Require Import Coquelicot.
From Verif Require Import Base Mat MExp HilbertModel HilbertProofs HilbertProps PropModel PropProofs Prop2Props DevModel DevProofs DevProps ChipModel.
Local Open Scope R_scope.
Local Notation length := List.length.

(** ** C76: derivatives of the potentials *)
(** Independent closed form of the n-th derivative. *)
Definition cshunt_closed (p : fluxpars) (phi_sig : R) (n : nat) (x : R) : R :=
  let phi := (fp_phi p + phi_sig) / fp_phi_0 p * 2 * PI in
  - fp_EJ p * cos (x + phi + INR n * (PI / 2)) - fp_EJ p * 2 * fp_gamma p / 2 ^ n * cos (x / 2 + INR n * (PI / 2)).
Lemma cos_shift : forall x n, cos (x + INR (S n) * (PI / 2)) = - sin (x + INR n * (PI / 2)).
Proof.
  intros. rewrite S_INR. replace (x + (INR n + 1) * (PI / 2)) with (PI / 2 + (x + INR n * (PI / 2))) by ring.
  rewrite (sin_cos (x + _)). ring.
Qed.
Lemma cshunt_closed_derive : forall p s n x, is_derive (cshunt_closed p s n) x (cshunt_closed p s (S n) x).
Proof.
  intros p s n x. unfold cshunt_closed. rewrite !cos_shift. cbv zeta.
  generalize ((fp_phi p + s) / fp_phi_0 p * 2 * PI) (INR n * (PI / 2)). intros c k.
  pose proof (pow_nonzero 2 n ltac:(lra)) as Hp. cbn [pow]. revert Hp. generalize (2 ^ n). intros q Hp.
  auto_derive; [auto|]. replace (x * / 2) with (x / 2) by reflexivity. field. exact Hp.
Qed.
Lemma cshunt_low : forall p s n x, (n <= 4)%nat -> cshunt_potential p s n x = cshunt_closed p s n x.
Proof.
  intros p s n x Hn. unfold cshunt_closed.
  assert (E0 : forall y, cos (y + INR 0 * (PI / 2)) = cos y) by (intro; f_equal; cbn; ring).
  assert (E1 : forall y, cos (y + INR 1 * (PI / 2)) = - sin y) by (intro; rewrite cos_shift; f_equal; f_equal; cbn; ring).
  assert (E2 : forall y, cos (y + INR 2 * (PI / 2)) = - cos y).
  { intro. rewrite cos_shift. replace (y + INR 1 * (PI / 2)) with (PI / 2 + y) by (cbn; ring). rewrite <- cos_sin. ring. }
  assert (E3 : forall y, cos (y + INR 3 * (PI / 2)) = sin y).
  { intro. replace (y + INR 3 * (PI / 2)) with ((PI / 2 + y) + PI) by (cbn; field). rewrite neg_cos, (sin_cos y). ring. }
  assert (E4 : forall y, cos (y + INR 4 * (PI / 2)) = cos y).
  { intro. replace (y + INR 4 * (PI / 2)) with (y + 2 * PI) by (cbn; field). rewrite cos_plus, cos_2PI, sin_2PI; ring. }
  destruct n as [|[|[|[|[|n]]]]]; [| | | | |lia]; cbn [cshunt_potential]; cbv zeta; rewrite ?E0, ?E1, ?E2, ?E3, ?E4; cbn; field.
Qed.
Lemma cshunt_all : forall p n x, cshunt_potential p 0 n x = cshunt_closed p 0 n x.
Proof.
  intros p n. destruct (le_lt_dec n 4) as [H|H]; [intro; apply cshunt_low; exact H|].
  replace n with (4 + (n - 4))%nat by lia. induction (n - 4)%nat as [|m IH]; intro x; [apply cshunt_low; lia|].
  rewrite Nat.add_succ_r. change (Derive (cshunt_potential p 0 (4 + m)) x = cshunt_closed p 0 (S (4 + m)) x).
  rewrite (Derive_ext _ _ x IH). apply is_derive_unique. apply cshunt_closed_derive.
Qed.
Lemma closed_derive_n : forall p s n x, Derive_n (cshunt_closed p s 0) n x = cshunt_closed p s n x.
Proof.
  intros p s n. induction n as [|n IH]; intro x; [reflexivity|]. cbn [Derive_n].
  rewrite (Derive_ext _ _ x IH). apply is_derive_unique. apply cshunt_closed_derive.
Qed.
(** Every analytic order is the derivative of that order of the potential, for any
    flux signal. *)
Theorem C76_cshunt :
  forall p phi_sig n x, (n <= 4)%nat ->
  cshunt_potential p phi_sig n x = Derive_n (cshunt_potential p phi_sig 0) n x
  /\ ((n < 4)%nat -> is_derive (cshunt_potential p phi_sig n) x (cshunt_potential p phi_sig (S n) x)).
Proof.
  intros p s n x Hn. split.
  - rewrite cshunt_low by exact Hn. rewrite <- closed_derive_n. apply Derive_n_ext. intro y. symmetry. apply cshunt_low. lia.
  - intro H. rewrite cshunt_low by lia. apply (is_derive_ext (cshunt_closed p s n)).
    + intro y. symmetry. apply cshunt_low. lia.
    + apply cshunt_closed_derive.
Qed.
Print Assumptions C76_cshunt.
(** Without signal this holds for every order, the derivatives existing everywhere. *)
Theorem C76_cshunt_all_orders :
  forall p n x, cshunt_potential p 0 n x = Derive_n (cshunt_potential p 0 0) n x
  /\ is_derive (cshunt_potential p 0 n) x (cshunt_potential p 0 (S n) x).
Proof.
  intros p n x. split.
  - rewrite cshunt_all, <- closed_derive_n. apply Derive_n_ext. intro y. symmetry. apply cshunt_all.
  - rewrite cshunt_all. apply (is_derive_ext (cshunt_closed p 0 n)).
    + intro y. symmetry. apply cshunt_all.
    + apply cshunt_closed_derive.
Qed.
Print Assumptions C76_cshunt_all_orders.
(** Orders above four drop the flux signal. *)
Theorem C76_high_order_signal_refuted :
  ~ (forall p phi_sig n x, cshunt_potential p phi_sig n x = Derive_n (cshunt_potential p phi_sig 0) n x).
Proof.
  intro H. pose (p := {| fp_phi := 0; fp_phi_0 := 1; fp_gamma := 0; fp_EJ := 1; fp_EL := 0 |}).
  specialize (H p (1 / 4) 5%nat 0).
  assert (A : cshunt_potential p (1 / 4) 5 0 = cshunt_closed p 0 5 0) by (rewrite <- cshunt_all; reflexivity).
  assert (B : Derive_n (cshunt_potential p (1 / 4) 0) 5 0 = cshunt_closed p (1 / 4) 5 0).
  { rewrite <- closed_derive_n. apply Derive_n_ext. intro y. apply cshunt_low. lia. }
  rewrite A, B in H. unfold cshunt_closed in H. cbv zeta in H. rewrite !cos_shift in H. unfold p in H. cbn [fp_phi fp_phi_0 fp_gamma fp_EJ] in H.
  replace (0 + (0 + 0) / 1 * 2 * PI + INR 4 * (PI / 2)) with (2 * PI) in H by (cbn; field).
  replace (0 + (0 + 1 / 4) / 1 * 2 * PI + INR 4 * (PI / 2)) with (PI / 2 + 2 * PI) in H by (cbn; field).
  assert (Q : sin (PI / 2 + 2 * PI) = 1) by (rewrite sin_plus, sin_2PI, cos_2PI, sin_PI2; ring).
  rewrite sin_2PI, Q in H. lra.
Qed.
Print Assumptions C76_high_order_signal_refuted.
(** Fluxonium: all orders; a flux signal is refused. *)
Definition fluxonium_closed (p : fluxpars) (n : nat) (x : R) : R :=
  let phi := fp_phi p / fp_phi_0 p * 2 * PI in
  - fp_EJ p * cos (x + phi + INR n * (PI / 2))
  + match n with 0%nat => 1 / 2 * fp_EL p * x ^ 2 | 1%nat => fp_EL p * x | 2%nat => fp_EL p | _ => 0 end.
Lemma fluxonium_closed_derive : forall p n x, is_derive (fluxonium_closed p n) x (fluxonium_closed p (S n) x).
Proof.
  intros p n x. unfold fluxonium_closed. rewrite cos_shift. cbv zeta.
  generalize (fp_phi p / fp_phi_0 p * 2 * PI) (INR n * (PI / 2)). intros c k.
  destruct n as [|[|[|n]]]; auto_derive; auto; field.
Qed.
Lemma fluxonium_all : forall p n x, fluxonium_order p n x = fluxonium_closed p n x.
Proof.
  intros p.
  assert (E1 : forall y, cos (y + INR 1 * (PI / 2)) = - sin y) by (intro; rewrite cos_shift; f_equal; f_equal; cbn; ring).
  assert (E2 : forall y, cos (y + INR 2 * (PI / 2)) = - cos y).
  { intro. rewrite cos_shift. replace (y + INR 1 * (PI / 2)) with (PI / 2 + y) by (cbn; ring). rewrite <- cos_sin. ring. }
  assert (E3 : forall y, cos (y + INR 3 * (PI / 2)) = sin y).
  { intro. replace (y + INR 3 * (PI / 2)) with ((PI / 2 + y) + PI) by (cbn; field). rewrite neg_cos, (sin_cos y). ring. }
  assert (L : forall n x, (n <= 3)%nat -> fluxonium_order p n x = fluxonium_closed p n x).
  { intros n x Hn. unfold fluxonium_closed. destruct n as [|[|[|[|n]]]]; [| | | |lia]; cbn [fluxonium_order]; cbv zeta.
    - replace (INR 0 * (PI / 2)) with 0 by (cbn; ring). rewrite Rplus_0_r. reflexivity.
    - rewrite E1. ring.
    - rewrite E2. ring.
    - rewrite E3. ring. }
  intros n. destruct (le_lt_dec n 3) as [H|H]; [intro; apply L; exact H|].
  replace n with (3 + (n - 3))%nat by lia. induction (n - 3)%nat as [|m IH]; intro x; [apply L; lia|].
  rewrite Nat.add_succ_r. change (Derive (fluxonium_order p (3 + m)) x = fluxonium_closed p (S (3 + m)) x).
  rewrite (Derive_ext _ _ x IH). apply is_derive_unique. apply fluxonium_closed_derive.
Qed.
Theorem C76_fluxonium :
  forall p n x, exists V, fluxonium_potential p 0 n x = Ok (V n) /\ fluxonium_potential p 0 0 x = Ok (V 0%nat)
  /\ V n = Derive_n (fun y => - fp_EJ p * cos (y + fp_phi p / fp_phi_0 p * 2 * PI) + 1 / 2 * fp_EL p * y ^ 2) n x
  /\ forall s, s <> 0 -> fluxonium_potential p s n x = Err NotImplemented.
Proof.
  intros p n x. exists (fun k => fluxonium_order p k x). unfold fluxonium_potential.
  destruct (Req_EM_T 0 0); [|congruence]. split; [reflexivity|]. split; [reflexivity|]. split.
  - rewrite fluxonium_all. change (fun y => - fp_EJ p * cos (y + fp_phi p / fp_phi_0 p * 2 * PI) + 1 / 2 * fp_EL p * y ^ 2) with (fluxonium_order p 0).
    revert x. induction n as [|n IH]; intro x; [symmetry; apply fluxonium_all|]. cbn [Derive_n].
    rewrite <- (Derive_ext _ _ x IH). symmetry. apply is_derive_unique. apply fluxonium_closed_derive.
  - intros s Hs. destruct (Req_EM_T s 0); [congruence|reflexivity].
Qed.
Print Assumptions C76_fluxonium.
(** At a stationary point with positive curvature the potential has a local minimum in
    the sense used by [get_frequency]: first derivative zero, second positive. *)
Example C76_example : let p := {| fp_phi := 0; fp_phi_0 := 1; fp_gamma := 1; fp_EJ := 10; fp_EL := 1 |} in
  cshunt_potential p 0 1 0 = 0 /\ cshunt_potential p 0 2 0 = 15 /\ cshunt_potential p 0 5 PI = 10 / 16.
Proof.
  cbv zeta. split; [|split].
  - cbn [cshunt_potential]. cbn [fp_phi fp_phi_0 fp_gamma fp_EJ fp_EL].
    replace (0 + (0 + 0) / 1 * 2 * PI) with 0 by field. replace (0 / 2) with 0 by field. rewrite sin_0. field.
  - cbn [cshunt_potential]. cbn [fp_phi fp_phi_0 fp_gamma fp_EJ fp_EL].
    replace (0 + (0 + 0) / 1 * 2 * PI) with 0 by field. replace (0 / 2) with 0 by field. rewrite cos_0. field.
  - rewrite cshunt_all. unfold cshunt_closed. cbn [fp_phi fp_phi_0 fp_gamma fp_EJ fp_EL]. rewrite !cos_shift.
    replace (PI + (0 + 0) / 1 * 2 * PI + INR 4 * (PI / 2)) with (PI + 2 * PI) by (cbn; field).
    replace (PI / 2 + INR 4 * (PI / 2)) with (PI / 2 + 2 * PI) by (cbn; field).
    rewrite !sin_plus, sin_2PI, cos_2PI, sin_PI, sin_PI2. cbn. field.
Qed.

(** ** C86: tuning curve of the transmon *)
Lemma transmon_is_flux : forall a phi phi_0 s, transmon_factor a phi phi_0 s = flux_factor (Some (asym_d a)) phi_0 (phi + s).
Proof. reflexivity. Qed.
(** For asymmetries up to one the factor lies between sqrt|d| and 1, it is 1 at zero
    total flux and sqrt|d| half a period away; it is even and has period phi_0. *)
Theorem C86_curve :
  forall a phi phi_0 s, phi_0 <> 0 -> Rabs (asym_d a) <= 1 ->
  sqrt (Rabs (asym_d a)) <= transmon_factor a phi phi_0 s <= 1
  /\ (phi + s = 0 -> transmon_factor a phi phi_0 s = 1)
  /\ (phi + s = phi_0 / 2 -> transmon_factor a phi phi_0 s = sqrt (Rabs (asym_d a)))
  /\ transmon_factor a (- phi) phi_0 (- s) = transmon_factor a phi phi_0 s
  /\ transmon_factor a phi phi_0 (s + phi_0) = transmon_factor a phi phi_0 s.
Proof.
  intros a phi phi_0 s H0 Hd. rewrite !transmon_is_flux.
  destruct (C69_factor (Some (asym_d a)) phi_0 (phi + s) H0) as (B & E & P & Z).
  { intros x [= <-]. exact Hd. }
  split; [exact B|]. split; [intros ->; exact Z|]. split; [|split].
  - intros ->. unfold flux_factor. replace (PI * (phi_0 / 2) / phi_0) with (PI / 2) by (field; exact H0).
    rewrite cos_PI2, sin_PI2. f_equal. replace (0 ^ 2 + asym_d a ^ 2 * 1 ^ 2) with (Rsqr (asym_d a)) by (unfold Rsqr; ring).
    apply sqrt_Rsqr_abs.
  - rewrite <- E. f_equal. ring.
  - rewrite <- P. f_equal. ring.
Qed.
Print Assumptions C86_curve.
(** It falls on the way from zero to half a period. *)
Theorem C86_monotone :
  forall a phi phi_0 s s', 0 < phi_0 -> Rabs (asym_d a) <= 1 -> 0 <= phi + s -> s <= s' -> phi + s' <= phi_0 / 2 ->
  transmon_factor a phi phi_0 s' <= transmon_factor a phi phi_0 s.
Proof.
  intros a phi phi_0 s s' H0 Hd Hs Hss Hs'. unfold transmon_factor. set (d := asym_d a) in *.
  set (x := PI * (phi + s) / phi_0). set (y := PI * (phi + s') / phi_0).
  pose proof PI_RGT_0 as PP.
  assert (Hi : 0 < PI / phi_0) by (apply Rdiv_lt_0_compat; lra).
  assert (Hx : 0 <= x). { unfold x. replace (PI * (phi + s) / phi_0) with (PI / phi_0 * (phi + s)) by (field; lra). apply Rmult_le_pos; lra. }
  assert (Hxy : x <= y).
  { unfold x, y. replace (PI * (phi + s) / phi_0) with (PI / phi_0 * (phi + s)) by (field; lra).
    replace (PI * (phi + s') / phi_0) with (PI / phi_0 * (phi + s')) by (field; lra). apply Rmult_le_compat_l; lra. }
  assert (Hy : y <= PI / 2).
  { unfold y. replace (PI * (phi + s') / phi_0) with (PI / phi_0 * (phi + s')) by (field; lra).
    replace (PI / 2) with (PI / phi_0 * (phi_0 / 2)) by (field; lra). apply Rmult_le_compat_l; lra. }
  assert (C : cos y <= cos x) by (apply cos_decr_1; lra).
  assert (Cy : 0 <= cos y) by (apply cos_ge_0; lra).
  apply sqrt_le_1_alt, sqrt_le_1_alt.
  pose proof (sin2_cos2 x) as Sx. pose proof (sin2_cos2 y) as Sy. unfold Rsqr in *.
  assert (D2 : d ^ 2 <= 1). { rewrite <- (pow2_abs d). pose proof (Rabs_pos d). simpl. nra. }
  replace (sin x ^ 2) with (1 - cos x ^ 2) by (simpl; nra). replace (sin y ^ 2) with (1 - cos y ^ 2) by (simpl; nra).
  assert (C2 : cos y ^ 2 <= cos x ^ 2) by (simpl; nra). nra.
Qed.
Print Assumptions C86_monotone.
(** The asymmetry computed from the junction ratio is below one and does not depend on
    which junction is called the first. *)
Theorem C86_junction_ratio :
  forall g phi phi_0 s, 0 < g ->
  Rabs (asym_d (AsymGamma g)) < 1
  /\ transmon_factor (AsymGamma (1 / g)) phi phi_0 s = transmon_factor (AsymGamma g) phi phi_0 s
  /\ transmon_factor (AsymGamma 1) phi phi_0 s = transmon_factor AsymNone phi phi_0 s.
Proof.
  intros g phi phi_0 s Hg. unfold transmon_factor. cbn [asym_d]. split; [|split].
  - apply Rabs_def1.
    + apply (Rmult_lt_reg_r (g + 1)); [lra|]. unfold Rdiv. rewrite Rmult_assoc, Rinv_l by lra. lra.
    + apply (Rmult_lt_reg_r (g + 1)); [lra|]. unfold Rdiv. rewrite Rmult_assoc, Rinv_l by lra. lra.
  - do 3 f_equal. replace ((1 / g - 1) / (1 / g + 1)) with (- ((g - 1) / (g + 1))) by (field; split; lra). ring.
  - do 3 f_equal. replace ((1 - 1) / (1 + 1)) with 0 by field. reflexivity.
Qed.
Print Assumptions C86_junction_ratio.
(** The frequency stays between its extreme values, and is the bare one at zero flux. *)
Theorem C86_frequency :
  forall a freq anhar phi phi_0 s, phi_0 <> 0 -> Rabs (asym_d a) <= 1 -> anhar <= freq ->
  anhar + (freq - anhar) * sqrt (Rabs (asym_d a)) <= transmon_freq a freq anhar phi phi_0 s <= freq
  /\ (phi + s = 0 -> transmon_freq a freq anhar phi phi_0 s = freq).
Proof.
  intros a freq anhar phi phi_0 s H0 Hd Hf. destruct (C86_curve a phi phi_0 s H0 Hd) as ([L U] & Z & _).
  unfold transmon_freq. split; [split|].
  - pose proof (Rmult_le_compat_l (freq - anhar) _ _ ltac:(lra) L). lra.
  - pose proof (Rmult_le_compat_l (freq - anhar) _ _ ltac:(lra) U). lra.
  - intro E. rewrite (Z E). ring.
Qed.
Print Assumptions C86_frequency.
(** The FluxTuning device, given the same parameters, delivers the detuning of this
    curve. *)
Theorem C86_device_agrees :
  forall d freq anhar phi phi_0 s n, (n < length (v_values s))%nat ->
  nth n (v_values (flux_tuning d phi_0 freq anhar phi s)) 0
  = let a := match d with Some x => AsymD x | None => AsymNone end in
    transmon_freq a freq anhar phi phi_0 (nth n (v_values s) 0) - transmon_freq a freq anhar phi phi_0 0.
Proof.
  intros d freq anhar phi phi_0 s n Hn. unfold flux_tuning. cbn [v_values]. rewrite (nth_map_d _ (v_values s) n 0) by exact Hn.
  assert (E : forall x, flux_factor d phi_0 x = flux_factor (Some (asym_d (match d with Some x => AsymD x | None => AsymNone end))) phi_0 x).
  { intro x. destruct d; [reflexivity|]. unfold flux_factor. cbn [asym_d]. f_equal.
    replace (cos (PI * x / phi_0) ^ 2 + 0 ^ 2 * sin (PI * x / phi_0) ^ 2) with (Rsqr (cos (PI * x / phi_0))) by (unfold Rsqr; ring).
    symmetry. apply sqrt_Rsqr_abs. }
  unfold flux_freq, transmon_freq. cbv zeta. rewrite !transmon_is_flux, !E, Rplus_0_r. reflexivity.
Qed.
Print Assumptions C86_device_agrees.
(** In the expanded model the plasma frequency follows the same curve: with EC = -anhar
    and freq = sqrt(8 EC EJ) - EC its leading term minus EC is the tuned frequency. *)
Theorem C86_expanded_leading_term :
  forall a EC EJ phi phi_0 s, 0 <= EC -> 0 <= EJ ->
  pf_quadratic (transmon_prefactors a EC EJ phi phi_0 s) = sqrt (8 * EC * EJ) * transmon_factor a phi phi_0 s
  /\ pf_quadratic (transmon_prefactors a EC EJ phi phi_0 s) - EC
     = transmon_freq a (sqrt (8 * EC * EJ) - EC) (- EC) phi phi_0 s.
Proof.
  intros a EC EJ phi phi_0 s HC HJ.
  assert (E : pf_quadratic (transmon_prefactors a EC EJ phi phi_0 s) = sqrt (8 * EC * EJ) * transmon_factor a phi phi_0 s).
  { cbn [transmon_prefactors pf_quadratic]. set (f := transmon_factor a phi phi_0 s).
    assert (0 <= f) by apply sqrt_pos.
    replace (8 * EC * (EJ * f ^ 2)) with ((8 * EC * EJ) * f ^ 2) by ring.
    rewrite sqrt_mult; [|repeat apply Rmult_le_pos; lra|apply pow2_ge_0]. rewrite sqrt_pow2 by assumption. reflexivity. }
  split; [exact E|]. rewrite E. unfold transmon_freq. ring.
Qed.
Print Assumptions C86_expanded_leading_term.
(** Its prefactors are the Taylor coefficients of the Josephson potential
    - EJ' cos(r q) in q = a + a+, with the junction energy EJ' at the flux and
    r = (2 EC/EJ')^(1/4); charge and quadratic parts together make the oscillator. *)
Theorem C86_expanded_is_cosine_series :
  forall a EC EJ phi phi_0 s, 0 < EC -> 0 < EJ -> transmon_factor a phi phi_0 s <> 0 ->
  let EJ' := EJ * transmon_factor a phi phi_0 s ^ 2 in
  let r := sqrt (sqrt (2 * EC / EJ')) in
  let coeff k := - EJ' * Derive_n (fun q => cos (r * q)) k 0 / INR (fact k) in
  pf_quadratic (transmon_prefactors a EC EJ phi phi_0 s) = 4 * coeff 2%nat
  /\ pf_quartic (transmon_prefactors a EC EJ phi phi_0 s) = coeff 4%nat
  /\ pf_sextic (transmon_prefactors a EC EJ phi phi_0 s) = coeff 6%nat.
Proof.
  intros a EC EJ phi phi_0 s HC HJ Hf EJ' r coeff.
  assert (P : 0 < EJ') by (apply Rmult_lt_0_compat; [exact HJ|]; apply pow2_gt_0; exact Hf).
  assert (Q : 0 < 2 * EC / EJ') by (apply Rdiv_lt_0_compat; lra).
  assert (D : forall k q, Derive_n (fun q => cos (r * q)) (2 * k) q = (-1) ^ k * r ^ (2 * k) * cos (r * q)).
  { clearbody r. induction k as [|k IH]; intro q; [cbn; ring|].
    replace (2 * S k)%nat with (S (S (2 * k))) by lia. cbn [Derive_n].
    assert (D1 : forall x, Derive (Derive_n (fun q => cos (r * q)) (2 * k)) x = (-1) ^ k * r ^ (2 * k) * (- r * sin (r * x))).
    { intro x. rewrite (Derive_ext _ _ x IH). generalize ((-1) ^ k * r ^ (2 * k)). intro c. apply is_derive_unique. auto_derive; [exact I|]. ring. }
    etransitivity; [exact (Derive_ext _ _ q D1)|]. replace ((-1) ^ S k * r ^ S (S (2 * k)) * cos (r * q)) with ((-1) ^ k * r ^ (2 * k) * (- r * (r * cos (r * q)))) by (cbn [pow]; ring).
    generalize ((-1) ^ k * r ^ (2 * k)). intro c. apply is_derive_unique. auto_derive; [exact I|]. ring. }
  assert (R2 : r ^ 2 = sqrt (2 * EC / EJ')) by (rewrite <- Rsqr_pow2; apply Rsqr_sqrt, sqrt_pos).
  assert (R4 : r ^ 4 = 2 * EC / EJ').
  { replace (r ^ 4) with (r ^ 2 * r ^ 2) by ring. rewrite R2. apply sqrt_sqrt. lra. }
  assert (R6 : r ^ 6 = Rpower (2 * EC / EJ') (3 / 2)).
  { replace (3 / 2) with (1 + / 2) by field. rewrite Rpower_plus, Rpower_1, Rpower_sqrt by exact Q.
    replace (r ^ 6) with (r ^ 4 * r ^ 2) by ring. rewrite R4, R2. reflexivity. }
  unfold coeff. change 2%nat with (2 * 1)%nat at 1. change 4%nat with (2 * 2)%nat at 1. change 6%nat with (2 * 3)%nat at 1.
  rewrite !D. rewrite Rmult_0_r, cos_0. cbn [Nat.mul Nat.add]. rewrite R2, R4, R6.
  cbn [transmon_prefactors pf_quadratic pf_quartic pf_sextic]. fold EJ'. clearbody EJ'. clear D r R2 R4 R6 coeff.
  cbn [fact Nat.mul Nat.add INR pow]. repeat split.
  - replace (8 * EC * EJ') with ((2 * EJ') ^ 2 * (2 * EC / EJ')) by (field; lra).
    rewrite sqrt_mult; [|apply pow2_ge_0|lra]. rewrite sqrt_pow2 by lra. field.
  - field. lra.
  - field.
Qed.
Print Assumptions C86_expanded_is_cosine_series.
(** A symmetric transmon at half a flux quantum gets the anharmonicity, a negative
    number, as frequency. *)
Theorem C86_positive_refuted :
  ~ (forall a freq anhar phi phi_0 s, 0 < phi_0 -> 0 < freq -> anhar < 0 -> Rabs (asym_d a) <= 1 ->
     0 < transmon_freq a freq anhar phi phi_0 s).
Proof.
  intro H. specialize (H AsymNone 5 (- 1) 0 1 (1 / 2) ltac:(lra) ltac:(lra) ltac:(lra) ltac:(cbn; rewrite Rabs_R0; lra)).
  unfold transmon_freq in H. destruct (C86_curve AsymNone 0 1 (1 / 2) ltac:(lra) ltac:(cbn; rewrite Rabs_R0; lra)) as (_ & _ & E & _).
  rewrite E in H by lra. cbn [asym_d] in H. rewrite Rabs_R0, sqrt_0 in H. lra.
Qed.
Print Assumptions C86_positive_refuted.
Example C86_example : transmon_freq (AsymGamma 3) 5 (- 1) 0 1 (1 / 2) = 6 * sqrt (1 / 2) - 1
  /\ transmon_freq (AsymGamma 3) 5 (- 1) 0 1 1 = 5.
Proof.
  assert (A : asym_d (AsymGamma 3) = 1 / 2) by (cbn; field).
  assert (B : Rabs (asym_d (AsymGamma 3)) = 1 / 2) by (rewrite A; apply Rabs_pos_eq; lra).
  split.
  - destruct (C86_curve (AsymGamma 3) 0 1 (1 / 2) ltac:(lra) ltac:(rewrite B; lra)) as (_ & _ & E & _).
    unfold transmon_freq. rewrite E by lra. rewrite B. ring.
  - destruct (C86_curve (AsymGamma 3) 0 1 0 ltac:(lra) ltac:(rewrite B; lra)) as (_ & Z & _ & _ & P).
    unfold transmon_freq. replace (transmon_factor (AsymGamma 3) 0 1 1) with (transmon_factor (AsymGamma 3) 0 1 (0 + 1)) by (f_equal; ring). rewrite P, Z by ring. ring.
Qed.
