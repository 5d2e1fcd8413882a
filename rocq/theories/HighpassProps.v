(** C121: the high pass filter. *)
From Coq Require Import Reals Lra.
From Verif Require Import Base QuantityModel RSum DevModel DevProofs HighpassModel.
Local Open Scope list_scope.
Local Notation length := List.length.

(** ** Specification *)
(** samples outside the signal are 0 *)
Definition sample (s : list R) (z : Z) : R := if (z <? 0)%Z then 0%R else nth (Z.to_nat z) s 0%R.
(** the sum of the windowed sinc function over the taps *)
Definition passed (fc : R) (n : nat) : R := rs n (lowpass fc n).

(** ** Lemmas *)
Lemma rs_shift0 : forall n f, rs (S n) f = (f 0%nat + rs n (fun i => f (S i)))%R.
Proof. induction n as [|n IH]; intro f; [cbn; ring|]. change (rs (S (S n)) f) with (rs (S n) f + f (S n))%R. rewrite IH. cbn [rs]. ring. Qed.
Lemma sum_rs : forall n f m, sum_list (map f (seq m n)) = rs n (fun j => f (m + j)%nat).
Proof.
  induction n as [|n IH]; intros f m; cbn [seq map]; [reflexivity|]. change (sum_list (f m :: map f (seq (S m) n))) with (f m + sum_list (map f (seq (S m) n)))%R.
  rewrite IH, rs_shift0, Nat.add_0_r. f_equal. apply rs_ext. intros i _. f_equal. lia.
Qed.
Lemma dot_rs : forall a h, length a = length h -> dot a h = rs (length h) (fun j => nth j a 0 * nth j h 0)%R.
Proof.
  unfold dot. induction a as [|x a IH]; intros [|y h] L; try discriminate; [reflexivity|]. cbn [combine map length].
  change (sum_list (?u :: ?l)) with (u + sum_list l)%R. rewrite rs_shift0. cbn [nth fst snd]. rewrite <- IH by (cbn in L; lia). reflexivity.
Qed.
Lemma taps_odd : forall tb, exists m, taps tb = 2 * m + 1.
Proof.
  intro tb. unfold taps. set (n := ceil_nat (4 / tb)). pose proof (Nat.div_mod n 2 ltac:(lia)) as D. pose proof (Nat.mod_upper_bound n 2 ltac:(lia)) as U.
  exists (n / 2). lia.
Qed.
Lemma nth_padded : forall a s b i, nth i (repeat 0%R a ++ s ++ repeat 0%R b) 0%R = sample s (Z.of_nat i - Z.of_nat a).
Proof.
  intros a s b i. unfold sample. destruct (Z.ltb_spec (Z.of_nat i - Z.of_nat a) 0) as [H|H].
  - rewrite app_nth1 by (rewrite repeat_length; lia). apply nth_repeat.
  - rewrite app_nth2 by (rewrite repeat_length; lia). rewrite repeat_length. replace (Z.to_nat (Z.of_nat i - Z.of_nat a)) with (i - a) by lia.
    destruct (Nat.lt_ge_cases (i - a) (length s)) as [L|L]; [apply app_nth1, L|]. rewrite app_nth2 by exact L. rewrite nth_repeat. symmetry. apply nth_overflow, L.
Qed.
Lemma nth_slice : forall (l : list R) p n j, j < n -> nth j (firstn n (skipn p l)) 0%R = nth (p + j) l 0%R.
Proof.
  intros l p n j Hj. revert l n j Hj. induction p as [|p IH]; intros l n j Hj.
  - cbn [skipn Nat.add]. revert n j Hj. induction l as [|x l IHl]; intros [|n] [|j] Hj; cbn; try lia; try reflexivity. apply IHl. lia.
  - destruct l as [|x l]; cbn [skipn Nat.add nth]; [destruct n, j; reflexivity|]. apply IH. exact Hj.
Qed.

(** With an odd number of taps the filtered signal has the length of the signal, and each sample is the sum over the taps of the samples
    around it, centred. *)
Lemma hp_convolve_spec : forall s h m, length h = 2 * m + 1 ->
  length (hp_convolve s h) = length s
  /\ forall i, i < length s -> nth i (hp_convolve s h) 0%R = rs (2 * m + 1) (fun j => sample s (Z.of_nat i + Z.of_nat j - Z.of_nat m) * nth j h 0)%R.
Proof.
  intros s h m L. unfold hp_convolve. rewrite L.
  assert (H1 : (2 * m + 1) / 2 = m) by (rewrite Nat.add_comm, Nat.mul_comm, Nat.div_add by lia; reflexivity).
  assert (H2 : 3 * (2 * m + 1) / 2 = 3 * m + 1) by (replace (3 * (2 * m + 1)) with (1 + (3 * m + 1) * 2) by lia; rewrite Nat.div_add by lia; reflexivity).
  rewrite H1, H2. set (pad := repeat 0%R m ++ s ++ repeat 0%R (3 * m + 1 + 1)).
  assert (Lp : length pad = length s + 4 * m + 2) by (unfold pad; rewrite !app_length, !repeat_length; lia).
  assert (Ln : length pad - 2 * (2 * m + 1) = length s) by lia. rewrite Ln. split; [rewrite map_length; apply seq_length|].
  intros i Hi. rewrite (nth_map_d _ (seq 0 (length s)) i 0) by (rewrite seq_length; exact Hi). rewrite seq_nth by exact Hi. cbn [Nat.add].
  rewrite dot_rs by (rewrite firstn_length, skipn_length; lia). rewrite L. apply rs_ext. intros j Hj. rewrite nth_slice by exact Hj. unfold pad. rewrite nth_padded.
  do 2 f_equal. lia.
Qed.

Lemma lowpass_middle : forall fc m, lowpass fc (2 * m + 1) m = 1%R.
Proof.
  intros fc m. unfold lowpass, hamming, sinc1. replace (2 * m + 1 - 1) with (2 * m) by lia.
  assert (E : (2 * fc * (INR m - INR (2 * m) / 2) = 0)%R) by (rewrite mult_INR; cbn [INR]; field). rewrite E. destruct (Req_EM_T 0 0) as [_|C]; [|lra].
  destruct (Nat.eqb_spec (2 * m + 1) 1) as [_|N]; [ring|].
  assert (P : (0 < INR m)%R) by (apply lt_0_INR; lia).
  replace (2 * PI * INR m / INR (2 * m))%R with PI by (rewrite mult_INR; cbn [INR]; field; lra). rewrite cos_PI. lra.
Qed.

(** the kernel: 1 in the middle, minus the normalised windowed sinc elsewhere *)
Lemma kernel_spec : forall fc m h, kernel fc (2 * m + 1) = Ok h ->
  passed fc (2 * m + 1) <> 0%R /\ length h = 2 * m + 1 /\ nth m h 0%R = 1%R
  /\ forall j, j < 2 * m + 1 -> j <> m -> nth j h 0%R = (- (lowpass fc (2 * m + 1) j / passed fc (2 * m + 1)))%R.
Proof.
  intros fc m h H. unfold kernel in H. rewrite sum_rs in H. cbn [Nat.add] in H. change (rs (2 * m + 1) (fun j => lowpass fc (2 * m + 1) j)) with (passed fc (2 * m + 1)) in H.
  destruct (Req_EM_T (passed fc (2 * m + 1)) 0) as [|N]; [discriminate|].
  replace ((2 * m + 1 - 1) / 2) with m in H by (replace (2 * m + 1 - 1) with (m * 2) by lia; rewrite Nat.div_mul by lia; reflexivity).
  injection H as <-. split; [exact N|]. split; [rewrite map_length; apply seq_length|].
  assert (G : forall j, j < 2 * m + 1 -> nth j (map (fun j => if Nat.eqb j m then 1%R else (nth j (map (lowpass fc (2 * m + 1)) (seq 0 (2 * m + 1))) 0 / - passed fc (2 * m + 1))%R) (seq 0 (2 * m + 1))) 0%R
     = if Nat.eqb j m then 1%R else (lowpass fc (2 * m + 1) j / - passed fc (2 * m + 1))%R).
  { intros j Hj. rewrite (nth_map_d _ (seq 0 (2 * m + 1)) j 0) by (rewrite seq_length; exact Hj). rewrite seq_nth by exact Hj. cbn [Nat.add].
    rewrite (nth_map_d (lowpass fc (2 * m + 1)) (seq 0 (2 * m + 1)) j 0) by (rewrite seq_length; exact Hj). rewrite seq_nth by exact Hj. reflexivity. }
  split; [rewrite G by lia; rewrite Nat.eqb_refl; reflexivity|].
  intros j Hj Nj. rewrite G by exact Hj. destruct (Nat.eqb_spec j m); [contradiction|]. field. exact N.
Qed.
Lemma rs_split : forall n k f, k < n -> rs n f = (f k + rs n (fun j => if Nat.eqb j k then 0 else f j))%R.
Proof.
  induction n as [|n IH]; intros k f Hk; [lia|]. cbn [rs]. destruct (Nat.eq_dec k n) as [->|N].
  - rewrite Nat.eqb_refl. rewrite (rs_ext n (fun j => if Nat.eqb j n then 0%R else f j) f); [ring|]. intros i Hi. destruct (Nat.eqb_spec i n); [lia|reflexivity].
  - rewrite (IH k f) by lia. destruct (Nat.eqb_spec n k); [congruence|]. ring.
Qed.
Lemma kernel_sum : forall fc m h, kernel fc (2 * m + 1) = Ok h -> rs (2 * m + 1) (fun j => nth j h 0%R) = (/ passed fc (2 * m + 1))%R.
Proof.
  intros fc m h H. destruct (kernel_spec fc m h H) as (N & L & C & E). set (S := passed fc (2 * m + 1)) in *.
  rewrite (rs_split _ m) by lia. rewrite C.
  assert (P : rs (2 * m + 1) (fun j => if Nat.eqb j m then 0 else lowpass fc (2 * m + 1) j)%R = (S - 1)%R).
  { unfold S, passed. rewrite (rs_split (2 * m + 1) m (lowpass fc (2 * m + 1))) by lia. rewrite lowpass_middle. ring. }
  rewrite (rs_ext _ _ (fun j => - / S * (if Nat.eqb j m then 0 else lowpass fc (2 * m + 1) j))%R).
  - rewrite rs_scale, P. field. exact N.
  - intros j Hj. destruct (Nat.eqb_spec j m) as [->|Nj]; [ring|]. rewrite (E j Hj Nj). field. exact N.
Qed.
Lemma lowpass_sym : forall fc m j, j <= 2 * m -> lowpass fc (2 * m + 1) (2 * m - j) = lowpass fc (2 * m + 1) j.
Proof.
  intros fc m j Hj. unfold lowpass. replace (2 * m + 1 - 1) with (2 * m) by lia.
  assert (S : forall x, sinc1 (- x) = sinc1 x).
  { intro x. unfold sinc1. destruct (Req_EM_T (- x) 0), (Req_EM_T x 0); try lra. replace (PI * - x)%R with (- (PI * x))%R by ring. rewrite sin_neg. field. split; [assumption|apply PI_neq0]. }
  replace (2 * fc * (INR (2 * m - j) - INR (2 * m) / 2))%R with (- (2 * fc * (INR j - INR (2 * m) / 2)))%R by (rewrite minus_INR by exact Hj; field). rewrite S. f_equal.
  unfold hamming. destruct (Nat.eqb_spec (2 * m + 1) 1); [reflexivity|]. replace (2 * m + 1 - 1) with (2 * m) by lia.
  assert (P : (0 < INR (2 * m))%R) by (apply lt_0_INR; lia). do 2 f_equal.
  replace (2 * PI * INR (2 * m - j) / INR (2 * m))%R with (- (2 * PI * INR j / INR (2 * m)) + 2 * INR 1 * PI)%R by (rewrite minus_INR by exact Hj; cbn [INR]; field; lra).
  rewrite cos_period, cos_neg. reflexivity.
Qed.

(** The filtered signal has the length and the time points of the input, and is the convolution of it (0 outside) with a symmetric kernel that is 1 in
    the middle; the number of taps is odd. *)
Theorem C121_filter : forall c r res s out, highpass (Some c) (Some r) res s = Ok out ->
  let tb := match r with Some t => (t / res)%R | None => (c / res / 2)%R end in
  taps tb <= length (iq_i s) ->
  exists m h, taps tb = 2 * m + 1 /\ length h = 2 * m + 1 /\ nth m h 0%R = 1%R
  /\ (forall j, j < 2 * m + 1 -> j <> m -> nth j h 0%R = (- (lowpass (c / res) (2 * m + 1) j / passed (c / res) (2 * m + 1)))%R)
  /\ (forall j, j < 2 * m + 1 -> nth (2 * m - j) h 0%R = nth j h 0%R)
  /\ iq_ts out = iq_ts s /\ length (iq_i out) = length (iq_i s) /\ length (iq_q out) = length (iq_q s)
  /\ (forall i, i < length (iq_i s) -> nth i (iq_i out) 0%R = rs (2 * m + 1) (fun j => sample (iq_i s) (Z.of_nat i + Z.of_nat j - Z.of_nat m) * nth j h 0)%R)
  /\ (forall i, i < length (iq_q s) -> nth i (iq_q out) 0%R = rs (2 * m + 1) (fun j => sample (iq_q s) (Z.of_nat i + Z.of_nat j - Z.of_nat m) * nth j h 0)%R).
Proof.
  intros c r res s out H tb Ht. unfold highpass in H. fold tb in H. rewrite map_length in H. destruct (Nat.ltb_spec (length (iq_i s)) (taps tb)) as [|_]; [lia|].
  destruct (taps_odd tb) as (m & Em). rewrite Em in *. destruct (kernel (c / res) (2 * m + 1)) as [h|e] eqn:K; [|discriminate]. cbn [rbind] in H. injection H as <-.
  destruct (kernel_spec _ _ _ K) as (N & L & C & E). destruct (hp_convolve_spec (iq_i s) h m L) as [L1 C1]. destruct (hp_convolve_spec (iq_q s) h m L) as [L2 C2].
  exists m, h. cbn [iq_i iq_q iq_ts]. repeat (split; [first [assumption|reflexivity]|]). split.
  - intros j Hj. destruct (Nat.eq_dec j m) as [->|Nj]; [f_equal; lia|]. rewrite !E by lia. rewrite lowpass_sym by lia. reflexivity.
  - split; [reflexivity|]. split; [exact L1|]. split; [exact L2|]. split; assumption.
Qed.
Print Assumptions C121_filter.

(** The number of taps is the smallest odd number that is not below four times the samples per rise time. *)
Theorem C121_taps : forall tb, (0 < tb)%R -> Nat.odd (taps tb) = true /\ (4 / tb <= INR (taps tb))%R
  /\ forall n, Nat.odd n = true -> (4 / tb <= INR n)%R -> taps tb <= n.
Proof.
  intros tb Ht. assert (P : (0 < 4 / tb)%R) by (apply Rdiv_lt_0_compat; lra). unfold taps. set (n0 := ceil_nat (4 / tb)).
  assert (C : (4 / tb <= INR n0)%R /\ forall n, (4 / tb <= INR n)%R -> n0 <= n).
  { unfold n0, ceil_nat. destruct (base_Int_part (- (4 / tb))) as [B1 B2]. set (z := Int_part (- (4 / tb))) in *.
    assert (Z0 : (z <= 0)%Z) by (apply le_IZR; lra). split.
    - rewrite INR_IZR_INZ, Z2Nat.id by lia. rewrite opp_IZR. lra.
    - intros n Hn. rewrite INR_IZR_INZ in Hn. assert (- Z.of_nat n < z + 1)%Z; [|lia]. apply lt_IZR. rewrite opp_IZR, plus_IZR. lra. }
  destruct C as [C1 C2]. clearbody n0. assert (E : Nat.odd n0 = Nat.eqb (n0 mod 2) 1).
  { rewrite <- Nat.bit0_odd, Nat.bit0_eqb. reflexivity. }
  pose proof (Nat.mod_upper_bound n0 2 ltac:(lia)) as U. destruct (Nat.eq_dec (n0 mod 2) 1) as [O|O].
  - rewrite O, Nat.sub_diag, Nat.add_0_r. rewrite O in E. split; [exact E|]. split; [exact C1|]. intros n _ Hn. apply C2, Hn.
  - assert (O' : n0 mod 2 = 0) by lia. rewrite O' in *. cbn [Nat.eqb Nat.sub] in *. rewrite Nat.add_1_r. split; [rewrite Nat.odd_succ, <- Nat.negb_odd, E; reflexivity|].
    split; [rewrite S_INR; lra|]. intros n On Hn. specialize (C2 n Hn). assert (n <> n0) by (intros ->; congruence). lia.
Qed.
Print Assumptions C121_taps.

(** Finding: the constant part is not removed: away from the ends a constant comes out divided by the sum of the windowed sinc function,
    never as 0. *)
Theorem C121_constant_refuted : forall c r res s out a,
  highpass (Some c) (Some r) res s = Ok out ->
  let tb := match r with Some t => (t / res)%R | None => (c / res / 2)%R end in
  iq_i s = repeat a (length (iq_i s)) -> a <> 0%R ->
  forall i, taps tb / 2 <= i -> i + taps tb / 2 < length (iq_i s) -> taps tb <= length (iq_i s) ->
  nth i (iq_i out) 0%R = (a / passed (c / res) (taps tb))%R /\ nth i (iq_i out) 0%R <> 0%R.
Proof.
  intros c r res s out a H tb Hs Ha i H1 H2 Ht. unfold highpass in H. fold tb in H. rewrite map_length in H. destruct (Nat.ltb_spec (length (iq_i s)) (taps tb)) as [|_]; [lia|].
  destruct (taps_odd tb) as (m & Em). rewrite Em in *. replace ((2 * m + 1) / 2) with m in * by (rewrite Nat.add_comm, Nat.mul_comm, Nat.div_add by lia; reflexivity).
  destruct (kernel (c / res) (2 * m + 1)) as [h|e] eqn:K; [|discriminate]. cbn [rbind] in H. injection H as <-.
  destruct (kernel_spec _ _ _ K) as (N & L & _ & _). destruct (hp_convolve_spec (iq_i s) h m L) as [_ C1]. cbn [iq_i]. rewrite (C1 i) by lia.
  rewrite (rs_ext _ _ (fun j => a * nth j h 0)%R).
  - rewrite rs_scale, (kernel_sum _ _ _ K). split; [reflexivity|]. apply Rmult_integral_contrapositive_currified; [exact Ha|apply Rinv_neq_0_compat, N].
  - intros j Hj. f_equal. unfold sample. destruct (Z.ltb_spec (Z.of_nat i + Z.of_nat j - Z.of_nat m) 0); [lia|]. rewrite Hs. set (q := Z.to_nat _). assert (Q : q < length (iq_i s)) by (unfold q; lia).
    rewrite (nth_indep _ _ a) by (rewrite repeat_length; exact Q). apply nth_repeat.
Qed.
Print Assumptions C121_constant_refuted.

(** Finding: a signal with fewer samples than the filter has taps is returned unfiltered - the limit of a hundred times the length
    the code seems to intend is not applied. *)
Theorem C121_short_refuted : forall c r res s,
  let tb := match r with Some t => (t / res)%R | None => (c / res / 2)%R end in
  length (iq_i s) < taps tb -> highpass (Some c) (Some r) res s = Ok s.
Proof. intros c r res s tb H. unfold highpass. fold tb. rewrite map_length. destruct (Nat.ltb_spec (length (iq_i s)) (taps tb)); [reflexivity|lia]. Qed.
Print Assumptions C121_short_refuted.

(** Finding: a filter made with the documented parameters (cutoff and keep_mean) raises KeyError: the rise time must be given. *)
Theorem C121_rise_time_refuted : forall cutoff rise res s, cutoff = None \/ rise = None -> highpass cutoff rise res s = Err KeyError.
Proof. intros cutoff rise res s [->| ->]; [reflexivity|]. destruct cutoff; reflexivity. Qed.
Print Assumptions C121_rise_time_refuted.

(** A filter whose windowed sinc function sums to 0 has no kernel. *)
Theorem C121_degenerate : forall c r res s,
  let tb := match r with Some t => (t / res)%R | None => (c / res / 2)%R end in
  taps tb <= length (iq_i s) -> (highpass (Some c) (Some r) res s = Err NaNResult <-> passed (c / res) (taps tb) = 0%R).
Proof.
  intros c r res s tb H. unfold highpass. fold tb. rewrite map_length. destruct (Nat.ltb_spec (length (iq_i s)) (taps tb)); [lia|].
  unfold kernel. rewrite sum_rs. cbn [Nat.add]. change (rs (taps tb) (fun j => lowpass (c / res) (taps tb) j)) with (passed (c / res) (taps tb)).
  destruct (Req_EM_T (passed (c / res) (taps tb)) 0) as [E|E]; cbn [rbind]; split; intro Q; try discriminate Q; try reflexivity; [exact E|contradiction].
Qed.
Print Assumptions C121_degenerate.

Example C121_example : exists out, highpass (Some (1 / 4)%R) (Some (Some (4 / 3)%R)) 1 (mkIQ (repeat 1%R 5) (repeat 0%R 5) (repeat 0%R 5)) = Ok out.
Proof.
  assert (T : taps (4 / 3 / 1) = 3).
  { unfold taps, ceil_nat. replace (- (4 / (4 / 3 / 1)))%R with (IZR (-3)) by (cbn; field). assert (E : Int_part (IZR (-3)) = (-3)%Z) by (unfold Int_part; rewrite <- (tech_up (IZR (-3)) (-2)); [reflexivity|lra|lra]). rewrite E. reflexivity. }
  unfold highpass. rewrite T. cbn [iq_i repeat map length Nat.ltb Nat.leb]. unfold kernel. rewrite sum_rs. cbn [Nat.add].
  destruct (Req_EM_T (rs 3 (fun j => lowpass (1 / 4 / 1) 3 j)) 0) as [C|_]; [|eexists; reflexivity]. exfalso.
  cbn [rs] in C. assert (M : lowpass (1 / 4 / 1) 3 1 = 1%R) by apply (lowpass_middle _ 1). rewrite M in C.
  assert (S : lowpass (1 / 4 / 1) 3 2 = lowpass (1 / 4 / 1) 3 0) by apply (lowpass_sym _ 1 0 ltac:(lia)). rewrite S in C.
  unfold lowpass, hamming, sinc1 in C. cbn [Nat.eqb Nat.sub INR] in C. destruct (Req_EM_T (2 * (1 / 4 / 1) * (0 - (1 + 1) / 2)) 0); [lra|].
  replace (PI * (2 * (1 / 4 / 1) * (0 - (1 + 1) / 2)))%R with (- (PI / 2))%R in C by field. rewrite sin_neg, sin_PI2 in C.
  replace (2 * PI * 0 / (1 + 1))%R with 0%R in C by field. rewrite cos_0 in C.
  pose proof PI_RGT_0. assert (0 < - (1) / - (PI / 2))%R. { replace (- (1) / - (PI / 2))%R with (2 / PI)%R by (field; lra). apply Rdiv_lt_0_compat; lra. } lra.
Qed.
