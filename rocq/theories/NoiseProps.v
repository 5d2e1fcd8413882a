(** C120: devices with random noise. *)
From Coq Require Import Reals Lra.
From Verif Require Import Base QuantityModel QuantityProofs RSum DevModel DevProofs DevProps NoiseModel.
Local Open Scope string_scope.
Local Open Scope list_scope.
Local Notation length := List.length.

(** ** Specification: the random numbers drawn for sample [i], if [k] were drawn before *)
Definition drawn_amp (g : nat -> R) (a p f : R) (k i : nat) : R :=
  (if Req_EM_T a 0 then 1
   else if Req_EM_T f 0 then (if Req_EM_T p 0 then 1 + a * g (k + i)%nat else 1 + a * g (k + 2 * i)%nat)
   else 1 + a * g (k + 2 * i)%nat)%R.
Definition drawn_phase (g : nat -> R) (a p f w : R) (ts : list R) (k i : nat) : R :=
  let t := nth i ts 0%R in let t0 := nth 0 ts 0%R in let dt := (nth 1 ts 0 - nth 0 ts 0)%R in
  (if Req_EM_T a 0 then
     if Req_EM_T p 0 then
       if Req_EM_T f 0 then w * t
       else w * t0 + INR i * (w * dt) + f * dt * rs i (fun j => g (k + j)%nat)
     else w * t + p * g (k + i)%nat
   else
     if Req_EM_T f 0 then if Req_EM_T p 0 then w * t else w * t + p * g (k + 2 * i + 1)%nat
     else w * t0 + INR i * (w * dt) + f * dt * rs i (fun j => g (k + 2 * j + 1)%nat))%R.

(** ** Lemmas on the loops *)
Lemma walk_len : forall g amp f w dt ts phi k, length (lo_walk g amp f w dt phi k ts) = length ts.
Proof. induction ts as [|t ts IH]; intros phi k; cbn [lo_walk length]; [reflexivity|]. destruct amp; cbn [length]; rewrite IH; reflexivity. Qed.
Lemma rs_shift0 : forall n f, rs (S n) f = (f 0%nat + rs n (fun i => f (S i)))%R.
Proof. induction n as [|n IH]; intro f; [cbn; ring|]. change (rs (S (S n)) f) with (rs (S n) f + f (S n))%R. rewrite IH. cbn [rs]. ring. Qed.
Lemma walk_amp : forall g a f w dt ts phi k i, i < length ts ->
  let A := (1 + a * g (k + 2 * i)%nat)%R in let P := (phi + INR i * (w * dt) + f * dt * rs i (fun j => g (k + 2 * j + 1)%nat))%R in
  nth i (lo_walk g (Some a) f w dt phi k ts) (0, 0)%R = (A * cos P, A * sin P)%R.
Proof.
  induction ts as [|t ts IH]; intros phi k i Hi; cbn [length] in Hi; [lia|]. cbn [lo_walk]. destruct i as [|i]; cbn [nth].
  - replace (k + 2 * 0) with k by lia. cbn [rs INR]. replace (phi + 0 * (w * dt) + f * dt * 0)%R with phi by ring. reflexivity.
  - specialize (IH (phi + (w + f * g (S k)) * dt)%R (S (S k)) i ltac:(lia)). cbn zeta in IH |- *. rewrite IH.
    replace (S (S k) + 2 * i) with (k + 2 * S i) by lia. rewrite rs_shift0. replace (k + 2 * 0 + 1) with (S k) by lia.
    rewrite (rs_ext i (fun i0 => g (k + 2 * S i0 + 1)) (fun j => g (S (S k) + 2 * j + 1))) by (intros j _; f_equal; lia).
    set (r := rs i _). rewrite S_INR.
    replace (phi + (w + f * g (S k)) * dt + INR i * (w * dt) + f * dt * r)%R with (phi + (INR i + 1) * (w * dt) + f * dt * (g (S k) + r))%R by ring. reflexivity.
Qed.
Lemma walk_plain : forall g f w dt ts phi k i, i < length ts ->
  let P := (phi + INR i * (w * dt) + f * dt * rs i (fun j => g (k + j)%nat))%R in
  nth i (lo_walk g None f w dt phi k ts) (0, 0)%R = (cos P, sin P).
Proof.
  induction ts as [|t ts IH]; intros phi k i Hi; cbn [length] in Hi; [lia|]. cbn [lo_walk]. destruct i as [|i]; cbn [nth].
  - cbn [rs INR]. replace (phi + 0 * (w * dt) + f * dt * 0)%R with phi by ring. reflexivity.
  - specialize (IH (phi + (w + f * g k) * dt)%R (S k) i ltac:(lia)). cbn zeta in IH |- *. rewrite IH.
    rewrite rs_shift0. replace (k + 0) with k by lia.
    rewrite (rs_ext i (fun i0 => g (k + S i0)) (fun j => g (S k + j))) by (intros j _; f_equal; lia).
    set (r := rs i _). rewrite S_INR.
    replace (phi + (w + f * g k) * dt + INR i * (w * dt) + f * dt * r)%R with (phi + (INR i + 1) * (w * dt) + f * dt * (g k + r))%R by ring. reflexivity.
Qed.
Lemma jitter_len : forall g amp ph w ts k, length (lo_jitter g amp ph w k ts) = length ts.
Proof. induction ts as [|t ts IH]; intro k; cbn [lo_jitter length]; [reflexivity|]. rewrite IH. reflexivity. Qed.
Lemma jitter_nth : forall g amp ph w ts k i, i < length ts ->
  let m := (match amp with Some _ => 1 | None => 0 end + match ph with Some _ => 1 | None => 0 end)%nat in
  let A := match amp with Some a => (1 + a * g (k + m * i)%nat)%R | None => 1%R end in
  let P := match ph with Some p => (w * nth i ts 0 + p * g (k + m * i + match amp with Some _ => 1 | None => 0 end)%nat)%R | None => (w * nth i ts 0)%R end in
  nth i (lo_jitter g amp ph w k ts) (0, 0)%R = (A * cos P, A * sin P)%R.
Proof.
  intros g amp ph w ts k i Hi m. revert k i Hi. induction ts as [|t ts IH]; intros k i Hi; cbn [length] in Hi; [lia|]. cbn [lo_jitter]. destruct i as [|i]; cbn [nth].
  - rewrite Nat.mul_0_r, Nat.add_0_r. destruct amp, ph; cbn iota; rewrite ?Nat.add_1_r, ?Nat.add_0_r, ?Rplus_0_l, ?Rplus_0_r; reflexivity.
  - specialize (IH (match ph with Some _ => S (match amp with Some _ => S k | None => k end) | None => match amp with Some _ => S k | None => k end end) i ltac:(lia)).
    cbn zeta in IH |- *. rewrite IH. clear IH. unfold m.
    destruct amp, ph; cbn iota; cbn [Nat.add Nat.mul]; rewrite ?Nat.add_0_r, <- ?Nat.add_succ_comm, ?Nat.add_succ_r; repeat f_equal; try lia; try reflexivity.
Qed.

Lemma mode_spec : forall a p f, lo_mode a p f =
  if Req_EM_T a 0 then (if Req_EM_T p 0 then (if Req_EM_T f 0 then Clean else FreqOnly) else PhaseOnly)
  else (if Req_EM_T f 0 then (if Req_EM_T p 0 then AmpOnly else AmpPhase) else AmpFreq).
Proof. intros a p f. unfold lo_mode, truthy. destruct (Req_EM_T a 0), (Req_EM_T p 0), (Req_EM_T f 0); reflexivity. Qed.
Lemma scale_ok_true : forall x, (0 <= x)%R -> scale_ok x = true.
Proof. intros x H. unfold scale_ok, Rltb. destruct (Rlt_dec x 0); [lra|reflexivity]. Qed.

(** The samples of one carrier: amplitude times cosine and sine of the phase, with amplitude and phase made of the numbers drawn:
    random amplitudes scatter around 1, phase noise around the phase of the carrier, frequency noise makes the phase a random walk.
    Every sample uses its own draws. *)
Theorem C120_oscillator : forall g a p f w ts k, (0 <= a)%R -> (0 <= p)%R -> (0 <= f)%R ->
  exists s m, lo_component g a p f w ts k = Ok (s, k + m * length ts) /\ m <= 2 /\ length s = length ts
  /\ forall i, i < length ts -> nth i s (0, 0)%R
       = (drawn_amp g a p f k i * cos (drawn_phase g a p f w ts k i), drawn_amp g a p f k i * sin (drawn_phase g a p f w ts k i))%R.
Proof.
  intros g a p f w ts k Ha Hp Hf. unfold lo_component. rewrite mode_spec. unfold drawn_amp, drawn_phase. rewrite !scale_ok_true by assumption. cbn [andb].
  destruct (Req_EM_T a 0) as [Ea|Ea].
  - destruct (Req_EM_T p 0) as [Ep|Ep]; [destruct (Req_EM_T f 0) as [Ef|Ef]|].
    + exists (map (fun t => (cos (w * t), sin (w * t))) ts), 0. split; [do 2 f_equal; lia|]. split; [lia|]. split; [apply map_length|].
      intros i Hi. rewrite (nth_map_d _ ts i 0%R) by exact Hi. rewrite !Rmult_1_l. reflexivity.
    + eexists _, 1. split; [rewrite Nat.mul_1_l; reflexivity|]. split; [lia|]. split; [apply walk_len|]. intros i Hi. rewrite walk_plain by exact Hi. rewrite !Rmult_1_l. reflexivity.
    + eexists _, 1. split; [rewrite Nat.mul_1_l; reflexivity|]. split; [lia|]. split; [apply jitter_len|]. intros i Hi. rewrite jitter_nth by exact Hi.
      cbn [Nat.add]. rewrite Nat.mul_1_l, Nat.add_0_r. reflexivity.
  - destruct (Req_EM_T f 0) as [Ef|Ef]; [destruct (Req_EM_T p 0) as [Ep|Ep]|].
    + eexists _, 1. split; [rewrite Nat.mul_1_l; reflexivity|]. split; [lia|]. split; [apply jitter_len|]. intros i Hi. rewrite jitter_nth by exact Hi.
      cbn [Nat.add]. rewrite Nat.mul_1_l. reflexivity.
    + eexists _, 2. split; [reflexivity|]. split; [lia|]. split; [apply jitter_len|]. intros i Hi. rewrite jitter_nth by exact Hi. reflexivity.
    + eexists _, 2. split; [reflexivity|]. split; [lia|]. split; [apply walk_len|]. intros i Hi. rewrite walk_amp by exact Hi. reflexivity.
Qed.
Print Assumptions C120_oscillator.

(** A negative scale that is used raises ValueError. *)
Theorem C120_negative : forall g a p f w ts k, lo_component g a p f w ts k = Err ValueError <->
  (a < 0)%R \/ (a = 0%R /\ p < 0)%R \/ (a = 0%R /\ p = 0%R /\ f < 0)%R \/ (0 < a /\ f < 0)%R \/ (0 < a /\ f = 0%R /\ p < 0)%R.
Proof.
  intros g a p f w ts k. unfold lo_component. rewrite mode_spec.
  assert (S : forall x, scale_ok x = if Rlt_dec x 0 then false else true) by (intro x; unfold scale_ok, Rltb; destruct (Rlt_dec x 0); reflexivity).
  rewrite !S. destruct (Req_EM_T a 0), (Req_EM_T p 0), (Req_EM_T f 0), (Rlt_dec a 0), (Rlt_dec p 0), (Rlt_dec f 0); cbn [andb]; split; intro H; try discriminate H; try reflexivity; try lra; try tauto;
    destruct (Rlt_dec 0 a); try lra; tauto.
Qed.
Print Assumptions C120_negative.

(** The device: one time grid for all carriers; the last carrier decides, the draws for the others are spent. *)
Theorem C120_carriers : forall g a p f k prev res t0 t1 ts ws w s k1 sp kp,
  create_ts res t0 t1 true = Ok ts -> 2 <= length ts ->
  lo_carriers g a p f ts k prev ws = Ok (sp, kp) -> lo_component g a p f w ts kp = Ok (s, k1) ->
  lo_noisy g a p f k prev res t0 t1 (ws ++ [w]) = Ok (mkIQ (map fst s) (map snd s) ts, k1).
Proof.
  intros g a p f k prev res t0 t1 ts ws w s k1 sp kp Ht L Hc Hw. unfold lo_noisy. rewrite Ht. cbn [rbind].
  destruct (Nat.ltb_spec (length ts) 2); [lia|].
  assert (E : lo_carriers g a p f ts k prev (ws ++ [w]) = Ok (Some (mkIQ (map fst s) (map snd s) ts), k1)).
  { clear Ht. revert k prev Hc. induction ws as [|v ws IH]; intros k prev Hc; cbn [app lo_carriers] in Hc |- *.
    - injection Hc as -> ->. rewrite Hw. reflexivity.
    - destruct (lo_component g a p f v ts k) as [[s' k']|e]; [|discriminate]. cbn [rbind] in *. apply (IH _ _ Hc). }
  rewrite E. reflexivity.
Qed.
Print Assumptions C120_carriers.

(** If every number drawn is 0 the noisy oscillator is the noiseless one. *)
Theorem C120_quiet : forall g a p f k prev res t0 t1 ws, (forall i, g i = 0%R) -> (0 <= a)%R -> (0 <= p)%R -> (0 <= f)%R ->
  (0 < res)%R -> (2 <= (t1 - t0) * res)%R ->
  lo_process prev res t0 t1 ws = rbind (lo_noisy g a p f k prev res t0 t1 ws) (fun sk => Ok (fst sk)).
Proof.
  intros g a p f k prev res t0 t1 ws G Ha Hp Hf Hr Hd. destruct (C65_general res t0 t1 Hr Hd) as (N2 & _ & ts & step & Ht & Lt & _ & _ & Hs & _).
  assert (Grid : forall i, i < length ts -> nth i ts 0%R = (nth 0 ts 0 + INR i * (nth 1 ts 0 - nth 0 ts 0))%R).
  { assert (E1 : (nth 1 ts 0 - nth 0 ts 0 = step)%R) by (apply (Hs 0); lia). rewrite E1. induction i as [|i IH]; intro Hi; [cbn [INR]; ring|].
    assert (E : (nth (i + 1) ts 0 - nth i ts 0 = step)%R) by (apply Hs; lia). rewrite Nat.add_1_r in E. rewrite S_INR. rewrite IH in E by lia. lra. }
  assert (One : forall w k, exists k', lo_component g a p f w ts k = Ok (map (fun t => (cos (w * t), sin (w * t))) ts, k')).
  { intros w k0. destruct (C120_oscillator g a p f w ts k0 Ha Hp Hf) as (s & m & E & _ & L & Hn). exists (k0 + m * length ts). rewrite E. do 2 f_equal.
    apply (nth_ext _ _ (0, 0)%R (0, 0)%R); [rewrite map_length; exact L|]. intros i Hi. rewrite L in Hi. rewrite (Hn i Hi).
    rewrite (nth_map_d _ ts i 0%R) by exact Hi.
    assert (EA : drawn_amp g a p f k0 i = 1%R). { unfold drawn_amp. rewrite !G. destruct (Req_EM_T a 0), (Req_EM_T f 0), (Req_EM_T p 0); ring. }
    assert (EP : drawn_phase g a p f w ts k0 i = (w * nth i ts 0)%R).
    { unfold drawn_phase. rewrite !G. rewrite !(rs_0 i) by (intros j _; apply G). pose proof (Grid i Hi) as Q.
      destruct (Req_EM_T a 0), (Req_EM_T f 0), (Req_EM_T p 0); try ring; rewrite Q; ring. }
    rewrite EA, EP, !Rmult_1_l. reflexivity. }
  unfold lo_noisy, lo_process. rewrite Ht. cbn [rbind]. destruct (Nat.ltb_spec (length ts) 2); [lia|].
  assert (C : forall ws k prev, exists k', lo_carriers g a p f ts k prev ws
     = Ok (fold_left (fun _ w => Some (mkIQ (map (fun t => cos (w * t)) ts) (map (fun t => sin (w * t)) ts) ts)) ws prev, k')).
  { induction ws0 as [|w ws0 IH]; intros k0 prev0; cbn [lo_carriers fold_left]; [exists k0; reflexivity|].
    destruct (One w k0) as (k1 & E). rewrite E. cbn [rbind fst snd]. rewrite !map_map. cbn [fst snd]. apply IH. }
  destruct (C ws k prev) as (k' & E). rewrite E. cbn [rbind fst snd]. destruct (fold_left _ ws prev); reflexivity.
Qed.
Print Assumptions C120_quiet.

(** Without amplitude noise the samples stay on the unit circle. *)
Theorem C120_unit_circle : forall g p f w ts k s k1, lo_component g 0 p f w ts k = Ok (s, k1) ->
  forall i, i < length ts -> (fst (nth i s (0, 0)) ^ 2 + snd (nth i s (0, 0)) ^ 2 = 1)%R.
Proof.
  intros g p f w ts k s k1 H i Hi.
  assert (N : lo_component g 0 p f w ts k <> Err ValueError) by congruence. rewrite C120_negative in N.
  assert (T : forall x, (cos x ^ 2 + sin x ^ 2 = 1)%R) by (intro x; pose proof (sin2_cos2 x) as Q; unfold Rsqr in Q; lra).
  unfold lo_component in H. rewrite mode_spec in H. destruct (Req_EM_T 0 0) as [_|C]; [|lra].
  destruct (Req_EM_T p 0) as [Ep|Ep]; [destruct (Req_EM_T f 0) as [Ef|Ef]|].
  - injection H as <- _. rewrite (nth_map_d _ ts i 0%R) by exact Hi. apply T.
  - destruct (scale_ok f); [|discriminate]. injection H as <- _. rewrite walk_plain by exact Hi. apply T.
  - destruct (scale_ok p); [|discriminate]. injection H as <- _. rewrite jitter_nth by exact Hi. cbn [fst snd]. rewrite !Rmult_1_l. apply T.
Qed.
Print Assumptions C120_unit_circle.

(** Finding: not all noises given are applied: with amplitude and frequency noise the phase noise is ignored,
    with phase but no amplitude noise the frequency noise is ignored. *)
Theorem C120_ignored_refuted : forall g k prev res t0 t1 ws a p p' f f',
  (a <> 0%R -> f <> 0%R -> lo_noisy g a p f k prev res t0 t1 ws = lo_noisy g a p' f k prev res t0 t1 ws)
  /\ (p <> 0%R -> lo_noisy g 0 p f k prev res t0 t1 ws = lo_noisy g 0 p f' k prev res t0 t1 ws).
Proof.
  assert (X : forall g a p f a' p' f' k prev res t0 t1 ws, (forall w ts k, lo_component g a p f w ts k = lo_component g a' p' f' w ts k) ->
     lo_noisy g a p f k prev res t0 t1 ws = lo_noisy g a' p' f' k prev res t0 t1 ws).
  { intros g a p f a' p' f' k prev res t0 t1 ws H. unfold lo_noisy. destruct (create_ts res t0 t1 true) as [ts|e]; [|reflexivity]. cbn [rbind].
    replace (lo_carriers g a' p' f' ts k prev ws) with (lo_carriers g a p f ts k prev ws); [reflexivity|].
    revert k prev. induction ws as [|w ws IH]; intros k prev; cbn [lo_carriers]; [reflexivity|]. rewrite H. destruct (lo_component g a' p' f' w ts k); [apply IH|reflexivity]. }
  intros g k prev res t0 t1 ws a p p' f f'. split.
  - intros Ha Hf. apply X. intros w ts k0. unfold lo_component. rewrite !mode_spec. destruct (Req_EM_T a 0); [contradiction|]. destruct (Req_EM_T f 0); [contradiction|]. reflexivity.
  - intro Hp. apply X. intros w ts k0. unfold lo_component. rewrite !mode_spec. destruct (Req_EM_T 0 0) as [_|C]; [|lra]. destruct (Req_EM_T p 0); [contradiction|]. reflexivity.
Qed.
Print Assumptions C120_ignored_refuted.

(** ** Noise added to a signal *)
Lemma noise_key_contains : forall k, contains "noise" (noise_key k) = true.
Proof. intro k. unfold noise_key. destruct (String.eqb k "values"); reflexivity. Qed.
Lemma noise_key_inj : forall k k', noise_key k = noise_key k' -> k = k'.
Proof.
  intros k k' H. unfold noise_key in H. destruct (String.eqb_spec k "values") as [E|N]; destruct (String.eqb_spec k' "values") as [E'|N']; try congruence; try discriminate H.
  cbn in H. injection H as H. exact H.
Qed.
(** entries noise is added to *)
Definition noisy_entry (k : string) : Prop := k <> "ts" /\ contains "noise" k = false.
Definition plus_noise (sig nz : list R) : list R := map (fun i => (nth i sig 0 + nth i nz 0)%R) (seq 0 (length sig)).
Lemma plus_noise_combine : forall sig nz, length nz = length sig -> map (fun xy => (fst xy + snd xy)%R) (combine sig nz) = plus_noise sig nz.
Proof.
  unfold plus_noise. induction sig as [|x sig IH]; intros [|z nz] L; try discriminate; [reflexivity|]. cbn [combine map length seq nth fst snd]. f_equal.
  rewrite IH by (cbn in L; lia). rewrite <- seq_shift, map_map. reflexivity.
Qed.

Section Process.
Context {S : Type}.
Variable get : S -> list R -> list R * S.

Lemma add_noise_spec : forall quiet d s out out' s', NoDup (keys d) -> add_noise get quiet s out d = Ok (out', s') ->
  (forall q, ~ (In q (keys d) /\ noisy_entry q) -> ~ (exists k, In k (keys d) /\ noisy_entry k /\ q = noise_key k) -> dget q out' = dget q out)
  /\ (forall k sig, dget k d = Some sig -> noisy_entry k -> exists nz s0,
        dget (noise_key k) out' = Some nz /\ dget k out' = Some (plus_noise sig nz) /\ length nz = length sig
        /\ nz = (if quiet then map (fun _ => 0%R) sig else fst (get s0 sig))).
Proof.
  intros quiet d. induction d as [|[k sig] d IH]; intros s out out' s' ND H; cbn [add_noise] in H.
  - injection H as <- <-. split; [reflexivity|]. intros k sig C. discriminate C.
  - cbn [keys map fst] in ND. apply NoDup_cons_iff in ND. destruct ND as [Nk ND].
    destruct (orb (String.eqb k "ts") (contains "noise" k)) eqn:Eb.
    + destruct (IH _ _ _ _ ND H) as [I1 I2].
      assert (Nn : ~ noisy_entry k). { intros [A B]. apply String.eqb_neq in A. rewrite A, B in Eb. discriminate. }
      split.
      * intros q H1 H2. apply I1; [intros [A B]; apply H1; split; [right; exact A|exact B]|]. intros (k' & A & B & C). apply H2. exists k'. split; [right; exact A|auto].
      * intros q v Hq Hn. cbn [dget] in Hq. destruct (String.eqb_spec q k) as [->|Nq]; [contradiction|]. apply I2; assumption.
    + apply Bool.orb_false_iff in Eb. destruct Eb as [E1 E2]. apply String.eqb_neq in E1. set (ns := if quiet then _ else _) in H.
      destruct (Nat.eqb_spec (length (fst ns)) (length sig)) as [L|]; [|discriminate]. destruct (IH _ _ _ _ ND H) as [I1 I2].
      assert (Hk : noisy_entry k) by (split; assumption).
      assert (D1 : forall k', In k' (keys d) -> k <> k') by (intros k' A ->; contradiction).
      assert (D2 : forall k', noise_key k' <> k) by (intros k' C; rewrite <- C, noise_key_contains in E2; discriminate).
      split.
      * intros q H1 H2. rewrite I1.
        -- rewrite dget_dset_other by (intros ->; apply H1; split; [left; reflexivity|exact Hk]).
           apply dget_dset_other. intros ->. apply H2. exists k. split; [left; reflexivity|auto].
        -- intros [A B]. apply H1. split; [right; exact A|exact B].
        -- intros (k' & A & B & C). apply H2. exists k'. split; [right; exact A|auto].
      * intros q v Hq Hn. cbn [dget] in Hq. destruct (String.eqb_spec q k) as [->|Nq]; [|apply I2; assumption].
        injection Hq as <-. exists (fst ns), s. rewrite !I1.
        -- rewrite dget_dset_same. rewrite dget_dset_other by (apply D2). rewrite dget_dset_same, plus_noise_combine by exact L.
           split; [reflexivity|]. split; [reflexivity|]. split; [exact L|]. unfold ns. destruct quiet; reflexivity.
        -- intros [A _]. contradiction.
        -- intros (k' & _ & _ & C). apply (D2 k'). symmetry. exact C.
        -- intros [A [_ B]]. rewrite noise_key_contains in B. discriminate.
        -- intros (k' & A & _ & C). apply noise_key_inj in C. subst k'. contradiction.
Qed.

(** A noise device keeps the time points and returns every other entry plus the noise recorded beside it; the records of
    earlier noise devices are dropped, nothing else is added.  Below the amplitude 1e-17 the noise is 0. *)
Theorem C120_process : forall a s d out s', NoDup (keys d) -> noise_process get (Some a) s d = Ok (out, s') ->
  dget "ts" out = dget "ts" d
  /\ (forall k sig, dget k d = Some sig -> noisy_entry k -> exists nz s0,
        dget (noise_key k) out = Some nz /\ dget k out = Some (plus_noise sig nz) /\ length nz = length sig
        /\ ((1 / 10 ^ 17 <= a)%R -> nz = fst (get s0 sig))
        /\ ((a < 1 / 10 ^ 17)%R -> dget k out = Some sig))
  /\ (forall q, dget q out <> None -> q = "ts" \/ (In q (keys d) /\ noisy_entry q) \/ exists k, In k (keys d) /\ noisy_entry k /\ q = noise_key k).
Proof.
  intros a s d out s' ND H. unfold noise_process in H. destruct (dget "ts" d) as [ts|] eqn:Et; [|discriminate].
  destruct (add_noise_spec _ d s _ out s' ND H) as [I1 I2]. split; [|split].
  - rewrite I1; [reflexivity| |].
    + intros [_ [C _]]. congruence.
    + intros (k & _ & _ & C). unfold noise_key in C. destruct (String.eqb k "values"); discriminate C.
  - intros k sig Hk Hn. destruct (I2 k sig Hk Hn) as (nz & s0 & A & B & L & E). exists nz, s0. repeat split; auto.
    + intro Ha. rewrite E. unfold Rltb. destruct (Rlt_dec a (1 / 10 ^ 17)); [lra|reflexivity].
    + intro Ha. rewrite B. f_equal. rewrite E. unfold Rltb. destruct (Rlt_dec a (1 / 10 ^ 17)); [|lra]. unfold plus_noise.
      apply (nth_ext _ _ 0%R 0%R); [rewrite map_length; apply seq_length|]. intros i Hi. rewrite map_length, seq_length in Hi.
      rewrite (nth_map_d _ (seq 0 (length sig)) i 0) by (rewrite seq_length; exact Hi). rewrite seq_nth by exact Hi. cbn [Nat.add].
      rewrite (nth_map_d _ sig i 0%R) by exact Hi. ring.
  - intros q Hq. destruct (string_dec q "ts") as [->|N]; [left; reflexivity|]. right.
    destruct (in_dec string_dec q (keys d)) as [I|I]; [destruct (contains "noise" q) eqn:C|].
    + right. destruct (in_dec string_dec q (map noise_key (filter (fun k => negb (orb (String.eqb k "ts") (contains "noise" k))) (keys d)))) as [J|J].
      * apply in_map_iff in J. destruct J as (k & <- & F). apply filter_In in F. destruct F as [F1 F2]. exists k. split; [exact F1|].
        apply Bool.negb_true_iff, Bool.orb_false_iff in F2. destruct F2 as [F2 F3]. apply String.eqb_neq in F2. split; [split; assumption|reflexivity].
      * exfalso. apply Hq. rewrite I1; [cbn [dget]; rewrite (proj2 (String.eqb_neq q "ts") N); reflexivity| |].
        -- intros [_ [_ B]]. congruence.
        -- intros (k & A & [B1 B2] & ->). apply J. apply in_map. apply filter_In. split; [exact A|]. rewrite (proj2 (String.eqb_neq k "ts") B1), B2. reflexivity.
    + left. split; [exact I|]. split; assumption.
    + destruct (in_dec string_dec q (map noise_key (filter (fun k => negb (orb (String.eqb k "ts") (contains "noise" k))) (keys d)))) as [J|J].
      * apply in_map_iff in J. destruct J as (k & <- & F). apply filter_In in F. destruct F as [F1 F2]. right. exists k. split; [exact F1|].
        apply Bool.negb_true_iff, Bool.orb_false_iff in F2. destruct F2 as [F2 F3]. apply String.eqb_neq in F2. split; [split; assumption|reflexivity].
      * exfalso. apply Hq. rewrite I1; [cbn [dget]; rewrite (proj2 (String.eqb_neq q "ts") N); reflexivity| |].
        -- intros [B _]. contradiction.
        -- intros (k & A & [B1 B2] & ->). apply J. apply in_map. apply filter_In. split; [exact A|]. rewrite (proj2 (String.eqb_neq k "ts") B1), B2. reflexivity.
Qed.

(** The state of the random source after drawing for the entries of a signal that noise is added to, in order. *)
Definition spend (s : S) (d : dict (list R)) : S :=
  fold_left (fun s e => if orb (String.eqb (fst e) "ts") (contains "noise" (fst e)) then s else snd (get s (snd e))) d s.
(** Every entry gets new random numbers: those the source delivers after the entries before it have drawn theirs. *)
Theorem C120_fresh_numbers : forall a s d out s', NoDup (keys d) -> (1 / 10 ^ 17 <= a)%R -> noise_process get (Some a) s d = Ok (out, s') ->
  s' = spend s d
  /\ forall d1 k sig d2, d = d1 ++ (k, sig) :: d2 -> noisy_entry k -> dget (noise_key k) out = Some (fst (get (spend s d1) sig)).
Proof.
  intros a s d out s' ND Ha H. unfold noise_process in H. destruct (dget "ts" d) as [ts|] eqn:Et; [|discriminate].
  replace (Rltb a (1 / 10 ^ 17)) with false in H by (unfold Rltb; destruct (Rlt_dec a (1 / 10 ^ 17)); [lra|reflexivity]).
  clear Et. revert H. generalize ([("ts", ts)] : dict (list R)) as o. revert s out s' ND. induction d as [|[k sig] d IH]; intros s out s' ND o H.
  - cbn in H. injection H as <- <-. split; [reflexivity|]. intros [|? ?] ? ? ? C; discriminate C.
  - assert (ND0 := ND). cbn [keys map fst] in ND. apply NoDup_cons_iff in ND. destruct ND as [Nk ND].
    cbn [add_noise] in H. unfold spend. cbn [fold_left fst snd]. destruct (orb (String.eqb k "ts") (contains "noise" k)) eqn:Eb.
    + destruct (IH _ _ _ ND _ H) as [I1 I2]. split; [exact I1|]. intros [|[k1 g1] d1] k' sg d2 E Hn; cbn [app] in E; injection E as <- <- E.
      * exfalso. destruct Hn as [A B]. apply String.eqb_neq in A. rewrite A, B in Eb. discriminate.
      * cbn [fold_left fst snd]. rewrite Eb. apply (I2 d1 k' sg d2 E Hn).
    + destruct (Nat.eqb (length (fst (get s sig))) (length sig)) eqn:L; [|discriminate].
      destruct (IH _ _ _ ND _ H) as [I1 I2]. split; [exact I1|]. intros [|[k1 g1] d1] k' sg d2 E Hn; cbn [app] in E; injection E as <- <- E.
      * cbn [fold_left]. destruct (add_noise_spec _ _ _ _ _ _ ND H) as [J1 _]. rewrite J1.
        -- rewrite dget_dset_other; [apply dget_dset_same|]. intro C. destruct Hn as [_ Hn]. rewrite <- C, noise_key_contains in Hn. discriminate.
        -- intros [_ [_ B]]. rewrite noise_key_contains in B. discriminate.
        -- intros (k2 & A & _ & C). apply noise_key_inj in C. subst k2. contradiction.
      * cbn [fold_left fst snd]. rewrite Eb. apply (I2 d1 k' sg d2 E Hn).
Qed.

(** It fails only without amplitude or time points, or if the noise has another length than the signal. *)
Theorem C120_process_total : forall amp s d, (forall s0 sig, length (fst (get s0 sig)) = length sig) ->
  (amp = None \/ dget "ts" d = None -> noise_process get amp s d = Err KeyError)
  /\ (amp <> None -> dget "ts" d <> None -> exists out s', noise_process get amp s d = Ok (out, s')).
Proof.
  intros amp s d L. split.
  - intros [->| E]; [reflexivity|]. unfold noise_process. rewrite E. destruct amp; reflexivity.
  - intros Ha Ht. unfold noise_process. destruct amp as [a|]; [|congruence]. destruct (dget "ts" d) as [ts|]; [|congruence].
    assert (K : forall quiet d s out, exists out' s', add_noise get quiet s out d = Ok (out', s')); [|apply K].
    intros quiet d0. induction d0 as [|[k sig] d0 IH]; intros s0 out; cbn [add_noise]; [do 2 eexists; reflexivity|].
    destruct (orb _ _); [apply IH|]. set (ns := if quiet then _ else _).
    assert (E : length (fst ns) = length sig) by (unfold ns; destruct quiet; [apply map_length|apply L]). rewrite E, Nat.eqb_refl. apply IH.
Qed.
End Process.
Print Assumptions C120_process.
Print Assumptions C120_fresh_numbers.
Print Assumptions C120_process_total.

(** White noise draws a number of its own for every sample; constant noise one per component, the same at all times. *)
Theorem C120_white_and_constant : forall g amp k sig,
  (length (fst (white_noise g amp k sig)) = length sig /\ snd (white_noise g amp k sig) = k + length sig
   /\ forall i, i < length sig -> nth i (fst (white_noise g amp k sig)) 0%R = (amp * g (k + i)%nat)%R)
  /\ (length (fst (dc_noise g amp k sig)) = length sig /\ snd (dc_noise g amp k sig) = k + 1
   /\ forall i, i < length sig -> nth i (fst (dc_noise g amp k sig)) 0%R = (amp * g k)%R).
Proof.
  intros g amp k sig. unfold white_noise, dc_noise. cbn [fst snd]. rewrite !map_length, seq_length. split; split; try reflexivity; (split; [lia|]).
  - intros i Hi. rewrite (nth_map_d _ (seq 0 (length sig)) i 0) by (rewrite seq_length; exact Hi). rewrite seq_nth by exact Hi. reflexivity.
  - intros i Hi. rewrite (nth_map_d _ sig i 0%R) by exact Hi. reflexivity.
Qed.
Print Assumptions C120_white_and_constant.

(** ** Pink noise *)
(** number of [j <= m] with the property *)
Fixpoint count_upto (P : nat -> bool) (m : nat) : nat :=
  match m with O => if P 0 then 1 else 0 | S m' => count_upto P m' + if P m then 1 else 0 end.
(** fluctuator [j] of [n] flips at step [t]: the number drawn is below the inverse of its rate *)
Definition flips (u : nat -> R) (ku n steps j t : nat) : bool :=
  if Rlt_dec (u (ku + t * n + j)%nat * Rpower 10 (ln (INR steps) * (INR (S j) / INR n))) 1 then true else false.
(** its value after step [t] *)
Definition fluctuator (b : nat -> bool) (u : nat -> R) (kb ku n steps j t : nat) : R :=
  ((if b (kb + j)%nat then 1 else -1) * (-1) ^ count_upto (flips u ku n steps j) t)%R.

Lemma flip_all_map : forall u (r x : nat -> R) n k m,
  flip_all u k (map r (seq m n)) (map x (seq m n)) = map (fun j => if Rltb (u (k + (j - m))%nat * r j) 1 then (- x j)%R else x j) (seq m n).
Proof.
  induction n as [|n IH]; intros k m; cbn [seq map flip_all]; [reflexivity|]. rewrite Nat.sub_diag, Nat.add_0_r. f_equal. rewrite IH.
  apply map_ext_in. intros j Hj. apply in_seq in Hj. replace (k + (j - m)) with (S k + (j - S m)) by lia. reflexivity.
Qed.
Lemma total_rs : forall n f m, total (map f (seq m n)) = rs n (fun j => f (m + j)%nat).
Proof.
  induction n as [|n IH]; intros f m; cbn [seq map]; [reflexivity|]. change (total (f m :: map f (seq (S m) n))) with (f m + total (map f (seq (S m) n)))%R.
  rewrite IH, rs_shift0, Nat.add_0_r. f_equal. apply rs_ext. intros i _. f_equal. lia.
Qed.

(** The noise at a step is the amplitude times the sum of the fluctuators, each of which started at +-1 at random and has flipped
    whenever the number drawn for it was below the inverse of its rate. *)
Theorem C120_pink : forall b u n amp kb ku sig,
  length (pink_noise b u n amp kb ku sig) = length sig
  /\ forall t, t < length sig -> nth t (pink_noise b u n amp kb ku sig) 0%R
       = (amp * rs n (fun j => fluctuator b u kb ku n (length sig) j t))%R.
Proof.
  intros b u n amp kb ku sig. unfold pink_noise. set (N := length sig). unfold flip_rates, first_bfls.
  set (r := fun i => Rpower 10 (ln (INR N) * (INR (S i) / INR n))).
  assert (K : forall steps t0 (x : nat -> R),
     length (pink_steps u amp (map r (seq 0 n)) (ku + t0 * n) (map x (seq 0 n)) steps) = steps
     /\ forall t, t < steps -> nth t (pink_steps u amp (map r (seq 0 n)) (ku + t0 * n) (map x (seq 0 n)) steps) 0%R
          = (amp * rs n (fun j => x j * (-1) ^ count_upto (fun s => flips u ku n N j (t0 + s)) t))%R).
  { induction steps as [|m IH]; intros t0 x; cbn [pink_steps]; [split; [reflexivity|lia]|].
    rewrite flip_all_map, map_length, seq_length.
    set (x1 := fun j => if Rltb (u (ku + t0 * n + (j - 0))%nat * r j) 1 then (- x j)%R else x j).
    replace (ku + t0 * n + n) with (ku + S t0 * n) by lia. destruct (IH (S t0) x1) as [L H]. split; [cbn [length]; rewrite L; reflexivity|].
    assert (F0 : forall j, x1 j = (x j * (-1) ^ (if flips u ku n N j t0 then 1 else 0))%R).
    { intro j. unfold x1, flips, Rltb, r. rewrite Nat.sub_0_r. destruct (Rlt_dec _ 1); cbn [pow]; ring. }
    intros [|t] Ht; cbn [nth].
    - rewrite total_rs, Rmult_comm. f_equal. apply rs_ext. intros j _. cbn [Nat.add count_upto]. rewrite Nat.add_0_r. apply F0.
    - rewrite (H t) by lia. f_equal. apply rs_ext. intros j _. rewrite F0, Rmult_assoc, <- pow_add. do 2 f_equal.
      clear. induction t as [|t IHt]; cbn [count_upto].
      + rewrite !Nat.add_0_r, Nat.add_1_r. reflexivity.
      + rewrite Nat.add_assoc, IHt. cbn [count_upto]. rewrite (Nat.add_succ_r t0 (S t)). reflexivity. }
  specialize (K N 0 (fun i => if b (kb + i)%nat then 1 else -1)%R). rewrite Nat.mul_0_l, Nat.add_0_r in K. destruct K as [L H]. split; [exact L|].
  intros t Ht. rewrite (H t Ht). f_equal.
Qed.
Print Assumptions C120_pink.

(** So it takes n + 1 values only: an integer of the parity of the number of fluctuators, at most that number, times the amplitude. *)
Theorem C120_pink_levels : forall b u n amp kb ku sig t, t < length sig ->
  exists up, up <= n /\ nth t (pink_noise b u n amp kb ku sig) 0%R = (amp * (2 * INR up - INR n))%R.
Proof.
  intros b u n amp kb ku sig t Ht. destruct (C120_pink b u n amp kb ku sig) as [_ H]. rewrite (H t Ht).
  assert (F : forall j, fluctuator b u kb ku n (length sig) j t = 1%R \/ fluctuator b u kb ku n (length sig) j t = (-1)%R).
  { intro j. unfold fluctuator. assert (P : forall m, ((-1) ^ m = 1 \/ (-1) ^ m = -1)%R) by (induction m as [|m IH]; cbn [pow]; [left; reflexivity|destruct IH as [->| ->]; [right|left]; ring]).
    destruct (b (kb + j)), (P (count_upto (flips u ku n (length sig) j) t)) as [->| ->]; [left|right|right|left]; ring. }
  assert (K : forall m (x : nat -> R), (forall j, x j = 1%R \/ x j = (-1)%R) -> exists up, up <= m /\ rs m x = (2 * INR up - INR m)%R).
  { induction m as [|m IH]; intros x Hx; [exists 0; split; [lia|cbn; ring]|]. destruct (IH x Hx) as (up & Hu & E). cbn [rs]. rewrite E, S_INR.
    destruct (Hx m) as [->| ->]; [exists (S up); rewrite S_INR|exists up]; (split; [lia|ring]). }
  destruct (K n _ F) as (up & Hu & E). exists up. split; [exact Hu|]. rewrite E. reflexivity.
Qed.
Print Assumptions C120_pink_levels.

(** Finding: the rates do not end at the number of samples: the exponent of 10 is the natural logarithm, so the slowest fluctuator
    has a rate above that number (its 2.3rd power) and is expected to flip less than once in the signal. *)
Theorem C120_slow_refuted : forall n steps, 1 <= n -> 2 <= steps ->
  nth (n - 1) (flip_rates n steps) 0%R = Rpower (INR steps) (ln 10) /\ (INR steps < Rpower (INR steps) (ln 10))%R.
Proof.
  intros n steps Hn Hs. assert (Ps : (1 < INR steps)%R) by (apply (lt_INR 1); lia). split.
  - unfold flip_rates. rewrite (nth_map_d _ (seq 0 n) (n - 1) 0) by (rewrite seq_length; lia). rewrite seq_nth by lia. cbn [Nat.add].
    replace (S (n - 1)) with n by lia. assert (0 < INR n)%R by (apply lt_0_INR; lia). unfold Rpower. f_equal. field. lra.
  - assert (E : (exp 1 < 10)%R) by (pose proof exp_le_3; lra).
    assert (L : (1 < ln 10)%R) by (rewrite <- (ln_exp 1); apply ln_increasing; [apply exp_pos|exact E]).
    rewrite <- (Rpower_1 (INR steps)) at 1 by lra. apply Rpower_lt; lra.
Qed.
Print Assumptions C120_slow_refuted.

(** the noise devices always succeed on a signal with time points *)
Example C120_example : exists out k,
  noise_process (white_noise (fun _ => 1%R) (1 / 2)) (Some (1 / 2)%R) 0 [("values", [3; 4]%R); ("ts", [0; 1]%R)] = Ok (out, k)
  /\ dget "values" out = Some (plus_noise [3; 4]%R [1 / 2 * 1; 1 / 2 * 1]%R) /\ dget "noise" out = Some [1 / 2 * 1; 1 / 2 * 1]%R.
Proof.
  unfold noise_process. cbn [dget String.eqb Ascii.eqb Bool.eqb].
  assert (E : Rltb (1 / 2) (1 / 10 ^ 17) = false).
  { unfold Rltb. destruct (Rlt_dec (1 / 2) (1 / 10 ^ 17)) as [C|]; [|reflexivity]. exfalso. assert (2 < 10 ^ 17)%R by (simpl; lra).
    assert (1 / 10 ^ 17 < 1 / 2)%R by (unfold Rdiv; rewrite !Rmult_1_l; apply Rinv_lt_contravar; lra). lra. }
  rewrite E. do 2 eexists. split; [reflexivity|]. split; reflexivity.
Qed.
