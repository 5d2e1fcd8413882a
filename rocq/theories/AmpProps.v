(** Property C144: the drive strength estimate of the waveform generator. *)
From Coq Require Import Reals Lra Lia.
From Coquelicot Require Import Complex.
From Verif Require Import Base Mat MExp MExp2 DevModel AmpModel.
Local Open Scope list_scope.
Local Open Scope nat_scope.
Local Notation length := List.length.

(** The sizes of the complex samples of an envelope, their sum and their mean. *)
Fixpoint total (l : list C) : R := match l with [] => 0%R | z :: l => (Cmod z + total l)%R end.
Definition mean (l : list C) : option R := match l with [] => None | _ => Some (total l / INR (length l))%R end.

Lemma fold_plus : forall l a, fold_left Rplus l a = (a + fold_left Rplus l 0)%R.
Proof. induction l as [|x l IH]; intro a; cbn [fold_left]; [ring|]. rewrite IH, (IH (0 + x)%R). ring. Qed.
Lemma reduce_total : forall l, reduce_sum (map Cmod l) = total l.
Proof.
  induction l as [|z l IH]; [reflexivity|]. unfold reduce_sum in *. cbn [map fold_left total]. rewrite fold_plus, IH. ring.
Qed.
Lemma sizes : forall l : list C, elementwise Rplus (map (fun x => (Rabs x ^ 2)%R) (map fst l)) (map (fun x => (Rabs x ^ 2)%R) (map snd l))
  = Ok (map (fun z => (Cmod z ^ 2)%R) l).
Proof.
  intro l. unfold elementwise. rewrite !map_length, Nat.eqb_refl. f_equal. induction l as [|z l IH]; [reflexivity|].
  cbn [map combine fst snd]. rewrite IH. f_equal. rewrite !pow2_abs.
  unfold Cmod. rewrite pow2_sqrt; [reflexivity|]. destruct z; cbn; nra.
Qed.

(** ** C144: After a channel has been processed, and whatever other channels have been processed since,
    the estimate for it is the mean and the sum of the sizes of its complex envelope. *)
Theorem C144_estimate : forall res t0 t1 st st' line envs s ts env later,
  awg_process res t0 t1 st line envs = Ok (st', s) ->
  create_ts res t0 t1 true = Ok ts -> awg_signal envs ts = Ok env ->
  (forall k v, In (k, v) later -> k <> line) ->
  let st2 := fold_left (fun x kv => dset (fst kv) (snd kv) x) later st' in
  get_average_amp st2 line = Ok (mean env, total env).
Proof.
  intros res t0 t1 st st' line envs s ts env later P T E N st2.
  unfold awg_process, create_IQ in P. rewrite T in P. cbn [rbind] in P. rewrite E in P. cbn [rbind] in P. injection P as <- <-.
  assert (G : dget line st2 = Some (mkIQ (map fst env) (map snd env) ts)).
  { unfold st2. clear st2. assert (G0 : dget line (dset line (mkIQ (map fst env) (map snd env) ts) st) = Some (mkIQ (map fst env) (map snd env) ts)) by apply dget_dset_same.
    revert G0. generalize (dset line (mkIQ (map fst env) (map snd env) ts) st).
    induction later as [|[k v] later IH]; intros d G0; [exact G0|]. cbn [fold_left fst snd]. apply IH.
    - intros k' v' I. apply (N k' v'). right. exact I.
    - rewrite dget_dset_other; [exact G0|]. pose proof (N k v (or_introl eq_refl)). congruence. }
  unfold get_average_amp, get_I, get_Q. rewrite G. cbn [rbind iq_i iq_q]. rewrite sizes. cbn [rbind].
  assert (S : map sqrt (map (fun z => (Cmod z ^ 2)%R) env) = map Cmod env).
  { rewrite map_map. apply map_ext. intro z. apply sqrt_pow2, Cmod_ge_0. }
  rewrite S, reduce_total. f_equal. f_equal. unfold reduce_mean, mean. rewrite <- reduce_total.
  destruct env as [|z env]; [reflexivity|]. cbn [map length]. rewrite map_length. reflexivity.
Qed.
Print Assumptions C144_estimate.

(** A channel that was never processed has no estimate. *)
Theorem C144_unknown : forall st line, dget line st = None -> get_average_amp st line = Err KeyError.
Proof. intros st line H. unfold get_average_amp, get_I. rewrite H. reflexivity. Qed.
Print Assumptions C144_unknown.

(** ** Phase and amplitude *)
(** The envelope with its amplitude multiplied by [c] and its phase advanced by [phi]. *)
Definition turned (c phi : R) (e : awg_env) : awg_env :=
  mkAE (c * a_amp e) (a_angle e + phi) (a_foff e) (a_start e) (a_end e) (a_shape e).
Lemma ew_map : forall A B D A' B' D' (f : A -> B -> D) (f' : A' -> B' -> D') g k h a b,
  (forall x y, f' (g x) (k y) = h (f x y)) ->
  elementwise f' (map g a) (map k b) = rbind (elementwise f a b) (fun l => Ok (map h l)).
Proof.
  intros A B D A' B' D' f f' g k h a b H. unfold elementwise. rewrite !map_length. destruct (Nat.eqb (length a) (length b)).
  - cbn [rbind]. f_equal. revert b. induction a as [|x a IH]; intros [|y b]; cbn [map combine fst snd]; try reflexivity. rewrite H, IH. reflexivity.
  - destruct a as [|x [|x' a]]; destruct b as [|y [|y' b]]; cbn [map rbind]; try reflexivity; rewrite ?H, ?map_map; try reflexivity;
    apply f_equal; repeat (apply (f_equal2 (@cons D')); [reflexivity|]); apply map_ext; intros; apply H.
Qed.
Definition rmap (z : C) (r : result (list C)) : result (list C) := rbind r (fun l => Ok (map (Cmult z) l)).
Lemma turned_add : forall c phi ts acc e, awg_add ts (rmap (RtoC c * expi phi)%C acc) (turned c phi e) = rmap (RtoC c * expi phi)%C (awg_add ts acc e).
Proof.
  intros c phi ts acc e. unfold awg_add. destruct acc as [l|x]; [|reflexivity]. cbn [rmap rbind turned a_amp a_angle a_foff a_start a_end a_shape].
  destruct (a_shape e _ _) as [env|x]; [|reflexivity]. cbn [rbind].
  set (A := map (Cmult (RtoC (a_amp e))) env). set (B := map expi (map (fun t => (a_angle e - a_foff e * t)%R) (map (fun t => (t - a_start e)%R) ts))).
  assert (EA : map (Cmult (RtoC (c * a_amp e))) env = map (Cmult (RtoC c)) A).
  { unfold A. rewrite map_map. apply map_ext. intro z. rewrite RtoC_mult. ring. }
  assert (EB : map expi (map (fun t => (a_angle e + phi - a_foff e * t)%R) (map (fun t => (t - a_start e)%R) ts)) = map (Cmult (expi phi)) B).
  { unfold B. rewrite !map_map. apply map_ext. intro t. rewrite <- expi_add. f_equal. ring. }
  rewrite EA, EB, (ew_map _ _ _ _ _ _ Cmult Cmult _ _ (Cmult (RtoC c * expi phi)%C)) by (intros; ring).
  destruct (elementwise Cmult A B) as [add|x]; [|reflexivity]. cbn [rbind].
  apply ew_map. intros; ring.
Qed.
Lemma turned_signal : forall c phi ts envs, awg_signal (map (turned c phi) envs) ts = rmap (RtoC c * expi phi)%C (awg_signal envs ts).
Proof.
  intros c phi ts envs. unfold awg_signal.
  assert (Z : Ok (map (fun _ => RtoC 0) ts) = rmap (RtoC c * expi phi)%C (Ok (map (fun _ : R => RtoC 0) ts))).
  { unfold rmap. cbn [rbind]. f_equal. rewrite map_map. apply map_ext. intro. ring. }
  rewrite Z at 1. generalize (Ok (map (fun _ : R => RtoC 0) ts) : result (list C)). clear Z.
  induction envs as [|e envs IH]; intro acc; [reflexivity|]. cbn [map fold_left]. rewrite turned_add. apply IH.
Qed.
Lemma total_scale : forall z l, total (map (Cmult z) l) = (Cmod z * total l)%R.
Proof. intros z l. induction l as [|x l IH]; cbn [map total]; [ring|]. rewrite IH, Cmod_mult. ring. Qed.

(** The estimate does not depend on the phase of the drive and is proportional to the size of its amplitude:
    changing the phases of all components of a line together leaves it, and multiplying their
    amplitudes by c multiplies it by |c|; either both settings work, or both fail. *)
Theorem C144_phase_and_amplitude : forall res t0 t1 st line envs c phi,
  match awg_process res t0 t1 st line envs, awg_process res t0 t1 st line (map (turned c phi) envs) with
  | Ok (s1, _), Ok (s2, _) => exists a b,
      get_average_amp s1 line = Ok (a, b) /\ get_average_amp s2 line = Ok (option_map (fun x => (Rabs c * x)%R) a, (Rabs c * b)%R)
  | Err e, Err e' => e = e' | _, _ => False end.
Proof.
  intros res t0 t1 st line envs c phi.
  destruct (awg_process res t0 t1 st line envs) as [[s1 i1]|e1] eqn:P1; destruct (awg_process res t0 t1 st line (map (turned c phi) envs)) as [[s2 i2]|e2] eqn:P2.
  - pose proof P1 as Q1. pose proof P2 as Q2. unfold awg_process, create_IQ in Q1, Q2.
    destruct (create_ts res t0 t1 true) as [ts|] eqn:T; [|discriminate]. cbn [rbind] in Q1, Q2.
    rewrite turned_signal in Q2. destruct (awg_signal envs ts) as [env|] eqn:E; [|discriminate].
    assert (E2 : awg_signal (map (turned c phi) envs) ts = Ok (map (Cmult (RtoC c * expi phi)%C) env)) by (rewrite turned_signal, E; reflexivity).
    pose proof (C144_estimate _ _ _ _ _ _ _ _ _ _ [] P1 T E ltac:(intros k v [])) as R1.
    pose proof (C144_estimate _ _ _ _ _ _ _ _ _ _ [] P2 T E2 ltac:(intros k v [])) as R2. cbn [fold_left] in R1, R2.
    exists (mean env), (total env). split; [exact R1|]. rewrite R2.
    assert (K : total (map (Cmult (RtoC c * expi phi)%C) env) = (Rabs c * total env)%R) by (rewrite total_scale, Cmod_mult, expi_mod, Cmod_R; ring).
    f_equal. f_equal; [|exact K].
    unfold mean. destruct env as [|z env]; [reflexivity|]. rewrite K, map_length. cbn [map option_map]. f_equal. unfold Rdiv. ring.
  - unfold awg_process, create_IQ in P1, P2. destruct (create_ts res t0 t1 true) as [ts|]; [|discriminate]. cbn [rbind] in *.
    rewrite turned_signal in P2. destruct (awg_signal envs ts); discriminate.
  - unfold awg_process, create_IQ in P1, P2. destruct (create_ts res t0 t1 true) as [ts|]; [|discriminate]. cbn [rbind] in *.
    rewrite turned_signal in P2. destruct (awg_signal envs ts); discriminate.
  - unfold awg_process, create_IQ in P1, P2. destruct (create_ts res t0 t1 true) as [ts|]; [|cbn in *; congruence]. cbn [rbind] in *.
    rewrite turned_signal in P2. destruct (awg_signal envs ts); cbn in *; [discriminate|congruence].
Qed.
Print Assumptions C144_phase_and_amplitude.

(** The mean lies between zero and the largest sample, and is zero only for a drive that is off. *)
Theorem C144_bounds : forall env b, env <> [] -> (forall z, In z env -> (Cmod z <= b)%R) ->
  exists a, mean env = Some a /\ (0 <= a <= b)%R /\ (a = 0%R <-> forall z, In z env -> z = RtoC 0).
Proof.
  intros env b Ne Hb.
  assert (P : forall l, (0 <= total l)%R) by (induction l as [|z l IH]; cbn [total]; [lra|pose proof (Cmod_ge_0 z); lra]).
  assert (U : forall l, (forall z, In z l -> (Cmod z <= b)%R) -> (total l <= INR (length l) * b)%R).
  { induction l as [|z l IH]; intro H; [cbn; lra|]. cbn [total length]. rewrite S_INR. pose proof (H z (or_introl eq_refl)).
    assert (total l <= INR (length l) * b)%R by (apply IH; intros x I; apply H; right; exact I). lra. }
  assert (Z : forall l, total l = 0%R <-> forall z, In z l -> z = RtoC 0).
  { induction l as [|z l IH]; cbn [total]; [split; [intros _ z []|reflexivity]|]. pose proof (Cmod_ge_0 z). pose proof (P l). split.
    - intros E x [<-|I]; [apply Cmod_eq_0; lra|]. apply IH; [lra|exact I].
    - intro A. rewrite (A z (or_introl eq_refl)), Cmod_0. rewrite (proj2 IH); [ring|]. intros x I. apply A. right. exact I. }
  destruct env as [|z env]; [congruence|]. set (l := z :: env) in *. exists (total l / INR (length l))%R. split; [reflexivity|].
  assert (L : (0 < INR (length l))%R) by (apply lt_0_INR; cbn; lia).
  assert (I : (0 < / INR (length l))%R) by (apply Rinv_0_lt_compat; exact L).
  split; [split|].
  - apply Rmult_le_pos; [apply P|lra].
  - apply (Rmult_le_reg_r (INR (length l))); [exact L|]. unfold Rdiv. rewrite Rmult_assoc, Rinv_l by lra. rewrite Rmult_1_r, Rmult_comm. apply U, Hb.
  - rewrite <- Z. unfold Rdiv. split; [|intros ->; ring]. intro E. apply Rmult_integral in E. destruct E; [assumption|lra].
Qed.
Print Assumptions C144_bounds.

(** Finding: once any channel has been processed, the waveforms cannot be logged. *)
Theorem C144_log_shapes_refuted : forall res t0 t1 st line envs st' s,
  awg_process res t0 t1 st line envs = Ok (st', s) -> log_shapes true st' = Err AttributeError.
Proof.
  intros res t0 t1 st line envs st' s P. unfold awg_process in P. destruct (create_IQ res t0 t1 envs) as [q|]; [|discriminate].
  cbn [rbind] in P. injection P as <- <-. unfold log_shapes. destruct (dset line q st) as [|kv d] eqn:E; [|reflexivity].
  pose proof (dget_dset_same line q st) as G. rewrite E in G. discriminate.
Qed.
Print Assumptions C144_log_shapes_refuted.

(** A constant envelope of size 3 with a frequency offset, on four samples. *)
Definition flat_env : awg_env := mkAE 3 0 7 0 4 (fun ts _ => Ok (map (fun _ => RtoC 1) ts)).
Example C144_example : forall ts, length ts = 4 -> exists env, awg_signal [flat_env] ts = Ok env /\ mean env = Some 3%R.
Proof.
  intros [|t1 [|t2 [|t3 [|t4 [|]]]]] L; try discriminate L.
  exists (map (fun t => RtoC 0 + RtoC 3 * RtoC 1 * expi (0 - 7 * (t - 0)))%C [t1; t2; t3; t4]). split; [reflexivity|].
  assert (Q : forall x, Cmod (RtoC 0 + RtoC 3 * RtoC 1 * expi x)%C = 3%R).
  { intro x. replace (RtoC 0 + RtoC 3 * RtoC 1 * expi x)%C with (RtoC 3 * expi x)%C by ring. rewrite Cmod_mult, expi_mod, Cmod_R, Rabs_pos_eq; lra. }
  cbn [map mean length total]. f_equal. transitivity ((3 + (3 + (3 + (3 + 0)))) / INR 4)%R; [|cbn [INR]; field].
  rewrite !Q. reflexivity.
Qed.
