(** Property C115: the quick setup drives every qubit on resonance. *)
From Coq Require Import Reals Lra Lia List String Bool.
From Coquelicot Require Import Complex.
From Verif Require Import Base QuantityModel QuantityProofs QuantityProps EnvModel DevModel DevProps QiskitModel QuickModel.
Import ListNotations.
Local Open Scope string_scope.
Local Open Scope list_scope.
Local Open Scope R_scope.
Local Notation length := List.length.

(** ** Specification *)
(** the pulse expected on a drive line, at time [t] for steps [dt]: the amplitude, the switched Gaussian around the middle of the gate, and a cosine at the angular frequency [w] *)
Definition gauss_pulse (w gate_time v2hz dt t : R) : R :=
  PI ^ 2 / (gate_time * v2hz) * (mask_at gate_time dt t * exp (- (t - gate_time / 2) ^ 2 / (2 * (5 / 10 ^ 9) ^ 2))) * cos (w * t).
(** the components of a channel make the generator (LO, AWG, mixer) put out this pulse, for every sampling of every time span from 0 on *)
Definition drives (comps : dict qcomp) (w gate_time v2hz : R) : Prop :=
  forall prev res t_end ts, create_ts res 0 t_end true = Ok ts -> (2 <= length ts)%nat ->
  exists lo awg out, lo_process prev res 0 t_end (carriers_on comps) = Ok lo /\ create_IQ res 0 t_end (envelopes_on comps) = Ok awg /\ mixer lo awg = Ok out
    /\ v_ts out = ts /\ length (v_values out) = length ts
    /\ forall j, (j < length ts)%nat -> nth j (v_values out) 0 = gauss_pulse w gate_time v2hz (nth 1 ts 0 - nth 0 ts 0) (nth j ts 0).

(** ** Quantities *)
Lemma mk_pref : forall v unit lo hi s q, mk_quantity v unit lo hi s = Ok q -> q_pref q = pref_of_unit unit.
Proof.
  intros v unit lo hi s q H. unfold mk_quantity in H. match type of H with rbind ?l _ = _ => destruct l as [[a b]|]; [|discriminate H] end. cbn [rbind] in H.
  unfold set_value in H. destruct (Nat.eqb _ _); [|discriminate H]. unfold set_value_strict in H. destruct (Req_EM_T _ 0); [discriminate H|]. destruct (existsb _ _); [discriminate H|]. injection H as <-. reflexivity.
Qed.
Lemma pref_pos : forall u, 0 < pref_of_unit u.
Proof. intro u. unfold pref_of_unit. pose proof PI_RGT_0. destruct (contains "2pi" u); [lra|]. destruct (contains "pi" u); lra. Qed.
Lemma scalar_of : forall q v, q_pref q <> 0 -> numpy q = [v] -> scalar q = v * q_pref q.
Proof.
  intros q v N H. unfold scalar. unfold numpy in H. destruct (get_value q) as [|x l]; [discriminate H|]. cbn [map] in H. injection H as H _. cbn [nth]. rewrite <- H. field. exact N.
Qed.
Lemma mk_default : forall v unit s, exists q, mk_quantity [v] unit None None s = Ok q /\ scalar q = v * pref_of_unit unit.
Proof.
  intros v unit s. destruct (C07_default_limits_admit_value [v] unit s) as (q & E & N & W & _). exists q. split; [exact E|].
  pose proof (mk_pref _ _ _ _ _ _ E) as P. rewrite <- P. apply scalar_of; [|exact N]. rewrite P. pose proof (pref_pos unit). lra.
Qed.
Lemma mk_between : forall v unit lo hi s, lo < hi -> lo <= v <= hi -> exists q, mk_quantity [v] unit (Some lo) (Some hi) s = Ok q /\ scalar q = v * pref_of_unit unit /\ get_limits q = (lo, hi).
Proof.
  intros v unit lo hi s L V. destruct (C07_explicit_limits_kept [v] unit lo hi s L) as (q & E & N & LI & W & P & _); [constructor; [exact V|constructor]|]. exists q. split; [exact E|].
  split; [|exact LI]. rewrite <- P. apply scalar_of; [|exact N]. rewrite P. pose proof (pref_pos unit). lra.
Qed.
Lemma unit_plain : pref_of_unit "s" = 1 /\ pref_of_unit "V" = 1 /\ pref_of_unit "rad" = 1 /\ pref_of_unit "Hz 2pi" = 2 * PI.
Proof. split; [reflexivity|]. split; [reflexivity|]. split; reflexivity. Qed.

(** ** One pulse *)
Definition amp_of (gate_time v2hz : R) : R := PI / 2 / gate_time / v2hz * 2 * PI.
Lemma amp_neg : forall gt v2, gt <> 0 -> v2 <> 0 -> gt * v2 < 0 -> exists e, mk_quantity [amp_of gt v2] "V" (Some 0) (Some (3 * amp_of gt v2)) "\alpha" = Err e.
Proof.
  intros gt v2 G V N. assert (A : amp_of gt v2 < 0).
  { unfold amp_of. replace (PI / 2 / gt / v2 * 2 * PI) with (- (PI * PI * / - (gt * v2))) by (field; split; assumption). pose proof PI_RGT_0.
    assert (0 < PI * PI * / - (gt * v2)) by (apply Rmult_lt_0_compat; [apply Rmult_lt_0_compat; assumption|apply Rinv_0_lt_compat; lra]). lra. }
  set (a := amp_of gt v2) in *. unfold mk_quantity. cbn [rbind]. unfold set_value. cbn [List.length set_limits q_value Nat.eqb]. unfold set_value_strict, set_limits. cbn [q_scale q_pref].
  destruct (Req_EM_T _ 0); [exists NaNResult; reflexivity|]. cbn [map existsb]. unfold scaled_entry. cbn [q_scale q_pref q_offset]. rewrite !(proj1 (proj2 unit_plain)).
  assert (S : 2 * (a * 1 - 0 * 1) / (Rabs (3 * a - 0) * 1) - 1 = - (5 / 3)).
  { rewrite Rabs_left by lra. field. lra. }
  rewrite S. assert (O : entry_oob (- (5 / 3)) = true).
  { unfold entry_oob, isclose_1, Rltb, Rleb. rewrite (Rabs_left (- (5 / 3))) by lra. destruct (Rlt_dec 1 (- - (5 / 3))); [|lra]. cbn [andb]. apply negb_true_iff.
    rewrite Rabs_R1. destruct (Rle_dec _ _) as [K|]; [|reflexivity]. exfalso. rewrite Rabs_right in K by lra. simpl in K. lra. }
  rewrite O. cbn [orb]. exists OOBError. reflexivity.
Qed.
Lemma amp_pos : forall gt v2, 0 < gt * v2 -> 0 < amp_of gt v2 /\ amp_of gt v2 = PI ^ 2 / (gt * v2).
Proof.
  intros gt v2 H. assert (G : gt <> 0) by (intros ->; lra). assert (V : v2 <> 0) by (intros ->; lra). assert (E : amp_of gt v2 = PI ^ 2 / (gt * v2)) by (unfold amp_of; field; split; assumption).
  split; [|exact E]. rewrite E. apply Rdiv_lt_0_compat; [|exact H]. pose proof PI_RGT_0. apply pow_lt. assumption.
Qed.
Definition sb_of (sideband : option R) : R := match sideband with Some s => s | None => 0 end.

(** what a pulse set up by Instruction.quick_setup consists of *)
Record pulse_params (ps cs : dict quantity) (f gt v2 sb : R) : Prop := mkPP {
  pp_tf : exists q, dget "t_final" ps = Some q /\ scalar q = gt;
  pp_amp : exists q, dget "amp" ps = Some q /\ scalar q = PI ^ 2 / (gt * v2) /\ get_limits q = (0, 3 * (PI ^ 2 / (gt * v2)));
  pp_off : exists q, dget "freq_offset" ps = Some q /\ scalar q = sb * (2 * PI);
  pp_ang : exists q, dget "xy_angle" ps = Some q /\ scalar q = 0;
  pp_sig : exists q, dget "sigma" ps = Some q /\ scalar q = 5 / 10 ^ 9;
  pp_frq : exists q, dget "freq" cs = Some q /\ scalar q = (f - sb) * (2 * PI) }.

Lemma quick_spec : forall chan f gt v2 sb i, 0 < gt * v2 ->
  (dget chan (qi_comps i) = None -> instr_quick_setup chan f gt v2 sb i = Err KeyError)
  /\ (forall comps, dget chan (qi_comps i) = Some comps -> exists ps cs, pulse_params ps cs f gt v2 (sb_of sb) /\
      instr_quick_setup chan f gt v2 sb i = Ok (mkQI (qi_name i) (qi_targets i) (qi_end i)
        (dset chan (dset "carrier" (QCarrier cs) (dset "gaussian" (QEnv ps) comps)) (dset chan (dset "gaussian" (QEnv ps) comps) (qi_comps i))))).
Proof.
  intros chan f gt v2 sb i H. assert (G : gt <> 0) by (intros ->; lra). assert (V : v2 <> 0) by (intros ->; lra).
  destruct (amp_pos gt v2 H) as [AP AE]. destruct unit_plain as (US & UV & UR & UH).
  destruct (mk_default gt "s" "\alpha") as (qt & ET & ST). destruct (mk_between (amp_of gt v2) "V" 0 (3 * amp_of gt v2) "\alpha") as (qa & EA & SA & LA); [lra|lra|].
  destruct (mk_between 1 "V" (-1) (15 / 10) "\alpha") as (d1 & D1 & _); [lra|lra|]. destruct (mk_between 0 "V" (-5) 5 "\alpha") as (d2 & D2 & _); [lra|lra|].
  destruct (mk_between 0 "Hz 2pi" (-1) 1 "\alpha") as (d3 & D3 & S3 & _); [lra|lra|]. destruct (mk_between 0 "rad" (-1) 1 "\alpha") as (d4 & D4 & S4 & _); [lra|lra|].
  destruct (mk_between (5 / 10 ^ 9) "s" (-2) 2 "\alpha") as (d5 & D5 & S5 & _); [lra|lra|]. destruct (mk_between 1 "s" (-1) 1 "\alpha") as (d6 & D6 & _); [lra|lra|].
  destruct (mk_between 0 "V" (-1) 1 "\alpha") as (d7 & D7 & _); [lra|lra|]. pose proof PI_RGT_0. destruct (mk_between 0 "rad" (- PI) PI "\alpha") as (d8 & D8 & _); [lra|lra|].
  unfold instr_quick_setup. destruct (Req_EM_T gt 0); [contradiction|]. destruct (Req_EM_T v2 0); [contradiction|]. cbv zeta. fold (amp_of gt v2). rewrite ET. cbn [rbind]. rewrite EA. cbn [rbind].
  set (on := match sb with Some s => if Req_EM_T s 0 then None else Some s | None => None end).
  assert (ON : on = None /\ sb_of sb = 0 \/ exists s, on = Some s /\ sb_of sb = s).
  { unfold on, sb_of. destruct sb as [s|]; [destruct (Req_EM_T s 0) as [->|]; [left; split; reflexivity|right; exists s; split; reflexivity]|left; split; reflexivity]. }
  assert (AMP : scalar qa = PI ^ 2 / (gt * v2) /\ get_limits qa = (0, 3 * (PI ^ 2 / (gt * v2)))).
  { rewrite SA, UV, LA, <- AE. split; [ring|reflexivity]. }
  clearbody on. destruct ON as [[-> SB]|(s & -> & SB)]; rewrite SB; cbn [rbind].
  - destruct (mk_default f "Hz 2pi" "\alpha") as (qf & EF & SF). unfold new_envelope, new_carrier, default_q. rewrite D1, D2, D3, D4, D5, D6, D7, D8. cbn [rbind fst snd]. unfold add_comp at 1 3. split.
    + intros ->. reflexivity.
    + intros comps ->. cbn [rbind]. rewrite EF. cbn [rbind]. unfold add_comp. cbn [qi_comps qi_name qi_targets qi_end]. rewrite dget_dset_same.
      eexists _, _. split; [|reflexivity]. constructor; [exists qt|exists qa|exists d3|exists d4|exists d5|exists qf]; (split; [reflexivity|]).
      * rewrite ST, US. ring. * exact AMP. * rewrite S3. ring. * rewrite S4. ring. * rewrite S5, US. ring. * rewrite SF, UH. ring.
  - destruct (mk_default s "Hz 2pi" "\alpha") as (qs & ES & SS). destruct (mk_default (f - s) "Hz 2pi" "\alpha") as (qf & EF & SF). rewrite ES. cbn [rbind].
    unfold new_envelope, new_carrier, default_q. rewrite D1, D2, D3, D4, D5, D6, D7, D8. cbn [rbind fst snd]. unfold add_comp at 1 3. split.
    + intros ->. reflexivity.
    + intros comps ->. cbn [rbind]. rewrite EF. cbn [rbind]. unfold add_comp. cbn [qi_comps qi_name qi_targets qi_end]. rewrite dget_dset_same.
      eexists _, _. split; [|reflexivity]. constructor; [exists qt|exists qa|exists qs|exists d4|exists d5|exists qf]; (split; [reflexivity|]).
      * rewrite ST, US. ring. * exact AMP. * rewrite SS, UH. ring. * rewrite S4. ring. * rewrite S5, US. ring. * rewrite SF, UH. ring.
Qed.

Lemma pulse_drives : forall ps cs f gt v2 sb, pulse_params ps cs f gt v2 sb -> drives [("gaussian", QEnv ps); ("carrier", QCarrier cs)] (2 * PI * f) gt v2.
Proof.
  intros ps cs f gt v2 sb [(qt & T1 & T2) (qa & A1 & A2 & _) (qo & O1 & O2) (qx & X1 & X2) (qs & S1 & S2) (qf & F1 & F2)] prev res t_end ts HT L2.
  unfold carriers_on, envelopes_on. cbn [flat_map snd app]. cbv zeta. rewrite T1, A1, O1, X1, S1, F1. cbn [app]. rewrite T2, A2, O2, X2, S2, F2.
  set (e := mkAE _ _ _ _ _ _). set (r := map (fun t => mask_at gt (nth 1 ts 0 - nth 0 ts 0) t * exp (- (t - gt / 2) ^ 2 / (2 * (5 / 10 ^ 9) ^ 2))) ts).
  assert (SH : shapes_are ts [e] (map (map RtoC) [r])).
  { cbn [map]. constructor; [|constructor]. split; [|unfold r; rewrite !map_length; reflexivity]. unfold e. cbn [a_shape a_start a_end shape_values].
    rewrite (map_ext (fun t => t - 0) (fun t => t)) by (intro; ring). rewrite map_id. destruct ts as [|t0 [|t1 ts']]; [cbn in L2; lia|cbn in L2; lia|].
    cbn [shape_values_just nth] in *. f_equal. unfold r. rewrite map_map. apply map_ext. intro t. unfold mask_len. rewrite Rminus_0_r, (Rmin_left gt gt) by lra.
    unfold gaussian_nonorm, gauss_pt. rewrite <- RtoC_mult. reflexivity. }
  destruct (C66_mixed prev res 0 t_end ((f - sb) * (2 * PI)) [e] ts _ HT L2 SH) as (lo & a & out & E1 & E2 & E3 & E4 & E5 & _).
  destruct (C66_cosine_form prev res 0 t_end ((f - sb) * (2 * PI)) [e] ts [r] HT L2 SH) as (lo' & a' & out' & E1' & E2' & E3' & N).
  assert (lo' = lo) by congruence. assert (a' = a) by congruence. subst lo' a'. assert (out' = out) by congruence. subst out'.
  exists lo, a, out. split; [exact E1|]. split; [exact E2|]. split; [exact E3|]. split; [exact E4|]. split; [exact E5|].
  intros j Hj. rewrite (N j Hj). cbn [combine map rsuml fold_right fst snd]. unfold e. cbn [a_amp a_foff a_start a_angle]. unfold gauss_pulse, rsuml. cbn [fold_right].
  unfold r. rewrite (nth_indep _ 0 ((fun t => mask_at gt (nth 1 ts 0 - nth 0 ts 0) t * exp (- (t - gt / 2) ^ 2 / (2 * (5 / 10 ^ 9) ^ 2))) 0)) by (rewrite map_length; exact Hj).
  rewrite (map_nth (fun t => mask_at gt (nth 1 ts 0 - nth 0 ts 0) t * exp (- (t - gt / 2) ^ 2 / (2 * (5 / 10 ^ 9) ^ 2)))).
  replace ((f - sb) * (2 * PI) * nth j ts 0 + sb * (2 * PI) * (nth j ts 0 - 0) - 0) with (2 * PI * f * nth j ts 0) by ring. ring.
Qed.

(** ** Theorems *)
(** Instruction.quick_setup on a fresh channel: with or without a sideband, the channel carries a Gaussian pulse at exactly the frequency asked for; the amplitude may be optimised between 0 and three times its value. *)
Theorem C115_pulse : forall chan f gt v2 sb i, 0 < gt * v2 -> dget chan (qi_comps i) = Some [] ->
  exists i' comps, instr_quick_setup chan f gt v2 sb i = Ok i' /\ qi_name i' = qi_name i /\ qi_targets i' = qi_targets i /\ qi_end i' = qi_end i
  /\ (forall c, dget c (qi_comps i') = if String.eqb c chan then Some comps else dget c (qi_comps i))
  /\ drives comps (2 * PI * f) gt v2
  /\ exists ps q, dget "gaussian" comps = Some (QEnv ps) /\ dget "amp" ps = Some q /\ get_limits q = (0, 3 * (PI ^ 2 / (gt * v2))).
Proof.
  intros chan f gt v2 sb i H E. destruct (proj2 (quick_spec chan f gt v2 sb i H) [] E) as (ps & cs & PP & Q).
  eexists _, _. split; [exact Q|]. cbn [qi_name qi_targets qi_end qi_comps]. split; [reflexivity|]. split; [reflexivity|]. split; [reflexivity|]. split; [|split].
  - intro c. destruct (String.eqb_spec c chan) as [->|N]; [apply dget_dset_same|]. rewrite !dget_dset_other by congruence. reflexivity.
  - cbn [dset String.eqb Ascii.eqb Bool.eqb]. eapply pulse_drives. exact PP.
  - destruct (pp_amp _ _ _ _ _ _ PP) as (q & A & _ & L). exists ps, q. split; [reflexivity|]. split; [exact A|exact L].
Qed.

(** It works exactly if gate time and conversion factor have the same sign and are not zero, and the channel exists. *)
Theorem C115_accepted : forall chan f gt v2 sb i,
  (exists i', instr_quick_setup chan f gt v2 sb i = Ok i') <-> (0 < gt * v2 /\ In chan (keys (qi_comps i))).
Proof.
  intros chan f gt v2 sb i. split.
  - intros [i' H]. destruct (Rlt_dec 0 (gt * v2)) as [P|NP].
    + split; [exact P|]. destruct (dget chan (qi_comps i)) as [c|] eqn:D; [apply dget_in_keys; exists c; exact D|]. rewrite (proj1 (quick_spec chan f gt v2 sb i P) D) in H. discriminate H.
    + exfalso. unfold instr_quick_setup in H. destruct (Req_EM_T gt 0); [discriminate H|]. destruct (Req_EM_T v2 0); [discriminate H|].
      destruct (amp_neg gt v2) as [x X]; [assumption|assumption|destruct (Rtotal_order (gt * v2) 0) as [?|[K|?]]; [assumption| |lra]; apply Rmult_integral in K; destruct K; contradiction|].
      cbv zeta in H. fold (amp_of gt v2) in H. rewrite X in H. destruct (mk_quantity [gt] _ _ _ _); discriminate H.
  - intros [P I]. apply dget_in_keys in I. destruct I as [c D]. destruct (proj2 (quick_spec chan f gt v2 sb i P) c D) as (ps & cs & _ & Q). eexists. exact Q.
Qed.

(** an instruction for one qubit: the pulse is on the drive line of the qubit and at its frequency, nothing else is driven *)
Definition single_for (m : qmodel) (time v2hz : R) (g : gate1) (i : qinstr) : Prop :=
  exists q sub k comps, g1_qubit g = Some q /\ g1_name g = Some (qi_name i) /\ dget q m = Some sub /\ qi_targets i = [k] /\ nth_error (keys m) k = Some q /\ qi_end i = time
  /\ keys (qi_comps i) = [sub_line sub] /\ dget (sub_line sub) (qi_comps i) = Some comps /\ drives comps (scalar (sub_freq sub)) time v2hz.
(** an instruction for two qubits: each drive line is at the frequency of its qubit *)
Definition two_for (m : qmodel) (v2hz : R) (g : gate2) (i : qinstr) : Prop :=
  exists q1 q2 s1 s2 k1 k2 time, g2_qubit1 g = Some q1 /\ g2_qubit2 g = Some q2 /\ g2_name g = Some (qi_name i) /\ g2_time g = Some time /\ dget q1 m = Some s1 /\ dget q2 m = Some s2
  /\ qi_targets i = [k1; k2] /\ nth_error (keys m) k1 = Some q1 /\ nth_error (keys m) k2 = Some q2 /\ qi_end i = time
  /\ (forall c, In c (keys (qi_comps i)) -> c = sub_line s1 \/ c = sub_line s2)
  /\ (sub_line s1 <> sub_line s2 -> exists c1 c2, dget (sub_line s1) (qi_comps i) = Some c1 /\ dget (sub_line s2) (qi_comps i) = Some c2
        /\ drives c1 (scalar (sub_freq s1)) time v2hz /\ drives c2 (scalar (sub_freq s2)) time v2hz).

Lemma index_of_nth : forall names n k, index_of names n = Ok k -> nth_error names k = Some n.
Proof.
  intros names n. induction names as [|m r IH]; intros k H; [discriminate H|]. cbn [index_of] in H. destruct (String.eqb_spec m n) as [->|N].
  - injection H as <-. reflexivity.
  - destruct (index_of r n) as [j|]; [|discriminate H]. cbn [rbind] in H. injection H as <-. apply IH. reflexivity.
Qed.
Lemma freq_back : forall w, 2 * PI * (w / 2 / PI) = w.
Proof. intro w. field. apply PI_neq0. Qed.
Lemma make_single_spec : forall m time v2 sb g i, make_single m time v2 sb g = Ok i -> single_for m time v2 g i.
Proof.
  intros m time v2 sb g i H. unfold make_single in H. destruct (g1_qubit g) as [q|] eqn:G1; [|discriminate H]. cbn [need rbind] in H.
  destruct (dget q m) as [sub|] eqn:D; [|discriminate H]. cbn [need rbind] in H. destruct (g1_name g) as [name|] eqn:G2; [|discriminate H]. cbn [need rbind] in H.
  destruct (index_of (keys m) q) as [k|] eqn:I; [|discriminate H]. cbn [rbind] in H. apply index_of_nth in I.
  assert (P : 0 < time * v2) by (apply (C115_accepted (sub_line sub) (scalar (sub_freq sub) / 2 / PI) time v2 sb (new_instr name [k] time [sub_line sub])); exists i; exact H).
  assert (E : qi_comps (new_instr name [k] time [sub_line sub]) = [(sub_line sub, [])]) by reflexivity.
  destruct (proj2 (quick_spec (sub_line sub) (scalar (sub_freq sub) / 2 / PI) time v2 sb (new_instr name [k] time [sub_line sub]) P) []) as (ps & cs & PP & Q); [rewrite E; cbn [dget]; rewrite String.eqb_refl; reflexivity|].
  rewrite Q in H. injection H as <-. exists q, sub, k, [("gaussian", QEnv ps); ("carrier", QCarrier cs)]. cbn [qi_name qi_targets qi_end qi_comps new_instr fold_left].
  split; [exact G1|]. split; [exact G2|]. split; [exact D|]. split; [reflexivity|]. split; [exact I|]. split; [reflexivity|].
  split; [cbn [dset]; rewrite String.eqb_refl; cbn [dset]; rewrite String.eqb_refl; reflexivity|]. split; [apply dget_dset_same|].
  rewrite <- (freq_back (scalar (sub_freq sub))). eapply pulse_drives. exact PP.
Qed.
Lemma keys_dset_in : forall (d : dict (dict qcomp)) k v c, In c (keys (dset k v d)) -> c = k \/ In c (keys d).
Proof.
  intros d k v c. induction d as [|[k' v'] d IH]; cbn [dset]; intro H.
  - cbn in H. destruct H as [H|[]]. left. symmetry. exact H.
  - destruct (String.eqb_spec k k') as [->|N]; cbn in *; destruct H as [H|H]; auto. destruct (IH H); auto.
Qed.
Lemma make_two_spec : forall m v2 sb g i, make_two m v2 sb g = Ok i -> two_for m v2 g i.
Proof.
  intros m v2 sb g i H. unfold make_two in H. destruct (g2_qubit1 g) as [q1|] eqn:G1; [|discriminate H]. cbn [need rbind] in H.
  destruct (dget q1 m) as [s1|] eqn:D1; [|discriminate H]. cbn [need rbind] in H. destruct (g2_qubit2 g) as [q2|] eqn:G2; [|discriminate H]. cbn [need rbind] in H.
  destruct (dget q2 m) as [s2|] eqn:D2; [|discriminate H]. cbn [need rbind] in H. destruct (g2_name g) as [name|] eqn:G3; [|discriminate H]. cbn [need rbind] in H.
  destruct (index_of (keys m) q1) as [k1|] eqn:I1; [|discriminate H]. cbn [rbind] in H. destruct (index_of (keys m) q2) as [k2|] eqn:I2; [|discriminate H]. cbn [rbind] in H.
  apply index_of_nth in I1, I2. destruct (g2_time g) as [time|] eqn:G4; [|discriminate H]. cbn [need rbind] in H.
  destruct (instr_quick_setup (sub_line s1) _ time v2 sb _) as [i1|] eqn:Q1 in H; [|discriminate H]. cbn [rbind] in H.
  assert (P : 0 < time * v2) by (apply (C115_accepted (sub_line s1) (scalar (sub_freq s1) / 2 / PI) time v2 sb (new_instr name [k1; k2] time [sub_line s1; sub_line s2])); exists i1; exact Q1).
  set (n := new_instr name [k1; k2] time [sub_line s1; sub_line s2]) in *.
  assert (N1 : forall c, c = sub_line s1 \/ c = sub_line s2 -> dget c (qi_comps n) = Some []).
  { intros c K. unfold n, new_instr. cbn [qi_comps fold_left]. destruct (String.eqb_spec c (sub_line s2)) as [->|NE]; [apply dget_dset_same|]. rewrite dget_dset_other by congruence. destruct K as [->|K]; [apply dget_dset_same|congruence]. }
  assert (N2 : forall c, In c (keys (qi_comps n)) -> c = sub_line s1 \/ c = sub_line s2).
  { intros c K. unfold n, new_instr in K. cbn [qi_comps fold_left] in K. apply keys_dset_in in K. destruct K as [K|K]; [right; exact K|]. apply keys_dset_in in K. destruct K as [K|[]]. left. exact K. }
  destruct (proj2 (quick_spec (sub_line s1) (scalar (sub_freq s1) / 2 / PI) time v2 sb n P) [] (N1 _ (or_introl eq_refl))) as (p1 & c1 & PP1 & Q1'). rewrite Q1 in Q1'. injection Q1' as ->.
  destruct (proj1 (C115_accepted _ _ _ _ _ _) (ex_intro _ i H)) as [_ I]. apply dget_in_keys in I. destruct I as [old OLD].
  destruct (proj2 (quick_spec (sub_line s2) (scalar (sub_freq s2) / 2 / PI) time v2 sb _ P) old OLD) as (p2 & c2 & PP2 & Q2). rewrite H in Q2. injection Q2 as ->. cbn [qi_name qi_targets qi_end qi_comps] in *.
  exists q1, q2, s1, s2, k1, k2, time. cbn [qi_name qi_targets qi_end qi_comps].
  split; [exact G1|]. split; [exact G2|]. split; [exact G3|]. split; [exact G4|]. split; [exact D1|]. split; [exact D2|]. split; [reflexivity|]. split; [exact I1|]. split; [exact I2|]. split; [reflexivity|]. split.
  - intros c K. repeat (apply keys_dset_in in K; destruct K as [K|K]; [try (left; exact K); right; exact K|]). apply N2, K.
  - intro NE. rewrite dget_dset_other in OLD by congruence. rewrite dget_dset_other in OLD by congruence. 
    assert (old = []) as -> by (pose proof (N1 _ (or_intror eq_refl)) as NN; change (dget (sub_line s2) (qi_comps n) = Some old) in OLD; rewrite NN in OLD; injection OLD as <-; reflexivity).
    exists [("gaussian", QEnv p1); ("carrier", QCarrier c1)], [("gaussian", QEnv p2); ("carrier", QCarrier c2)].
    split; [rewrite !(dget_dset_other (sub_line s1) (sub_line s2)) by congruence; apply dget_dset_same|]. split; [apply dget_dset_same|]. split.
    + rewrite <- (freq_back (scalar (sub_freq s1))). eapply pulse_drives. exact PP1.
    + rewrite <- (freq_back (scalar (sub_freq s2))). eapply pulse_drives. exact PP2.
Qed.
Lemma each_spec : forall A (f : A -> result qinstr) l is, each f l = Ok is <-> Forall2 (fun a i => f a = Ok i) l is.
Proof.
  intros A f l. induction l as [|a l IH]; intro is; cbn [each].
  - split; intro H; [injection H as <-; constructor|inversion H; reflexivity].
  - split; intro H.
    + destruct (f a) as [i|] eqn:F; [|discriminate H]. cbn [rbind] in H. destruct (each f l) as [r|] eqn:R; [|discriminate H]. cbn [rbind] in H. injection H as <-. constructor; [exact F|apply IH; reflexivity].
    + inversion H as [|x i l' r F R]; subst. rewrite F. cbn [rbind]. apply IH in R. rewrite R. reflexivity.
Qed.
Lemma exists_last_or_nil : forall A (l : list A), l = [] \/ exists l' y, l = l' ++ [y].
Proof. intros A l. destruct l as [|a l]; [left; reflexivity|]. right. destruct (@exists_last A (a :: l)) as (l' & y & E); [discriminate|]. exists l', y. exact E. Qed.
Definition key_of (i : qinstr) : string := get_key (qi_name i) (Some (qi_targets i)).
Lemma last_wins : forall (is : list qinstr) k i, dget k (fold_left (fun d i => dset (key_of i) i d) is []) = Some i <->
  exists pre post, is = pre ++ i :: post /\ key_of i = k /\ Forall (fun j => key_of j <> k) post.
Proof.
  intro is. induction is as [|x is IH] using rev_ind; intros k i.
  - cbn. split; [discriminate|]. intros (pre & post & H & _). destruct pre; discriminate H.
  - rewrite fold_left_app. cbn [fold_left]. destruct (String.eqb_spec k (key_of x)) as [->|N].
    + rewrite dget_dset_same. split.
      * intro H. injection H as ->. exists is, []. split; [reflexivity|]. split; [reflexivity|constructor].
      * intros (pre & post & H & K & F). destruct (exists_last_or_nil _ post) as [->|(post' & y & ->)].
        -- apply app_inj_tail in H. destruct H as [_ ->]. reflexivity.
        -- rewrite app_comm_cons, app_assoc in H. apply app_inj_tail in H. destruct H as [_ <-]. exfalso. rewrite Forall_app in F. destruct F as [_ F]. inversion F; subst. congruence.
    + rewrite dget_dset_other by exact N. rewrite IH. split.
      * intros (pre & post & -> & K & F). exists pre, (post ++ [x]). split; [rewrite <- app_assoc; reflexivity|]. split; [exact K|]. apply Forall_app. split; [exact F|]. constructor; [congruence|constructor].
      * intros (pre & post & H & K & F). destruct (exists_last_or_nil _ post) as [->|(post' & y & ->)].
        -- apply app_inj_tail in H. destruct H as [_ ->]. congruence.
        -- rewrite app_comm_cons, app_assoc in H. apply app_inj_tail in H. destruct H as [-> <-]. exists pre, post'. split; [reflexivity|]. split; [exact K|]. apply Forall_app in F. apply F.
Qed.

Section Setup.
  Variable read_model : string -> result qmodel.
  Variable read_generator : string -> result unit.
  Notation quick_setup := (quick_setup read_model read_generator).

(** The experiment after a quick setup holds exactly the gates of the configuration (of several with one key the last), each on the drive lines of its qubits and resonant with them. *)
Theorem C115_experiment : forall cfg base x x', quick_setup cfg base x = Ok x' ->
  exists mp m gp time v2hz singles twos is1 is2,
    (exists f, qc_model cfg = Some f /\ make_absolute base f = Ok mp) /\ read_model mp = Ok m
    /\ (exists f, qc_generator cfg = Some f /\ make_absolute base f = Ok gp) /\ read_generator gp = Ok tt
    /\ qc_time cfg = Some time /\ qc_v2hz cfg = Some v2hz /\ qc_single cfg = Some singles /\ qc_two cfg = Some twos
    /\ Forall2 (single_for m time v2hz) singles is1 /\ Forall2 (two_for m v2hz) twos is2
    /\ (forall k i, dget k (qx_instrs x') = Some i <-> exists pre post, is1 ++ is2 = pre ++ i :: post /\ get_key (qi_name i) (Some (qi_targets i)) = k
          /\ Forall (fun j => get_key (qi_name j) (Some (qi_targets j)) <> k) post).
Proof.
  intros cfg base x x' H. unfold QuickModel.quick_setup in H. destruct (qc_model cfg) as [mf|]; [|discriminate H]. cbn [need rbind] in H.
  destruct (make_absolute base mf) as [mp|] eqn:M1; [|discriminate H]. cbn [rbind] in H. destruct (read_model mp) as [m|] eqn:M2; [|discriminate H]. cbn [rbind] in H.
  destruct (qc_generator cfg) as [gf|]; [|discriminate H]. cbn [need rbind] in H. destruct (make_absolute base gf) as [gp|] eqn:G1; [|discriminate H]. cbn [rbind] in H.
  destruct (read_generator gp) as [[]|] eqn:G2; [|discriminate H]. cbn [rbind] in H. destruct (qc_time cfg) as [time|]; [|discriminate H]. cbn [need rbind] in H.
  destruct (qc_v2hz cfg) as [v2|]; [|discriminate H]. cbn [need rbind] in H. destruct (qc_single cfg) as [singles|]; [|discriminate H]. cbn [need rbind] in H.
  destruct (each (make_single m time v2 (qc_sideband cfg)) singles) as [is1|] eqn:E1; [|discriminate H]. cbn [rbind] in H. destruct (qc_two cfg) as [twos|]; [|discriminate H]. cbn [need rbind] in H.
  destruct (each (make_two m v2 (qc_sideband cfg)) twos) as [is2|] eqn:E2; [|discriminate H]. cbn [rbind] in H. injection H as <-.
  exists mp, m, gp, time, v2, singles, twos, is1, is2. split; [exists mf; split; [reflexivity|exact M1]|]. split; [exact M2|]. split; [exists gf; split; [reflexivity|exact G1]|]. split; [exact G2|].
  split; [reflexivity|]. split; [reflexivity|]. split; [reflexivity|]. split; [reflexivity|].
  split; [apply each_spec in E1; clear -E1; induction E1; constructor; [eapply make_single_spec; eassumption|assumption]|].
  split; [apply each_spec in E2; clear -E2; induction E2; constructor; [eapply make_two_spec; eassumption|assumption]|].
  intros k i. cbn [qx_instrs]. apply (last_wins (is1 ++ is2) k i).
Qed.

(** A file name is taken relative to the directory of the configuration file, and as it is when that directory is the current one or the name is absolute. *)
Theorem C115_paths : forall dir f, 
  make_absolute (Some dir) f = Ok (if isabs f then f else if String.eqb dir "" then f else (dir ++ "/" ++ f)%string).
Proof.
  intros dir f. unfold make_absolute, path_join. destruct (isabs f); [destruct (negb _); reflexivity|]. destruct dir as [|a d]; reflexivity.
Qed.

(** Finding: without a directory, as run_cfg calls it, an absolute file name raises TypeError. *)
Theorem C115_absolute_refuted : forall cfg x f, qc_model cfg = Some f -> isabs f = true -> quick_setup cfg None x = Err TypeError.
Proof. intros cfg x f H A. unfold QuickModel.quick_setup. rewrite H. cbn [need rbind make_absolute]. rewrite A. reflexivity. Qed.

(** Finding: the propagation method chosen before is replaced by pwc. *)
Theorem C115_method_refuted : forall cfg base x x', quick_setup cfg base x = Ok x' ->
  qx_method x' = "pwc" /\ qx_res x' = 100 * 10 ^ 9 /\ forall y, quick_setup cfg base y = Ok x'.
Proof.
  intros cfg base x x' H. split; [|split; [|intro y; exact H]].
  all: unfold QuickModel.quick_setup in H; repeat match type of H with rbind ?r _ = Ok _ => destruct r; [|discriminate H]; cbn [rbind] in H end; injection H as <-; reflexivity.
Qed.

(** Finding: if the two qubits of a gate share a drive line, the second pulse overwrites the first; the first qubit is not driven at its frequency. *)
Theorem C115_shared_line_refuted : forall m v2hz sb g i q1 q2 s1 s2, make_two m v2hz sb g = Ok i ->
  g2_qubit1 g = Some q1 -> g2_qubit2 g = Some q2 -> dget q1 m = Some s1 -> dget q2 m = Some s2 -> sub_line s1 = sub_line s2 ->
  exists comps time, qi_comps i = [(sub_line s1, comps)] /\ g2_time g = Some time /\ drives comps (scalar (sub_freq s2)) time v2hz /\ length comps = 2%nat.
Proof.
  intros m v2 sb g i q1 q2 s1 s2 H G1 G2 D1 D2 EQ. unfold make_two in H. rewrite G1 in H. cbn [need rbind] in H. rewrite D1 in H. cbn [need rbind] in H. rewrite G2 in H. cbn [need rbind] in H. rewrite D2 in H. cbn [need rbind] in H.
  destruct (g2_name g) as [name|]; [|discriminate H]. cbn [need rbind] in H.
  destruct (index_of (keys m) q1) as [k1|]; [|discriminate H]. cbn [rbind] in H. destruct (index_of (keys m) q2) as [k2|]; [|discriminate H]. cbn [rbind] in H.
  destruct (g2_time g) as [time|]; [|discriminate H]. cbn [need rbind] in H. rewrite <- EQ in H.
  set (n := new_instr name [k1; k2] time [sub_line s1; sub_line s1]) in *.
  assert (QC : qi_comps n = [(sub_line s1, [])]) by (unfold n, new_instr; cbn [qi_comps fold_left dset]; rewrite String.eqb_refl; reflexivity).
  destruct (instr_quick_setup (sub_line s1) _ time v2 sb n) as [i1|] eqn:Q1 in H; [|discriminate H]. cbn [rbind] in H.
  destruct (proj1 (C115_accepted _ _ _ _ _ _) (ex_intro _ i1 Q1)) as [P _].
  destruct (proj2 (quick_spec (sub_line s1) (scalar (sub_freq s1) / 2 / PI) time v2 sb n P) []) as (p1 & c1 & PP1 & Q1'); [rewrite QC; cbn [dget]; rewrite String.eqb_refl; reflexivity|].
  rewrite Q1 in Q1'. injection Q1' as ->. rewrite String.eqb_refl in H.
  match type of H with instr_quick_setup _ _ _ _ _ ?n2 = _ => destruct (proj2 (quick_spec (sub_line s1) (scalar (sub_freq s2) / 2 / PI) time v2 sb n2 P) _ (dget_dset_same _ _ _)) as (p2 & c2 & PP2 & Q2) end. cbn [qi_comps qi_name qi_targets qi_end] in Q2. rewrite Q2 in H. injection H as <-.
  exists [("gaussian", QEnv p2); ("carrier", QCarrier c2)], time. split; [|split; [reflexivity|split; [|reflexivity]]].
  - cbn [qi_comps dset]. rewrite String.eqb_refl. cbn [dset]. rewrite String.eqb_refl. cbn [dset]. rewrite String.eqb_refl. cbn [dset]. rewrite String.eqb_refl. reflexivity.
  - rewrite <- (freq_back (scalar (sub_freq s2))). eapply pulse_drives. exact PP2.
Qed.
End Setup.

(** two qubits at 5 and 6 GHz, with a sideband of 50 MHz: three gates *)
Definition qx_q (f : R) : quantity := mkQ (2 * PI) 0 (2 * PI * (10 * 10 ^ 9)) [2 * f / (10 * 10 ^ 9) - 1] "Hz 2pi" "f".
Definition qx_m : qmodel := [("Q1", mkSub "d1" (qx_q (5 * 10 ^ 9))); ("Q2", mkSub "d2" (qx_q (6 * 10 ^ 9)))].
Definition qx_cfg : qcfg :=
  mkCfg (Some "model.hjson") (Some "gen.hjson") (Some (8 / 10 ^ 9)) (Some (10 ^ 9)) (Some (50 * 10 ^ 6))
    (Some [mkG1 (Some "rx90p") (Some "Q1"); mkG1 (Some "rx90p") (Some "Q2")]) (Some [mkG2 (Some "cr90") (Some "Q1") (Some "Q2") (Some (100 / 10 ^ 9))]).
Lemma qx_works : forall chan f gt sb i, 0 < gt -> In chan (keys (qi_comps i)) -> exists i', instr_quick_setup chan f gt (10 ^ 9) sb i = Ok i' /\ keys (qi_comps i') = keys (qi_comps i) /\ qi_name i' = qi_name i /\ qi_targets i' = qi_targets i.
Proof.
  intros chan f gt sb i G I. assert (P : 0 < gt * 10 ^ 9) by (apply Rmult_lt_0_compat; [exact G|apply pow_lt; lra]).
  apply dget_in_keys in I. destruct I as [c D]. destruct (proj2 (quick_spec chan f gt (10 ^ 9) sb i P) c D) as (ps & cs & _ & Q). eexists. split; [exact Q|]. cbn [qi_comps qi_name qi_targets]. split; [|split; reflexivity].
  assert (K : forall v (d : dict (dict qcomp)), In chan (keys d) -> keys (dset chan v d) = keys d).
  { intros v d. induction d as [|[k w] d IH]; intro H; [destruct H|]. cbn [dset]. destruct (String.eqb_spec chan k) as [->|N]; [reflexivity|]. cbn. f_equal. apply IH. destruct H as [H|H]; [cbn in H; congruence|exact H]. }
  assert (J : In chan (keys (qi_comps i))) by (apply dget_in_keys; exists c; exact D). rewrite !K; [reflexivity|exact J|rewrite K; exact J].
Qed.
Example C115_example :
  exists x', quick_setup (fun p => if String.eqb p "cfg/model.hjson" then Ok qx_m else Err FileNotFound) (fun _ => Ok tt) qx_cfg (Some "cfg") (mkQX 1 "rk4" []) = Ok x'
  /\ keys (qx_instrs x') = ["rx90p[0]"; "rx90p[1]"; "cr90[0, 1]"].
Proof.
  assert (T1 : 0 < 8 / 10 ^ 9) by (apply Rdiv_lt_0_compat; [lra|apply pow_lt; lra]). assert (T2 : 0 < 100 / 10 ^ 9) by (apply Rdiv_lt_0_compat; [lra|apply pow_lt; lra]).
  unfold quick_setup, qx_cfg. cbn [qc_model qc_generator qc_time qc_v2hz qc_sideband qc_single qc_two need rbind]. rewrite !C115_paths. cbn [isabs String.eqb rbind append Ascii.eqb Bool.eqb].
  cbn [each]. unfold make_single. cbn [g1_qubit g1_name need rbind dget qx_m String.eqb Ascii.eqb Bool.eqb keys map fst index_of sub_line].
  destruct (qx_works "d1" (scalar (sub_freq (mkSub "d1" (qx_q (5 * 10 ^ 9)))) / 2 / PI) (8 / 10 ^ 9) (Some (50 * 10 ^ 6)) (new_instr "rx90p" [0%nat] (8 / 10 ^ 9) ["d1"]) T1) as (i1 & E1 & _ & N1 & K1); [left; reflexivity|].
  destruct (qx_works "d2" (scalar (sub_freq (mkSub "d2" (qx_q (6 * 10 ^ 9)))) / 2 / PI) (8 / 10 ^ 9) (Some (50 * 10 ^ 6)) (new_instr "rx90p" [1%nat] (8 / 10 ^ 9) ["d2"]) T1) as (i2 & E2 & _ & N2 & K2); [left; reflexivity|].
  rewrite E1. cbn [rbind]. rewrite E2. cbn [rbind]. unfold make_two. cbn [g2_qubit1 g2_qubit2 g2_name g2_time need rbind dget qx_m String.eqb Ascii.eqb Bool.eqb keys map fst index_of sub_line].
  destruct (qx_works "d1" (scalar (sub_freq (mkSub "d1" (qx_q (5 * 10 ^ 9)))) / 2 / PI) (100 / 10 ^ 9) (Some (50 * 10 ^ 6)) (new_instr "cr90" [0%nat; 1%nat] (100 / 10 ^ 9) ["d1"; "d2"]) T2) as (i3 & E3 & L3 & N3 & K3); [left; reflexivity|].
  destruct (qx_works "d2" (scalar (sub_freq (mkSub "d2" (qx_q (6 * 10 ^ 9)))) / 2 / PI) (100 / 10 ^ 9) (Some (50 * 10 ^ 6)) i3 T2) as (i4 & E4 & _ & N4 & K4); [rewrite L3; right; left; reflexivity|].
  rewrite E3. cbn [rbind]. rewrite E4. cbn [rbind]. eexists. split; [reflexivity|]. cbn [qx_instrs app fold_left]. rewrite N1, N2, N4, N3, K1, K2, K4, K3. reflexivity.
Qed.
Print Assumptions C115_pulse.
Print Assumptions C115_accepted.
Print Assumptions C115_experiment.
Print Assumptions C115_paths.
Print Assumptions C115_absolute_refuted.
Print Assumptions C115_method_refuted.
Print Assumptions C115_shared_line_refuted.
Print Assumptions C115_example.
