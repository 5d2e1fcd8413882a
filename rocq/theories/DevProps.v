(** Devices: time grids (C65), IQ mixing (C66), convolution (C67), step response
    filters (C68), flux and coupling tuning (C69), sample and hold (C87), crosstalk
    (C88), bandwidth limitation (C89), offset and noise devices (C90). *)
From Coq Require Import Reals Lra Lia.
From Coquelicot Require Import Complex.
From Verif Require Import Base QuantityModel Mat MExp RSum Dft OptModel OptProps Erf EnvModel EnvProps DevModel DevProofs.
Local Open Scope list_scope.
Local Open Scope nat_scope.
Local Notation length := List.length.

(** ** C65 Time grids *)

(** If the duration is [n] >= 1 slices of length dt = 1/resolution, the centred grid
    consists of the [n] slice centres. *)
Theorem C65_centres : forall res t0 t1 n, (0 < res)%R -> (t1 - t0 = INR n / res)%R -> 1 <= n ->
  exists ts, create_ts res t0 t1 true = Ok ts /\ length ts = n /\
    forall i, i < n -> nth i ts 0%R = (t0 + (INR i + 1 / 2) * (1 / res))%R.
Proof.
  intros res t0 t1 n Hr Hd Hn. unfold create_ts. destruct Req_EM_T as [Q|_]; [lra|]. rewrite (slices_exact res t0 t1 n Hr Hd).
  rewrite tf_linspace_ok by lia. eexists. split; [reflexivity|]. split; [apply linspace_len|].
  intros i Hi. rewrite linspace_nth by exact Hi. destruct (Nat.eq_dec n 1) as [->|Q].
  - assert (i = 0) by lia. subst i. cbn [INR]. unfold Rdiv. ring.
  - assert (E : t1 = (t0 + INR n / res)%R) by lra. rewrite E. rewrite minus_INR by lia. cbn [INR]. assert (2 <= INR n)%R by (change 2%R with (INR 2); apply le_INR; lia).
    field. split; lra.
Qed.
Print Assumptions C65_centres.

(** Uncentred: the [n]+1 slice edges. *)
Theorem C65_edges : forall res t0 t1 n, (0 < res)%R -> (t1 - t0 = INR n / res)%R ->
  exists ts, create_ts res t0 t1 false = Ok ts /\ length ts = n + 1 /\
    forall i, i <= n -> nth i ts 0%R = (t0 + INR i * (1 / res))%R.
Proof.
  intros res t0 t1 n Hr Hd. unfold create_ts. destruct Req_EM_T as [Q|_]; [lra|]. rewrite (slices_exact res t0 t1 n Hr Hd).
  rewrite tf_linspace_ok by lia. eexists. split; [reflexivity|]. split; [apply linspace_len|].
  intros i Hi. rewrite linspace_nth by lia. replace (n + 1 - 1) with n by lia. destruct (Nat.eq_dec n 0) as [->|Q].
  - assert (i = 0) by lia. subst i. cbn [INR]. unfold Rdiv. ring.
  - assert (E : t1 = (t0 + INR n / res)%R) by lra. rewrite E. assert (0 < INR n)%R by (apply lt_0_INR; lia). field. split; lra.
Qed.
Print Assumptions C65_edges.

(** In general (start before end, at least two slices): the grid starts half a slice
    after the start, ends half a slice before the end, is strictly increasing with
    equal steps, and the step is at least dt and less than dt (1 + 1/(n-1)); it is
    dt exactly if the duration is a whole number of slices. *)
Theorem C65_general : forall res t0 t1, (0 < res)%R -> (2 <= (t1 - t0) * res)%R ->
  let n := calc_slice_num res t0 t1 in let dt := (1 / res)%R in
  2 <= n /\ (INR n <= (t1 - t0) * res < INR n + 1)%R /\
  exists ts step, create_ts res t0 t1 true = Ok ts /\ length ts = n /\
    nth 0 ts 0%R = (t0 + dt / 2)%R /\ nth (n - 1) ts 0%R = (t1 - dt / 2)%R /\
    (forall i, i + 1 < n -> (nth (i + 1) ts 0 - nth i ts 0 = step)%R) /\
    (dt <= step < dt * (1 + / INR (n - 1)))%R /\ (step = dt <-> ((t1 - t0) * res)%R = INR n).
Proof.
  intros res t0 t1 Hr Hd n dt. assert (Pos : (0 < t1 - t0)%R) by (apply Rmult_lt_reg_r with res; lra).
  assert (Fl : (INR n <= (t1 - t0) * res < INR n + 1)%R).
  { unfold n, calc_slice_num. rewrite Rabs_left1 by lra. replace (- (t0 - t1))%R with (t1 - t0)%R by ring. apply floor_nat_spec. lra. }
  assert (N2 : 2 <= n). { destruct n as [|[|k]]; [cbn in Fl; lra|cbn in Fl; lra|lia]. }
  split; [exact N2|]. split; [exact Fl|].
  assert (N1 : (1 <= INR (n - 1))%R) by (change 1%R with (INR 1); apply le_INR; lia).
  assert (EN : INR n = (INR (n - 1) + 1)%R) by (rewrite <- S_INR; f_equal; lia).
  assert (Dt : (0 < dt)%R) by (unfold dt; apply Rdiv_lt_0_compat; lra).
  assert (Dr : (dt * res = 1)%R) by (unfold dt; field; lra).
  exists (linspace (t0 + dt / 2) (t1 - dt / 2) n), ((t1 - dt / 2 - (t0 + dt / 2)) / INR (n - 1))%R.
  split; [unfold create_ts; destruct Req_EM_T as [Q|_]; [lra|]; fold n; fold dt; apply tf_linspace_ok; lia|].
  split; [apply linspace_len|]. split; [rewrite linspace_nth by lia; cbn [INR]; ring|].
  split; [rewrite linspace_nth by lia; field; lra|].
  split; [intros i Hi; rewrite !linspace_nth by lia; rewrite plus_INR; cbn [INR]; ring|].
  set (T := (t1 - t0)%R) in *. assert (Es : ((t1 - dt / 2 - (t0 + dt / 2)) = T - dt)%R) by (unfold T; field). rewrite Es. clear Es.
  assert (K : (T = (T * res) * dt)%R) by (rewrite Rmult_assoc, (Rmult_comm res), Dr; ring). set (m := INR (n - 1)) in *. set (y := (T * res)%R) in *.
  assert (Estep : ((T - dt) / m = dt * ((y - 1) / m))%R) by (rewrite K; field; lra). rewrite Estep.
  assert (B : (1 <= (y - 1) / m < 1 + / m)%R).
  { split; [apply Rmult_le_reg_r with m; [lra|]; unfold Rdiv; rewrite Rmult_assoc, Rinv_l by lra; lra|].
    apply Rmult_lt_reg_r with m; [lra|]. unfold Rdiv. rewrite Rmult_assoc, Rinv_l, Rmult_plus_distr_r, Rinv_l by lra. lra. }
  split; [split; [rewrite <- (Rmult_1_r dt) at 1; apply Rmult_le_compat_l; lra|apply Rmult_lt_compat_l; lra]|].
  split; intro H.
  - assert (((y - 1) / m)%R = 1%R) by (apply Rmult_eq_reg_l with dt; lra).
    assert (((y - 1) / m * m)%R = m) by (rewrite H0; ring). unfold Rdiv in H1. rewrite Rmult_assoc, Rinv_l in H1 by lra. lra.
  - replace (y - 1)%R with m by lra. unfold Rdiv. rewrite Rinv_r by lra. ring.
Qed.
Print Assumptions C65_general.

(** Shorter than one slice: no grid. *)
Theorem C65_too_short : forall res t0 t1, (0 < res)%R -> (Rabs (t0 - t1) * res < 1)%R ->
  create_ts res t0 t1 true = Err ValueError.
Proof.
  intros res t0 t1 Hr H. unfold create_ts. destruct Req_EM_T as [Q|_]; [lra|].
  assert (E : calc_slice_num res t0 t1 = 0).
  { unfold calc_slice_num. assert (P : (0 <= Rabs (t0 - t1) * res)%R) by (apply Rmult_le_pos; [apply Rabs_pos|lra]).
    pose proof (floor_nat_spec _ P) as [A _]. destruct floor_nat; [reflexivity|]. rewrite S_INR in A. pose proof (pos_INR n). lra. }
  rewrite E. reflexivity.
Qed.
Print Assumptions C65_too_short.

(** "The step is always 1/resolution" fails: 5/2 slices give 2 points, 3/2 slices apart. *)
Theorem C65_step_refuted : exists ts, create_ts 1 0 (5 / 2) true = Ok ts /\ length ts = 2 /\ (nth 1 ts 0 - nth 0 ts 0 = 3 / 2)%R.
Proof.
  destruct (C65_general 1 0 (5 / 2)) as (N2 & Fl & ts & step & E & L & F & La & St & _); [lra|lra|].
  assert (En : calc_slice_num 1 0 (5 / 2) = 2).
  { destruct (le_lt_dec 3 (calc_slice_num 1 0 (5 / 2))) as [H|H]; [|lia]. apply le_INR in H. cbn [INR] in H. lra. }
  exists ts. split; [exact E|]. rewrite En in *. split; [exact L|]. cbn [Nat.sub] in La. rewrite La, F. field.
Qed.
Print Assumptions C65_step_refuted.
Example C65_example : exists ts, create_ts 2 1 3 true = Ok ts /\ length ts = 4 /\ nth 3 ts 0%R = (11 / 4)%R.
Proof.
  destruct (C65_centres 2 1 3 4) as (ts & E & L & N); [lra|cbn; lra|lia|]. exists ts. split; [exact E|]. split; [exact L|].
  rewrite N by lia. cbn. lra.
Qed.

(** ** C66 IQ mixing *)
Definition rsuml (l : list R) : R := fold_right Rplus 0%R l.
(** Phase of an envelope at time [t] of the instruction. *)
Definition env_phase (e : awg_env) (t : R) : R := (a_angle e - a_foff e * (t - a_start e))%R.
(** [vs] are the envelope values on the grid. *)
Definition shapes_are (ts : list R) (envs : list awg_env) (vs : list (list C)) : Prop :=
  Forall2 (fun e v => a_shape e (map (fun t => (t - a_start e)%R) ts) (a_end e - a_start e)%R = Ok v /\ length v = length ts) envs vs.
Definition csuml (l : list C) : C := fold_right Cplus (RtoC 0) l.

Lemma awg_fold : forall ts envs vs acc, shapes_are ts envs vs -> length acc = length ts ->
  exists s, fold_left (awg_add ts) envs (Ok acc) = Ok s /\ length s = length ts /\
    forall j, j < length ts -> nth j s (RtoC 0) =
      (nth j acc (RtoC 0) + csuml (map (fun ev => RtoC (a_amp (fst ev)) * nth j (snd ev) (RtoC 0) * expi (env_phase (fst ev) (nth j ts 0%R)))%C (combine envs vs)))%C.
Proof.
  intros ts envs. induction envs as [|e envs IH]; intros vs acc H L; inversion H; subst.
  - exists acc. split; [reflexivity|]. split; [exact L|]. intros j Hj. cbn. ring.
  - destruct H2 as [Ev Lv]. cbn [fold_left combine map csuml fold_right fst snd]. unfold awg_add at 2. cbn [rbind]. rewrite Ev. cbn [rbind].
    rewrite ew_same by (rewrite !map_length; exact Lv). cbn [rbind].
    match goal with |- context [elementwise Cplus acc ?z] => set (add := z) end.
    assert (La : length add = length ts) by (unfold add; rewrite ew_len by (rewrite !map_length; exact Lv); rewrite map_length; exact Lv).
    rewrite ew_same by lia. match goal with |- context [fold_left _ _ (Ok ?z)] => set (acc' := z) end.
    assert (La' : length acc' = length ts) by (unfold acc'; rewrite ew_len by lia; exact L).
    destruct (IH l' acc' H4 La') as (s & Es & Ls & N). exists s. split; [exact Es|]. split; [exact Ls|].
    intros j Hj. rewrite (N j Hj). unfold acc'. rewrite (ew_nth Cplus acc add (RtoC 0) (RtoC 0)) by lia.
    unfold add. rewrite (ew_nth Cmult _ _ (RtoC 0) (RtoC 0)) by (rewrite !map_length; lia).
    rewrite (nth_map_d _ y j (RtoC 0)) by lia. rewrite map_map, (nth_map_d _ (map _ ts) j 0%R) by (rewrite map_length; exact Hj).
    rewrite (nth_map_d _ ts j 0%R) by exact Hj. unfold env_phase, csuml. ring.
Qed.

Lemma fst_csuml : forall l, fst (csuml l) = rsuml (map fst l).
Proof. induction l as [|x l IH]; [reflexivity|]. unfold rsuml, csuml in *. cbn [map fold_right]. rewrite <- IH. reflexivity. Qed.
Lemma csuml_mul : forall l c, (csuml l * c)%C = csuml (map (fun x => x * c)%C l).
Proof. induction l as [|x l IH]; intro c; unfold csuml in *; cbn [map fold_right]; [ring|]. rewrite <- IH. ring. Qed.
Lemma mix_re : forall (z : C) th, (cos th * fst z + sin th * snd z = fst (Cmult z (expi (- th))))%R.
Proof. intros [x y] th. unfold expi, Cmult. cbn. rewrite cos_neg, sin_neg. ring. Qed.

(** The mixer output of an LO at frequency [w] and the AWG: at each time the real
    part of the sum of all envelopes, each rotating with its phase minus w t. *)
Theorem C66_mixed : forall prev res t0 t1 w envs ts vs,
  create_ts res t0 t1 true = Ok ts -> 2 <= length ts -> shapes_are ts envs vs ->
  exists lo a out, lo_process prev res t0 t1 [w] = Ok lo /\ create_IQ res t0 t1 envs = Ok a /\ mixer lo a = Ok out /\
    v_ts out = ts /\ length (v_values out) = length ts /\
    forall j, j < length ts -> nth j (v_values out) 0%R =
      rsuml (map (fun ev => a_amp (fst ev) * fst (Cmult (nth j (snd ev) (RtoC 0)) (expi (env_phase (fst ev) (nth j ts 0) - w * nth j ts 0))))%R (combine envs vs)).
Proof.
  intros prev res t0 t1 w envs ts vs Ht L2 Sh.
  destruct (awg_fold ts envs vs (map (fun _ => RtoC 0) ts) Sh ltac:(apply map_length)) as (s & Es & Ls & N).
  unfold lo_process, create_IQ, awg_signal. rewrite Ht. cbn [rbind fold_left]. destruct (Nat.ltb_spec (length ts) 2) as [Q|_]; [lia|].
  rewrite Es. cbn [rbind].
  set (co := map (fun t => cos (w * t)) ts). set (si := map (fun t => sin (w * t)) ts).
  assert (Lc : length co = length (map fst s)) by (unfold co; rewrite !map_length; symmetry; exact Ls).
  assert (Lsi : length si = length (map snd s)) by (unfold si; rewrite !map_length; symmetry; exact Ls).
  set (A := map (fun xy => (fst xy * snd xy)%R) (combine co (map fst s))). set (B := map (fun xy => (fst xy * snd xy)%R) (combine si (map snd s))).
  assert (LA : length A = length ts) by (unfold A; rewrite ew_len by exact Lc; apply map_length).
  assert (LB : length B = length ts) by (unfold B; rewrite ew_len by exact Lsi; apply map_length).
  exists (mkIQ co si ts), (mkIQ (map fst s) (map snd s) ts), (mkV (map (fun xy => (fst xy + snd xy)%R) (combine A B)) ts).
  split; [reflexivity|]. split; [reflexivity|]. split.
  { unfold mixer. cbn [iq_i iq_q iq_ts]. rewrite (ew_same Rmult co) by exact Lc. cbn [rbind]. rewrite (ew_same Rmult si) by exact Lsi. cbn [rbind].
    rewrite ew_same by (fold A B; lia). reflexivity. }
  cbn [v_ts v_values]. split; [reflexivity|]. split; [rewrite ew_len by lia; exact LA|].
  intros j Hj. rewrite (ew_nth Rplus A B 0%R 0%R) by lia. unfold A, B.
  rewrite (ew_nth Rmult co (map fst s) 0%R 0%R) by (try exact Lc; unfold co; rewrite map_length; exact Hj). rewrite (ew_nth Rmult si (map snd s) 0%R 0%R) by (try exact Lsi; unfold si; rewrite map_length; exact Hj).
  unfold co, si.
  rewrite !(nth_map_d _ ts j 0%R) by exact Hj. assert (Hjs : j < @length (R * R) s) by (apply (Nat.lt_le_trans _ _ _ Hj); rewrite <- Ls; apply le_n).
  rewrite (nth_map_d fst s j (RtoC 0)), (nth_map_d snd s j (RtoC 0)) by exact Hjs.
  etransitivity; [exact (mix_re (nth j s (RtoC 0)) (w * nth j ts 0)%R)|]. rewrite (N j Hj), (nth_map_d _ ts j 0%R) by exact Hj. rewrite Cplus_0_l, csuml_mul, fst_csuml, !map_map.
  f_equal. apply map_ext. intros [e v]. cbn [fst snd].
  set (p := env_phase e (nth j ts 0%R)). set (q := (w * nth j ts 0)%R). set (z := nth j v (RtoC 0)).
  replace (RtoC (a_amp e) * z * expi p * expi (Ropp q))%C with (RtoC (a_amp e) * (z * expi (Rminus p q)))%C.
  - destruct (z * expi (Rminus p q))%C as [x y]. cbn. ring.
  - unfold Rminus. rewrite expi_add. ring.
Qed.
Print Assumptions C66_mixed.

(** For real envelopes this is the textbook form: a sum of amp * env * cos of
    (carrier plus offset) phase minus xy_angle. *)
Theorem C66_cosine_form : forall prev res t0 t1 w envs ts rs0,
  create_ts res t0 t1 true = Ok ts -> 2 <= length ts -> shapes_are ts envs (map (map RtoC) rs0) ->
  exists lo a out, lo_process prev res t0 t1 [w] = Ok lo /\ create_IQ res t0 t1 envs = Ok a /\ mixer lo a = Ok out /\
    forall j, j < length ts -> let t := nth j ts 0%R in
      nth j (v_values out) 0%R =
      rsuml (map (fun er => a_amp (fst er) * nth j (snd er) 0 *
                            cos ((w * t + a_foff (fst er) * (t - a_start (fst er))) - a_angle (fst er)))%R (combine envs rs0)).
Proof.
  intros prev res t0 t1 w envs ts rs0 Ht L2 Sh.
  destruct (C66_mixed prev res t0 t1 w envs ts _ Ht L2 Sh) as (lo & a & out & E1 & E2 & E3 & _ & _ & N).
  exists lo, a, out. split; [exact E1|]. split; [exact E2|]. split; [exact E3|]. intros j Hj t. rewrite (N j Hj). fold t.
  clear. revert rs0. induction envs as [|e envs IH]; intros [|r rs0]; cbn [combine map]; try reflexivity.
  unfold rsuml in *. cbn [fold_right]. f_equal; [|apply IH]. cbn [fst snd]. rewrite nth_RtoC. unfold env_phase, expi, Cmult, RtoC. cbn [fst snd].
  replace (w * t + a_foff e * (t - a_start e) - a_angle e)%R with (- (a_angle e - a_foff e * (t - a_start e) - w * t))%R by ring. rewrite cos_neg. ring.
Qed.
Print Assumptions C66_cosine_form.

(** Bounded by the sum of the magnitudes. *)
Lemma rsuml_abs : forall {A} (l : list A) f g, (forall x, In x l -> (Rabs (f x) <= g x)%R) -> (Rabs (rsuml (map f l)) <= rsuml (map g l))%R.
Proof.
  intros A l f g H. induction l as [|x l IH]; cbn; [rewrite Rabs_R0; lra|].
  eapply Rle_trans; [apply Rabs_triang|]. apply Rplus_le_compat; [apply H; left; reflexivity|apply IH; intros y Hy; apply H; right; exact Hy].
Qed.
Theorem C66_bounded : forall prev res t0 t1 w envs ts vs lo a out j,
  create_ts res t0 t1 true = Ok ts -> 2 <= length ts -> shapes_are ts envs vs ->
  lo_process prev res t0 t1 [w] = Ok lo -> create_IQ res t0 t1 envs = Ok a -> mixer lo a = Ok out -> j < length ts ->
  (Rabs (nth j (v_values out) 0) <= rsuml (map (fun ev => Rabs (a_amp (fst ev)) * Cmod (nth j (snd ev) (RtoC 0)))%R (combine envs vs)))%R.
Proof.
  intros prev res t0 t1 w envs ts vs lo a out j Ht L2 Sh E1 E2 E3 Hj.
  destruct (C66_mixed prev res t0 t1 w envs ts vs Ht L2 Sh) as (lo' & a' & out' & F1 & F2 & F3 & _ & _ & N).
  assert (lo' = lo) by congruence. assert (a' = a) by congruence. subst lo' a'. assert (out' = out) by congruence. subst out'.
  rewrite (N j Hj). apply rsuml_abs. intros [e v] _. cbn [fst snd]. rewrite Rabs_mult. apply Rmult_le_compat_l; [apply Rabs_pos|].
  eapply Rle_trans; [eapply Rle_trans; [apply Rmax_l|apply Rmax_Cmod]|]. rewrite Cmod_mult, expi_mod. lra.
Qed.
Print Assumptions C66_bounded.

(** Superposition: the output of two lists of envelopes is the sum of the outputs,
    and scaling all amplitudes scales the output. *)
Definition scale_env (c : R) (e : awg_env) : awg_env := mkAE (c * a_amp e) (a_angle e) (a_foff e) (a_start e) (a_end e) (a_shape e).
Lemma rsuml_app : forall l m, rsuml (l ++ m) = (rsuml l + rsuml m)%R.
Proof. unfold rsuml. induction l as [|x l IH]; intro m; cbn [app fold_right]; [ring|]. rewrite IH. ring. Qed.
Lemma rsuml_scale : forall c l, rsuml (map (fun x => (c * x)%R) l) = (c * rsuml l)%R.
Proof. unfold rsuml. intros c l. induction l as [|x l IH]; cbn [map fold_right]; [ring|]. rewrite IH. ring. Qed.
Theorem C66_linear : forall prev res t0 t1 w e1 e2 c ts vs1 vs2,
  create_ts res t0 t1 true = Ok ts -> 2 <= length ts -> shapes_are ts e1 vs1 -> shapes_are ts e2 vs2 ->
  exists lo a1 a2 a12 o1 o2 o12, lo_process prev res t0 t1 [w] = Ok lo /\
    create_IQ res t0 t1 e1 = Ok a1 /\ create_IQ res t0 t1 e2 = Ok a2 /\
    create_IQ res t0 t1 (map (scale_env c) e1 ++ e2) = Ok a12 /\
    mixer lo a1 = Ok o1 /\ mixer lo a2 = Ok o2 /\ mixer lo a12 = Ok o12 /\
    forall j, j < length ts -> nth j (v_values o12) 0%R = (c * nth j (v_values o1) 0 + nth j (v_values o2) 0)%R.
Proof.
  intros prev res t0 t1 w e1 e2 c ts vs1 vs2 Ht L2 S1 S2.
  assert (S1c : shapes_are ts (map (scale_env c) e1) vs1).
  { clear -S1. unfold shapes_are in *. induction S1; cbn; constructor; assumption. }
  assert (S12 : shapes_are ts (map (scale_env c) e1 ++ e2) (vs1 ++ vs2)) by (apply Forall2_app; assumption).
  destruct (C66_mixed prev res t0 t1 w e1 ts vs1 Ht L2 S1) as (lo & a1 & o1 & E1 & A1 & M1 & _ & _ & N1).
  destruct (C66_mixed prev res t0 t1 w e2 ts vs2 Ht L2 S2) as (lo2 & a2 & o2 & E2 & A2 & M2 & _ & _ & N2).
  destruct (C66_mixed prev res t0 t1 w _ ts _ Ht L2 S12) as (lo3 & a12 & o12 & E3 & A12 & M12 & _ & _ & N12).
  assert (lo2 = lo) by congruence. assert (lo3 = lo) by congruence. subst lo2 lo3.
  exists lo, a1, a2, a12, o1, o2, o12. repeat (split; [assumption|]). intros j Hj. rewrite (N1 j Hj), (N2 j Hj), (N12 j Hj).
  assert (Lv : length (map (scale_env c) e1) = length vs1) by (rewrite map_length; clear -S1; unfold shapes_are in S1; induction S1; cbn; congruence).
  assert (Hc : forall {A B} (a : list A) (b : list B) a' b', length a = length b -> combine (a ++ a') (b ++ b') = combine a b ++ combine a' b').
  { intros A B a. induction a as [|x a IH]; intros [|y b] a' b' H; cbn in *; try discriminate; [reflexivity|]. f_equal. apply IH. lia. }
  rewrite Hc by exact Lv. rewrite map_app, rsuml_app. f_equal. rewrite <- rsuml_scale, map_map.
  clear. revert vs1. induction e1 as [|e e1 IH]; intros [|v vs1]; cbn [map combine]; try reflexivity.
  unfold rsuml in *. cbn [fold_right]. f_equal; [|apply IH]. cbn [fst snd scale_env a_amp]. unfold env_phase. cbn. ring.
Qed.
Print Assumptions C66_linear.

(** A channel without a carrier should be refused; once the oscillator has been
    used, it silently replays its previous signal instead. *)
Theorem C66_stale_lo_refuted : forall res t0 t1 ts prev,
  create_ts res t0 t1 true = Ok ts -> 2 <= length ts ->
  lo_process None res t0 t1 [] = Err C3Error /\ lo_process (Some prev) res t0 t1 [] = Ok prev.
Proof.
  intros res t0 t1 ts prev H L. unfold lo_process. rewrite H. cbn [rbind]. destruct (Nat.ltb_spec (length ts) 2); [lia|]. split; reflexivity.
Qed.
Print Assumptions C66_stale_lo_refuted.
(** Of several carriers only the last one counts. *)
Theorem C66_last_carrier_refuted : forall prev res t0 t1 ws w,
  lo_process prev res t0 t1 (ws ++ [w]) = lo_process None res t0 t1 [w].
Proof.
  intros. unfold lo_process. destruct (create_ts res t0 t1 true); [|reflexivity]. cbn [rbind]. destruct Nat.ltb; [reflexivity|]. rewrite fold_left_app. reflexivity.
Qed.
Print Assumptions C66_last_carrier_refuted.
Example C66_example : exists ts, create_ts 1 0 4 true = Ok ts /\ 2 <= length ts /\
  shapes_are ts [mkAE 2 (PI / 2) 3 0 4 (fun l _ => Ok (map (fun _ => RtoC 1) l))] (map (map RtoC) [[1; 1; 1; 1]%R]).
Proof.
  destruct (C65_centres 1 0 4 4) as (ts & E & L & _); [lra|cbn; lra|lia|]. exists ts. split; [exact E|]. split; [lia|].
  destruct ts as [|a [|b [|c [|d [|x ts]]]]]; try discriminate. constructor; [|constructor]. split; reflexivity.
Qed.

(** ** C67 Convolution *)

(** tf_convolve is the causal linear convolution, cut to the length of the signal. *)
Theorem C67_convolution : forall sig resp,
  length (tf_convolve sig resp) = length sig /\
  forall n, n < length sig ->
    nth n (tf_convolve sig resp) (RtoC 0) = csum (S n) (fun k => (nth k resp (RtoC 0) * nth (n - k) sig (RtoC 0))%C).
Proof. intros sig resp. split; [apply tf_convolve_len|]. intros n H. apply tf_convolve_nth, H. Qed.
Print Assumptions C67_convolution.
(** The unit impulse is neutral. *)
Theorem C67_impulse : forall sig m, tf_convolve sig (RtoC 1 :: zeros m) = sig.
Proof.
  intros sig m. apply (nth_ext _ _ (RtoC 0) (RtoC 0)); [apply tf_convolve_len|]. intros n H. rewrite tf_convolve_len in H.
  rewrite tf_convolve_nth by exact H. unfold conv_at. rewrite csum_head. cbn [nth]. rewrite Nat.sub_0_r.
  rewrite csum_0; [ring|]. intros i _. rewrite nth_zeros. ring.
Qed.
Print Assumptions C67_impulse.
(** Causal: the first samples of the output depend on the first samples only. *)
Theorem C67_causal : forall sig sig' resp n, n < length sig -> n < length sig' ->
  firstn (S n) sig = firstn (S n) sig' -> nth n (tf_convolve sig resp) (RtoC 0) = nth n (tf_convolve sig' resp) (RtoC 0).
Proof.
  intros sig sig' resp n H H' E. rewrite !tf_convolve_nth by assumption. unfold conv_at. apply csum_ext. intros k Hk. f_equal.
  rewrite <- (nth_firstn_lt sig (S n)), <- (nth_firstn_lt sig' (S n)) by lia. rewrite E. reflexivity.
Qed.
Print Assumptions C67_causal.
(** A delayed signal gives the delayed output. *)
Theorem C67_delay : forall sig resp d, tf_convolve (zeros d ++ sig) resp = zeros d ++ tf_convolve sig resp.
Proof.
  intros sig resp d. assert (Lz : length (zeros d) = d) by apply repeat_length.
  apply (nth_ext _ _ (RtoC 0) (RtoC 0)); [rewrite tf_convolve_len, !app_length, tf_convolve_len; reflexivity|].
  intros n H. rewrite tf_convolve_len, app_length, Lz in H. rewrite tf_convolve_nth by (rewrite app_length; lia). unfold conv_at.
  destruct (le_lt_dec d n) as [Q|Q].
  - rewrite app_nth2 by lia. rewrite Lz. rewrite tf_convolve_nth by lia. unfold conv_at. rewrite (csum_tail0 (S (n - d)) (S n)) by (try lia; intros i Hi1 Hi2; rewrite app_nth1 by lia; rewrite nth_zeros; ring).
    apply csum_ext. intros k Hk. f_equal. rewrite app_nth2 by lia. f_equal. lia.
  - rewrite (app_nth1 (zeros d)) by lia. rewrite nth_zeros. apply csum_0. intros k Hk. rewrite app_nth1 by lia. rewrite nth_zeros. ring.
Qed.
Print Assumptions C67_delay.
(** Linear in the signal and in the response. *)
Definition lincomb (c : C) (a b : list C) : list C := map (fun xy => (c * fst xy + snd xy)%C) (combine a b).
Lemma lincomb_nth : forall c a b n, length a = length b -> nth n (lincomb c a b) (RtoC 0) = (c * nth n a (RtoC 0) + nth n b (RtoC 0))%C.
Proof.
  intros c a b n H. unfold lincomb. destruct (le_lt_dec (length a) n) as [Q|Q].
  - rewrite !nth_overflow by (rewrite ?map_length, ?combine_length; lia). ring.
  - rewrite (ew_nth (fun x y => (c * x + y)%C) a b (RtoC 0) (RtoC 0)) by assumption. reflexivity.
Qed.
Theorem C67_bilinear : forall c s s' r r', length s = length s' -> length r = length r' ->
  tf_convolve (lincomb c s s') r = lincomb c (tf_convolve s r) (tf_convolve s' r) /\
  tf_convolve s (lincomb c r r') = lincomb c (tf_convolve s r) (tf_convolve s r').
Proof.
  intros c s s' r r' H H'. assert (Ll : forall a b, length a = length b -> length (lincomb c a b) = length a).
  { intros a b Hab. unfold lincomb. rewrite map_length, combine_length. lia. }
  split; apply (nth_ext _ _ (RtoC 0) (RtoC 0)).
  - rewrite tf_convolve_len, !Ll by (rewrite ?tf_convolve_len; exact H). rewrite tf_convolve_len. reflexivity.
  - intros n Hn. rewrite tf_convolve_len, Ll in Hn by exact H. rewrite tf_convolve_nth by (rewrite Ll by exact H; exact Hn).
    rewrite lincomb_nth by (rewrite !tf_convolve_len; exact H). rewrite !tf_convolve_nth by lia. unfold conv_at.
    rewrite <- csum_scale, <- csum_plus. apply csum_ext. intros k _. rewrite lincomb_nth by exact H. ring.
  - rewrite tf_convolve_len, !Ll by (rewrite ?tf_convolve_len; reflexivity). rewrite tf_convolve_len. reflexivity.
  - intros n Hn. rewrite tf_convolve_len in Hn. rewrite tf_convolve_nth by exact Hn.
    rewrite lincomb_nth by (rewrite !tf_convolve_len; reflexivity). rewrite !tf_convolve_nth by exact Hn. unfold conv_at.
    rewrite <- csum_scale, <- csum_plus. apply csum_ext. intros k _. rewrite lincomb_nth by exact H'. ring.
Qed.
Print Assumptions C67_bilinear.
(** The legacy version delivers the same convolution one sample late: its first
    output is 0 and the last sample of the convolution is lost. *)
Theorem C67_legacy_late_refuted : forall sig resp, resp <> [] ->
  length (tf_convolve_legacy sig resp) = length sig /\
  (sig <> [] -> nth 0 (tf_convolve_legacy sig resp) (RtoC 0) = RtoC 0) /\
  forall n, S n < length sig -> nth (S n) (tf_convolve_legacy sig resp) (RtoC 0) = nth n (tf_convolve sig resp) (RtoC 0).
Proof.
  intros sig resp Hr. split; [apply legacy_len, Hr|]. split.
  - intro Hs. assert (0 < length sig) by (destruct sig; [contradiction|cbn; lia]). rewrite legacy_nth by assumption. reflexivity.
  - intros n H. rewrite legacy_nth by assumption. rewrite tf_convolve_nth by lia. reflexivity.
Qed.
Print Assumptions C67_legacy_late_refuted.
Example C67_example : nth 2 (tf_convolve (map RtoC [1; 2; 3]%R) (map RtoC [10; 1]%R)) (RtoC 0) = RtoC 32.
Proof. rewrite tf_convolve_nth by (cbn; lia). rewrite conv_real. unfold rconv_at. cbn. f_equal. ring. Qed.

(** ** C68 Step response filters *)
Lemma impulse_nth : forall st k, k < length st -> nth k (impulse_response st) 0%R = (nth k st 0 - match k with 0 => 0 | S j => nth j st 0 end)%R.
Proof.
  intros st k H. unfold impulse_response.
  assert (E : forall (a b : list R) i, i < length a -> length a <= length b -> nth i (map (fun xy => (fst xy - snd xy)%R) (combine a b)) 0%R = (nth i a 0 - nth i b 0)%R).
  { induction a as [|x a IH]; intros [|y b] [|i] Hi Hl; cbn in Hi, Hl; try (exfalso; lia); [reflexivity|]. cbn. apply IH; lia. }
  rewrite E by (cbn; lia). destruct k; reflexivity.
Qed.
Lemma impulse_sum : forall st n, n < length st -> rs (S n) (fun k => nth k (impulse_response st) 0%R) = nth n st 0%R.
Proof.
  intros st n. induction n as [|n IH]; intro H.
  - cbn [rs]. rewrite impulse_nth by exact H. ring.
  - cbn [rs] in *. rewrite IH by lia. rewrite impulse_nth by exact H. ring.
Qed.
(** A constant input gives the constant times the step response; more generally an
    input that jumps from 0 to [c] at sample [m] gives the step response delayed by
    [m] samples. *)
Theorem C68_step : forall step ts c m n, length (step ts) = length ts -> m + n < length ts ->
  let sig := repeat 0%R m ++ repeat c (length ts - m) in
  nth (m + n) (step_filter1 step ts sig) 0%R = (c * nth n (step ts) 0)%R.
Proof.
  intros step ts c m n L H sig. assert (Ls : length sig = length ts) by (unfold sig; rewrite app_length, !repeat_length; lia).
  unfold step_filter1. rewrite real_convolve_nth by lia. unfold rconv_at.
  replace (S (m + n)) with (S n + m) by lia. rewrite rs_app.
  rewrite (rs_0 m).
  2:{ intros i Hi. unfold sig. rewrite app_nth1 by (rewrite repeat_length; lia). rewrite nth_repeat. ring. }
  rewrite Rplus_0_r. rewrite (rs_ext (S n) _ (fun k => (c * nth k (impulse_response (step ts)) 0)%R)).
  - rewrite rs_scale, impulse_sum by lia. reflexivity.
  - intros k Hk. unfold sig. rewrite app_nth2 by (rewrite repeat_length; lia). rewrite repeat_length.
    destruct (le_lt_dec (length ts - m) (m + n - k - m)) as [Q|Q]; [lia|].
    rewrite (nth_indep (repeat c (length ts - m)) 0%R c) by (rewrite repeat_length; exact Q). rewrite nth_repeat. ring.
Qed.
Print Assumptions C68_step.
(** It keeps the length, is linear and causal. *)
Theorem C68_linear_causal : forall step ts a b c n, length a = length b ->
  length (step_filter1 step ts a) = length a /\
  (n < length a -> nth n (step_filter1 step ts (map (fun xy => (c * fst xy + snd xy)%R) (combine a b))) 0%R
                   = (c * nth n (step_filter1 step ts a) 0 + nth n (step_filter1 step ts b) 0)%R) /\
  (n < length a -> firstn (S n) a = firstn (S n) b -> nth n (step_filter1 step ts a) 0%R = nth n (step_filter1 step ts b) 0%R).
Proof.
  intros step ts a b c n L. split; [apply real_convolve_len|]. split.
  - intro H. unfold step_filter1. rewrite !real_convolve_nth by (rewrite ?map_length, ?combine_length; lia). unfold rconv_at.
    rewrite <- rs_scale, <- rs_plus. apply rs_ext. intros k Hk. rewrite (ew_nth (fun x y => (c * x + y)%R) a b 0%R 0%R) by lia. ring.
  - intros H E. unfold step_filter1. rewrite !real_convolve_nth by lia. unfold rconv_at. apply rs_ext. intros k Hk. f_equal.
    rewrite <- (nth_firstn_lt a (S n)), <- (nth_firstn_lt b (S n)) by lia. rewrite E. reflexivity.
Qed.
Print Assumptions C68_linear_causal.
(** The concrete filters: response to a constant 1 on the grid. *)
Theorem C68_filters : forall ts n tau amp alpha, n < length ts ->
  nth n (step_filter1 (step_iir amp tau) ts (repeat 1%R (length ts))) 0%R = (1 + amp * exp (- nth n ts 0 / tau))%R /\
  nth n (step_filter1 (step_highpass tau) ts (repeat 1%R (length ts))) 0%R = exp (- nth n ts 0%R / tau) /\
  nth n (step_filter1 (step_skin alpha) ts (repeat 1%R (length ts))) 0%R = (1 - erf (alpha / 21 / sqrt (Rabs (nth n ts 0))))%R.
Proof.
  intros ts n tau amp alpha H.
  assert (G : forall step, length (step ts) = length ts -> nth n (step_filter1 step ts (repeat 1%R (length ts))) 0%R = nth n (step ts) 0%R).
  { intros step L. pose proof (C68_step step ts 1 0 n L H) as S0. cbn [repeat app Nat.add] in S0. rewrite Nat.sub_0_r in S0. rewrite S0. ring. }
  split; [|split]; rewrite G by apply map_length; [unfold step_iir|unfold step_highpass|unfold step_skin]; rewrite (nth_map_d _ ts n 0%R) by exact H; reflexivity.
Qed.
Print Assumptions C68_filters.
(** The step response is read at the absolute times of the grid, so the filter
    depends on when the instruction starts: the same constant pulse, started [T]
    later, comes out of the exponential highpass damped by exp(-T/tau). *)
Theorem C68_start_time_refuted : forall ts n tau T, n < length ts -> (0 < tau)%R ->
  nth n (step_filter1 (step_highpass tau) (map (fun t => (t + T)%R) ts) (repeat 1%R (length ts))) 0%R
  = (exp (- T / tau) * nth n (step_filter1 (step_highpass tau) ts (repeat 1%R (length ts))) 0)%R.
Proof.
  intros ts n tau T H Ht. rewrite (proj1 (proj2 (C68_filters ts n tau 0 0 H))).
  pose proof (proj1 (proj2 (C68_filters (map (fun t => (t + T)%R) ts) n tau 0 0 ltac:(rewrite map_length; exact H)))) as E. rewrite map_length in E. rewrite E.
  rewrite (nth_map_d _ ts n 0%R) by exact H. rewrite <- exp_plus. f_equal. field. lra.
Qed.
Print Assumptions C68_start_time_refuted.
Example C68_example : nth 2 (step_filter1 (step_highpass 1) [0; 1; 2]%R [0; 5; 5]%R) 0%R = (5 * exp (- 1 / 1))%R.
Proof. exact (C68_step (step_highpass 1) [0; 1; 2]%R 5 1 1 eq_refl ltac:(cbn; lia)). Qed.

(** ** C69 Flux and coupling tuning *)
Lemma cos_sin_range : forall d x, (0 <= d ^ 2 <= 1)%R -> (d ^ 2 <= cos x ^ 2 + d ^ 2 * sin x ^ 2 <= 1)%R.
Proof.
  intros d x Hd. pose proof (sin2_cos2 x) as E. unfold Rsqr in E. assert (0 <= sin x ^ 2)%R by (simpl; nra). assert (0 <= cos x ^ 2)%R by (simpl; nra).
  assert (Q : (cos x ^ 2 = 1 - sin x ^ 2)%R) by (simpl; nra). rewrite Q in *. split; nra.
Qed.
(** The factor lies between sqrt|d| (0 for symmetric junctions) and 1, is even and
    periodic with period phi_0, and equals 1 at zero flux. *)
Theorem C69_factor : forall d phi_0 phi, (phi_0 <> 0)%R -> (forall x, d = Some x -> Rabs x <= 1)%R ->
  (match d with Some x => sqrt (Rabs x) | None => 0 end <= flux_factor d phi_0 phi <= 1)%R /\
  flux_factor d phi_0 (- phi) = flux_factor d phi_0 phi /\
  flux_factor d phi_0 (phi + phi_0) = flux_factor d phi_0 phi /\
  flux_factor d phi_0 0 = 1%R.
Proof.
  intros d phi_0 phi H0 Hd.
  assert (E1 : (PI * - phi / phi_0 = - (PI * phi / phi_0))%R) by (field; exact H0).
  assert (E2 : (PI * (phi + phi_0) / phi_0 = PI * phi / phi_0 + PI)%R) by (field; exact H0).
  assert (E3 : (PI * 0 / phi_0 = 0)%R) by (field; exact H0).
  unfold flux_factor. rewrite E1, E2, E3, cos_neg, sin_neg, neg_cos, neg_sin, cos_0, sin_0. set (x := (PI * phi / phi_0)%R).
  destruct d as [d|].
  - specialize (Hd d eq_refl). pose proof (pow2_abs d) as Pa. pose proof (Rabs_pos d).
    assert (Hd2 : (0 <= d ^ 2 <= 1)%R) by (rewrite <- Pa; split; [apply pow2_ge_0|]; simpl; nra). pose proof (cos_sin_range d x Hd2) as [L U].
    split; [|split; [|split]].
    + split.
      * apply sqrt_le_1_alt. rewrite <- (sqrt_pow2 (Rabs d)) by assumption. apply sqrt_le_1_alt. rewrite Pa. exact L.
      * rewrite <- sqrt_1. apply sqrt_le_1_alt. rewrite <- sqrt_1. apply sqrt_le_1_alt. exact U.
    + f_equal. f_equal. ring.
    + f_equal. f_equal. ring.
    + replace (1 ^ 2 + d ^ 2 * 0 ^ 2)%R with 1%R by ring. rewrite !sqrt_1. reflexivity.
  - split; [|split; [|split]].
    + split; [apply sqrt_pos|]. rewrite <- sqrt_1. apply sqrt_le_1_alt. apply Rabs_le. apply COS_bound.
    + reflexivity.
    + rewrite Rabs_Ropp. reflexivity.
    + rewrite Rabs_R1. apply sqrt_1.
Qed.
Print Assumptions C69_factor.
(** No signal, no detuning; the detuning of any signal is bounded by the tuning
    range, and repeats when the signal changes by a flux quantum. *)
Theorem C69_flux : forall d phi_0 omega_0 anhar phi s,
  (phi_0 <> 0)%R -> (forall x, d = Some x -> Rabs x <= 1)%R ->
  let out := flux_tuning d phi_0 omega_0 anhar phi s in
  v_ts out = v_ts s /\ length (v_values out) = length (v_values s) /\
  forall n, n < length (v_values s) ->
    (nth n (v_values s) 0%R = 0%R -> nth n (v_values out) 0%R = 0%R) /\
    (Rabs (nth n (v_values out) 0) <= Rabs (omega_0 - anhar))%R /\
    nth n (v_values (flux_tuning d phi_0 omega_0 anhar phi (mkV (map (fun x => (x + phi_0)%R) (v_values s)) (v_ts s)))) 0%R = nth n (v_values out) 0%R.
Proof.
  intros d phi_0 omega_0 anhar phi s H0 Hd out. split; [reflexivity|]. split; [apply map_length|]. intros n Hn.
  assert (En : nth n (v_values out) 0%R = (flux_freq d phi_0 omega_0 anhar (phi + nth n (v_values s) 0) - flux_freq d phi_0 omega_0 anhar phi)%R).
  { unfold out, flux_tuning. cbn [v_values]. rewrite (nth_map_d _ (v_values s) n 0%R) by exact Hn. reflexivity. }
  rewrite En. set (x := nth n (v_values s) 0%R). split; [|split].
  - intros ->. rewrite Rplus_0_r. ring.
  - unfold flux_freq. destruct (C69_factor d phi_0 (phi + x) H0 Hd) as ((A1 & A2) & _). destruct (C69_factor d phi_0 phi H0 Hd) as ((B1 & B2) & _).
    assert (P : (0 <= match d with Some x => sqrt (Rabs x) | None => 0 end)%R) by (destruct d; [apply sqrt_pos|lra]).
    replace ((omega_0 - anhar) * flux_factor d phi_0 (phi + x) + anhar - ((omega_0 - anhar) * flux_factor d phi_0 phi + anhar))%R
      with ((omega_0 - anhar) * (flux_factor d phi_0 (phi + x) - flux_factor d phi_0 phi))%R by ring.
    rewrite Rabs_mult. rewrite <- (Rmult_1_r (Rabs (omega_0 - anhar))) at 2. apply Rmult_le_compat_l; [apply Rabs_pos|]. apply Rabs_le. lra.
  - unfold flux_tuning. cbn [v_values]. rewrite map_map, (nth_map_d _ (v_values s) n 0%R) by exact Hn. fold x. unfold flux_freq.
    replace (phi + (x + phi_0))%R with (phi + x + phi_0)%R by ring. rewrite (proj1 (proj2 (proj2 (C69_factor d phi_0 (phi + x) H0 Hd)))). reflexivity.
Qed.
Print Assumptions C69_flux.
(** Coupling: without a signal nothing changes, and the total coupling follows
    g0 sqrt((w1 - s1)(w2 - s2) / (w1 w2)). *)
Theorem C69_coupling : forall w1 w2 g0 s1 s2, (0 < w1)%R -> (0 < w2)%R -> length (v_values s1) = length (v_values s2) ->
  exists o1 o2, coupling_tuning w1 w2 g0 s1 None = Ok o1 /\ coupling_tuning w1 w2 g0 s1 (Some s2) = Ok o2 /\
    v_ts o1 = v_ts s1 /\ v_ts o2 = v_ts s1 /\
    forall n, n < length (v_values s1) -> let x := nth n (v_values s1) 0%R in let y := nth n (v_values s2) 0%R in
      (x < w1)%R -> (y < w2)%R ->
      nth n (v_values o1) 0%R = (g0 * (sqrt ((w1 - x) / w1) - 1))%R /\
      nth n (v_values o2) 0%R = (g0 * (sqrt ((w1 - x) / w1) * sqrt ((w2 - y) / w2) - 1))%R.
Proof.
  intros w1 w2 g0 s1 s2 H1 H2 L. unfold coupling_tuning.
  assert (Z : get_coup w1 w2 g0 0 0 = g0).
  { unfold get_coup, coup_factor. rewrite !Rminus_0_r, (Rmult_comm w2). assert (0 < sqrt (w1 * w2))%R by (apply sqrt_lt_R0; nra). field. lra. }
  assert (G : forall x y, (x < w1)%R -> (y < w2)%R -> get_coup w1 w2 g0 x y = (g0 * (sqrt ((w1 - x) / w1) * sqrt ((w2 - y) / w2)))%R).
  { intros x y Hx Hy. unfold get_coup, coup_factor. unfold Rdiv at 2 3.
    rewrite (sqrt_mult (w2 - y) (w1 - x)), (sqrt_mult w1 w2) by lra. assert (0 < sqrt w1)%R by (apply sqrt_lt_R0, H1). assert (0 < sqrt w2)%R by (apply sqrt_lt_R0, H2).
    rewrite !sqrt_mult by (try lra; left; apply Rinv_0_lt_compat; assumption). rewrite <- !inv_sqrt_depr by assumption. field. lra. }
  assert (E1 : elementwise (get_coup w1 w2 g0) (v_values s1) [0%R] = Ok (map (fun x => get_coup w1 w2 g0 x 0) (v_values s1))).
  { unfold elementwise. destruct (v_values s1) as [|x [|x' l]]; reflexivity. }
  rewrite E1, ew_same by exact L. cbn [rbind]. do 2 eexists. split; [reflexivity|]. split; [reflexivity|]. split; [reflexivity|]. split; [reflexivity|].
  intros n Hn Hx Hy. cbn [v_values]. split.
  - rewrite map_map, (nth_map_d _ (v_values s1) n 0%R) by exact Hn. rewrite Z, (G _ 0%R Hx H2), Rminus_0_r.
    replace (w2 / w2)%R with 1%R by (field; lra). rewrite sqrt_1. ring.
  - rewrite (nth_map_d _ (map _ _) n 0%R) by (rewrite ew_len by exact L; exact Hn). rewrite (ew_nth _ _ _ 0%R 0%R) by assumption.
    rewrite Z, (G _ _ Hx Hy). ring.
Qed.
Print Assumptions C69_coupling.
(** Read as a response to the detuning that FluxTuning delivers, the sign is wrong:
    if the flux raises the frequency of the first element (x > 0) the coupling
    g0 sqrt(w1' w2 / (w1 w2)) should rise, but it falls. *)
Theorem C69_coupling_sign_refuted : forall w1 w2 g0 x, (0 < w1)%R -> (0 < w2)%R -> (0 < g0)%R -> (0 < x < w1)%R ->
  exists o, coupling_tuning w1 w2 g0 (mkV [x] [0%R]) None = Ok o /\ (nth 0 (v_values o) 0 < 0)%R /\
    (0 < g0 * (sqrt ((w1 + x) / w1) - 1))%R.
Proof.
  intros w1 w2 g0 x H1 H2 Hg Hx. destruct (C69_coupling w1 w2 g0 (mkV [x] [0%R]) (mkV [0%R] [0%R]) H1 H2 eq_refl) as (o & o' & E & _ & _ & _ & N).
  exists o. split; [exact E|]. specialize (N 0 (le_n 1)). cbn [v_values nth] in N. destruct (N ltac:(lra) ltac:(lra)) as [-> _].
  assert (A : (sqrt ((w1 - x) / w1) < 1)%R). { rewrite <- sqrt_1. apply sqrt_lt_1_alt. split; [apply Rmult_le_pos; [lra|left; apply Rinv_0_lt_compat; lra]|]. apply Rmult_lt_reg_r with w1; [lra|]. unfold Rdiv. rewrite Rmult_assoc, Rinv_l by lra. lra. }
  assert (B : (1 < sqrt ((w1 + x) / w1))%R). { rewrite <- sqrt_1 at 1. apply sqrt_lt_1_alt. split; [lra|]. apply Rmult_lt_reg_r with w1; [lra|]. unfold Rdiv. rewrite Rmult_assoc, Rinv_l by lra. lra. }
  split; nra.
Qed.
Print Assumptions C69_coupling_sign_refuted.
(** FluxTuningLinear asks for a parameter "Phi" but reads "phi". *)
Theorem C69_linear_refuted : forall d omega_0 x, flux_linear d omega_0 None x = Err KeyError.
Proof. reflexivity. Qed.
Print Assumptions C69_linear_refuted.
(** With both spellings given, the frequency is proportional to the distance from the
    bias; half a flux quantum takes it from omega_0 down to the minimum
    omega_0 sqrt |d| of the asymmetric junction, or to 0 for a symmetric one. *)
Theorem C69_linear : forall d omega_0 phi x,
  exists y, flux_linear d omega_0 (Some phi) x = Ok y /\
    flux_linear d omega_0 (Some phi) phi = Ok 0%R /\
    flux_linear d omega_0 (Some phi) (phi + 1 / 2) = Ok (omega_0 * sqrt (Rabs (match d with Some d => d | None => 0 end)) - omega_0)%R /\
    forall k, flux_linear d omega_0 (Some phi) (phi + k * (x - phi)) = Ok (k * y)%R.
Proof.
  intros d omega_0 phi x. eexists. split; [reflexivity|]. unfold flux_linear. repeat split.
  - f_equal. ring.
  - f_equal. replace (2 * (phi + 1 / 2 - phi))%R with 1%R by field. rewrite Rmult_1_l. f_equal.
    destruct d as [d|]; [|rewrite Rabs_R0, sqrt_0; ring].
    replace (PI * (1 / 2))%R with (PI / 2)%R by field. rewrite cos_PI2, sin_PI2. f_equal. f_equal.
    replace (0 ^ 2 + d ^ 2 * 1 ^ 2)%R with (Rsqr d) by (unfold Rsqr; ring). apply sqrt_Rsqr_abs.
  - intro k. f_equal. ring.
Qed.
Print Assumptions C69_linear.
Example C69_example : flux_tuning (Some (1 / 2)%R) 1 5 (- 1) 0 (mkV [0; 1 / 3]%R [0; 1]%R)
  = mkV [0%R; (6 * (sqrt (sqrt (cos (PI * (0 + 1 / 3) / 1) ^ 2 + (1 / 2) ^ 2 * sin (PI * (0 + 1 / 3) / 1) ^ 2)) - 1))%R] [0; 1]%R.
Proof.
  unfold flux_tuning, flux_freq. cbn [v_values v_ts map]. f_equal. rewrite Rplus_0_r.
  rewrite (proj2 (proj2 (proj2 (C69_factor (Some (1 / 2)%R) 1 0 ltac:(lra) ltac:(intros y E; injection E as <-; rewrite Rabs_pos_eq; lra))))).
  f_equal; [ring|]. f_equal. unfold flux_factor. ring.
Qed.
