(** C124: the figures of merit of simulated gates against those of the exact evolution. *)
From Coq Require Import Reals Lra Lia Setoid Morphisms.
From Coquelicot Require Import Coquelicot.
From Verif Require Import Base Mat MExp RSum MDeriv HilbertModel HilbertProofs GateModel GateProps PropModel FidModel Hilbert2Props FidProofs FidProps FoldModel FoldProps EnvModel ExpModel ExpProps Exp3Props Dev2Props ConvProps.
Local Open Scope list_scope.
Local Open Scope nat_scope.
Local Open Scope R_scope.
Local Notation length := List.length.

(** ** Specification *)
(** [V] is what the physical gate does: the solution U of the Schroedinger equation for the fields c_k, whose values in
    the middle of N slices are the samples in [signal], at the end of the gate, seen in the frame of the experiment.
    [delta] is the discretisation: (speed of the Hamiltonian) times (length of the gate) times (length of a slice) / 4. *)
Definition physical_gate (m : pmodel) (s : esettings) (i : einstr) (signal : dict wave) (delta : R) (V : mat) : Prop :=
  exists (c : string -> R -> R) (l : string -> R) t0 dt N U,
    0 < dt /\ samples signal = N /\ steps_of s i = N /\ sampled signal c t0 dt N
    /\ (forall k x y, In k (keys signal) -> t0 <= x <= t0 + INR N * dt -> t0 <= y <= t0 + INR N * dt -> Rabs (c k x - c k y) <= l k * Rabs (x - y))
    /\ schroedinger (p_dim m) (hamiltonian m (keys signal) c) U t0 (t0 + INR N * dt)
    /\ frame_part s i (U (t0 + INR N * dt)) = Ok V
    /\ delta = speed m (keys signal) l * (INR N * dt) * dt / 4.

(** The ideal gates are unitary, of the dimension of the computational space. *)
Definition ideals_fit (d : nat) (ideal_of : instruction -> result smat) (instrs : dict instruction) : Prop :=
  forall g i ideal, dget g instrs = Some i -> ideal_of i = Ok ideal -> rows ideal = d /\ cols ideal = d /\ unitary d (ent ideal).

(** ** Proofs *)
Lemma project_entries : forall dims index, good_index dims index -> exists emb : nat -> nat,
  (forall u, (u < 2 ^ length index -> emb u < prod_dims dims)%nat)
  /\ (forall u v, (u < 2 ^ length index -> v < 2 ^ length index -> emb u = emb v -> u = v)%nat)
  /\ (forall A u v, (u < 2 ^ length index)%nat -> (v < 2 ^ length index)%nat ->
      ent (tf_project_to_comp A dims index false) u v = A (emb u) (emb v)).
Proof.
  intros dims index G. destruct (projector_emb dims index G) as (emb & Hr & Hi & HP & _).
  exists emb. split; [exact Hr|]. split; [exact Hi|]. intros A u v Hu Hv.
  unfold tf_project_to_comp. cbn [ent]. destruct (projector_dims dims index) as [E _]. rewrite E.
  unfold mmul at 1. rewrite (csum_single _ (emb v)); [|apply Hr, Hv|].
  - rewrite HP, Nat.eqb_refl by auto. unfold mmul. rewrite (csum_single _ (emb u)); [|apply Hr, Hu|].
    + unfold mtrans. rewrite HP, Nat.eqb_refl by auto. ring.
    + intros z Hz X. unfold mtrans. rewrite HP by auto. destruct (Nat.eqb_spec z (emb u)); [congruence|]. ring.
  - intros z Hz X. rewrite HP by auto. destruct (Nat.eqb_spec z (emb v)); [congruence|]. ring.
Qed.
Lemma project_fro : forall A B dims index, good_index dims index ->
  let d := (2 ^ length index)%nat in
  fro d d (msub (ent (tf_project_to_comp A dims index false)) (ent (tf_project_to_comp B dims index false)))
  <= fro (prod_dims dims) (prod_dims dims) (msub A B).
Proof.
  intros A B dims index G d. destruct (project_entries dims index G) as (emb & Hr & Hi & HE). fold d in Hr, Hi, HE.
  unfold fro. apply sqrt_le_1_alt. unfold nrm2.
  eapply Rle_trans; [|apply (rs_inj d (prod_dims dims) (fun i => rs (prod_dims dims) (fun j => Cmod (msub A B i j) ^ 2)) emb); auto].
  - apply rs_le. intros u Hu.
    eapply Rle_trans; [|apply (rs_inj d (prod_dims dims) (fun j => Cmod (msub A B (emb u) j) ^ 2) emb); auto].
    + apply Req_le, rs_ext. intros v Hv. unfold msub. rewrite !HE by auto. reflexivity.
    + intros. apply pow2_ge_0.
  - intros. apply rs_nonneg. intros. apply pow2_ge_0.
Qed.
Lemma inner_sub_l : forall n m A B D, inner n m (msub A B) D = (inner n m A D - inner n m B D)%C.
Proof.
  intros. unfold inner, Cminus. rewrite <- csum_opp, <- csum_plus. apply csum_ext. intros i _. rewrite <- csum_opp, <- csum_plus.
  apply csum_ext. intros j _. unfold msub. ring.
Qed.
Lemma Cmod_diff : forall x y : C, Rabs (Cmod x - Cmod y) <= Cmod (x - y)%C.
Proof.
  intros x y. apply Rabs_le.
  assert (T1 : Cmod x <= Cmod (x - y)%C + Cmod y). { replace x with ((x - y) + y)%C at 1 by ring. apply Cmod_triangle. }
  assert (T2 : Cmod y <= Cmod (x - y)%C + Cmod x). { replace y with (- (x - y) + x)%C at 1 by ring. eapply Rle_trans; [apply Cmod_triangle|]. rewrite Cmod_opp. lra. }
  lra.
Qed.
Lemma square_diff : forall a b M e, 0 <= a <= M -> 0 <= b <= M -> Rabs (a - b) <= e -> Rabs (a ^ 2 - b ^ 2) <= 2 * M * e.
Proof.
  intros a b M e Ha Hb He. replace (a ^ 2 - b ^ 2) with ((a - b) * (a + b)) by ring.
  rewrite Rabs_mult, (Rabs_pos_eq (a + b)) by lra. pose proof (Rabs_pos (a - b)).
  assert (Rabs (a - b) * (a + b) <= e * (2 * M)) by (apply Rmult_le_compat; lra). lra.
Qed.
Lemma fro_unit : forall n V, unitary n V -> fro n n V = sqrt (INR n).
Proof. intros n V HV. unfold fro. f_equal. apply nrm2_unitary, HV. Qed.

(** The overlaps behind the figures of merit. *)
Lemma overlap_diff : forall dims index V W G e, good_index dims index -> let d := (2 ^ length index)%nat in
  unitary (prod_dims dims) V -> unitary (prod_dims dims) W -> unitary d G ->
  fro (prod_dims dims) (prod_dims dims) (msub V W) <= e ->
  let x := Cmod (inner d d (ent (tf_project_to_comp V dims index false)) G) in
  let y := Cmod (inner d d (ent (tf_project_to_comp W dims index false)) G) in
  0 <= x <= INR d /\ 0 <= y <= INR d /\ Rabs (x - y) <= sqrt (INR d) * e.
Proof.
  intros dims index V W G e GI d HV HW HG HE x y.
  pose proof (two_pow_pos (length index)) as Pd. fold d in Pd.
  assert (BND : forall A, unitary (prod_dims dims) A -> 0 <= Cmod (inner d d (ent (tf_project_to_comp A dims index false)) G) <= INR d).
  { intros A HA. split; [apply Cmod_ge_0|]. pose proof (inner_bound d d (ent (tf_project_to_comp A dims index false)) G (INR d) Pd (nrm2_unitary d G HG)) as B.
    pose proof (project_block A dims index GI HA) as NA. fold d in NA. cbv zeta in NA.
    pose proof (Cmod_ge_0 (inner d d (ent (tf_project_to_comp A dims index false)) G)). nra. }
  split; [apply BND, HV|]. split; [apply BND, HW|].
  unfold x, y. eapply Rle_trans; [apply Cmod_diff|]. rewrite <- inner_sub_l.
  eapply Rle_trans; [apply cauchy_schwarz|]. rewrite (fro_unit d G HG), Rmult_comm.
  apply Rmult_le_compat_l; [apply sqrt_pos|]. eapply Rle_trans; [apply project_fro, GI|exact HE].
Qed.

(** The figures of merit of two unitary propagators differ by no more than a multiple of their distance. *)
Theorem C124_unitary_infid_lipschitz :
  forall dims index V W ideal e, good_index dims index -> let d := (2 ^ length index)%nat in
  unitary (prod_dims dims) V -> unitary (prod_dims dims) W -> cols ideal = d -> unitary d (ent ideal) ->
  fro (prod_dims dims) (prod_dims dims) (msub V W) <= e ->
  exists f g, unitary_infid ideal V (Some index) dims = Ok f /\ unitary_infid ideal W (Some index) dims = Ok g
    /\ Rabs (f - g) <= 2 * e / sqrt (INR d).
Proof.
  intros dims index V W ideal e GI d HV HW Hc HG HE.
  eexists. eexists. split; [apply unitary_infid_value; assumption|]. split; [apply unitary_infid_value; assumption|]. fold d.
  destruct (overlap_diff dims index V W (ent ideal) e GI HV HW HG HE) as (B1 & B2 & D). fold d in B1, B2, D. cbv zeta in D.
  pose proof (two_pow_pos (length index)) as Pd. fold d in Pd.
  set (x := Cmod (inner d d (ent (tf_project_to_comp V dims index false)) (ent ideal))) in *.
  set (y := Cmod (inner d d (ent (tf_project_to_comp W dims index false)) (ent ideal))) in *.
  pose proof (square_diff x y (INR d) _ B1 B2 D) as Q. pose proof (sqrt_lt_R0 _ Pd) as Ps. pose proof (sqrt_sqrt (INR d) (Rlt_le _ _ Pd)) as SS.
  set (r := sqrt (INR d)) in *. replace (1 - (x / INR d) ^ 2 - (1 - (y / INR d) ^ 2)) with (- ((x ^ 2 - y ^ 2) * / (INR d * INR d))) by (field; lra).
  rewrite Rabs_Ropp, Rabs_mult, (Rabs_pos_eq (/ _)) by (left; apply Rinv_0_lt_compat; nra).
  apply Rle_trans with (2 * INR d * (r * e) * / (INR d * INR d)).
  - apply Rmult_le_compat_r; [left; apply Rinv_0_lt_compat; nra|exact Q].
  - apply Req_le. rewrite <- SS. field. lra.
Qed.
Print Assumptions C124_unitary_infid_lipschitz.

Theorem C124_average_infid_lipschitz :
  forall dims index V W ideal e, good_index dims index -> let d := (2 ^ length index)%nat in
  unitary (prod_dims dims) V -> unitary (prod_dims dims) W -> rows ideal = d -> unitary d (ent ideal) ->
  fro (prod_dims dims) (prod_dims dims) (msub V W) <= e ->
  exists f g, average_infid ideal V index dims = Ok f /\ average_infid ideal W index dims = Ok g
    /\ Rabs (f - g) <= 2 * sqrt (INR d) * e / (INR d + 1).
Proof.
  intros dims index V W ideal e GI d HV HW Hc HG HE.
  eexists. eexists. split; [apply average_infid_value; assumption|]. split; [apply average_infid_value; assumption|]. fold d.
  destruct (overlap_diff dims index V W (ent ideal) e GI HV HW HG HE) as (B1 & B2 & D). fold d in B1, B2, D. cbv zeta in D.
  pose proof (two_pow_pos (length index)) as Pd. fold d in Pd.
  set (x := Cmod (inner d d (ent (tf_project_to_comp V dims index false)) (ent ideal))) in *.
  set (y := Cmod (inner d d (ent (tf_project_to_comp W dims index false)) (ent ideal))) in *.
  pose proof (square_diff x y (INR d) _ B1 B2 D) as Q.
  assert (PP : 0 < INR d * (INR d + 1)) by nra.
  replace (1 - (x ^ 2 / INR d + 1) / (INR d + 1) - (1 - (y ^ 2 / INR d + 1) / (INR d + 1))) with (- ((x ^ 2 - y ^ 2) * / (INR d * (INR d + 1)))) by (field; lra).
  rewrite Rabs_Ropp, Rabs_mult, (Rabs_pos_eq (/ _)) by (left; apply Rinv_0_lt_compat; lra).
  apply Rle_trans with (2 * INR d * (sqrt (INR d) * e) * / (INR d * (INR d + 1))).
  - apply Rmult_le_compat_r; [left; apply Rinv_0_lt_compat; lra|exact Q].
  - apply Req_le. field. lra.
Qed.
Print Assumptions C124_average_infid_lipschitz.

Theorem C124_state_transfer_lipschitz :
  forall dims index V W ideal psi e, good_index dims index -> let d := (2 ^ length index)%nat in
  unitary (prod_dims dims) V -> unitary (prod_dims dims) W -> rows ideal = d -> cols ideal = d -> unitary d (ent ideal) ->
  rows psi = d -> rs d (fun i => Cmod (ent psi i 0%nat) ^ 2) = 1 ->
  fro (prod_dims dims) (prod_dims dims) (msub V W) <= e ->
  exists f g, state_transfer_infid ideal V index dims psi = Ok f /\ state_transfer_infid ideal W index dims psi = Ok g
    /\ Rabs (f - g) <= e.
Proof.
  intros dims index V W ideal psi e GI d HV HW Hr Hc HG Hp Hn HE.
  unfold state_transfer_infid. destruct (project_dims V dims index GI) as [-> ->]. destruct (project_dims W dims index GI) as [-> ->]. fold d.
  rewrite Hr, Hc, Hp, !Nat.eqb_refl. cbn [andb]. eexists. eexists. split; [reflexivity|]. split; [reflexivity|].
  assert (N1 : nrm2 d 1 (ent psi) = 1). { unfold nrm2. rewrite <- Hn. apply rs_ext. intros i _. cbn [rs]. ring. }
  set (A := ent (tf_project_to_comp V dims index false)). set (B := ent (tf_project_to_comp W dims index false)).
  set (b := mmul d (ent ideal) (ent psi)).
  assert (Fb : fro d 1 b = 1) by (unfold fro, b; rewrite unitary_norm by exact HG; rewrite N1; apply sqrt_1).
  assert (Fp : fro d 1 (ent psi) = 1) by (unfold fro; rewrite N1; apply sqrt_1).
  assert (E : forall X, tf_ketket_fid d b (mmul d X (ent psi)) = Cmod (inner d 1 (mmul d X (ent psi)) b)).
  { intro X. unfold tf_ketket_fid. rewrite abs_mod. f_equal. unfold mmul at 1, madj, inner. apply csum_ext. intros i _.
    cbn [csum]. rewrite Cplus_0_l. ring. }
  rewrite !E.
  match goal with |- Rabs (1 - ?x - (1 - ?y)) <= _ => replace (1 - x - (1 - y)) with (- (x - y)) by ring end. rewrite Rabs_Ropp.
  eapply Rle_trans; [apply Cmod_diff|]. rewrite <- inner_sub_l. eapply Rle_trans; [apply cauchy_schwarz|]. rewrite Fb, Rmult_1_r.
  assert (EM : meq d 1 (msub (mmul d A (ent psi)) (mmul d B (ent psi))) (mmul d (msub A B) (ent psi))) by (symmetry; apply mmul_sub_r).
  unfold fro. rewrite (nrm2_proper d 1 _ _ EM). fold (fro d 1 (mmul d (msub A B) (ent psi))).
  eapply Rle_trans; [apply fro_mul|]. rewrite Fp, Rmult_1_r. eapply Rle_trans; [apply project_fro, GI|exact HE].
Qed.
Print Assumptions C124_state_transfer_lipschitz.

Lemma frame_distance : forall s i A B V, es_lind s = false ->
  length (f_names (es_sys s)) = length (f_dims (es_sys s)) -> NoDup (f_names (es_sys s)) ->
  frame_part s i A = Ok V -> exists W, frame_part s i B = Ok W
   /\ (let n := prod_dims (f_dims (es_sys s)) in fro n n (msub V W) = fro n n (msub A B) /\ (unitary n A -> unitary n V)).
Proof.
  intros s i A B V Hs Hn ND H. unfold frame_part in *. destruct (es_use_FR s).
  - destruct (frame_dicts (ei_comps i) ([], [])) as [ff|]; [|discriminate]. cbn [rbind] in *.
    destruct (get_frame_rotation (es_sys s) _ (fst ff) (snd ff)) as [FR|] eqn:EF; [|discriminate]. cbn [rbind] in *.
    rewrite Hs in *. injection H as <-. eexists. split; [reflexivity|]. cbv zeta. set (n := prod_dims (f_dims (es_sys s))).
    assert (UF : unitary n FR) by (eapply C33_frame_rotation_unitary; eauto).
    split; [|intro; apply unitary_mmul; assumption].
    rewrite <- (fro_unitary_l n n FR (msub A B) UF). unfold fro. f_equal. apply nrm2_proper. symmetry. apply mmul_sub_l.
  - injection H as <-. exists B. auto.
Qed.

(** Every propagator of a closed system that an experiment computes is as close to the physical gate as the time slices
    are short. *)
Theorem C124_propagators_are_physical :
  forall m (gen : einstr -> result (dict wave)) batch s ins e p e' g i signal delta V,
  p_lind m = false -> es_lind s = false -> p_dim m = prod_dims (f_dims (es_sys s)) ->
  hermitian (p_dim m) (p_h0 m) -> (forall k h, dget k (p_hctrls m) = Some h -> hermitian (p_dim m) h) ->
  length (f_names (es_sys s)) = length (f_dims (es_sys s)) -> NoDup (f_names (es_sys s)) ->
  compute_propagators (fun i st => rbind (gen i) (fun signal => pwc_controlled m signal st batch)) s ins e = (Ok p, e') ->
  In g (keys p) -> dget g ins = Some i -> gen i = Ok signal -> physical_gate m s i signal delta V ->
  exists W, dget g p = Some W /\ unitary (p_dim m) V /\ unitary (p_dim m) W /\ fro (p_dim m) (p_dim m) (msub V W) <= delta.
Proof.
  intros m gen batch s ins e p e' g i signal delta V Hl Hs Hd H0 Hc Hn ND H Hg Hi Hsig (c & l & t0 & dt & N & U & Hdt & HN & HS & SA & LI & SU & HF & ->).
  destruct (C80_selected_gates _ _ _ _ _ _ H) as (_ & K & A & _).
  destruct (A g) as (i' & r & U1 & U2 & d & Ei & Er & Ef & Ed & _ & Ep & _); [apply K, Hg|].
  rewrite Ei in Hi. injection Hi as ->. rewrite Hsig in Er. cbn [rbind] in Er. rewrite HS, <- HN in Er.
  pose proof (C122_error_bound m signal batch r c l t0 dt N U Hl H0 Hc Hdt SA LI SU Er) as EB.
  destruct (frame_distance s i _ (pr_U r) V Hs Hn ND HF) as (W & EW & ED & EU). rewrite <- Hd in ED, EU. cbv zeta in ED, EU.
  exists U2. split; [exact Ep|].
  assert (W = U2). { rewrite Ef in EW. injection EW as <-. unfold dephasing_part in Ed. rewrite Hs in Ed.
    destruct (Req_EM_T (es_dephasing s) 0); [congruence|discriminate Ed]. }
  subst W. split; [|split].
  - apply EU. apply (solution_unitary (p_dim m) (hamiltonian m (keys signal) c) U t0 (t0 + INR N * dt)); auto.
    + intros. apply hamiltonian_hermitian; auto.
    + assert (0 <= INR N * dt) by (apply Rmult_le_pos; [apply pos_INR|lra]). lra.
  - eapply C82_experiment_unitary; eauto.
  - rewrite ED. exact EB.
Qed.
Print Assumptions C124_propagators_are_physical.

Lemma set_diff : forall one ideal_of instrs eps p q f,
  Forall2 (fun a b => fst a = fst b /\ forall i ideal, dget (fst a) instrs = Some i -> ideal_of i = Ok ideal ->
             exists x y, one ideal (snd a) = Ok x /\ one ideal (snd b) = Ok y /\ Rabs (x - y) <= eps) p q ->
  rbind (infid_list one ideal_of instrs p) reduce_mean = Ok f ->
  exists f', rbind (infid_list one ideal_of instrs q) reduce_mean = Ok f' /\ Rabs (f - f') <= eps.
Proof.
  intros one ideal_of instrs eps p q f F H. apply set_spec in H. destruct H as (l & Hne & Hl & Hm).
  assert (E : exists l', single_figures one ideal_of instrs q l' /\ length l' = length l /\ Rabs (sum_list l - sum_list l') <= eps * INR (length l)).
  { clear Hne Hm. unfold single_figures in *. revert q F. induction Hl as [|[g W] x p l (i & ideal & E1 & E2 & E3) Hl IH]; intros q F; inversion F as [|? [g' V] ? q' (Eg & Eo) F']; subst.
    - exists []. split; [constructor|]. split; [reflexivity|]. cbn. rewrite Rminus_0_r, Rabs_R0. lra.
    - cbn [fst snd] in *. subst g'. destruct (IH q' F') as (l' & G1 & G2 & G3). destruct (Eo i ideal E1 E2) as (x' & y & O1 & O2 & O3).
      rewrite E3 in O1. injection O1 as <-. exists (y :: l'). split; [constructor; [exists i, ideal; auto|exact G1]|].
      split; [cbn; auto|]. change (sum_list (x :: l)) with (x + sum_list l). change (sum_list (y :: l')) with (y + sum_list l').
      change (length (x :: l)) with (S (length l)). rewrite S_INR.
      replace (x + sum_list l - (y + sum_list l')) with ((x - y) + (sum_list l - sum_list l')) by ring.
      eapply Rle_trans; [apply Rabs_triang|]. lra. }
  destruct E as (l' & G1 & G2 & G3).
  assert (NZ : 0 < INR (length l)) by (apply lt_0_INR; destruct l; [congruence|cbn; lia]).
  exists (sum_list l' / INR (length l)). split.
  - apply set_spec. exists l'. split; [destruct l'; [destruct l; [congruence|discriminate]|discriminate]|]. split; [exact G1|].
    rewrite G2. field. lra.
  - apply Rmult_le_reg_r with (INR (length l)); [exact NZ|]. rewrite <- (Rabs_pos_eq (INR (length l))) at 2 by lra. rewrite <- Rabs_mult.
    replace ((f - sum_list l' / INR (length l)) * INR (length l)) with (f * INR (length l) - sum_list l') by (field; lra).
    rewrite Hm. exact G3.
Qed.
Lemma pairs_of : forall (p q : dict mat) (P : string -> mat -> mat -> Prop), NoDup (keys p) -> keys q = keys p ->
  (forall g V, dget g q = Some V -> exists W, dget g p = Some W /\ P g W V) ->
  Forall2 (fun a b => fst a = fst b /\ P (fst a) (snd a) (snd b)) p q.
Proof.
  induction p as [|[g W] p IH]; intros q P ND K H; destruct q as [|[g' V] q]; try discriminate K; [constructor|].
  cbn [keys map fst] in K. injection K as -> K. inversion ND as [|? ? NI ND']; subst. fold (keys p) in NI.
  constructor.
  - cbn [fst snd]. split; [reflexivity|]. destruct (H g V) as (W' & E & HP); [cbn; rewrite String.eqb_refl; reflexivity|].
    cbn in E. rewrite String.eqb_refl in E. injection E as <-. exact HP.
  - apply IH; auto. intros h X HX. destruct (String.eqb_spec h g) as [->|Nh].
    + exfalso. apply NI. assert (In g (keys q)) by (eapply dget_in_keys; eauto). unfold keys in *. rewrite <- K. exact H0.
    + destruct (H h X) as (W' & E & HP); [cbn; destruct (String.eqb_spec h g); [congruence|exact HX]|].
      cbn in E. destruct (String.eqb_spec h g); [congruence|]. exists W'. auto.
Qed.

(** The goal an optimiser minimises is the figure of merit of the physical gates, up to the discretisation. *)
Theorem C124_goals_are_physical :
  forall m (gen : einstr -> result (dict wave)) batch s ins e p e' (exact : dict mat) eps dims index (instrs : dict instruction) psi,
  p_lind m = false -> es_lind s = false -> p_dim m = prod_dims (f_dims (es_sys s)) -> p_dim m = prod_dims dims ->
  hermitian (p_dim m) (p_h0 m) -> (forall k h, dget k (p_hctrls m) = Some h -> hermitian (p_dim m) h) ->
  length (f_names (es_sys s)) = length (f_dims (es_sys s)) -> NoDup (f_names (es_sys s)) ->
  good_index dims index -> let d := (2 ^ length index)%nat in
  rows psi = d -> rs d (fun i => Cmod (ent psi i 0%nat) ^ 2) = 1 ->
  compute_propagators (fun i st => rbind (gen i) (fun signal => pwc_controlled m signal st batch)) s ins e = (Ok p, e') ->
  keys exact = keys p ->
  (forall g V, dget g exact = Some V -> exists i signal delta,
     dget g ins = Some i /\ gen i = Ok signal /\ physical_gate m s i signal delta V /\ delta <= eps) ->
  (forall f, ideals_fit d (ideal_on dims index) instrs -> unitary_infid_set p instrs index dims = Ok f ->
     exists f', unitary_infid_set exact instrs index dims = Ok f' /\ Rabs (f - f') <= 2 * eps / sqrt (INR d))
  /\ (forall f, ideals_fit d (ideal_on dims index) instrs -> average_infid_set p instrs index dims = Ok f ->
     exists f', average_infid_set exact instrs index dims = Ok f' /\ Rabs (f - f') <= 2 * sqrt (INR d) * eps / (INR d + 1))
  /\ (forall f, ideals_fit d (ideal_on dims []) instrs -> state_transfer_infid_set p instrs index dims psi = Ok f ->
     exists f', state_transfer_infid_set exact instrs index dims psi = Ok f' /\ Rabs (f - f') <= eps).
Proof.
  intros m gen batch s ins e p e' exact eps dims index instrs psi Hl Hs Hd Hdim H0 Hc Hn ND GI d Hpsi Hnorm H Hk HX.
  destruct (C80_selected_gates _ _ _ _ _ _ H) as (NDp & _).
  set (n := prod_dims dims).
  assert (P : Forall2 (fun a b => fst a = fst b /\ (unitary n (snd b) /\ unitary n (snd a) /\ fro n n (msub (snd b) (snd a)) <= eps)) p exact).
  { apply (pairs_of p exact (fun _ W V => unitary n V /\ unitary n W /\ fro n n (msub V W) <= eps)); auto.
    intros g V HV. destruct (HX g V HV) as (i & signal & delta & E1 & E2 & E3 & E4).
    destruct (C124_propagators_are_physical m gen batch s ins e p e' g i signal delta V Hl Hs Hd H0 Hc Hn ND H) as (W & A1 & A2 & A3 & A4); auto.
    - rewrite <- Hk. eapply dget_in_keys; eauto.
    - exists W. unfold n. rewrite <- Hdim. repeat split; auto; try apply A2; try apply A3. lra. }
  assert (SYM : forall A B, fro n n (msub A B) = fro n n (msub B A)).
  { intros A B. unfold fro, nrm2. f_equal. apply rs_ext. intros i _. apply rs_ext. intros j _. unfold msub.
    replace (B i j - A i j)%C with (- (A i j - B i j))%C by ring. rewrite Cmod_opp. reflexivity. }
  assert (GEN : forall one ideal_of bound,
    (forall g i ideal A B, dget g instrs = Some i -> ideal_of i = Ok ideal -> unitary n A -> unitary n B -> fro n n (msub A B) <= eps ->
       exists x y, one ideal A = Ok x /\ one ideal B = Ok y /\ Rabs (x - y) <= bound) ->
    forall f, rbind (infid_list one ideal_of instrs p) reduce_mean = Ok f ->
    exists f', rbind (infid_list one ideal_of instrs exact) reduce_mean = Ok f' /\ Rabs (f - f') <= bound).
  { intros one ideal_of bound HO f. apply set_diff. clear - P HO SYM.
    induction P as [|a b ? ? (Ea & U1 & U2 & HF) P IH]; constructor; [|exact IH]. split; [exact Ea|]. intros i ideal E1 E2. apply (HO (fst a) i); auto. rewrite SYM. exact HF. }
  split; [|split].
  - intros f HI. apply (GEN (fun ideal q => unitary_infid ideal q (Some index) dims) (fun i => get_ideal_gate (i_ideal i) (i_targets i) (length dims) index)).
    intros g i ideal A B E1 E2 UA UB HF. destruct (HI g i ideal E1 E2) as (R1 & R2 & R3). apply C124_unitary_infid_lipschitz; auto.
  - intros f HI. apply (GEN (fun ideal q => average_infid ideal q index dims) (fun i => get_ideal_gate (i_ideal i) (i_targets i) (length dims) index)).
    intros g i ideal A B E1 E2 UA UB HF. destruct (HI g i ideal E1 E2) as (R1 & R2 & R3). apply C124_average_infid_lipschitz; auto.
  - intros f HI. apply (GEN (fun ideal q => state_transfer_infid ideal q index dims psi) (fun i => get_ideal_gate (i_ideal i) (i_targets i) (length dims) [])).
    intros g i ideal A B E1 E2 UA UB HF. destruct (HI g i ideal E1 E2) as (R1 & R2 & R3). apply C124_state_transfer_lipschitz; auto.
Qed.
Print Assumptions C124_goals_are_physical.

(** ** Example: a ramp along Z on one qubit, seen in a frame rotating at frequency 5; four slices. *)
Definition ramp_settings : esettings :=
  {| es_sys := {| f_names := ["q"%string]; f_dims := [2%nat]; f_couplings := [("d"%string, ["q"%string])] |};
     es_lind := false; es_use_FR := true; es_dephasing := 0; es_sim_res := 4 |}.
Definition ramp_instr : einstr :=
  {| ei_t_start := 0; ei_t_end := 1; ei_comps := [("d"%string, [("carrier"%string, [("freq"%string, 5); ("framechange"%string, 0)])])] |}.
Definition ramp_start : estate := {| st_opt_gates := None; st_overwrite := true; st_props := []; st_partial := [] |}.
Definition ramp_delta : R := speed ramp_model (keys ramp_signal) (fun _ => 1) * (INR 4 * (1 / 4)) * (1 / 4) / 4.
Example C124_example : exists p e' V f f',
  compute_propagators (fun i st => rbind (Ok ramp_signal) (fun signal => pwc_controlled ramp_model signal st (Some 3%nat))) ramp_settings [("rz[0]"%string, ramp_instr)] ramp_start = (Ok p, e')
  /\ physical_gate ramp_model ramp_settings ramp_instr ramp_signal ramp_delta V
  /\ 0 < ramp_delta
  /\ unitary_infid_set p [("rz[0]"%string, {| i_ideal := seye 2 2; i_targets := Some [0%nat] |})] [0%nat] [2%nat] = Ok f
  /\ unitary_infid_set [("rz[0]"%string, V)] [("rz[0]"%string, {| i_ideal := seye 2 2; i_targets := Some [0%nat] |})] [0%nat] [2%nat] = Ok f'
  /\ Rabs (f - f') <= 2 * ramp_delta / sqrt (INR 2).
Proof.
  assert (FIT : ideals_fit 2 (ideal_on [2%nat] [0%nat]) [("rz[0]"%string, {| i_ideal := seye 2 2; i_targets := Some [0%nat] |})]).
  { intros g i ideal Hi E. cbn [dget] in Hi. destruct (String.eqb g "rz[0]"); [|discriminate Hi]. injection Hi as <-.
    unfold ideal_on in E. cbn [i_ideal i_targets length] in E.
    destruct (C36_ideal_gate_on_register (seye 2 2) [0%nat] 1) as (G & EG & RG & UG & _); try reflexivity.
    - repeat constructor. intros [].
    - intros t [<-|[]]. lia.
    - apply unitary_id.
    - assert (ideal = tf_project_to_comp (ent G) [2%nat] [0%nat] false) as ->.
      { unfold get_ideal_gate in *. cbn [existsb Nat.leb orb] in *. destruct (bcast _ _) as [m|]; [|discriminate]. cbn [rbind] in *.
        injection EG as <-. injection E as <-. reflexivity. }
      split; [reflexivity|]. split; [reflexivity|]. pose proof (qubits_block 0 (ent G)) as QB. cbv zeta in QB.
      change (repeat 2 1)%nat with [2%nat] in QB. change (seq 0 1) with [0%nat] in QB.
      apply (unitary_proper 2 _ _ QB). exact UG. }
  destruct C122_example as (r & E & SA & SU & SP & _).
  assert (ST : steps_of ramp_settings ramp_instr = 4%nat). { unfold steps_of. cbn [ei_t_end ei_t_start ramp_instr es_sim_res ramp_settings]. apply floor_nat_unique. cbn. lra. }
  assert (FR : forall A, exists B, frame_part ramp_settings ramp_instr A = Ok B) by (intro A; eexists; reflexivity).
  destruct (FR (ramp_solution (0 + INR 4 * (1 / 4)))) as (V & EV).
  destruct (FR (pr_U r)) as (W & EW).
  assert (CP : exists e', compute_propagators (fun i st => rbind (Ok ramp_signal) (fun signal => pwc_controlled ramp_model signal st (Some 3%nat))) ramp_settings [("rz[0]"%string, ramp_instr)] ramp_start = (Ok [("rz[0]"%string, W)], e')).
  { unfold compute_propagators. cbn [st_opt_gates ramp_start keys map fst gate_loop]. unfold one_gate. cbn [dget]. rewrite String.eqb_refl. rewrite ST.
    change (folding_stack 4) with (folding_stack (samples ramp_signal)). cbn [rbind]. rewrite E. cbn [rbind]. rewrite EW. cbn [rbind].
    unfold dephasing_part. cbn [es_dephasing ramp_settings]. destruct (Req_EM_T 0 0); [|congruence]. cbn [rbind fst snd dset].
    eexists. reflexivity. }
  destruct CP as (e' & CP).
  assert (PG : physical_gate ramp_model ramp_settings ramp_instr ramp_signal ramp_delta V).
  { exists ramp, (fun _ => 1), 0, (1 / 4), 4%nat, ramp_solution.
    split; [lra|]. split; [reflexivity|]. split; [exact ST|]. split; [exact SA|]. split; [intros k x y _ _ _; unfold ramp; lra|].
    split; [exact SU|]. split; [exact EV|reflexivity]. }
  assert (H0 : hermitian 2 (p_h0 ramp_model)). { intros i j _ _. unfold madj, ramp_model, mzero. cbn [p_h0]. apply conj_R. }
  assert (Hc : forall k h, dget k (p_hctrls ramp_model) = Some h -> hermitian 2 h).
  { intros k h Hk. cbn in Hk. destruct (String.eqb k "d"); [|discriminate Hk]. injection Hk as <-. intros i j _ _.
    unfold madj. rewrite (Nat.eqb_sym j i). destruct (Nat.eqb_spec i j) as [->|N]; [|apply conj_R]. destruct (Nat.eqb j 0); apply conj_R. }
  assert (GI : good_index [2%nat] [0%nat]) by apply (qubits_good 0).
  set (instrs := [("rz[0]"%string, {| i_ideal := seye 2 2; i_targets := Some [0%nat] |})]) in *.
  assert (EF : exists f, unitary_infid_set [("rz[0]"%string, W)] instrs [0%nat] [2%nat] = Ok f).
  { destruct (ideal_on [2%nat] [0%nat] {| i_ideal := seye 2 2; i_targets := Some [0%nat] |}) as [ideal|x] eqn:EI; [|exfalso; cbn in EI; discriminate EI].
    destruct (FIT "rz[0]"%string _ ideal eq_refl EI) as (_ & CI & _).
    eexists. unfold unitary_infid_set, instrs. cbn [infid_list dget]. rewrite String.eqb_refl. unfold ideal_on in EI. rewrite EI. cbn [rbind].
    rewrite unitary_infid_value by auto. cbn [rbind]. reflexivity. }
  destruct EF as (f & EF).
  destruct (C124_goals_are_physical ramp_model (fun _ => Ok ramp_signal) (Some 3%nat) ramp_settings [("rz[0]"%string, ramp_instr)] ramp_start [("rz[0]"%string, W)] e'
             [("rz[0]"%string, V)] ramp_delta [2%nat] [0%nat] instrs {| rows := 2; cols := 1; ent := one_hot 0 |}) as (G & _); auto.
  - repeat constructor. intros [].
  - cbn [rs length Nat.pow Nat.mul Nat.add ent]. unfold one_hot. cbn [Nat.eqb]. rewrite !Cmod_R, Rabs_R1, Rabs_R0. ring.
  - intros g X HX. cbn [dget] in HX. destruct (String.eqb g "rz[0]") eqn:Eg; [|discriminate HX]. injection HX as <-.
    exists ramp_instr, ramp_signal, ramp_delta. cbn [dget]. rewrite Eg. repeat split; auto. lra.
  - destruct (G f FIT EF) as (f' & EF' & D). exists [("rz[0]"%string, W)], e', V, f, f'.
    split; [exact CP|]. split; [exact PG|]. split; [unfold ramp_delta; cbn [INR]; nra|]. auto.
Qed.
Print Assumptions C124_example.
