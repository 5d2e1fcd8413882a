(** Property C101: open system gates take density matrices to density matrices. *)
From Coq Require Import Reals Lra Lia List Setoid Morphisms.
From Coquelicot Require Import Coquelicot.
From Verif Require Import Base Mat MExp MExp2 RSum HilbertModel HilbertProofs PropModel PropProofs SuperProofs FoldModel FidModel FidProps
  TaskModel TaskProps EnvModel ExpModel ExpProps Hilbert2Props Euler PosProofs.
Local Open Scope list_scope.
Local Open Scope nat_scope.
Local Notation length := List.length.

(** ** Specification *)
(** Density matrices: Hermitian, v+ rho v >= 0 for every vector v, and trace one. *)
Definition density (n : nat) (rho : mat) : Prop :=
  hermitian n rho
  /\ (forall v : nat -> C, 0 <= fst (csum n (fun i => csum n (fun j => Cconj (v i) * rho i j * v j)%C)))%R
  /\ mtrace n rho = RtoC 1.
(** A superoperator on row stacked matrices that takes density matrices to density matrices. *)
Definition keeps_densities (n : nat) (S : mat) : Prop := forall rho, density n rho -> density n (evolved n S rho).
(** Time points that do not go back. *)
Definition forward (signal : dict wave) : Prop :=
  forall line w, In (line, w) signal -> forall j, S j < length (w_ts w) -> (nth j (w_ts w) 0 <= nth (S j) (w_ts w) 0)%R.
(** Probabilities. *)
Definition probabilities (p : list R) : Prop := Forall (fun x => 0 <= x <= 1)%R p /\ sum_list p = 1%R.

(** ** Proofs *)
Lemma density_proper : forall n X Y, meq n n X Y -> density n X -> density n Y.
Proof.
  intros n X Y E (H & P & T). split; [rewrite <- E; exact H|split].
  - exact (nonneg_form_proper n X Y E P).
  - rewrite <- (mtrace_proper n _ _ E). exact T.
Qed.
Lemma keeps_densities_mmul : forall n S T, keeps_densities n S -> keeps_densities n T -> keeps_densities n (mmul (n * n) S T).
Proof.
  intros n A B HA HB rho H. apply (density_proper n (evolved n A (evolved n B rho))); [symmetry; apply evolved_mmul|].
  apply HA, HB, H.
Qed.
Lemma keeps_densities_super : forall n U, unitary n U -> keeps_densities n (tf_super n U).
Proof.
  intros n U HU rho (H & P & T). destruct (keeps_density_super n U HU rho) as [KT KH].
  split; [exact (KH H)|split; [|congruence]].
  assert (E : meq n n (evolved n (tf_super n U) rho) (mmul n (mmul n U rho) (madj U))).
  { unfold evolved. rewrite (row_unstack_mor n _ _ (super_row_stack n U rho)). apply row_unstack_stack. }
  eapply nonneg_form_proper; [symmetry; exact E|]. apply nonneg_sandwich. exact P.
Qed.

(** One time slice of the open system propagator, for every Hermitian Hamiltonian, any
    collapse operators and any forward time step. *)
Theorem C101_slice :
  forall n h cols dt, hermitian n h -> (0 <= dt)%R -> keeps_densities n (lind_slice n h cols dt).
Proof.
  intros n h cols dt Hh Hdt rho (H & P & T). destruct (keeps_density_slice n h cols dt Hh rho) as [KT KH].
  split; [exact (KH H)|split; [|congruence]]. exact (lind_evolve_nonneg n h cols dt rho Hh Hdt P).
Qed.
Print Assumptions C101_slice.
(** The same for [tf_dU_of_t_lind], whose Hamiltonian is the driven one. *)
Theorem C101_dU_of_t_lind :
  forall n h0 hks cols cf dt, hermitian n h0 -> Forall (hermitian n) hks -> Forall (fun c : C => snd c = 0%R) cf -> (0 <= dt)%R ->
  keeps_densities n (tf_dU_of_t_lind n h0 hks cols cf dt).
Proof.
  intros n h0 hks cols cf dt H0 Hk Hc Hdt rho Hr.
  assert (Hh : hermitian n (sum_h0_hks h0 hks cf)).
  { unfold sum_h0_hks. revert cf Hc h0 H0. induction hks as [|h hks IH]; intros cf Hc h0 H0; [destruct cf; exact H0|].
    destruct cf as [|c cf]; [exact H0|]. inversion Hk as [|? ? Hk1 Hk2]; subst. inversion Hc as [|? ? Hc1 Hc2]; subst. cbn [combine fold_left].
    apply (IH Hk2 cf Hc2). apply herm_add; [exact H0|].
    destruct c as [a b]. cbn in Hc1. subst b. apply (herm_scale n a). assumption. }
  apply (density_proper n (evolved n (lind_slice n (sum_h0_hks h0 hks cf) cols dt) rho)).
  - unfold evolved. apply row_unstack_mor. apply mmul_mor_l. apply lind_slice_eq.
  - apply C101_slice; assumption.
Qed.
Print Assumptions C101_dU_of_t_lind.

Lemma step_forward : forall signal dt, forward signal -> is_step signal dt -> (0 <= dt)%R.
Proof.
  intros signal dt F (kv & r & t0 & t1 & ts & E & Ew & ->). destruct kv as [line w]. cbn [snd] in Ew.
  specialize (F line w). rewrite E in F. specialize (F ltac:(apply in_or_app; right; left; reflexivity) 0).
  rewrite Ew in F. cbn in F. specialize (F ltac:(lia)). lra.
Qed.
(** Every gate and every partial propagator of an open system, whatever the signals, the
    number of slices, the batch size and the folding stack. *)
Theorem C101_gate :
  forall m signal stack batch r, p_lind m = true -> hermitian (p_dim m) (p_h0 m) ->
  (forall k h, dget k (p_hctrls m) = Some h -> hermitian (p_dim m) h) -> forward signal ->
  pwc_controlled m signal stack batch = Ok r ->
  keeps_densities (p_dim m) (pr_U r) /\ Forall (keeps_densities (p_dim m)) (pr_dUs r).
Proof.
  intros m signal stack batch r Hl H0 Hc Fw H. destruct (controlled_split _ _ _ _ _ H) as (dt & A & B & D & E). rewrite Hl in *.
  assert (F : Forall (keeps_densities (p_dim m)) (pr_dUs r)).
  { apply Forall_forall. intros u Hu. apply In_nth_error in Hu. destruct Hu as (t & Ht).
    assert (Lt : t < samples signal) by (rewrite <- B; apply nth_error_Some; congruence).
    rewrite (D t Lt) in Ht. injection Ht as <-. apply C101_slice; [apply driven_hermitian; auto|exact (step_forward _ _ Fw A)]. }
  split; [|exact F].
  exact (matmul_n_closed _ (mmul (p_dim m * p_dim m)) (keeps_densities (p_dim m)) (keeps_densities_mmul (p_dim m)) _ _ _ F E).
Qed.
Print Assumptions C101_gate.
(** Every propagator of an experiment, with or without frame rotation. *)
Theorem C101_experiment :
  forall m (gen : einstr -> result (dict wave)) batch s ins e p e',
  p_lind m = true -> es_lind s = true -> p_dim m = prod_dims (f_dims (es_sys s)) -> es_dephasing s = 0%R ->
  hermitian (p_dim m) (p_h0 m) -> (forall k h, dget k (p_hctrls m) = Some h -> hermitian (p_dim m) h) ->
  (forall i signal, gen i = Ok signal -> forward signal) ->
  length (f_names (es_sys s)) = length (f_dims (es_sys s)) -> NoDup (f_names (es_sys s)) ->
  compute_propagators (fun i st => rbind (gen i) (fun signal => pwc_controlled m signal st batch)) s ins e = (Ok p, e') ->
  forall g U, dget g p = Some U -> keeps_densities (p_dim m) U.
Proof.
  intros m gen batch s ins e p e' Hl Hs Hd Hz H0 Hc Fw Hn ND H g U Hg.
  destruct (C80_selected_gates _ _ _ _ _ _ H) as (_ & K & A & _).
  destruct (A g) as (i & r & U1 & U2 & d & _ & Er & Ef & Ed & _ & Ep & _). { apply K. eapply dget_in_keys; eauto. }
  assert (U2 = U) by congruence. subst U2. rewrite deph_0 in Ed by exact Hz. injection Ed as ->.
  destruct (gen i) as [signal|] eqn:Eg; [|discriminate Er]. cbn [rbind] in Er.
  destruct (C101_gate _ _ _ _ _ Hl H0 Hc (Fw _ _ Eg) Er) as [HU _].
  unfold frame_part in Ef. destruct (es_use_FR s); [|injection Ef as <-; exact HU].
  destruct (frame_dicts (ei_comps i) ([], [])) as [ff|]; [|discriminate]. cbn [rbind] in Ef.
  destruct (get_frame_rotation (es_sys s) _ (fst ff) (snd ff)) as [FR|] eqn:EF; [|discriminate]. cbn [rbind] in Ef.
  rewrite Hs, <- Hd in Ef. injection Ef as <-. apply keeps_densities_mmul; auto. apply keeps_densities_super. rewrite Hd.
  eapply C33_frame_rotation_unitary; eauto.
Qed.
Print Assumptions C101_experiment.

(** ** Populations *)
Lemma quad_transpose : forall n rho v, quad n (mtrans rho) v = quad n rho (fun i => Cconj (v i)).
Proof.
  intros n rho v. unfold quad, mtrans. rewrite csum_swap. apply csum_ext. intros i Hi. apply csum_ext. intros j Hj.
  rewrite conj_conj. ring.
Qed.
Lemma density_transpose : forall n rho, density n rho -> density n (mtrans rho).
Proof.
  intros n rho (H & P & T). split; [|split].
  - intros i j Hi Hj. unfold madj, mtrans. exact (H j i Hj Hi).
  - intro v. change (0 <= fst (quad n (mtrans rho) v))%R. rewrite quad_transpose. apply P.
  - rewrite <- T. reflexivity.
Qed.
Lemma density_diag : forall n rho i, density n rho -> i < n -> snd (rho i i) = 0%R /\ (0 <= fst (rho i i))%R.
Proof.
  intros n rho i (H & P & _) Hi. split.
  - specialize (H i i Hi Hi). unfold madj in H. apply (f_equal snd) in H. cbn in H. lra.
  - specialize (P (fun k => if Nat.eqb k i then RtoC 1 else RtoC 0)).
    replace (csum n _) with (rho i i) in P; [exact P|]. symmetry.
    rewrite (csum_single n i _ Hi).
    + rewrite (csum_single n i _ Hi).
      * rewrite Nat.eqb_refl, conj_R. ring.
      * intros k Hk Hne. rewrite (proj2 (Nat.eqb_neq _ _) Hne). ring.
    + intros k Hk Hne. apply csum_0. intros j Hj. rewrite (proj2 (Nat.eqb_neq _ _) Hne), conj_R. ring.
Qed.
Lemma probabilities_rs : forall n (f : nat -> R), (forall i, i < n -> (0 <= f i)%R) -> rs n f = 1%R -> probabilities (map f (seq 0 n)).
Proof.
  intros n f Hf Hs. split.
  - apply Forall_map, Forall_forall. intros i Hi. apply in_seq in Hi. split; [apply Hf; lia|].
    rewrite <- Hs. apply rs_member; [exact Hf|lia].
  - rewrite sum_list_seq. exact Hs.
Qed.
(** For every initial density matrix and every sequence of gates that keep density
    matrices, the reported populations are probabilities: each in [0, 1] and summing to
    one. *)
Theorem C101_populations :
  forall n props rho v seqs pops,
  (forall g U, dget g props = Some U -> keeps_densities n U) -> density n rho -> meq (n * n) 1 v (tf_dm_to_vec n rho) ->
  evaluate_legacy (n * n) true props v seqs = Ok pops ->
  length pops = length seqs /\ Forall (fun p => length p = n /\ probabilities p) pops.
Proof.
  intros n props rho v seqs pops HU Hr Hv. revert pops. induction seqs as [|s seqs IH]; intros pops H; cbn [evaluate_legacy] in H.
  - injection H as <-. split; [reflexivity|constructor].
  - destruct (apply_gates (n * n) props s v) as [phi|] eqn:E; [|discriminate]. cbn [rbind] in H.
    destruct (evaluate_legacy (n * n) true props v seqs) as [l|] eqn:E2; [|discriminate]. cbn [rbind] in H.
    injection H as <-. destruct (IH l eq_refl) as [IL IF]. split; [cbn; congruence|]. constructor; [|exact IF].
    assert (D : exists sigma, density n sigma /\ meq (n * n) 1 phi (row_stack n sigma)).
    { assert (V : exists sigma, density n sigma /\ meq (n * n) 1 v (row_stack n sigma)).
      { exists (mtrans rho). split; [apply density_transpose, Hr|exact Hv]. }
      clear - E V HU. revert v E V. induction s as [|g s IHs]; intros v E (sigma & D & Ev); cbn [apply_gates] in E.
      - injection E as <-. eauto.
      - destruct (dget g props) as [U|] eqn:G; [|discriminate]. apply (IHs _ E). exists (evolved n U sigma). split.
        + apply (HU g U G). exact D.
        + unfold evolved. rewrite row_stack_unstack. apply mmul_mor_r. exact Ev. }
    destruct D as (sigma & D & Ep).
    assert (Q : populations (n * n) phi true = map (fun i => fst (sigma i i)) (seq 0 n)).
    { unfold populations. rewrite Nat.sqrt_square. apply map_ext_in. intros i Hi. apply in_seq in Hi. unfold tf_vec_to_dm, mtrans.
      rewrite (Ep (i * n + i)%nat 0%nat) by nia. rewrite row_stack_entry by lia. reflexivity. }
    change (length (populations (n * n) phi true) = n /\ probabilities (populations (n * n) phi true)).
    rewrite Q, map_length, seq_length. split; [reflexivity|]. apply probabilities_rs.
    + intros i Hi. apply (density_diag n sigma i D Hi).
    + rewrite (rs_fst n (fun i => sigma i i)). change (csum n (fun i => sigma i i)) with (mtrace n sigma).
      rewrite (proj2 (proj2 D)). reflexivity.
Qed.
Print Assumptions C101_populations.
(** The initial states of an open system are density matrices, thermal or ground. *)
Theorem C101_initial_state :
  forall n H T, 0 < n -> (forall i, i < n -> snd (H i i) = 0%R) ->
  exists v rho, initialise n H true T = Ok v /\ density n rho /\ meq (n * n) 1 v (tf_dm_to_vec n rho).
Proof.
  intros n H T Hn HR.
  assert (Diag : forall p : nat -> R, (forall i, i < n -> (0 <= p i)%R) -> rs n p = 1%R -> density n (diag_mat (fun i => RtoC (p i)))).
  { intros p Hp Hs. split; [|split].
    - intros i j _ _. unfold madj, diag_mat. rewrite (Nat.eqb_sym j i). destruct (Nat.eqb_spec i j) as [->|]; apply conj_R.
    - intro v. rewrite (csum_ext n _ (fun i => RtoC (p i * Cmod (v i) ^ 2))).
      + rewrite rs_csum. cbn [fst RtoC]. apply rs_nonneg. intros i Hi. apply Rmult_le_pos; [apply Hp, Hi|apply pow2_ge_0].
      + intros i Hi. rewrite (csum_single n i _ Hi).
        * unfold diag_mat. rewrite Nat.eqb_refl, RtoC_mult, <- conj_mod2. ring.
        * intros j Hj Hne. unfold diag_mat. rewrite (proj2 (Nat.eqb_neq i j)) by congruence. ring.
    - unfold mtrace. rewrite (csum_ext n _ (fun i => RtoC (p i))); [rewrite rs_csum, Hs; reflexivity|].
      intros i Hi. unfold diag_mat. rewrite Nat.eqb_refl. reflexivity. }
  destruct (Rlt_dec eps (Rabs T)) as [HT|HT].
  - destruct (C51_thermal_state n H T Hn HR HT) as (p & v & (Pp & Ps & _) & Ev & Em & _).
    exists v, (diag_mat (fun i => RtoC (p i))). split; [exact Ev|]. split; [|exact Em].
    apply Diag; [intros; apply Rlt_le, Pp; assumption|exact Ps].
  - destruct (C51_zero_temperature n H T Hn) as [_ (v & Ev & Em & _)]; [lra|].
    exists v, (diag_mat (fun i => RtoC (if Nat.eqb i 0 then 1 else 0)%R)). split; [exact Ev|]. split.
    + apply Diag; [intros i _; destruct (Nat.eqb i 0); lra|].
      rewrite (rs_single n 0); [reflexivity|exact Hn|]. intros i _ Hi. rewrite (proj2 (Nat.eqb_neq _ _) Hi). reflexivity.
    + rewrite Em. intros k z _ _. unfold tf_dm_to_vec, mtrans, unit_mat, diag_mat.
      generalize (k mod n) (k / n). intros a b. destruct (Nat.eqb_spec a b) as [->|Ne].
      * destruct (Nat.eqb b 0); reflexivity.
      * destruct (Nat.eqb_spec a 0) as [->|]; [|reflexivity]. destruct (Nat.eqb_spec b 0) as [F|]; [congruence|reflexivity].
Qed.
Print Assumptions C101_initial_state.
(** Both population functions of the library agree on stacked density matrices. *)
Theorem C101_population_functions :
  forall n rho, density n rho ->
  fid_populations (n * n) (tf_dm_to_vec n rho) true = populations (n * n) (tf_dm_to_vec n rho) true.
Proof. intros n rho D. apply C49_density_vector. intros i Hi. exact (density_diag n rho i D Hi). Qed.
Print Assumptions C101_population_functions.

(** ** Solvers *)
(** Decay of a two level system with rate one, and populations [p0], [p1]. *)
Definition decay : mat := fun i j => if Nat.eqb i 0 && Nat.eqb j 1 then RtoC 1 else RtoC 0.
Definition diag2 (p0 p1 : R) : mat :=
  fun i j => if Nat.eqb i 0 && Nat.eqb j 0 then RtoC p0 else if Nat.eqb i 1 && Nat.eqb j 1 then RtoC p1 else RtoC 0.
Lemma decay_diag : forall dt p0 p1 X, meq 2 2 X (diag2 p0 p1) ->
  meq 2 2 (lindblad 2 [decay] dt X mzero) (diag2 (dt * p1) (- (dt * p1))).
Proof.
  intros dt p0 p1 X E. unfold lindblad. cbn [fold_left]. unfold lindblad_add, commutator, anticommutator.
  rewrite E. intros i j Hi Hj. unfold mscale, msub, madd, mmul, madj, mzero, decay, diag2. cbn [csum].
  destruct i as [|[|i]]; destruct j as [|[|j]]; try lia; apply C_ext; cbn; field.
Qed.
Lemma diag2_add : forall a b c d, meq 2 2 (madd (diag2 a b) (diag2 c d)) (diag2 (a + c) (b + d)).
Proof.
  intros a b c d i j Hi Hj. unfold madd, diag2.
  destruct i as [|[|i]]; destruct j as [|[|j]]; try lia; apply C_ext; cbn; ring.
Qed.
Lemma diag2_scale : forall r a b, meq 2 2 (mscale (RtoC r) (diag2 a b)) (diag2 (r * a) (r * b)).
Proof.
  intros r a b i j Hi Hj. unfold mscale, diag2.
  destruct i as [|[|i]]; destruct j as [|[|j]]; try lia; apply C_ext; cbn; ring.
Qed.
(** Finding: the Runge-Kutta solvers do not keep density matrices: one rk4 step of three
    lifetimes takes the excited state to a matrix with a negative population. *)
Theorem C101_rk4_refuted :
  density 2 (diag2 0 1)
  /\ meq 2 2 (rk4 (lindblad 2 [decay] 3) (diag2 0 1) [mzero; mzero; mzero]) (diag2 (- (3 / 8)) (11 / 8))
  /\ ~ density 2 (rk4 (lindblad 2 [decay] 3) (diag2 0 1) [mzero; mzero; mzero]).
Proof.
  assert (E : meq 2 2 (rk4 (lindblad 2 [decay] 3) (diag2 0 1) [mzero; mzero; mzero]) (diag2 (- (3 / 8)) (11 / 8))).
  { unfold rk4, hs. cbn [nth].
    set (k1 := lindblad 2 [decay] 3 (diag2 0 1) mzero).
    assert (K1 : meq 2 2 k1 (diag2 (3 * 1) (- (3 * 1)))) by (apply (decay_diag 3 0 1); reflexivity). clearbody k1.
    set (k2 := lindblad 2 [decay] 3 (madd (diag2 0 1) (mscale (RtoC (/ 2)) k1)) mzero).
    assert (K2 : meq 2 2 k2 (diag2 (- (3 / 2)) (3 / 2))).
    { unfold k2. rewrite (decay_diag 3 (3 / 2) (- (1 / 2))).
      - replace (3 * - (1 / 2))%R with (- (3 / 2))%R by field. rewrite Ropp_involutive. reflexivity.
      - rewrite K1, diag2_scale, diag2_add. replace (0 + / 2 * (3 * 1))%R with (3 / 2)%R by field.
        replace (1 + / 2 * - (3 * 1))%R with (- (1 / 2))%R by field. reflexivity. }
    clearbody k2.
    set (k3 := lindblad 2 [decay] 3 (madd (diag2 0 1) (mscale (RtoC (/ 2)) k2)) mzero).
    assert (K3 : meq 2 2 k3 (diag2 (21 / 4) (- (21 / 4)))).
    { unfold k3. rewrite (decay_diag 3 (- (3 / 4)) (7 / 4)).
      - replace (3 * (7 / 4))%R with (21 / 4)%R by field. reflexivity.
      - rewrite K2, diag2_scale, diag2_add. replace (0 + / 2 * - (3 / 2))%R with (- (3 / 4))%R by field.
        replace (1 + / 2 * (3 / 2))%R with (7 / 4)%R by field. reflexivity. }
    clearbody k3.
    set (k4 := lindblad 2 [decay] 3 (madd (diag2 0 1) k3) mzero).
    assert (K4 : meq 2 2 k4 (diag2 (- (51 / 4)) (51 / 4))).
    { unfold k4. rewrite (decay_diag 3 (21 / 4) (- (17 / 4))).
      - replace (3 * - (17 / 4))%R with (- (51 / 4))%R by field. rewrite Ropp_involutive. reflexivity.
      - rewrite K3, diag2_add. replace (0 + 21 / 4)%R with (21 / 4)%R by field.
        replace (1 + - (21 / 4))%R with (- (17 / 4))%R by field. reflexivity. }
    clearbody k4. rewrite K1, K2, K3, K4, !diag2_scale, !diag2_add, !diag2_scale, !diag2_add.
    apply meq_ext. intros i j. unfold diag2. destruct (Nat.eqb i 0 && Nat.eqb j 0); [f_equal; field|].
    destruct (Nat.eqb i 1 && Nat.eqb j 1); [f_equal; field|reflexivity]. }
  split; [|split; [exact E|]].
  - split; [|split].
    + intros i j Hi Hj. unfold madj, diag2. destruct i as [|[|i]]; destruct j as [|[|j]]; try lia; cbn; apply conj_R.
    + intro v. cbn [csum]. unfold diag2. cbn. pose proof (pow2_ge_0 (fst (v 1%nat))). pose proof (pow2_ge_0 (snd (v 1%nat))). nra.
    + unfold mtrace, diag2. cbn. apply C_ext; cbn; ring.
  - intro D. apply (density_proper 2 _ _ E) in D. destruct (density_diag 2 _ 0 D ltac:(lia)) as [_ P]. unfold diag2 in P. cbn in P. lra.
Qed.
Print Assumptions C101_rk4_refuted.

(** A driven, decaying qubit over three slices: the hypotheses hold and the populations of
    a sequence of two gates are probabilities. *)
Definition open_model : pmodel :=
  {| p_dim := 2; p_h0 := p_h0 demo_model; p_hctrls := p_hctrls demo_model; p_lind := true; p_cols := [decay]; p_dims := [2]; p_max_ex := 0 |}.
Example C101_example : exists r pops, pwc_controlled open_model demo_signal (folding_stack 3) (Some 2) = Ok r
  /\ forward demo_signal /\ keeps_densities 2 (pr_U r)
  /\ evaluate_legacy 4 true [("g"%string, pr_U r)] (tf_dm_to_vec 2 (diag2 0 1)) [["g"%string; "g"%string]] = Ok [pops]
  /\ probabilities pops.
Proof.
  assert (H0 : hermitian 2 (p_h0 demo_model)).
  { intros i j Hi Hj. unfold madj, demo_model, Cconj. cbn [p_h0].
    destruct i as [|[|i]]; destruct j as [|[|j]]; try lia; cbn; apply injective_projections; cbn; ring. }
  assert (Hc : forall k h, dget k (p_hctrls demo_model) = Some h -> hermitian 2 h).
  { intros k h Hk. cbn in Hk. destruct (String.eqb k "d"); [|discriminate]. injection Hk as <-. intros i j Hi Hj.
    unfold madj, Cconj. destruct i as [|[|i]]; destruct j as [|[|j]]; try lia; cbn; apply injective_projections; cbn; ring. }
  assert (Fw : forward demo_signal).
  { intros line w [E|[]] j Hj. injection E as <- <-. cbn [w_ts length] in *. destruct j as [|[|j]]; cbn; try lra; lia. }
  destruct (pwc_controlled open_model demo_signal (folding_stack 3) (Some 2)) as [r|x] eqn:E; [|exfalso; cbn in E; discriminate E].
  destruct (C101_gate open_model _ _ _ _ eq_refl H0 Hc Fw E) as [HU _].
  exists r, (populations 4 (mmul 4 (pr_U r) (mmul 4 (pr_U r) (tf_dm_to_vec 2 (diag2 0 1)))) true).
  split; [reflexivity|]. split; [exact Fw|]. split; [exact HU|]. split; [reflexivity|].
  destruct (C101_populations 2 [("g"%string, pr_U r)] (diag2 0 1) (tf_dm_to_vec 2 (diag2 0 1)) [["g"%string; "g"%string]]
    [populations 4 (mmul 4 (pr_U r) (mmul 4 (pr_U r) (tf_dm_to_vec 2 (diag2 0 1)))) true]) as [_ F].
  - intros g U Hg. cbn [dget] in Hg. destruct (String.eqb g "g"); [injection Hg as <-; exact HU|discriminate].
  - apply C101_rk4_refuted.
  - reflexivity.
  - reflexivity.
  - inversion F as [|? ? [_ P] _]; subst. exact P.
Qed.
