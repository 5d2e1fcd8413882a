(** Property C147: the zero of energy. *)
From Coq Require Import Reals Lra Lia.
From Coquelicot Require Import Complex.
From Verif Require Import Base Mat RSum MExp MExp2 HilbertModel HilbertProofs Hilbert2Props PropModel FoldModel FoldProps ExpModel ExpProps
  IndepProps SuperProofs SplitProps FidModel FidProofs FidProps.
Local Open Scope list_scope.
Local Open Scope nat_scope.
Local Notation length := List.length.

(** ** Specification *)
(** [m'] is [m] with all energies counted from a different zero. *)
Definition energies_shifted (c : R) (m m' : pmodel) : Prop :=
  p_dim m' = p_dim m /\ p_lind m' = p_lind m /\ p_cols m' = p_cols m /\ p_hctrls m' = p_hctrls m
  /\ meq (p_dim m) (p_dim m) (p_h0 m') (madd (p_h0 m) (mscale (RtoC c) mid)).
(** Two gates that differ by a phase. *)
Definition up_to_phase (n : nat) (U' U : mat) : Prop := exists z, Cmod z = 1%R /\ meq n n U' (mscale z U).
(** Two dictionaries of gates with the same names, each gate equal up to its own phase. *)
Definition gates_up_to_phase (n : nat) (props props' : dict mat) : Prop :=
  forall g, match dget g props, dget g props' with
            | Some U, Some U' => up_to_phase n U' U | None, None => True | _, _ => False end.

(** ** Proofs *)
Lemma driven_shifted : forall c m m' s t, energies_shifted c m m' ->
  meq (p_dim m) (p_dim m) (driven_hamiltonian m' s t) (madd (driven_hamiltonian m s t) (mscale (RtoC c) mid)).
Proof.
  intros c m m' s t (Ed & _ & _ & Ec & E0) i j Hi Hj. unfold driven_hamiltonian. rewrite Ec. unfold madd at 1. rewrite E0 by assumption.
  unfold madd, mscale. ring.
Qed.
Lemma shifted_slice : forall d H H' c dt, meq d d H' (madd H (mscale (RtoC c) mid)) ->
  meq d d (mexp d (mscale (- Ci * RtoC dt)%C H')) (mscale (expi (- (c * dt))) (mexp d (mscale (- Ci * RtoC dt)%C H))).
Proof.
  intros d H H' c dt E. set (A := mscale (- Ci * RtoC dt)%C H). set (B := mscale (- Ci * RtoC dt * RtoC c)%C mid).
  assert (S : meq d d (mscale (- Ci * RtoC dt)%C H') (madd A B)).
  { rewrite E. intros i j _ _. unfold A, B, mscale, madd. ring. }
  assert (K : meq d d (mmul d A B) (mmul d B A)).
  { unfold B. rewrite mmul_scale_r, mmul_scale_l, mmul_id_l, mmul_id_r. reflexivity. }
  rewrite S, (MExp2.mexp_commute d A B K).
  assert (D : meq d d (mexp d B) (mscale (expi (- (c * dt))) mid)).
  { rewrite (mexp_diag d B (fun _ => (- (c * dt))%R)).
    - intros i j _ _. unfold mscale, mid. destruct (Nat.eqb i j); ring.
    - intros i j _ _. unfold B, mscale, mid. destruct (Nat.eqb i j); [|ring]. rewrite RtoC_opp, RtoC_mult. ring. }
  rewrite D, mmul_scale_r, mmul_id_r. reflexivity.
Qed.
Lemma ordered_phases : forall d z us U, TimeOrdered (mmul d) us U -> forall vs V, TimeOrdered (mmul d) vs V -> length vs = length us ->
  (forall k u v, nth_error us k = Some u -> nth_error vs k = Some v -> meq d d v (mscale z u)) ->
  meq d d V (mscale (Cpow z (length us)) U).
Proof.
  intros d z us U H. induction H as [u|us u p P IH]; intros vs V TV El H.
  - destruct vs as [|v [|]]; try discriminate El. rewrite (to_one_inv _ _ _ _ TV). rewrite (H 0 u v) by reflexivity.
    intros i j _ _. unfold mscale. cbn. ring.
  - destruct vs as [|v vs] using rev_ind; [rewrite app_length in El; cbn in El; lia|]. clear IHvs.
    rewrite !app_length in El. cbn [length] in El.
    assert (Ne : vs <> []) by (intros ->; destruct us; [exact (to_nil _ _ _ _ P eq_refl)|cbn in El; lia]).
    destruct (to_snoc_inv _ _ _ _ _ Ne TV) as (q & Q & ->).
    assert (E1 : meq d d v (mscale z u)).
    { apply (H (length us)); [rewrite nth_error_app2, Nat.sub_diag by lia; reflexivity|].
      rewrite nth_error_app2 by lia. replace (length us - length vs) with 0 by lia. reflexivity. }
    assert (E2 : meq d d q (mscale (Cpow z (length us)) p)).
    { apply (IH vs q Q ltac:(lia)). intros k x y Hx Hy. apply (H k).
      - rewrite nth_error_app1; [exact Hx|]. apply nth_error_Some. congruence.
      - rewrite nth_error_app1; [exact Hy|]. apply nth_error_Some. congruence. }
    rewrite E1, E2, mmul_scale_l, mmul_scale_r, mscale_mscale. rewrite app_length. cbn [length]. rewrite Nat.add_1_r. reflexivity.
Qed.
Lemma expi_pow : forall t n, Cpow (expi t) n = expi (INR n * t).
Proof.
  intros t. induction n as [|n IH]; [cbn; rewrite Rmult_0_l; symmetry; apply expi_0|].
  cbn [Cpow]. rewrite IH, <- expi_add, S_INR. f_equal. ring.
Qed.

(** ** C147: Counting the energies from another zero multiplies a gate by the phase the added
    energy collects over the duration of the gate, whatever the pulses. *)
Theorem C147_gate : forall c m m' s n ts batch batch' r r', energies_shifted c m m' -> p_lind m = false ->
  common_grid s n ts -> 0 < n ->
  pwc_controlled m s (folding_stack n) batch = Ok r -> pwc_controlled m' s (folding_stack n) batch' = Ok r' ->
  meq (p_dim m) (p_dim m) (pr_U r') (mscale (expi (- (c * (INR n * first_step ts)))) (pr_U r)).
Proof.
  intros c m m' s n ts batch batch' r r' Sh L G Hn R R'.
  destruct (slices_ordered m s n ts batch r G Hn R) as (T & Ln & D).
  destruct (slices_ordered m' s n ts batch' r' G Hn R') as (T' & Ln' & D').
  pose proof Sh as (Ed & El & _). unfold udim in T, T'. rewrite El in T', D'. rewrite L in *. rewrite Ed in T', D'.
  assert (E : meq (p_dim m) (p_dim m) (pr_U r') (mscale (Cpow (expi (- (c * first_step ts))) (length (pr_dUs r))) (pr_U r))).
  { apply (ordered_phases _ _ _ _ T _ _ T'); [lia|]. intros k u v Hu Hv.
    assert (Lk : k < n) by (rewrite <- Ln; apply nth_error_Some; congruence).
    rewrite (D k Lk) in Hu. injection Hu as <-. rewrite (D' k Lk) in Hv. injection Hv as <-.
    apply shifted_slice, driven_shifted, Sh. }
  rewrite E, Ln, expi_pow. replace (INR n * - (c * first_step ts))%R with (- (c * (INR n * first_step ts)))%R by ring. reflexivity.
Qed.
Print Assumptions C147_gate.

(** With the master equation it changes nothing at all. *)
Theorem C147_open : forall c m m' s n ts batch batch' r r', energies_shifted c m m' -> p_lind m = true ->
  common_grid s n ts -> 0 < n ->
  pwc_controlled m s (folding_stack n) batch = Ok r -> pwc_controlled m' s (folding_stack n) batch' = Ok r' ->
  meq (p_dim m * p_dim m) (p_dim m * p_dim m) (pr_U r') (pr_U r).
Proof.
  intros c m m' s n ts batch batch' r r' Sh L G Hn R R'.
  destruct (slices_ordered m s n ts batch r G Hn R) as (T & Ln & D).
  destruct (slices_ordered m' s n ts batch' r' G Hn R') as (T' & Ln' & D').
  pose proof Sh as (Ed & El & Eo & _). unfold udim in T, T'. rewrite El in T', D'. rewrite L in *. rewrite Eo, Ed in *.
  set (d := p_dim m) in *.
  rewrite <- (mscale_1 (d * d) (d * d) (pr_U r)).
  assert (P1 : forall k, Cpow (RtoC 1) k = RtoC 1) by (induction k as [|k IH]; [reflexivity|cbn [Cpow]; rewrite IH; ring]).
  rewrite <- (P1 (length (pr_dUs r))).
  apply (ordered_phases _ _ _ _ T _ _ T'); [lia|]. intros k u v Hu Hv.
  assert (Lk : k < n) by (rewrite <- Ln; apply nth_error_Some; congruence).
  rewrite (D k Lk) in Hu. injection Hu as <-. rewrite (D' k Lk) in Hv. injection Hv as <-.
  rewrite mscale_1. unfold lind_slice. apply mexp_proper.
  assert (W : meq (d * d) (d * d) (lind_op_vec d (driven_hamiltonian m' s k) (p_cols m)) (lind_op_vec d (driven_hamiltonian m s k) (p_cols m))); [|rewrite W; reflexivity].
  pose proof (driven_shifted c m m' s k Sh) as Q. fold d in Q.
  intros i j Hi Hj. unfold lind_op_vec. unfold madd at 1. unfold madd at 2. f_equal. unfold mscale, msub, kron, mtrans.
  destruct (divmod_lt _ _ _ Hi) as [A1 A2]. destruct (divmod_lt _ _ _ Hj) as [B1 B2].
  rewrite !Q by assumption. unfold madd, mscale, mid. rewrite (Nat.eqb_sym (j mod d) (i mod d)).
  destruct (Nat.eqb (i / d) (j / d)), (Nat.eqb (i mod d) (j mod d)); ring.
Qed.
Print Assumptions C147_open.

(** A phase of a gate shows in no goal function of a closed system ... *)
Lemma meq_refl_at : forall n m A, meq n m A A. Proof. reflexivity. Qed.
Lemma project_phase : forall dims index U U' z, good_index dims index -> meq (prod_dims dims) (prod_dims dims) U' (mscale z U) ->
  meq (2 ^ length index) (2 ^ length index) (ent (tf_project_to_comp U' dims index false)) (mscale z (ent (tf_project_to_comp U dims index false))).
Proof.
  intros dims index U U' z G E. apply (block_is_meq dims index U' z _ G).
  assert (B : block_is dims index U (RtoC 1) (ent (tf_project_to_comp U dims index false))).
  { apply (block_is_meq dims index U _ _ G). rewrite mscale_1. reflexivity. }
  destruct G as (Hne & Hnd & Hk & H1).
  assert (V : forall u, valid (comp_dims dims index) u -> valid dims u).
  { intros u Hu. apply (comp_valid dims index u); auto. intros k Hkl Hm. apply mem_nat_in in Hm.
    replace (project_index dims index) with index in Hm by (destruct index; [congruence|reflexivity]). apply Hk, Hm. }
  intros u v Hu Hv. rewrite E by (apply pos_lt, V; assumption). unfold mscale. rewrite (B u v Hu Hv). ring.
Qed.
Theorem C147_goals : forall dims index U U' ideal psi, good_index dims index -> up_to_phase (prod_dims dims) U' U ->
  unitary_infid ideal U' (Some index) dims = unitary_infid ideal U (Some index) dims
  /\ average_infid ideal U' index dims = average_infid ideal U index dims
  /\ state_transfer_infid ideal U' index dims psi = state_transfer_infid ideal U index dims psi.
Proof.
  intros dims index U U' ideal psi G (z & Hz & E). pose proof (project_phase dims index U U' z G E) as Q.
  destruct (project_dims U dims index G) as [R C]. destruct (project_dims U' dims index G) as [R' C'].
  split; [|split].
  - unfold unitary_infid. rewrite R, C, R', C'. destruct (Nat.eqb _ _); [|reflexivity].
    rewrite !overlap_value, (inner_mor _ _ _ _ _ _ Q (meq_refl_at _ _ (ent ideal))), inner_scale_l, Cmod_mult, Hz, Rmult_1_l. reflexivity.
  - unfold average_infid. rewrite R, R'. destruct (Nat.eqb _ (rows ideal)); [|reflexivity]. rewrite Nat.eqb_refl. cbn [andb].
    rewrite !average_value, (inner_mor _ _ _ _ _ _ Q (meq_refl_at _ _ (ent ideal))), inner_scale_l, Cmod_mult, Hz, Rmult_1_l. reflexivity.
  - unfold state_transfer_infid. rewrite R, C, R', C'. destruct (_ && _); [|reflexivity]. f_equal. f_equal.
    unfold tf_ketket_fid. rewrite !abs_mod.
    transitivity (Cmod (z * mmul (2 ^ length index) (madj (mmul (cols ideal) (ent ideal) (ent psi)))
       (mmul (2 ^ length index) (ent (tf_project_to_comp U dims index false)) (ent psi)) 0 0)%C); [|rewrite Cmod_mult, Hz, Rmult_1_l; reflexivity].
    f_equal. set (d := 2 ^ length index) in *. set (X := madj (mmul (cols ideal) (ent ideal) (ent psi))).
    assert (S : forall k, k < d -> mmul d (ent (tf_project_to_comp U' dims index false)) (ent psi) k 0
                = (z * mmul d (ent (tf_project_to_comp U dims index false)) (ent psi) k 0)%C).
    { intros k Hk. unfold mmul. rewrite <- csum_scale. apply csum_ext. intros l Hl. rewrite Q by assumption. unfold mscale. ring. }
    set (Y' := mmul d (ent (tf_project_to_comp U' dims index false)) (ent psi)) in *.
    set (Y := mmul d (ent (tf_project_to_comp U dims index false)) (ent psi)) in *.
    unfold mmul. rewrite <- csum_scale. apply csum_ext. intros k Hk. rewrite (S k Hk). ring.
Qed.
Print Assumptions C147_goals.

(** ... and in no population an experiment reports, for any sequences of such gates. *)
Theorem C147_populations : forall n props props' psi seqs, gates_up_to_phase n props props' ->
  evaluate_legacy n false props' psi seqs = evaluate_legacy n false props psi seqs.
Proof.
  intros n props props' psi seqs H.
  assert (A : forall s phi phi', (exists z, Cmod z = 1%R /\ meq n 1 phi' (mscale z phi)) ->
    match apply_gates n props s phi, apply_gates n props' s phi' with
    | Ok p, Ok p' => exists z, Cmod z = 1%R /\ meq n 1 p' (mscale z p)
    | Err e, Err e' => e = e' | _, _ => False end).
  { induction s as [|g s IH]; intros phi phi' E; cbn [apply_gates]; [exact E|].
    specialize (H g). destruct (dget g props) as [U|], (dget g props') as [U'|]; try contradiction; [|reflexivity].
    apply IH. destruct E as (z & Hz & E). destruct H as (w & Hw & HU). exists (w * z)%C. split; [rewrite Cmod_mult, Hz, Hw; ring|].
    intros i j Hi Hj. unfold mmul, mscale. rewrite <- csum_scale. apply csum_ext. intros k Hk. rewrite HU, E by assumption. unfold mscale. ring. }
  induction seqs as [|s seqs IH]; cbn [evaluate_legacy]; [reflexivity|]. rewrite IH.
  assert (E0 : exists z, Cmod z = 1%R /\ meq n 1 psi (mscale z psi)) by (exists (RtoC 1); split; [apply Cmod_1|rewrite mscale_1; reflexivity]).
  pose proof (A s psi psi E0) as Q. destruct (apply_gates n props s psi) as [p|e], (apply_gates n props' s psi) as [p'|e']; try contradiction;
    cbn [rbind]; [|rewrite Q; reflexivity].
  replace (populations n p' false) with (populations n p false); [reflexivity|]. destruct Q as (z & Hz & E).
  unfold populations. apply map_ext_in. intros i Hi. apply in_seq in Hi. rewrite (E i 0) by lia. unfold mscale. rewrite Cmod_mult, Hz, Rmult_1_l. reflexivity.
Qed.
Print Assumptions C147_populations.

(** The two qubits of [C138_example] with all energies raised by 3. *)
Definition raised : pmodel :=
  {| p_dim := 4; p_h0 := madd (p_h0 two_qubits) (mscale (RtoC 3) mid); p_hctrls := p_hctrls two_qubits; p_lind := false;
     p_cols := []; p_dims := [2; 2]; p_max_ex := 0 |}.
Example C147_example :
  energies_shifted 3 two_qubits raised /\ common_grid both_lines 4 [0%R; 1%R; 2%R; 3%R]
  /\ (exists r, pwc_controlled two_qubits both_lines (folding_stack 4) None = Ok r)
  /\ (exists r, pwc_controlled raised both_lines (folding_stack 4) None = Ok r)
  /\ gates_up_to_phase 2 [("x"%string, sx)] [("x"%string, mscale (- Ci)%C sx)].
Proof.
  split; [|split; [|split; [|split]]].
  - repeat split.
  - intros k w [H|[H|[]]]; injection H as <- <-; split; reflexivity.
  - eexists; reflexivity.
  - eexists; reflexivity.
  - intro g. cbn. destruct (String.eqb g "x"); [|exact I]. exists (- Ci)%C. split; [|reflexivity].
    rewrite Cmod_opp. unfold Cmod, Ci. cbn. replace (0 * (0 * 1) + 1 * (1 * 1))%R with 1%R by ring. apply sqrt_1.
Qed.
