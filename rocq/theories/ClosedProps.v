(** Property C143: the master equation without collapse operators. *)
From Coq Require Import Reals Lra Lia FunctionalExtensionality.
From Coquelicot Require Import Complex.
From Verif Require Import Base Mat RSum MExp MExp2 PropModel FoldModel FoldProps ExpModel ExpProps IndepProps SuperProofs
  SplitProps FidModel FidProps Prop2Props.
Local Open Scope list_scope.
Local Open Scope nat_scope.
Local Notation length := List.length.

Lemma ordered_super : forall d us U, TimeOrdered (mmul d) us U -> forall vs V, TimeOrdered (mmul (d * d)) vs V -> length vs = length us ->
  (forall k u v, nth_error us k = Some u -> nth_error vs k = Some v -> meq (d * d) (d * d) v (tf_super d u)) ->
  meq (d * d) (d * d) V (tf_super d U).
Proof.
  intros d us U H. induction H as [u|us u p P IH]; intros vs V TV El H.
  - destruct vs as [|v [|]]; try discriminate El. rewrite (to_one_inv _ _ _ _ TV). apply (H 0); reflexivity.
  - destruct vs as [|v vs] using rev_ind; [rewrite app_length in El; cbn in El; lia|]. clear IHvs.
    rewrite !app_length in El. cbn [length] in El.
    assert (Ne : vs <> []) by (intros ->; destruct us; [exact (to_nil _ _ _ _ P eq_refl)|cbn in El; lia]).
    destruct (to_snoc_inv _ _ _ _ _ Ne TV) as (q & Q & ->).
    assert (E1 : meq (d * d) (d * d) v (tf_super d u)).
    { apply (H (length us)); [rewrite nth_error_app2, Nat.sub_diag by lia; reflexivity|].
      rewrite nth_error_app2 by lia. replace (length us - length vs) with 0 by lia. reflexivity. }
    assert (E2 : meq (d * d) (d * d) q (tf_super d p)).
    { apply (IH vs q Q ltac:(lia)). intros k x y Hx Hy. apply (H k).
      - rewrite nth_error_app1; [exact Hx|]. apply nth_error_Some. congruence.
      - rewrite nth_error_app1; [exact Hy|]. apply nth_error_Some. congruence. }
    rewrite E1, E2. symmetry. apply super_mmul.
Qed.

(** ** C143: A gate simulated with the master equation, but without collapse operators, is the
    superoperator of the gate simulated with the Schroedinger equation: it takes every
    density matrix rho to U rho U^dagger. *)
Theorem C143_gate : forall m m' s n ts batch batch' r r',
  p_lind m = false -> p_lind m' = true -> p_cols m' = [] ->
  p_dim m' = p_dim m -> p_hctrls m' = p_hctrls m -> p_h0 m' = p_h0 m ->
  hermitian (p_dim m) (p_h0 m) -> (forall k h, dget k (p_hctrls m) = Some h -> hermitian (p_dim m) h) ->
  common_grid s n ts -> 0 < n ->
  pwc_controlled m s (folding_stack n) batch = Ok r ->
  pwc_controlled m' s (folding_stack n) batch' = Ok r' ->
  meq (p_dim m * p_dim m) (p_dim m * p_dim m) (pr_U r') (tf_super (p_dim m) (pr_U r))
  /\ forall rho, meq (p_dim m) (p_dim m) (evolved (p_dim m) (pr_U r') rho)
                   (mmul (p_dim m) (mmul (p_dim m) (pr_U r) rho) (madj (pr_U r))).
Proof.
  intros m m' s n ts batch batch' r r' L L' C' Ed Ec E0 H0 Hc G Hn R R'.
  destruct (slices_ordered m s n ts batch r G Hn R) as (T & Ln & D).
  destruct (slices_ordered m' s n ts batch' r' G Hn R') as (T' & Ln' & D').
  unfold udim in T, T'. rewrite L in T, D. rewrite L' in T', D'. rewrite C' in D'. rewrite Ed in *.
  assert (E : meq (p_dim m * p_dim m) (p_dim m * p_dim m) (pr_U r') (tf_super (p_dim m) (pr_U r))).
  { apply (ordered_super _ _ _ T _ _ T'); [lia|]. intros k u v Hu Hv.
    assert (Lk : k < n) by (rewrite <- Ln; apply nth_error_Some; congruence).
    rewrite (D k Lk) in Hu. injection Hu as <-. rewrite (D' k Lk) in Hv. injection Hv as <-.
    assert (Q : driven_hamiltonian m' s k = driven_hamiltonian m s k) by (unfold driven_hamiltonian; rewrite Ec, E0; reflexivity).
    rewrite Q. apply lind_slice_closed. apply driven_hermitian; assumption. }
  split; [exact E|]. intro rho. unfold evolved.
  rewrite (row_unstack_mor _ _ _ (mmul_mor_l _ _ _ _ _ _ E)).
  apply C40_super_conjugates.
Qed.
Print Assumptions C143_gate.

(** ** The experiment *)
(** Each gate of [sprops] is the superoperator of the gate of the same name in [props]. *)
Definition superoperators (n : nat) (props sprops : dict mat) : Prop :=
  forall g, match dget g props, dget g sprops with
            | Some U, Some V => meq (n * n) (n * n) V (tf_super n U)
            | None, None => True | _, _ => False end.
Lemma pure_gates : forall n props sprops, superoperators n props sprops -> forall s phi v,
  meq (n * n) 1 v (row_stack n (mmul 1 phi (madj phi))) ->
  match apply_gates n props s phi, apply_gates (n * n) sprops s v with
  | Ok p, Ok w => meq (n * n) 1 w (row_stack n (mmul 1 p (madj p)))
  | Err e, Err e' => e = e' | _, _ => False end.
Proof.
  intros n props sprops HS. induction s as [|g s IH]; intros phi v E; cbn [apply_gates]; [exact E|].
  specialize (HS g). destruct (dget g props) as [U|], (dget g sprops) as [V|]; try contradiction; [|reflexivity].
  apply IH. transitivity (mmul (n * n) (tf_super n U) (row_stack n (mmul 1 phi (madj phi)))); [apply mmul_mor; assumption|].
  rewrite super_row_stack. apply row_stack_mor.
  transitivity (mmul 1 (mmul n U phi) (mmul n (madj phi) (madj U))).
  - rewrite (mmul_assoc n n 1 n U phi (madj phi)). symmetry. apply mmul_assoc.
  - apply mmul_mor; [reflexivity|]. symmetry. apply madj_mmul.
Qed.
Lemma pure_populations : forall n phi v, meq (n * n) 1 v (row_stack n (mmul 1 phi (madj phi))) ->
  populations (n * n) v true = populations n phi false.
Proof.
  intros n phi v E. unfold populations. rewrite Nat.sqrt_square. apply map_ext_in. intros i Hi. apply in_seq in Hi.
  unfold tf_vec_to_dm, mtrans. rewrite E by nia. unfold row_stack. destruct (divmod_add i i n ltac:(lia)) as [-> ->].
  unfold mmul, madj. cbn [csum]. rewrite Cplus_0_l. unfold Cmod. rewrite pow2_sqrt by (destruct (phi i 0); cbn; nra).
  destruct (phi i 0) as [x y]. cbn. ring.
Qed.
(** The populations an experiment reports for any sequences of such gates are the same with
    both equations, and so are its errors, whatever state with real amplitudes it starts in. *)
Theorem C143_populations : forall n props sprops psi seqs,
  (forall i, i < n -> snd (psi i 0) = 0%R) -> superoperators n props sprops ->
  evaluate_legacy (n * n) true sprops (tf_dm_to_vec n (tf_state_to_dm psi)) seqs = evaluate_legacy n false props psi seqs.
Proof.
  intros n props sprops psi seqs HR HS.
  assert (E : meq (n * n) 1 (tf_dm_to_vec n (tf_state_to_dm psi)) (row_stack n (mmul 1 psi (madj psi)))).
  { intros k z Hk _. unfold tf_dm_to_vec, tf_state_to_dm, row_stack, mtrans, mmul, madj. cbn [csum].
    destruct (divmod_lt _ _ _ Hk) as [A B]. rewrite (real_conj _ (HR _ B)). ring. }
  induction seqs as [|s seqs IH]; cbn [evaluate_legacy]; [reflexivity|]. rewrite IH.
  pose proof (pure_gates n props sprops HS s psi _ E) as Q.
  destruct (apply_gates n props s psi) as [p|e], (apply_gates (n * n) sprops s (tf_dm_to_vec n (tf_state_to_dm psi))) as [w|e'];
    try contradiction; cbn [rbind]; [|rewrite Q; reflexivity].
  rewrite (pure_populations n p w Q). reflexivity.
Qed.
Print Assumptions C143_populations.

(** Finding: for complex amplitudes they differ, because tf_state_to_dm does not conjugate: even
    with no gate at all the state (|0> + i|1>)/sqrt 2 is reported with the population -1/2. *)
Theorem C143_complex_state_refuted : exists psi, mmul 2 (madj psi) psi 0 0 = RtoC 1
  /\ evaluate_legacy 2 false [] psi [[]] = Ok [[(/ 2)%R; (/ 2)%R]]
  /\ evaluate_legacy 4 true [] (tf_dm_to_vec 2 (tf_state_to_dm psi)) [[]] = Ok [[(/ 2)%R; (- / 2)%R]].
Proof.
  assert (S : (/ sqrt 2 * / sqrt 2 = / 2)%R) by (rewrite <- Rinv_mult, sqrt_sqrt by lra; reflexivity).
  exists state_i. repeat split.
  - unfold mmul, madj, state_i. cbn [csum Nat.eqb]. apply C_ext; cbn; ring_simplify; nra.
  - cbn [evaluate_legacy apply_gates rbind]. unfold populations. cbn [seq map]. unfold state_i, Cmod. cbn [Nat.eqb].
    rewrite !pow2_sqrt by (cbn; nra). repeat f_equal; cbn; nra.
  - cbn [evaluate_legacy apply_gates rbind]. unfold populations. change (Nat.sqrt 4) with 2. cbn [seq map].
    unfold tf_vec_to_dm, tf_dm_to_vec, tf_state_to_dm, mtrans, mmul, state_i. cbn [csum Nat.eqb Nat.div Nat.modulo Nat.divmod Nat.mul Nat.add Nat.sub fst snd].
    repeat f_equal; cbn; nra.
Qed.
Print Assumptions C143_complex_state_refuted.

(** The two qubits of [C138_example] with the master equation switched on. *)
Definition open_qubits : pmodel :=
  {| p_dim := 4; p_h0 := p_h0 two_qubits; p_hctrls := p_hctrls two_qubits; p_lind := true; p_cols := []; p_dims := [2; 2]; p_max_ex := 0 |}.
Example C143_example :
  hermitian 4 (p_h0 two_qubits) /\ (forall k h, dget k (p_hctrls two_qubits) = Some h -> hermitian 4 h)
  /\ common_grid both_lines 4 [0%R; 1%R; 2%R; 3%R]
  /\ (exists r, pwc_controlled two_qubits both_lines (folding_stack 4) None = Ok r)
  /\ (exists r, pwc_controlled open_qubits both_lines (folding_stack 4) None = Ok r)
  /\ superoperators 2 [("x"%string, sx)] [("x"%string, tf_super 2 sx)].
Proof.
  assert (Q : forall A, (forall i j, i < 4 -> j < 4 -> Cconj (A j i) = A i j) -> hermitian 4 A) by (intros A H i j Hi Hj; apply H; assumption).
  split; [|split; [|split; [|split; [|split]]]].
  - apply Q. intros [|[|[|[|?]]]] [|[|[|[|?]]]] Hi Hj; try lia; apply C_ext; cbn; lra.
  - intros k h H. cbn in H. destruct (String.eqb k "d1"); [|destruct (String.eqb k "d2"); [|discriminate]]; injection H as <-; apply Q;
    intros [|[|[|[|?]]]] [|[|[|[|?]]]] Hi Hj; try lia; apply C_ext; cbn; lra.
  - intros k w [H|[H|[]]]; injection H as <- <-; split; reflexivity.
  - eexists; reflexivity.
  - eexists; reflexivity.
  - intro g. cbn. destruct (String.eqb g "x"); [reflexivity|exact I].
Qed.
