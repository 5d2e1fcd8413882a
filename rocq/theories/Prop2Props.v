(** Properties C39 to C42 and C44: superoperators, dephasing, Runge-Kutta
    order and library Hamiltonians. *)
From Coq Require Import Reals Lra Lia Setoid Morphisms QArith Qreals.
From Coquelicot Require Import Coquelicot.
From Verif Require Import Base Mat MExp MExp2 HilbertModel HilbertProofs HilbertProps PropModel PropProofs
                          SuperProofs DephProofs RKProofs.
Local Open Scope list_scope.
Local Open Scope nat_scope.
Local Notation length := List.length.

(** ** C39 *)

(** Both code paths build the same generator, and it acts on the row-stacked
    state as the Lindblad right-hand side. *)
Theorem C39_generator_is_lindblad :
  forall n h cols dt rho,
  meq (n * n) 1 (mmul (n * n) (mscale (RtoC dt) (lind_op n h cols)) (row_stack n rho))
                (row_stack n (lindblad n cols dt rho h))
  /\ meq (n * n) 1 (mmul (n * n) (mscale (RtoC dt) (lind_op_vec n h cols)) (row_stack n rho))
                   (row_stack n (lindblad n cols dt rho h)).
Proof.
  intros.
  assert (A : meq (n * n) 1 (mmul (n * n) (mscale (RtoC dt) (lind_op n h cols)) (row_stack n rho))
                (row_stack n (lindblad n cols dt rho h))).
  { rewrite mmul_scale_l, lind_op_row, <- row_stack_scale. apply row_stack_mor. symmetry. apply lindblad_dt. }
  split; [exact A|]. rewrite <- A. apply mmul_mor_l. rewrite lind_op_vec_ok. reflexivity.
Qed.
Print Assumptions C39_generator_is_lindblad.

Theorem C39_code_paths_agree :
  forall n h0 hks cols cf dt,
  meq (n * n) (n * n) (tf_dU_of_t_lind n h0 hks cols cf dt) (lind_slice n (sum_h0_hks h0 hks cf) cols dt).
Proof.
  intros. unfold tf_dU_of_t_lind, lind_slice. apply mexp_proper. rewrite lind_op_vec_ok. reflexivity.
Qed.
Print Assumptions C39_code_paths_agree.

(** Evolution through any number of slices keeps the trace, and Hermiticity
    when the slice Hamiltonians are Hermitian. *)
Definition lind_slices (n : nat) (cols : list mat) (dt : R) (hs : list mat) (rho : mat) : mat :=
  fold_left (fun r h => row_unstack n (mmul (n * n) (lind_slice n h cols dt) (row_stack n r))) hs rho.
Theorem C39_evolution_keeps_trace :
  forall n cols dt hs rho, mtrace n (lind_slices n cols dt hs rho) = mtrace n rho.
Proof.
  intros n cols dt hs. unfold lind_slices. induction hs as [|h hs IH]; intro rho; [reflexivity|]. cbn [fold_left].
  rewrite IH. apply lind_evolve_trace.
Qed.
Print Assumptions C39_evolution_keeps_trace.
Theorem C39_evolution_keeps_hermiticity :
  forall n cols dt hs rho, Forall (hermitian n) hs -> hermitian n rho ->
  hermitian n (lind_slices n cols dt hs rho).
Proof.
  intros n cols dt hs rho H. revert rho. unfold lind_slices. induction H as [|h hs Hh H IH]; intros rho Hr; [exact Hr|].
  cbn [fold_left]. apply IH. apply lind_evolve_herm; assumption.
Qed.
Print Assumptions C39_evolution_keeps_hermiticity.

(** Without collapse operators the slice superoperator is the superoperator of
    the unitary slice. *)
Theorem C39_closed_system :
  forall n h dt, hermitian n h ->
  meq (n * n) (n * n) (lind_slice n h [] dt) (tf_super n (mexp n (mscale (- Ci * RtoC dt)%C h)))
  /\ unitary n (mexp n (mscale (- Ci * RtoC dt)%C h)).
Proof. intros n h dt Hh. split; [apply lind_slice_closed, Hh|]. apply mexp_unitary, Hh. Qed.
Print Assumptions C39_closed_system.

Definition pauli_y : mat := fun i j => if Nat.eqb i j then RtoC 0 else if Nat.eqb i 0 then (- Ci)%C else Ci.
Lemma pauli_y_herm : hermitian 2 pauli_y.
Proof.
  intros i j Hi Hj. destruct i as [|[|i]]; [| |lia]; (destruct j as [|[|j]]; [| |lia]); unfold madj, pauli_y; cbn [Nat.eqb];
    apply C_ext; cbn; lra.
Qed.
Example C39_example :
  hermitian 2 pauli_y /\ hermitian 2 mid
  /\ hermitian 2 (lind_slices 2 [pauli_y] 1 [pauli_y; mid] mid)
  /\ mtrace 2 (lind_slices 2 [pauli_y] 1 [pauli_y; mid] mid) = RtoC 2.
Proof.
  split; [apply pauli_y_herm|]. split; [apply madj_id|]. split.
  - apply C39_evolution_keeps_hermiticity; [|apply madj_id].
    repeat constructor; [apply pauli_y_herm|apply madj_id].
  - rewrite C39_evolution_keeps_trace, mtrace_id. reflexivity.
Qed.

(** ** C40 *)

Theorem C40_super_conjugates :
  forall n U rho, meq n n (row_unstack n (mmul (n * n) (tf_super n U) (row_stack n rho)))
                          (mmul n (mmul n U rho) (madj U)).
Proof.
  intros. rewrite (row_unstack_mor n _ _ (super_row_stack n U rho)). apply row_unstack_stack.
Qed.
Print Assumptions C40_super_conjugates.

Theorem C40_super_homomorphism :
  forall n U V,
  meq (n * n) (n * n) (tf_super n (mmul n U V)) (mmul (n * n) (tf_super n U) (tf_super n V))
  /\ meq (n * n) (n * n) (tf_super n mid) mid
  /\ meq (n * n) (n * n) (tf_super n (madj U)) (madj (tf_super n U))
  /\ (unitary n U -> unitary (n * n) (tf_super n U)).
Proof.
  intros. split; [apply super_mmul|]. split; [apply super_id|]. split; [symmetry; apply super_adj|apply super_unitary].
Qed.
Print Assumptions C40_super_homomorphism.

Theorem C40_left_right :
  forall n A X,
  meq n n (row_unstack n (mmul (n * n) (tf_spre n A) (row_stack n X))) (mmul n A X)
  /\ meq n n (row_unstack n (mmul (n * n) (tf_spost n A) (row_stack n X))) (mmul n X A).
Proof.
  intros. split.
  - rewrite (row_unstack_mor n _ _ (spre_row_stack n A X)). apply row_unstack_stack.
  - rewrite (row_unstack_mor n _ _ (spost_row_stack n A X)). apply row_unstack_stack.
Qed.
Print Assumptions C40_left_right.

(** tf_dm_to_vec and tf_vec_to_dm stack columns.  With them the superoperator of
    U acts as conj(U) rho U^T, not as U rho U+. *)
Theorem C40_column_stacking_conjugates :
  forall n U rho,
  meq n n (tf_vec_to_dm n (mmul (n * n) (tf_super n U) (tf_dm_to_vec n rho)))
          (mmul n (mmul n (mconj U) rho) (mtrans U)).
Proof.
  intros n U rho.
  assert (E : meq (n * n) 1 (tf_dm_to_vec n rho) (row_stack n (mtrans rho))) by (intros i j _ _; reflexivity).
  change (tf_vec_to_dm n (mmul (n * n) (tf_super n U) (tf_dm_to_vec n rho)))
    with (mtrans (row_unstack n (mmul (n * n) (tf_super n U) (tf_dm_to_vec n rho)))).
  rewrite (row_unstack_mor n _ _ (mmul_mor_r _ _ _ _ _ _ E)).
  rewrite C40_super_conjugates, !mtrans_mmul.
  rewrite mmul_assoc. apply mmul_proper; [|reflexivity]. apply mmul_proper; [|apply mtrans_mtrans].
  intros i j _ _. reflexivity.
Qed.
Print Assumptions C40_column_stacking_conjugates.

(** Round trip of the two conversions. *)
Theorem C40_dm_vec_round_trip :
  forall n rho, meq n n (tf_vec_to_dm n (tf_dm_to_vec n rho)) rho.
Proof.
  intros n rho i j Hi Hj. unfold tf_vec_to_dm, tf_dm_to_vec, mtrans.
  destruct (divmod_add j i n Hi) as [-> ->]. reflexivity.
Qed.
Print Assumptions C40_dm_vec_round_trip.

(** Finding: with these conversions the evolved density matrix is wrong for some
    unitary and pure state: U = S (phase gate) on |+>. *)
Definition phase_s : mat := fun i j => if Nat.eqb i j then (if Nat.eqb i 0 then RtoC 1 else Ci) else RtoC 0.
Definition plus_dm : mat := fun _ _ => RtoC (1/2).
Lemma phase_s_unitary : unitary 2 phase_s.
Proof.
  split; intros i j Hi Hj; (destruct i as [|[|i]]; [| |lia]); (destruct j as [|[|j]]; [| |lia]);
    unfold mmul, madj, mid, phase_s; cbn [csum Nat.eqb]; apply C_ext; cbn; lra.
Qed.
(** Finding: tf_dm_to_vec and tf_vec_to_dm stack columns, tf_super expects stacked rows: together they do not conjugate by U. *)
Theorem C40_column_stacking_refuted :
  exists U rho, unitary 2 U /\ hermitian 2 rho /\ mtrace 2 rho = RtoC 1
  /\ ~ meq 2 2 (tf_vec_to_dm 2 (mmul (2 * 2) (tf_super 2 U) (tf_dm_to_vec 2 rho)))
               (mmul 2 (mmul 2 U rho) (madj U)).
Proof.
  exists phase_s, plus_dm. split; [apply phase_s_unitary|]. split; [|split].
  - intros i j _ _. unfold madj, plus_dm. apply conj_R.
  - unfold mtrace, plus_dm. cbn [csum]. apply C_ext; cbn; lra.
  - intro H. rewrite C40_column_stacking_conjugates in H.
    specialize (H 1 0 (le_n 2) (Nat.lt_0_succ 1)).
    unfold mmul, mconj, mtrans, madj, phase_s, plus_dm in H. cbn [csum Nat.eqb] in H.
    apply (f_equal snd) in H. cbn in H. lra.
Qed.
Print Assumptions C40_column_stacking_refuted.

(** Finding: tf_state_to_dm does not conjugate the bra: the "density matrix" of a
    normalised state can have trace 0. *)
Definition state_i : mat := fun i _ => if Nat.eqb i 0 then RtoC (/ sqrt 2) else (Ci * RtoC (/ sqrt 2))%C.
(** Finding: tf_state_to_dm does not conjugate the bra: the trace of the result can be 0. *)
Theorem C40_state_to_dm_refuted :
  exists psi, mmul 2 (madj psi) psi 0 0 = RtoC 1 /\ mtrace 2 (tf_state_to_dm psi) = RtoC 0.
Proof.
  assert (S : (/ sqrt 2 * / sqrt 2 = / 2)%R).
  { rewrite <- Rinv_mult, sqrt_sqrt by lra. reflexivity. }
  exists state_i. split.
  - unfold mmul, madj, state_i. cbn [csum Nat.eqb]. apply C_ext; cbn; ring_simplify; nra.
  - unfold mtrace, tf_state_to_dm, mmul, mtrans, state_i. cbn [csum Nat.eqb]. apply C_ext; cbn; nra.
Qed.
Print Assumptions C40_state_to_dm_refuted.
(** For real amplitudes it is the projector. *)
Theorem C40_state_to_dm_real :
  forall n psi, (forall i, i < n -> snd (psi i 0) = 0%R) ->
  meq n n (tf_state_to_dm psi) (mmul 1 psi (madj psi)).
Proof.
  intros n psi H i j Hi Hj. unfold tf_state_to_dm, mmul, mtrans, madj. cbn [csum].
  replace (Cconj (psi j 0)) with (psi j 0); [reflexivity|].
  specialize (H j Hj). destruct (psi j 0) as [a b]. cbn in H. subst b. apply C_ext; cbn; ring.
Qed.
Print Assumptions C40_state_to_dm_real.

Example C40_example : unitary 2 phase_s /\ unitary 4 (tf_super 2 phase_s).
Proof. split; [apply phase_s_unitary|]. apply (super_unitary 2), phase_s_unitary. Qed.

(** ** C41 *)

(** The lines the channel is built from, resolved: subsystem and probability. *)
Inductive resolved (names : list string) (conn : string -> result string) (strength t : R)
  : dict R -> list (nat * R) -> Prop :=
| res_nil : resolved names conn strength t [] []
| res_cons : forall line amp rest q qb l,
    conn line = Ok qb -> str_index qb names = Ok q ->
    resolved names conn strength t rest l ->
    resolved names conn strength t ((line, amp) :: rest) ((q, (t * amp * strength)%R) :: l).

(** With probability p the parity (-1)^n of the driven subsystem is applied, line
    after line. *)
Definition dephase_all (dims : list nat) (l : list (nat * R)) (rho : mat) : mat :=
  fold_left (fun r qp => dephase dims (fst qp) (snd qp) r) l rho.

Lemma deph_loop_spec : forall dims names conn strength t amps l, length names = length dims ->
  resolved names conn strength t amps l ->
  let n := prod_dims dims in
  forall S0 S, diagonal (n * n) S0 -> dephasing_loop dims names conn strength t amps S0 = Ok S ->
  Forall (fun qp => 0 <= snd qp <= 1)%R l /\ diagonal (n * n) S /\
  forall X Y, meq (n * n) 1 (mmul (n * n) S0 (row_stack n X)) (row_stack n Y) ->
    meq (n * n) 1 (mmul (n * n) S (row_stack n X)) (row_stack n (dephase_all dims l Y)).
Proof.
  intros dims names conn strength t amps l Hlen HR n. induction HR as [|line amp rest q qb l Hc Hq HR IH]; intros S0 S D H.
  - cbn in H. injection H as <-. repeat split; auto.
  - cbn [dephasing_loop] in H. rewrite Hc in H. cbn [rbind] in H. rewrite Hq in H. cbn [rbind] in H.
    destruct (dephasing_factor dims q (t * amp * strength)) as [ch|] eqn:F; [|discriminate]. cbn [rbind] in H.
    assert (Hlt : q < length dims) by (rewrite <- Hlen; eapply str_index_lt; exact Hq).
    destruct (factor_spec dims q _ ch Hlt F) as (Hp & Dc & Ac). fold n in Dc, Ac.
    destruct (IH (had S0 ch) S (diag_had _ _ _ D) H) as (A & B & E).
    split; [constructor; [exact Hp|exact A]|]. split; [exact B|].
    intros X Y HXY. unfold dephase_all. cbn [fold_left fst snd]. apply E.
    rewrite (mmul_mor_l _ _ _ _ _ _ (had_diag _ _ _ D Dc)), <- (mmul_assoc _ _ _ (n * n)).
    rewrite (mmul_mor_r _ _ _ _ _ _ HXY). apply Ac.
Qed.

Theorem C41_channel_is_parity_mixture :
  forall dims names conn strength t amps l S, length names = length dims ->
  resolved names conn strength t amps l ->
  get_dephasing_channel dims names conn strength t amps = Ok S ->
  let n := prod_dims dims in
  Forall (fun qp => 0 <= snd qp <= 1)%R l
  /\ forall rho, meq n n (row_unstack n (mmul (n * n) S (row_stack n rho))) (dephase_all dims l rho).
Proof.
  intros dims names conn strength t amps l S Hlen HR H n.
  unfold get_dephasing_channel in H. fold n in H.
  assert (D : diagonal (n * n) (tf_super n mid)) by (apply diag_super, diag_id).
  destruct (deph_loop_spec dims names conn strength t amps l Hlen HR _ _ D H) as (A & _ & E).
  split; [exact A|]. intro rho. fold n in E.
  assert (I : meq (n * n) 1 (mmul (n * n) (tf_super n mid) (row_stack n rho)) (row_stack n rho)).
  { rewrite (mmul_mor_l _ _ _ _ _ _ (super_id n)). apply mmul_id_l. }
  rewrite (row_unstack_mor n _ _ (E rho rho I)). apply row_unstack_stack.
Qed.
Print Assumptions C41_channel_is_parity_mixture.

Definition level (dims : list nat) (q i : nat) : nat := nth q (nth i (labels dims) []) 0.
Lemma dephase_entry : forall dims q p rho i j, i < prod_dims dims -> j < prod_dims dims ->
  dephase dims q p rho i j
  = (RtoC (1 - p + p * ((-1) ^ level dims q i * (-1) ^ level dims q j))%R * rho i j)%C.
Proof.
  intros dims q p rho i j Hi Hj. unfold dephase. cbv zeta. unfold madd, mscale.
  assert (E : mmul (prod_dims dims) (mmul (prod_dims dims) (parity dims q) rho) (madj (parity dims q)) i j
     = (RtoC ((-1) ^ level dims q i)%R * rho i j * RtoC ((-1) ^ level dims q j)%R)%C).
  { unfold mmul at 1. rewrite (csum_single _ j); [|exact Hj|].
    - unfold madj, parity at 2. rewrite Nat.eqb_refl, conj_R. f_equal.
      unfold mmul. rewrite (csum_single _ i); [|exact Hi|].
      + unfold parity. rewrite Nat.eqb_refl. reflexivity.
      + intros k Hk Ek. unfold parity. destruct (Nat.eqb_spec i k); [congruence|ring].
    - intros k Hk Ek. unfold madj, parity at 2. destruct (Nat.eqb_spec j k); [congruence|]. rewrite conj_R. ring. }
  rewrite E, RtoC_plus, !RtoC_mult. ring.
Qed.

Lemma mixture_populations :
  forall dims l rho,
  let n := prod_dims dims in
  (forall i, i < n -> dephase_all dims l rho i i = rho i i)
  /\ mtrace n (dephase_all dims l rho) = mtrace n rho.
Proof.
  intros dims l rho n.
  assert (A : forall i, i < n -> dephase_all dims l rho i i = rho i i).
  { intros i Hi. revert rho. induction l as [|[q p] l IH]; intro rho; [reflexivity|].
    unfold dephase_all in *. cbn [fold_left fst snd]. rewrite IH, dephase_entry by exact Hi.
    rewrite parity_sq. replace (1 - p + p * 1)%R with 1%R by ring. ring. }
  split; [exact A|]. unfold mtrace. apply csum_ext, A.
Qed.

Lemma mixture_coherences :
  forall dims q p rho la lb, valid dims la -> valid dims lb ->
  dephase_all dims [(q, p)] rho (pos dims la) (pos dims lb)
  = (RtoC (if Nat.eqb (nth q la 0 mod 2) (nth q lb 0 mod 2) then 1 else 1 - 2 * p) * rho (pos dims la) (pos dims lb))%C.
Proof.
  intros dims q p rho la lb Ha Hb. unfold dephase_all. cbn [fold_left fst snd].
  rewrite dephase_entry by (apply pos_lt; assumption).
  unfold level. rewrite (nth_error_nth _ _ _ (labels_nth dims la Ha)), (nth_error_nth _ _ _ (labels_nth dims lb Hb)).
  f_equal. f_equal.
  assert (P : forall k, ((-1) ^ k = if Nat.eqb (k mod 2) 0 then 1 else -1)%R).
  { intro k. rewrite (Nat.div_mod k 2) at 1 by lia. rewrite pow_add, pow_mult.
    replace ((-1) ^ 2)%R with 1%R by ring. rewrite pow1.
    assert (k mod 2 < 2) by (apply Nat.mod_upper_bound; lia).
    destruct (k mod 2) as [|[|r]]; [cbn; ring|cbn; ring|lia]. }
  rewrite !P.
  assert (nth q la 0 mod 2 < 2) by (apply Nat.mod_upper_bound; lia).
  assert (nth q lb 0 mod 2 < 2) by (apply Nat.mod_upper_bound; lia).
  destruct (nth q la 0 mod 2) as [|[|r]]; [| |lia]; destruct (nth q lb 0 mod 2) as [|[|r']]; try lia; cbn [Nat.eqb]; ring.
Qed.

Lemma mixture_zero :
  forall dims l rho, Forall (fun qp => snd qp = 0%R) l ->
  meq (prod_dims dims) (prod_dims dims) (dephase_all dims l rho) rho.
Proof.
  intros dims l rho H. revert rho. induction H as [|[q p] l Hp H IH]; intro rho; [reflexivity|].
  unfold dephase_all in *. cbn [fold_left fst snd] in *. subst p.
  intros i j Hi Hj. rewrite (IH _ i j Hi Hj), dephase_entry by assumption.
  replace (1 - 0 + 0 * ((-1) ^ level dims q i * (-1) ^ level dims q j))%R with 1%R by ring.
  ring.
Qed.

(** The channel leaves the populations and the trace alone. *)
Theorem C41_populations_and_trace :
  forall dims names conn strength t amps l S, length names = length dims ->
  resolved names conn strength t amps l ->
  get_dephasing_channel dims names conn strength t amps = Ok S ->
  let n := prod_dims dims in
  let channel := fun rho => row_unstack n (mmul (n * n) S (row_stack n rho)) in
  forall rho, (forall i, i < n -> channel rho i i = rho i i) /\ mtrace n (channel rho) = mtrace n rho.
Proof.
  intros dims names conn strength t amps l S Hlen HR H n channel rho.
  destruct (C41_channel_is_parity_mixture _ _ _ _ _ _ _ _ Hlen HR H) as [_ M]. fold n in M. specialize (M rho).
  destruct (mixture_populations dims l rho) as [A _]. fold n in A.
  assert (P : forall i, i < n -> channel rho i i = rho i i).
  { intros i Hi. unfold channel. rewrite (M i i Hi Hi). apply A, Hi. }
  split; [exact P|]. unfold mtrace. apply csum_ext, P.
Qed.
Print Assumptions C41_populations_and_trace.

(** A coherence is multiplied by 1 - 2p for every line whose subsystem is in
    levels of different parity. *)
Definition coherence_factor (l : list (nat * R)) (la lb : list nat) : R :=
  fold_right (fun qp acc => ((if Nat.eqb ((nth (fst qp) la 0%nat) mod 2) ((nth (fst qp) lb 0%nat) mod 2) then 1 else 1 - 2 * snd qp) * acc)%R) 1%R l.
Theorem C41_coherences :
  forall dims names conn strength t amps l S, length names = length dims ->
  resolved names conn strength t amps l ->
  get_dephasing_channel dims names conn strength t amps = Ok S ->
  let n := prod_dims dims in
  forall rho la lb, valid dims la -> valid dims lb ->
  row_unstack n (mmul (n * n) S (row_stack n rho)) (pos dims la) (pos dims lb)
  = (RtoC (coherence_factor l la lb) * rho (pos dims la) (pos dims lb))%C.
Proof.
  intros dims names conn strength t amps l S Hlen HR H n rho la lb Ha Hb.
  destruct (C41_channel_is_parity_mixture _ _ _ _ _ _ _ _ Hlen HR H) as [_ M]. fold n in M.
  rewrite (M rho _ _ (pos_lt _ _ Ha) (pos_lt _ _ Hb)). clear HR H M. revert rho.
  induction l as [|[q p] l IH]; intro rho; unfold dephase_all, coherence_factor in *; cbn [fold_left fold_right fst snd].
  - ring.
  - rewrite IH. pose proof (mixture_coherences dims q p rho la lb Ha Hb) as E. unfold dephase_all in E.
    cbn [fold_left fst snd] in E. rewrite E, RtoC_mult. ring.
Qed.
Print Assumptions C41_coherences.

Theorem C41_zero_strength_is_identity :
  forall dims names conn t amps l S, length names = length dims ->
  resolved names conn 0 t amps l ->
  get_dephasing_channel dims names conn 0 t amps = Ok S ->
  let n := prod_dims dims in
  forall rho, meq n n (row_unstack n (mmul (n * n) S (row_stack n rho))) rho.
Proof.
  intros dims names conn t amps l S Hlen HR H n rho.
  destruct (C41_channel_is_parity_mixture _ _ _ _ _ _ _ _ Hlen HR H) as [_ M]. fold n in M.
  rewrite (M rho). apply mixture_zero. clear H M. induction HR; constructor; auto. cbn [snd]. ring.
Qed.
Print Assumptions C41_zero_strength_is_identity.

(** The channel exists exactly when every line's probability lies in [0, 1];
    otherwise a ValueError is raised. *)
Lemma ann_oper_ok : forall dims q, q < length dims -> exists a, ann_oper dims q = Ok a.
Proof. intros dims q H. unfold ann_oper. rewrite hsk_family by exact H. eexists; reflexivity. Qed.
Theorem C41_raises_outside_range :
  forall dims names conn strength t amps l, length names = length dims ->
  resolved names conn strength t amps l ->
  (Forall (fun qp => 0 <= snd qp <= 1)%R l -> exists S, get_dephasing_channel dims names conn strength t amps = Ok S)
  /\ (~ Forall (fun qp => 0 <= snd qp <= 1)%R l ->
      get_dephasing_channel dims names conn strength t amps = Err ValueError).
Proof.
  intros dims names conn strength t amps l Hlen HR. unfold get_dephasing_channel.
  generalize (tf_super (prod_dims dims) mid) as S0.
  induction HR as [|line amp rest q qb l Hc Hq HR IH]; intro S0.
  - split; [intros _; eexists; reflexivity|]. intro N. exfalso. apply N. constructor.
  - cbn [dephasing_loop]. rewrite Hc. cbn [rbind]. rewrite Hq. cbn [rbind].
    assert (Hlt : q < length dims) by (rewrite <- Hlen; eapply str_index_lt; exact Hq).
    destruct (ann_oper_ok dims q Hlt) as [a Ha]. unfold dephasing_factor. rewrite Ha. cbn [rbind]. cbv zeta.
    destruct (in_unit (t * amp * strength)) eqn:U; cbn [rbind].
    + apply in_unit_spec in U. destruct (IH (had S0
         (madd (mscale (RtoC (1 - t * amp * strength)) (tf_super (prod_dims dims) mid))
           (mscale (RtoC (t * amp * strength)) (tf_super (prod_dims dims)
              (mexp (prod_dims dims) (mscale (RtoC PI) (mscale Ci (mmul (prod_dims dims) (madj (ent a)) (ent a)))))))))) as [A B].
      split.
      * intro F. inversion F; subst. apply A. assumption.
      * intro N. apply B. intro F. apply N. constructor; assumption.
    + split.
      * intro F. inversion F as [|? ? F1 F2]; subst. cbn [snd] in F1. apply in_unit_spec in F1. congruence.
      * reflexivity.
Qed.
Print Assumptions C41_raises_outside_range.

Example C41_example :
  let conn := fun _ : string => Ok "Q1"%string in
  resolved ["Q1"%string; "Q2"%string] conn (1/2) 1 [("d1"%string, 1%R)] [(0, (1 * 1 * (1/2))%R)]
  /\ exists S, get_dephasing_channel [2; 3] ["Q1"%string; "Q2"%string] conn (1/2) 1 [("d1"%string, 1%R)] = Ok S.
Proof.
  intro conn.
  assert (R : resolved ["Q1"%string; "Q2"%string] conn (1/2) 1 [("d1"%string, 1%R)] [(0, (1 * 1 * (1/2))%R)]).
  { eapply res_cons; [reflexivity|reflexivity|constructor]. }
  split; [exact R|]. apply (proj1 (C41_raises_outside_range [2; 3] ["Q1"%string; "Q2"%string] conn (1/2) 1 _ _ eq_refl R)).
  constructor; [cbn [snd]; lra|constructor].
Qed.

(** ** C42 *)

(** A linear right-hand side on n x m states. *)
Record linear_map (n m : nat) (F : mat -> mat) : Prop := {
  lin_proper : forall A B, meq n m A B -> meq n m (F A) (F B);
  lin_add : forall A B, meq n m (F (madd A B)) (madd (F A) (F B));
  lin_scale : forall c A, meq n m (F (mscale c A)) (mscale c (F A)) }.

(** a_0 x + a_1 F x + a_2 F F x + ... *)
Fixpoint poly (F : mat -> mat) (cs : list R) (x : mat) : mat :=
  match cs with [] => mzero | c :: r => madd (mscale (RtoC c) x) (poly F r (F x)) end.
Lemma pe_poly : forall n m F qs x, meq n m (pe F qs x) (poly F (map Q2R qs) x).
Proof. induction qs as [|q qs IH]; intro x; cbn [pe poly map]; [reflexivity|]. rewrite IH. reflexivity. Qed.
Lemma poly_ext : forall n m F a b x, a = b -> meq n m (poly F a x) (poly F b x).
Proof. intros. subst. reflexivity. Qed.

(** The samples of one step are constant in time. *)
Definition constant_step (f : mat -> mat -> mat) (s : solver) (h : list mat) (F : mat -> mat) : Prop :=
  forall k rho, k < solver_stop s -> f rho (nth k h mzero) = F rho.

Ltac qlist := repeat (apply f_equal2; [unfold Q2R; cbn; lra|]); reflexivity.

Theorem C42_rk4_is_taylor_4 :
  forall n m F f h x, linear_map n m F -> constant_step f RK4 h F ->
  meq n m (solver_fun RK4 f x h) (poly F [1; 1; 1 / 2; 1 / 6; 1 / 24]%R x).
Proof.
  intros n m F f h x [A B D] Hc. cbn [solver_fun].
  rewrite (rk4_poly n m F A B D f h x Hc), pe_poly. apply poly_ext. cbn [map]. qlist.
Qed.
Print Assumptions C42_rk4_is_taylor_4.
Theorem C42_rk38_is_taylor_4 :
  forall n m F f h x, linear_map n m F -> constant_step f RK38 h F ->
  meq n m (solver_fun RK38 f x h) (poly F [1; 1; 1 / 2; 1 / 6; 1 / 24]%R x).
Proof.
  intros n m F f h x [A B D] Hc. cbn [solver_fun].
  rewrite (rk38_poly n m F A B D f h x Hc), pe_poly. apply poly_ext. cbn [map]. qlist.
Qed.
Print Assumptions C42_rk38_is_taylor_4.

(** rk5 is exact to fourth order; its fifth-order coefficient is 1097/120000
    instead of 1/120. *)
Theorem C42_rk5_step :
  forall n m F f h x, linear_map n m F -> constant_step f RK5 h F ->
  meq n m (solver_fun RK5 f x h)
          (poly F [1; 1; 1 / 2; 1 / 6; 1 / 24; 1097 / 120000; 161 / 120000; 1 / 24000]%R x).
Proof.
  intros n m F f h x [A B D] Hc. cbn [solver_fun].
  rewrite (rk5_poly n m F A B D f h x Hc), pe_poly. apply poly_ext. cbn [map]. qlist.
Qed.
Print Assumptions C42_rk5_step.

Lemma scalar_poly : forall z cs x, poly (mscale (RtoC z)) cs x 0 0
    = (RtoC (fold_right (fun c acc => c + z * acc)%R 0%R cs) * x 0 0)%C.
Proof.
  intros z cs. induction cs as [|c cs IH]; intro x; cbn [poly fold_right].
  - unfold mzero. ring.
  - unfold madd. rewrite IH. unfold mscale. rewrite RtoC_plus, RtoC_mult. ring.
Qed.
Lemma scalar_linear : forall n m z, linear_map n m (mscale z).
Proof.
  intros n m z. split.
  - intros A B H. rewrite H. reflexivity.
  - intros. apply mscale_add.
  - intros. rewrite !mscale_mscale. rewrite Cmult_comm. reflexivity.
Qed.

(** Not a fifth-order step: for the scalar equation y' = y the defect against
    the Taylor polynomial of order five is at least z^5 / 2000 for every step
    size z in (0, 1]. *)
Theorem C42_rk5_order_five_refuted :
  forall z, (0 < z <= 1)%R ->
  exists r, solver_fun RK5 (fun y _ => mscale (RtoC z) y) mid [] 0 0 = RtoC r
   /\ (r - (1 + z + z^2 / 2 + z^3 / 6 + z^4 / 24 + z^5 / 120) >= z^5 / 2000)%R.
Proof.
  intros z Hz.
  pose proof (C42_rk5_step 1 1 (mscale (RtoC z)) (fun y _ => mscale (RtoC z) y) [] mid
     (scalar_linear 1 1 (RtoC z)) (fun k rho _ => eq_refl) 0 0 (Nat.lt_0_succ 0) (Nat.lt_0_succ 0)) as E.
  rewrite scalar_poly in E. cbn [fold_right] in E.
  eexists. split; [rewrite E; unfold mid; cbn [Nat.eqb]; rewrite Cmult_1_r; reflexivity|].
  assert (0 < z ^ 5)%R by (apply pow_lt; lra).
  assert (0 <= z ^ 5 * z)%R by nra. assert (0 <= z ^ 5 * (z * z))%R by (apply Rmult_le_pos; nra).
  match goal with |- (?a >= _)%R => replace a with (z ^ 5 * (97 / 120000) + 161 / 120000 * (z ^ 5 * z) + 1 / 24000 * (z^5 * (z * z)))%R by field end.
  lra.
Qed.
Print Assumptions C42_rk5_order_five_refuted.

(** tsit5: the coefficients up to fourth order are those of the exponential to
    1e-14, the fifth differs by more than 4e-4. *)
Theorem C42_tsit5_step :
  exists c1 c2 c3 c4 c5 c6 c7 : R,
  (Rabs (c1 - 1) <= 1 / 10 ^ 14 /\ Rabs (c2 - 1 / 2) <= 1 / 10 ^ 14 /\ Rabs (c3 - 1 / 6) <= 1 / 10 ^ 14
   /\ Rabs (c4 - 1 / 24) <= 1 / 10 ^ 14 /\ c5 - 1 / 120 >= 4 / 10 ^ 4)%R
  /\ forall n m F f h x, linear_map n m F -> constant_step f Tsit5 h F ->
     meq n m (solver_fun Tsit5 f x h) (poly F [1%R; c1; c2; c3; c4; c5; c6; c7] x).
Proof.
  do 7 eexists. split; [|intros n m F f h x [A B D] Hc; cbn [solver_fun];
  rewrite (tsit5_poly n m F A B D f h x Hc), pe_poly; apply poly_ext; unfold tsit5_coeffs; cbn [map];
  apply f_equal2; [unfold Q2R; cbn; lra|reflexivity]].
  unfold Q2R. cbn [Qnum Qden].
  repeat split; try apply Rabs_le; try split; lra.
Qed.
Print Assumptions C42_tsit5_step.

(** Concrete constant right-hand sides: the von Neumann and Lindblad steps with a
    constant Hamiltonian are linear. *)
Theorem C42_steps_are_linear :
  forall n cols dt h, linear_map n n (fun rho => lindblad n cols dt rho h)
    /\ linear_map n n (fun rho => von_neumann n dt rho h)
    /\ forall m, linear_map n m (fun psi => schrodinger n dt psi h).
Proof.
  intros n cols dt h.
  assert (CP : forall A B, meq n n A B -> meq n n (mscale (- Ci)%C (commutator n h A)) (mscale (- Ci)%C (commutator n h B))).
  { intros A B E. unfold commutator. rewrite E. reflexivity. }
  assert (CA : forall A B, meq n n (mscale (- Ci)%C (commutator n h (madd A B)))
     (madd (mscale (- Ci)%C (commutator n h A)) (mscale (- Ci)%C (commutator n h B)))).
  { intros A B. unfold commutator. rewrite mmul_add_l, mmul_add_r. intros i j _ _. unfold mscale, msub, madd. ring. }
  assert (CS : forall c A, meq n n (mscale (- Ci)%C (commutator n h (mscale c A)))
     (mscale c (mscale (- Ci)%C (commutator n h A)))).
  { intros c A. unfold commutator. rewrite mmul_scale_l, mmul_scale_r. intros i j _ _. unfold mscale, msub. ring. }
  assert (LA : forall c X Y D E, meq n n (lindblad_add n (madd X Y) (madd D E) c)
     (madd (lindblad_add n X D c) (lindblad_add n Y E c))).
  { intros c X Y D E. unfold lindblad_add, anticommutator.
    rewrite !mmul_add_l, !mmul_add_r. intros i j _ _. unfold mscale, msub, madd. ring. }
  assert (LS : forall c a X D, meq n n (lindblad_add n (mscale a X) (mscale a D) c) (mscale a (lindblad_add n X D c))).
  { intros c a X D. unfold lindblad_add, anticommutator.
    rewrite !mmul_scale_r, !mmul_scale_l. intros i j _ _. unfold mscale, msub, madd. ring. }
  assert (LP : forall c X Y D E, meq n n X Y -> meq n n D E -> meq n n (lindblad_add n X D c) (lindblad_add n Y E c)).
  { intros c X Y D E H1 H2. unfold lindblad_add, anticommutator. rewrite H1, H2. reflexivity. }
  assert (GP : forall cs X Y D E, meq n n X Y -> meq n n D E ->
     meq n n (fold_left (lindblad_add n X) cs D) (fold_left (lindblad_add n Y) cs E)).
  { induction cs as [|c cs IH]; intros X Y D E H1 H2; cbn [fold_left]; auto. }
  split; [|split].
  - unfold lindblad. split.
    + intros A B E. rewrite (GP cols A B _ _ E (CP A B E)). reflexivity.
    + intros A B. rewrite <- mscale_add.
      apply mscale_proper; [reflexivity|].
      rewrite (GP cols (madd A B) (madd A B) _ _ (reflexivity _) (CA A B)).
      generalize (mscale (- Ci)%C (commutator n h A)) as D. generalize (mscale (- Ci)%C (commutator n h B)) as E.
      induction cols as [|c cs IH]; intros E D; cbn [fold_left]; [reflexivity|].
      rewrite (GP cs (madd A B) (madd A B) _ _ (reflexivity _) (LA c A B D E)). apply IH.
    + intros a A. rewrite (mscale_mscale n n a), (Cmult_comm a), <- mscale_mscale.
      apply mscale_proper; [reflexivity|].
      rewrite (GP cols (mscale a A) (mscale a A) _ _ (reflexivity _) (CS a A)).
      generalize (mscale (- Ci)%C (commutator n h A)) as D.
      induction cols as [|c cs IH]; intros D; cbn [fold_left]; [reflexivity|].
      rewrite (GP cs (mscale a A) (mscale a A) _ _ (reflexivity _) (LS c a A D)). apply IH.
  - unfold von_neumann. split.
    + intros A B E. rewrite (CP A B E). reflexivity.
    + intros A B. rewrite CA. apply mscale_add.
    + intros c A. rewrite CS, !mscale_mscale, (Cmult_comm (RtoC dt)). reflexivity.
  - intro m. unfold schrodinger. split.
    + intros A B E. rewrite (mmul_mor_r _ _ _ _ _ _ E). reflexivity.
    + intros A B. rewrite mmul_add_l, !mscale_add. reflexivity.
    + intros c A. rewrite mmul_scale_r. intros i j _ _. unfold mscale. ring.
Qed.
Print Assumptions C42_steps_are_linear.

Example C42_example :
  linear_map 2 2 (fun rho => lindblad 2 [pauli_y] 1 rho mid)
  /\ constant_step (lindblad 2 [pauli_y] 1) RK4 [mid; mid; mid] (fun rho => lindblad 2 [pauli_y] 1 rho mid).
Proof.
  split; [apply C42_steps_are_linear|]. intros k rho Hk. cbn in Hk.
  destruct k as [|[|[|k]]]; try reflexivity. lia.
Qed.

(** *** The rk4 propagator *)

(** rk4 commutes with multiplication from the right. *)
Definition lin_rhs (n : nat) (dt : R) (psi h : mat) : mat := mscale (- Ci * RtoC dt)%C (mmul n h psi).
Lemma rk4_right_mult : forall n m dt h A v,
    meq n m (rk4 (lin_rhs n dt) (mmul n A v) h) (mmul n (rk4 (lin_rhs n dt) A h) v).
Proof.
  intros n m dt h A v.
  assert (F : forall X Y H, meq n m X (mmul n Y v) -> meq n m (lin_rhs n dt X H) (mmul n (lin_rhs n dt Y H) v)).
  { intros X Y H E. unfold lin_rhs. rewrite (mmul_mor_r _ _ _ _ _ _ E), mmul_scale_l.
    rewrite (mmul_assoc n m n n). reflexivity. }
  assert (AD : forall X Y X' Y', meq n m X (mmul n X' v) -> meq n m Y (mmul n Y' v) ->
     meq n m (madd X Y) (mmul n (madd X' Y') v)).
  { intros X Y X' Y' E1 E2. rewrite mmul_add_r, E1, E2. reflexivity. }
  assert (SC : forall c X X', meq n m X (mmul n X' v) -> meq n m (mscale c X) (mmul n (mscale c X') v)).
  { intros c X X' E. rewrite mmul_scale_l, E. reflexivity. }
  unfold rk4. cbv zeta.
  repeat match goal with
         | |- meq _ _ (madd _ _) _ => apply AD
         | |- meq _ _ (mscale _ _) _ => apply SC
         | |- meq _ _ (lin_rhs _ _ _ _) _ => apply F
         end; reflexivity.
Qed.
Lemma rk4_mor : forall n m dt h A B, meq n m A B -> meq n m (rk4 (lin_rhs n dt) A h) (rk4 (lin_rhs n dt) B h).
Proof.
  intros n m dt h A B E.
  assert (F : forall X Y H, meq n m X Y -> meq n m (lin_rhs n dt X H) (lin_rhs n dt Y H)).
  { intros X Y H E'. unfold lin_rhs. rewrite (mmul_mor_r _ _ _ _ _ _ E'). reflexivity. }
  unfold rk4. cbv zeta.
  repeat match goal with
         | |- meq _ _ (madd _ _) _ => apply madd_proper
         | |- meq _ _ (mscale _ _) _ => apply mscale_proper; [reflexivity|]
         | |- meq _ _ (lin_rhs _ _ _ _) _ => apply F
         end; assumption.
Qed.
(** The matrix of one step. *)
Definition rk4_matrix (n : nat) (dt : R) (h : list mat) : mat := rk4 (lin_rhs n dt) mid h.
Lemma rk4_step_matrix : forall n dt h psi,
    meq n 1 (rk4_step n dt h psi) (mmul n (rk4_matrix n dt h) psi).
Proof.
  intros. unfold rk4_step, rk4_matrix. rewrite <- rk4_right_mult.
  apply rk4_mor. symmetry. apply mmul_id_l.
Qed.
Lemma mmul_one_hot : forall n A ii i, ii < n -> mmul n A (one_hot ii) i 0 = A i ii.
Proof. intros n A ii i H. unfold mmul, one_hot. apply csum_delta_r. exact H. Qed.

Theorem C42_rk4_propagator :
  forall n dt h,
  (** the gate propagator is the ordered product of the steps, latest leftmost *)
  meq n n (gen_u_rk4 n dt h)
      (fold_left (fun U jj => mmul n (rk4_matrix n dt (h_slice h jj)) U) (rk4_steps (length h)) mid)
  (** while every partial propagator is the transpose of its step *)
  /\ forall j, nth_error (gen_dus_rk4 n dt h) j
     = option_map (fun jj => gen_du_rk4 n dt (h_slice h jj)) (nth_error (rk4_steps (length h)) j)
  /\ forall s, meq n n (gen_du_rk4 n dt s) (mtrans (rk4_matrix n dt s)).
Proof.
  intros n dt h. split.
  - intros i j Hi Hj. unfold gen_u_rk4, mtrans, stack_rows.
    assert (G : forall l psi U, meq n 1 psi (mmul n U (one_hot j)) ->
       meq n 1 (fold_left (fun psi jj => rk4_step n dt (h_slice h jj) psi) l psi)
               (mmul n (fold_left (fun U jj => mmul n (rk4_matrix n dt (h_slice h jj)) U) l U) (one_hot j))).
    { induction l as [|jj l IH]; intros psi U E; [exact E|]. cbn [fold_left]. apply IH.
      rewrite rk4_step_matrix, (mmul_mor_r _ _ _ _ _ _ E). apply mmul_assoc. }
    assert (E0 : meq n 1 (one_hot j) (mmul n mid (one_hot j))) by (symmetry; apply mmul_id_l).
    rewrite (G _ _ _ E0 i 0 Hi (Nat.lt_0_succ 0)). apply mmul_one_hot, Hj.
  - intro j. split.
    + unfold gen_dus_rk4. apply nth_error_map.
    + intros s i k Hi Hk. unfold gen_du_rk4, stack_rows, mtrans.
      rewrite (rk4_step_matrix n dt s (one_hot i) k 0 Hk (Nat.lt_0_succ 0)). apply mmul_one_hot, Hi.
Qed.
Print Assumptions C42_rk4_propagator.

(** Finding: so for a single step the returned dU differs from the returned U,
    e.g. for H = Y. *)
Theorem C42_rk4_partials_transposed_refuted :
  exists h, length h = 3 /\ Forall (hermitian 2) h
  /\ ~ meq 2 2 (gen_du_rk4 2 1 h) (gen_u_rk4 2 1 h).
Proof.
  exists [pauli_y; pauli_y; pauli_y]. split; [reflexivity|]. split; [repeat constructor; apply pauli_y_herm|].
  intro H. destruct (C42_rk4_propagator 2 1 [pauli_y; pauli_y; pauli_y]) as [P Q].
  destruct (Q 0) as [_ T]. rewrite T, P in H. cbn [length rk4_steps] in H.
  change (rk4_steps 3) with [0] in H. cbn [fold_left h_slice skipn firstn] in H.
  rewrite mmul_id_r in H.
  assert (L : linear_map 2 2 (fun x => lin_rhs 2 1 x pauli_y)).
  { unfold lin_rhs. split.
    - intros A B E. rewrite E. reflexivity.
    - intros. rewrite mmul_add_l, mscale_add. reflexivity.
    - intros. rewrite mmul_scale_r, !mscale_mscale, Cmult_comm. reflexivity. }
  assert (K : constant_step (lin_rhs 2 1) RK4 [pauli_y; pauli_y; pauli_y] (fun x => lin_rhs 2 1 x pauli_y)).
  { intros k rho Hk. cbn in Hk. destruct k as [|[|[|k]]]; try reflexivity. lia. }
  pose proof (C42_rk4_is_taylor_4 2 2 _ _ _ mid L K) as E. cbn [solver_fun] in E.
  change (rk4 (lin_rhs 2 1) mid [pauli_y; pauli_y; pauli_y]) with (rk4_matrix 2 1 [pauli_y; pauli_y; pauli_y]) in E.
  rewrite E in H. specialize (H 0 1 (Nat.lt_0_succ 1) (le_n 2)). apply (f_equal fst) in H.
  unfold mtrans in H. unfold poly, lin_rhs, madd, mscale, mmul, pauli_y, mid, mzero in H. cbn [csum Nat.eqb] in H.
  cbn in H. lra.
Qed.
Print Assumptions C42_rk4_partials_transposed_refuted.

(** ** C44 *)

Theorem C44_single_mode_hermitian :
  forall n a, hermitian n (h_resonator n a) /\ hermitian n (h_duffing n a) /\ hermitian n (h_third_order n a)
    /\ hermitian n (h_x_drive a) /\ hermitian n (h_y_drive a) /\ hermitian n (h_z_drive n a).
Proof.
  intros n a. split; [apply herm_sq|]. split; [|split; [|split; [|split; [|apply herm_sq]]]].
  - unfold h_duffing. apply herm_scale. pose proof (herm_sq n a) as S. unfold hermitian in *.
    set (N := mmul n (madj a) a) in *. rewrite madj_mmul, madj_sub, S, madj_id.
    rewrite mmul_sub_l, mmul_sub_r, mmul_id_l, mmul_id_r. reflexivity.
  - unfold h_third_order, hermitian. pose proof (herm_sq n a) as S. unfold hermitian in S.
    set (N := mmul n (madj a) a) in *. rewrite madj_add, !madj_mmul, madj_madj, S. apply madd_comm.
  - unfold h_x_drive, hermitian. rewrite madj_add, madj_madj. apply madd_comm.
  - unfold h_y_drive, hermitian. rewrite madj_scale, madj_sub, madj_madj, conj_i.
    intros i j _ _. unfold mscale, msub. ring.
Qed.
Print Assumptions C44_single_mode_hermitian.

(** Couplings of two different subsystems of a register. *)
Theorem C44_couplings_hermitian :
  forall dims k k' a b, k < length dims -> k' < length dims -> k <> k' ->
  ann_oper dims k = Ok a -> ann_oper dims k' = Ok b ->
  let n := prod_dims dims in
  hermitian n (h_int_XX n (ent a) (ent b)) /\ hermitian n (h_int_YY n (ent a) (ent b)).
Proof.
  intros dims k k' a b Hk Hk' Hne Ha Hb n.
  destruct (C29_different_subsystems_commute dims k k' a b Hk Hk' Hne Ha Hb) as [C1 C2]. fold n in C1, C2.
  set (A := ent a) in *. set (B := ent b) in *.
  assert (C3 : meq n n (mmul n (madj A) B) (mmul n B (madj A))).
  { transitivity (madj (mmul n (madj B) A)); [rewrite madj_mmul, madj_madj; reflexivity|].
    rewrite <- C2. rewrite madj_mmul, madj_madj. reflexivity. }
  assert (C4 : meq n n (mmul n (madj A) (madj B)) (mmul n (madj B) (madj A))).
  { transitivity (madj (mmul n B A)); [rewrite madj_mmul; reflexivity|].
    rewrite <- C1. rewrite madj_mmul. reflexivity. }
  split; unfold hermitian.
  - unfold h_int_XX. rewrite madj_mmul, !madj_add, !madj_madj.
    rewrite !mmul_add_l, !mmul_add_r, C1, C2, C3, C4.
    intros i j _ _. unfold madd. ring.
  - unfold h_int_YY.
    transitivity (mopp (madj (mmul n (msub (madj A) A) (msub (madj B) B)))).
    { intros i j _ _. unfold madj, mopp. rewrite conj_opp. reflexivity. }
    rewrite madj_mmul, !madj_sub, !madj_madj.
    rewrite !mmul_sub_l, !mmul_sub_r, C1, C2, C3, C4.
    intros i j _ _. unfold mopp, msub. ring.
Qed.
Print Assumptions C44_couplings_hermitian.

(** The coupling of a subsystem with itself or of arbitrary operators need not be
    Hermitian; any real combination of Hermitian operators is. *)
Theorem C44_control_sum_hermitian :
  forall n h0 hks (cs : list R), hermitian n h0 -> Forall (hermitian n) hks ->
  hermitian n (sum_h0_hks h0 hks (map RtoC cs)) /\ hermitian n (sum_H h0 hks cs).
Proof.
  intros n h0 hks cs H0 Hk. split.
  - unfold sum_h0_hks. revert h0 cs H0. induction Hk as [|h hks Hh Hk IH]; intros h0 [|c cs] H0; cbn [map combine fold_left]; auto.
    apply IH. apply herm_add; [exact H0|]. apply herm_scale, Hh.
  - unfold sum_H. apply herm_add; [|exact H0]. revert cs.
    induction Hk as [|h hks Hh Hk IH]; intros [|c cs]; cbn [combine fold_right]; try apply herm_zero.
    apply herm_add; [apply herm_scale, Hh|apply IH].
Qed.
Print Assumptions C44_control_sum_hermitian.

(** Both summations give h0 + sum_k c_k H_k. *)
Theorem C44_control_sum_entries :
  forall h0 hks (cs : list R) i j, length cs = length hks ->
  let total := (h0 i j + csum (length hks) (fun k => RtoC (nth k cs 0%R) * nth k hks mzero i j))%C in
  sum_h0_hks h0 hks (map RtoC cs) i j = total /\ sum_H h0 hks cs i j = total.
Proof.
  intros h0 hks cs i j Hlen. cbv zeta. split.
  - unfold sum_h0_hks. revert h0 cs Hlen. induction hks as [|h hks IH]; intros h0 [|c cs] Hlen; try discriminate.
    + cbn. ring.
    + cbn [map combine fold_left length]. rewrite IH by (cbn in Hlen; lia). rewrite csum_head. cbn [nth].
      unfold madd, mscale. cbn [fst snd]. ring.
  - unfold sum_H, madd at 1. rewrite Cplus_comm. f_equal. revert cs Hlen.
    induction hks as [|h hks IH]; intros [|c cs] Hlen; try discriminate; [reflexivity|].
    cbn [combine fold_right length fst snd]. unfold madd at 1. rewrite IH by (cbn in Hlen; lia).
    rewrite csum_head. reflexivity.
Qed.
Print Assumptions C44_control_sum_entries.

(** Energies of the anharmonic part: n (n - 1) / 2. *)
Theorem C44_duffing_energies :
  forall dims k a, k < length dims -> ann_oper dims k = Ok a ->
  forall l l', valid dims l -> valid dims l' ->
  h_duffing (prod_dims dims) (ent a) (pos dims l) (pos dims l')
  = if list_eqb l l' then RtoC (INR (nth k l 0) * (INR (nth k l 0) - 1) / 2) else RtoC 0.
Proof.
  intros dims k a Hk Ha l l' Hl Hl'. set (n := prod_dims dims).
  pose proof (C29_number_operator dims k a Hk Ha) as NO. cbv zeta in NO. fold n in NO.
  unfold h_duffing. cbv zeta. set (num := mmul n (madj (ent a)) (ent a)) in *.
  unfold mscale. unfold mmul at 1.
  pose proof (pos_lt _ _ Hl) as P. pose proof (pos_lt _ _ Hl') as P'. fold n in P, P'.
  rewrite (csum_single n (pos dims l)); [|exact P|].
  - unfold msub, mid. rewrite Nat.eqb_refl, !NO by assumption.
    rewrite (proj2 (list_eqb_eq l l) eq_refl). destruct (list_eqb l l'); apply C_ext; cbn; field.
  - intros x Hx E. destruct (pos_surj _ _ Hx) as (u & Hu & <-).
    unfold msub, mid. destruct (Nat.eqb_spec (pos dims l) (pos dims u)); [congruence|].
    rewrite NO by assumption. destruct (list_eqb l u) eqn:Y; [apply list_eqb_eq in Y; congruence|]. ring.
Qed.
Print Assumptions C44_duffing_energies.

Example C44_example : exists a b, ann_oper [3; 2] 0 = Ok a /\ ann_oper [3; 2] 1 = Ok b
  /\ hermitian 6 (h_int_XX 6 (ent a) (ent b)).
Proof.
  destruct (ann_oper_ok [3; 2] 0) as [a Ha]; [cbn; lia|]. destruct (ann_oper_ok [3; 2] 1) as [b Hb]; [cbn; lia|].
  exists a, b. split; [exact Ha|]. split; [exact Hb|].
  apply (C44_couplings_hermitian [3; 2] 0 1 a b); auto; cbn; lia.
Qed.
