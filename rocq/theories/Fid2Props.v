(** Property C107: figures for sequences of gates, for final states and for levels. *)
From Coq Require Import Reals Lra Lia Permutation.
From Coquelicot Require Import Coquelicot.
From Verif Require Import Base Mat RSum HilbertModel HilbertProofs Hilbert2Proofs Hilbert2Props GateModel GateProofs GateProps PropModel SuperProofs
                          FoldModel FrameModel FrameProps FidModel FidProofs FidProps Fid2Model.
Local Open Scope list_scope.
Local Open Scope nat_scope.
Local Notation length := List.length.

(** ** Sequences *)

(** The probability that nothing goes wrong in any step. *)
Definition all_right (l : list R) : R := fold_right (fun x acc => (1 - x) * acc)%R 1%R l.

Lemma seq_loop_spec : forall instrs index dims props fid f,
  seq_loop props instrs index dims fid = Ok f <->
  exists l, single_figures (average_one index dims) (ideal_on dims []) instrs props l /\ f = (fid * all_right l)%R.
Proof.
  intros instrs index dims props. unfold single_figures.
  induction props as [|[g p] props IH]; intros fid f; cbn [seq_loop].
  - split.
    + intros [= <-]. exists []. split; [constructor|]. cbn. ring.
    + intros (l & H & ->). inversion H. cbn. f_equal. ring.
  - split.
    + intro H. destruct (dget g instrs) as [i|] eqn:E; [|discriminate].
      destruct (get_ideal_gate (i_ideal i) (i_targets i) (length dims) []) as [ideal|] eqn:E1; [|discriminate]. cbn [rbind] in H.
      destruct (average_infid ideal p index dims) as [r|] eqn:E2; [|discriminate]. cbn [rbind] in H.
      apply IH in H. destruct H as (l & Hl & ->). exists (r :: l). split.
      * constructor; [|exact Hl]. exists i, ideal. auto.
      * cbn [all_right fold_right]. unfold all_right. ring.
    + intros (l & H & ->). inversion H as [|? r ? l' (i & ideal & E & E1 & E2) H']; subst. cbn [fst snd] in *.
      unfold ideal_on in E1. unfold average_one in E2. rewrite E, E1. cbn [rbind]. rewrite E2. cbn [rbind].
      apply IH. exists l'. split; [exact H'|]. cbn [all_right fold_right]. unfold all_right. ring.
Qed.

(** The figure is one minus the product of the average fidelities of the gates. *)
Theorem C107_sequence_value :
  forall props instrs index dims r,
  average_infid_seq props instrs index dims = Ok r <->
  exists l, single_figures (average_one index dims) (ideal_on dims []) instrs props l /\ r = (1 - all_right l)%R.
Proof.
  intros props instrs index dims r. unfold average_infid_seq. split.
  - destruct (seq_loop props instrs index dims 1) as [f|] eqn:E; [|discriminate]. cbn [rbind]. intros [= <-].
    apply seq_loop_spec in E. destruct E as (l & H & ->). exists l. split; [exact H|]. ring.
  - intros (l & H & ->). assert (E : seq_loop props instrs index dims 1 = Ok (all_right l)).
    { apply seq_loop_spec. exists l. split; [exact H|]. ring. }
    rewrite E. reflexivity.
Qed.
Print Assumptions C107_sequence_value.

Lemma all_right_bounds : forall l, Forall (fun x => 0 <= x < 1)%R l ->
  (0 < all_right l <= 1 /\ 1 - all_right l <= sum_list l)%R
  /\ (forall x, In x l -> (x <= 1 - all_right l)%R)
  /\ (all_right l = 1%R <-> Forall (fun x => x = 0%R) l).
Proof.
  induction 1 as [|x l Hx Hl (((P1 & P2) & S) & M & Z)].
  - cbn. repeat split; try lra; [intros x []|constructor].
  - cbn [all_right sum_list fold_right]. fold (all_right l). unfold sum_list in S. fold (sum_list l) in S |- *.
    assert (S0 : (0 <= sum_list l)%R).
    { clear -Hl. induction Hl; cbn [sum_list fold_right]; [lra|]. unfold sum_list in *. lra. }
    split; [split; [split|]; nra|]. split.
    + intros y [<-|Hy]; [nra|]. specialize (M y Hy). nra.
    + split.
      * intro E. assert (x = 0%R) by nra. constructor; [assumption|]. apply Z. subst x. nra.
      * intro F. inversion F as [|? ? -> F']; subst. rewrite (proj2 Z F'). ring.
Qed.

(** Unitary propagators, every subsystem evaluated: the figure exists, is at least the
    infidelity of every single gate and at most their sum, stays below 1, and vanishes
    exactly when every gate is perfect up to a phase. *)
Theorem C107_sequence_bounds :
  forall props instrs index dims, good_index dims index -> length index = length dims ->
  (forall g p, In (g, p) props -> unitary (prod_dims dims) p
     /\ exists i ideal, dget g instrs = Some i /\ ideal_on dims [] i = Ok ideal /\ unitary (2 ^ length dims) (ent ideal)) ->
  exists l r, single_figures (average_one index dims) (ideal_on dims []) instrs props l
    /\ average_infid_seq props instrs index dims = Ok r
    /\ (0 <= r < 1)%R
    /\ (forall x, In x l -> (0 <= x <= r)%R)
    /\ (r <= sum_list l)%R
    /\ (r = 0%R <-> forall g p i ideal, In (g, p) props -> dget g instrs = Some i -> ideal_on dims [] i = Ok ideal ->
          exists c, Cmod c = 1%R /\ block_is dims index p c (ent ideal)).
Proof.
  intros props instrs index dims G HL H.
  assert (RI : forall i ideal, ideal_on dims [] i = Ok ideal -> rows ideal = 2 ^ length index).
  { intros i ideal E. unfold ideal_on, get_ideal_gate in E.
    destruct (existsb _ _); [discriminate|]. destruct (bcast _ _); [|discriminate]. cbn [rbind] in E. injection E as <-.
    cbn [rows]. rewrite qubits_dim, HL. reflexivity. }
  assert (L : exists l, single_figures (average_one index dims) (ideal_on dims []) instrs props l
     /\ Forall (fun x => 0 <= x < 1)%R l
     /\ (Forall (fun x => x = 0%R) l <-> forall g p i ideal, In (g, p) props -> dget g instrs = Some i -> ideal_on dims [] i = Ok ideal ->
          exists c, Cmod c = 1%R /\ block_is dims index p c (ent ideal))).
  { induction props as [|[g p] props IH].
    - exists []. split; [constructor|]. split; [constructor|]. split; [intros _ g p i ideal []|constructor].
    - destruct IH as (l & A & B & D). { intros g' p' Hin. apply H. right. exact Hin. }
      destruct (H g p (or_introl eq_refl)) as (HU & i & ideal & E1 & E2 & E3).
      rewrite <- HL in E3. destruct (C46_range_and_zero dims index p ideal G HU (RI i ideal E2) E3) as (r & F1 & F2 & F3).
      pose proof (two_pow_pos (length index)) as P.
      assert (F2' : (0 <= r < 1)%R).
      { split; [lra|]. apply Rle_lt_trans with (1 := proj2 F2).
        apply Rmult_lt_reg_r with (INR (2 ^ length index) + 1)%R; [lra|]. unfold Rdiv. rewrite Rmult_assoc, Rinv_l by lra. lra. }
      exists (r :: l). split; [constructor; [exists i, ideal; auto|exact A]|]. split; [constructor; assumption|].
      split.
      + intro F. inversion F as [|? ? Er Fl]; subst. intros g' p' i' ideal' [[= <- <-]|Hin] Hi Hd.
        * rewrite E1 in Hi. injection Hi as <-. rewrite E2 in Hd. injection Hd as <-. apply F3. reflexivity.
        * apply (proj1 D Fl g' p' i' ideal' Hin Hi Hd).
      + intro K. constructor.
        * apply F3. apply (K g p i ideal (or_introl eq_refl) E1 E2).
        * apply D. intros g' p' i' ideal' Hin. apply (K g' p' i' ideal'). right. exact Hin. }
  destruct L as (l & A & B & D). exists l, (1 - all_right l)%R.
  destruct (all_right_bounds l B) as (((P1 & P2) & S) & M & Z).
  split; [exact A|]. split; [apply C107_sequence_value; exists l; auto|]. split; [lra|]. split.
  { intros x Hx. split; [|apply M, Hx]. rewrite Forall_forall in B. apply B in Hx. lra. }
  split; [exact S|]. rewrite <- D, <- Z. split; intro; lra.
Qed.
Print Assumptions C107_sequence_bounds.

(** The order in which the gates are listed does not matter. *)
Theorem C107_sequence_order :
  forall props props' instrs index dims r, Permutation props props' ->
  average_infid_seq props instrs index dims = Ok r -> average_infid_seq props' instrs index dims = Ok r.
Proof.
  intros props props' instrs index dims r P H. apply C107_sequence_value in H. destruct H as (l & Hl & ->).
  destruct (forall2_perm _ _ _ _ P Hl) as (l' & Pl & Q). apply C107_sequence_value. exists l'. split; [exact Q|]. f_equal.
  clear Hl Q. induction Pl; cbn [all_right fold_right] in *; unfold all_right in *; try congruence; ring.
Qed.
Print Assumptions C107_sequence_order.

(** Finding: the ideal gate is taken on all subsystems whatever [index] says, so with a
    proper subset of the subsystems the figure never exists (unless there are no gates),
    where [average_infid_set] gives one. *)
Theorem C107_subset_refuted :
  forall props instrs index dims r, good_index dims index -> length index < length dims -> props <> [] ->
  average_infid_seq props instrs index dims <> Ok r.
Proof.
  intros props instrs index dims r G HL Hne H. apply C107_sequence_value in H. destruct H as (l & Hl & _).
  destruct props as [|[g p] props]; [congruence|]. inversion Hl as [|? x ? l' (i & ideal & E & E1 & E2) H']; subst.
  unfold ideal_on, get_ideal_gate in E1. destruct (existsb _ _); [discriminate|]. destruct (bcast _ _); [|discriminate].
  cbn [rbind] in E1. injection E1 as <-. unfold average_one, average_infid in E2.
  destruct (project_dims p dims index G) as [X Y]. cbn [fst snd] in *. rewrite X in E2. cbn [rows] in E2. rewrite qubits_dim in E2.
  destruct (Nat.eqb_spec (2 ^ length index) (2 ^ length dims)) as [K|K].
  - apply Nat.pow_inj_r in K; lia.
  - cbn [andb] in E2. discriminate.
Qed.
Print Assumptions C107_subset_refuted.

Example C107_example :
  good_index [3] [0] /\ exists ideal,
    ideal_on [3] [] {| i_ideal := gate_on 2 mid; i_targets := Some [0] |} = Ok ideal /\ unitary 2 (ent ideal).
Proof.
  split.
  - split; [discriminate|]. split; [repeat constructor; cbn; tauto|]. split.
    + intros k [<-|[]]; cbn; lia.
    + intros k Hk. cbn in Hk. destruct k; cbn; lia.
  - destruct (C36_ideal_gate_on_register (gate_on 2 mid) [0] 1) as (g & E & _ & U & _); try reflexivity.
    + repeat constructor; cbn; tauto.
    + intros t [<-|[]]. lia.
    + cbn. apply unitary_id.
    + exists g. split; [exact E|exact U].
Qed.

(** ** Final states *)

Definition ket (n : nat) (v : nat -> C) : smat := {| rows := n; cols := 1; ent := fun i _ => v i |}.
Definition normalised (n : nat) (v : nat -> C) : Prop := rs n (fun i => Cmod (v i) ^ 2)%R = 1%R.
Lemma last_final : forall l s, final_state (Trajectory (l ++ [s])) = Ok s.
Proof. intros. unfold final_state. rewrite rev_app_distr. reflexivity. Qed.

(** Kets: the figure of a trajectory is one minus the modulus of the inner product of its
    last state with the target; it lies between 0 and 1 and vanishes exactly when they are
    equal up to a phase.  What happened before the last state does not matter. *)
Theorem C107_final_ket :
  forall n psi phi earlier, n <> 1 ->
  let r := (1 - Cmod (csum n (fun i => Cconj (psi i) * phi i)%C))%R in
  state_transfer_from_states (OneState (ket n psi)) (Some (ket n phi)) = Ok r
  /\ state_transfer_from_states (Trajectory (earlier ++ [ket n psi])) (Some (ket n phi)) = Ok r
  /\ (normalised n psi -> normalised n phi ->
      (0 <= r <= 1)%R /\ (r = 0%R <-> exists c, Cmod c = 1%R /\ forall i, i < n -> psi i = (c * phi i)%C)).
Proof.
  intros n psi phi earlier Hn r.
  assert (E : state_transfer_from_states (OneState (ket n psi)) (Some (ket n phi)) = Ok r).
  { unfold state_transfer_from_states, final_state. cbn [rbind]. unfold calculate_state_overlap, ket. cbn [rows cols ent].
    destruct (Nat.eqb_spec n 1) as [X|_]; [contradiction|]. rewrite Nat.eqb_refl. cbn [seq flat_map map app rbind reduce_max fold_left].
    f_equal. rewrite abs_mod. unfold r. cbn. unfold mmul, madj. ring. }
  split; [exact E|]. split.
  { unfold state_transfer_from_states. rewrite last_final. exact E. }
  unfold normalised. intros N1 N2. unfold r.
  set (a := fun i (_ : nat) => psi i). set (b := fun i (_ : nat) => phi i).
  assert (Na : nrm2 n 1 a = 1%R). { unfold nrm2, a. rewrite <- N1. apply rs_ext. intros i _. cbn [rs]. ring. }
  assert (Nb : nrm2 n 1 b = 1%R). { unfold nrm2, b. rewrite <- N2. apply rs_ext. intros i _. cbn [rs]. ring. }
  assert (I : Cmod (csum n (fun i => Cconj (psi i) * phi i)%C) = Cmod (inner n 1 a b)).
  { rewrite <- conj_mod. f_equal. unfold inner, a, b. rewrite conj_sum. apply csum_ext. intros i _. cbn [csum].
    rewrite Cplus_0_l, conj_mult, conj_conj. reflexivity. }
  rewrite I. pose proof (inner_bound n 1 a b 1 Rlt_0_1 Nb) as B. rewrite Na in B.
  pose proof (Cmod_ge_0 (inner n 1 a b)) as P. split; [nra|].
  assert (Le : (nrm2 n 1 a <= 1)%R) by lra. pose proof (inner_maximal n 1 a b 1 Rlt_0_1 Nb Le) as M.
  split.
  - intro Z. destruct (proj1 M) as (c & Hc & Hm); [lra|]. exists c. split; [exact Hc|]. intros i Hi.
    specialize (Hm i 0 Hi Nat.lt_0_1). exact Hm.
  - intros (c & Hc & Hm). assert (Q : Cmod (inner n 1 a b) = 1%R); [|lra]. apply M. exists c. split; [exact Hc|].
    intros i j Hi Hj. unfold a, b, mscale. apply Hm, Hi.
Qed.
Print Assumptions C107_final_ket.

(** A missing target is an error, and so is a trajectory without states. *)
Theorem C107_final_errors :
  forall states t, state_transfer_from_states states None = Err KeyError
  /\ state_transfer_from_states (Trajectory []) (Some t) = Err IndexError
  /\ (forall n rho v, 1 < n ->
       state_transfer_from_states (OneState {| rows := n; cols := n; ent := rho |}) (Some (ket n v)) = Err ValueError).
Proof.
  intros states t. split; [reflexivity|]. split; [reflexivity|]. intros n rho v Hn.
  unfold state_transfer_from_states, final_state, calculate_state_overlap, ket. cbn [rbind rows cols ent].
  rewrite !Nat.eqb_refl. destruct (Nat.eqb_spec 1 n) as [X|_]; [lia|]. reflexivity.
Qed.
Print Assumptions C107_final_errors.

Lemma csqrt_real : forall x, (0 <= x)%R -> csqrt (RtoC x) = RtoC (sqrt x).
Proof.
  intros x Hx. unfold csqrt. rewrite Cmod_R, Rabs_pos_eq by exact Hx. cbn [fst snd RtoC].
  destruct (Rlt_dec 0 0) as [A|_]; [lra|]. unfold RtoC. f_equal.
  - f_equal. field.
  - replace ((x - x) / 2)%R with 0%R by field. apply sqrt_0.
Qed.
Definition diag_dm (n : nat) (p : nat -> R) : smat :=
  {| rows := n; cols := n; ent := fun i j => if Nat.eqb i j then RtoC (p i) else RtoC 0 |}.
Lemma mmul_diag : forall n f g i j, i < n -> j < n ->
  mmul n (fun i j => if Nat.eqb i j then f i else RtoC 0) (fun i j => if Nat.eqb i j then g i else RtoC 0) i j
  = (if Nat.eqb i j then f i * g i else RtoC 0)%C.
Proof.
  intros n f g i j Hi Hj. unfold mmul. rewrite (csum_single n i _ Hi).
  - rewrite Nat.eqb_refl. destruct (Nat.eqb i j); ring.
  - intros k _ Hk. destruct (Nat.eqb_spec i k) as [->|_]; [congruence|]. ring.
Qed.

(** Two states that are diagonal in the computational basis: the figure is one minus the
    squared Bhattacharyya coefficient of their populations, lies between 0 and 1, and
    vanishes exactly when the populations agree. *)
Theorem C107_final_diagonal :
  forall n p q, (forall i, i < n -> (0 <= p i)%R) -> (forall i, i < n -> (0 <= q i)%R) ->
  let r := (1 - rs n (fun i => sqrt (p i * q i)) ^ 2)%R in
  state_transfer_from_states (OneState (diag_dm n p)) (Some (diag_dm n q)) = Ok r
  /\ (rs n p = 1%R -> rs n q = 1%R -> (0 <= r <= 1)%R /\ (r = 0%R <-> forall i, i < n -> p i = q i)).
Proof.
  intros n p q Hp Hq r. split.
  - unfold state_transfer_from_states, final_state, calculate_state_overlap, diag_dm. cbn [rbind rows cols ent].
    rewrite !Nat.eqb_refl. cbn [andb rbind map reduce_max fold_left].
    assert (T : mtrace n (tf_sqrt (mmul n (mmul n (tf_sqrt (fun i j => if Nat.eqb i j then RtoC (p i) else RtoC 0))
         (fun i j => if Nat.eqb i j then RtoC (q i) else RtoC 0)) (tf_sqrt (fun i j => if Nat.eqb i j then RtoC (p i) else RtoC 0))))
         = RtoC (rs n (fun i => sqrt (p i * q i)))).
    { rewrite <- rs_csum. unfold mtrace. apply csum_ext. intros i Hi. unfold tf_sqrt at 1.
      assert (SQ : meq n n (tf_sqrt (fun i j => if Nat.eqb i j then RtoC (p i) else RtoC 0))
                   (fun i j => if Nat.eqb i j then RtoC (sqrt (p i)) else RtoC 0)).
      { intros a b Ha Hb. unfold tf_sqrt. destruct (Nat.eqb a b); rewrite csqrt_real; auto using Rle_refl. rewrite sqrt_0. reflexivity. }
      assert (E : mmul n (mmul n (tf_sqrt (fun i j => if Nat.eqb i j then RtoC (p i) else RtoC 0))
         (fun i j => if Nat.eqb i j then RtoC (q i) else RtoC 0)) (tf_sqrt (fun i j => if Nat.eqb i j then RtoC (p i) else RtoC 0)) i i
         = RtoC (p i * q i)).
      { rewrite (mmul_mor n n n _ (fun i j => if Nat.eqb i j then (RtoC (sqrt (p i)) * RtoC (q i))%C else RtoC 0)
                   _ (fun i j => if Nat.eqb i j then RtoC (sqrt (p i)) else RtoC 0)); [| |exact SQ|exact Hi|exact Hi].
        - rewrite mmul_diag by exact Hi. rewrite Nat.eqb_refl, <- !RtoC_mult. f_equal.
          replace (sqrt (p i) * q i * sqrt (p i))%R with (sqrt (p i) * sqrt (p i) * q i)%R by ring. rewrite sqrt_sqrt by auto. reflexivity.
        - intros a b Ha Hb. rewrite <- (mmul_diag n (fun i => RtoC (sqrt (p i))) (fun i => RtoC (q i)) a b Ha Hb).
          apply (mmul_mor n n n); [exact SQ| |exact Ha|exact Hb]. intros ? ? _ _. reflexivity. }
      rewrite E. apply csqrt_real. apply Rmult_le_pos; auto. }
    rewrite T. f_equal. unfold r. rewrite <- RtoC_mult, <- RtoC_minus. cbn [fst RtoC]. ring.
  - intros Sp Sq.
    set (F := rs n (fun i => sqrt (p i * q i))) in *.
    assert (F0 : (0 <= F)%R) by (apply rs_nonneg; intros; apply sqrt_pos).
    assert (Gap : rs n (fun i => (sqrt (p i) - sqrt (q i)) ^ 2)%R = (2 - 2 * F)%R).
    { rewrite (rs_ext n _ (fun i => (p i + q i) + (-2) * sqrt (p i * q i))%R).
      - rewrite rs_plus, rs_plus, rs_scale, Sp, Sq. unfold F. ring.
      - intros i Hi. rewrite sqrt_mult by auto. pose proof (sqrt_sqrt (p i) (Hp i Hi)). pose proof (sqrt_sqrt (q i) (Hq i Hi)). nra. }
    assert (G0 : (0 <= rs n (fun i => (sqrt (p i) - sqrt (q i)) ^ 2))%R) by (apply rs_nonneg; intros; apply pow2_ge_0).
    unfold r. split; [nra|]. split.
    + intros Z i Hi. assert (F = 1%R) by nra.
      assert (T : ((sqrt (p i) - sqrt (q i)) ^ 2 = 0)%R).
      { pose proof (rs_member n (fun i => (sqrt (p i) - sqrt (q i)) ^ 2)%R i (fun j _ => pow2_ge_0 _) Hi) as M. cbn beta in M.
        pose proof (pow2_ge_0 (sqrt (p i) - sqrt (q i))). nra. }
      assert (sqrt (p i) = sqrt (q i)) by nra.
      rewrite <- (sqrt_sqrt (p i) (Hp i Hi)), <- (sqrt_sqrt (q i) (Hq i Hi)). congruence.
    + intro Z. assert (F = 1%R); [|nra]. rewrite <- Sp. unfold F. apply rs_ext. intros i Hi. rewrite <- (Z i Hi).
      apply sqrt_square. auto.
Qed.
Print Assumptions C107_final_diagonal.

(** Finding: the square root is taken element by element, not of the matrix: the
    superposition |+><+| compared with itself gives infidelity -3. *)
Theorem C107_density_refuted :
  let plus := {| rows := 2; cols := 2; ent := fun _ _ => RtoC (1 / 2) |} in
  meq 2 2 (mmul 2 (ent plus) (ent plus)) (ent plus) /\ mtrace 2 (ent plus) = RtoC 1
  /\ state_transfer_from_states (OneState plus) (Some plus) = Ok (-3)%R.
Proof.
  intro plus. split; [|split].
  - intros i j _ _. unfold plus, mmul. cbn [ent csum]. rewrite <- !RtoC_mult, <- !RtoC_plus. f_equal. lra.
  - unfold plus, mtrace. cbn [ent csum]. rewrite <- !RtoC_plus. f_equal. lra.
  - assert (S : csqrt (RtoC (1 / 2)) = RtoC (sqrt (1 / 2))) by (apply csqrt_real; lra).
    assert (Q : (sqrt (1 / 2) * sqrt (1 / 2) = 1 / 2)%R) by (apply sqrt_sqrt; lra).
    unfold state_transfer_from_states, final_state, calculate_state_overlap, plus. cbn [rbind rows cols ent Nat.eqb andb].
    cbn [map reduce_max fold_left]. f_equal. unfold mtrace, tf_sqrt, mmul. cbn [csum]. rewrite S.
    rewrite <- !RtoC_mult, <- !RtoC_plus, <- !RtoC_mult, <- !RtoC_plus.
    match goal with |- context [csqrt (RtoC ?x)] => replace x with 1%R by nra end.
    rewrite csqrt_real by lra. rewrite sqrt_1, <- !RtoC_plus, <- RtoC_mult, <- RtoC_minus. cbn [fst RtoC]. ring.
Qed.
Print Assumptions C107_density_refuted.

(** ** Populations of a level *)

(** The population of a level after a gate is the squared modulus of the element of the
    propagator between the ground state and that level; with the superoperator of the same
    propagator the open-system version agrees; the levels of a unitary add up to 1. *)
Theorem C107_population :
  forall props sprops gate lvl N U, dget gate props = Some {| rows := N; cols := N; ent := U |} ->
  dget gate sprops = Some {| rows := N * N; cols := N * N; ent := tf_super N U |} ->
  (lvl < N -> population props lvl gate = Ok (Cmod (U lvl 0%nat) ^ 2)%R
     /\ lindbladian_population sprops lvl gate = Ok (Cmod (U lvl 0%nat) ^ 2)%R)
  /\ (N <= lvl -> population props lvl gate = Err IndexError /\ lindbladian_population sprops lvl gate = Err IndexError)
  /\ (unitary N U -> 0 < N -> rs N (fun l => match population props l gate with Ok p => p | Err _ => 0%R end) = 1%R).
Proof.
  intros props sprops gate lvl N U HP HS.
  assert (V : forall l, mmul N U (one_hot 0) l 0 = U l 0 \/ N = 0).
  { intro l. destruct N as [|N]; [right; reflexivity|left]. unfold mmul. rewrite (csum_single (S N) 0 _ (Nat.lt_0_succ N)).
    - unfold one_hot. cbn [Nat.eqb]. ring.
    - intros k _ Hk. unfold one_hot. destruct (Nat.eqb_spec k 0); [contradiction|]. ring. }
  assert (PV : forall l, l < N -> population props l gate = Ok (Cmod (U l 0%nat) ^ 2)%R).
  { intros l Hl. unfold population. rewrite HP. cbn [rows ent]. unfold fid_populations.
    rewrite nth_error_map, (nth_error_nth' _ 0) by (rewrite seq_length; exact Hl). rewrite seq_nth by exact Hl. cbn [option_map Nat.add].
    destruct (V l) as [E|E]; [rewrite E; reflexivity|lia]. }
  split; [|split].
  - intro Hl. split; [apply PV, Hl|]. unfold lindbladian_population. rewrite HS. cbn [rows ent]. unfold fid_populations.
    rewrite Nat.sqrt_square, nth_error_map, (nth_error_nth' _ 0) by (rewrite seq_length; exact Hl).
    rewrite seq_nth by exact Hl. cbn [option_map Nat.add]. f_equal.
    set (e := tf_state_to_dm (one_hot 0)).
    assert (Ent : forall i j, e i j = (one_hot 0 i 0%nat * one_hot 0 j 0%nat)%C).
    { intros i j. unfold e, tf_state_to_dm, mmul, mtrans. cbn [csum]. ring. }
    assert (Sy : meq (N * N) 1 (tf_dm_to_vec N e) (row_stack N e)).
    { intros k j Hk _. unfold tf_dm_to_vec, row_stack, mtrans. rewrite !Ent. ring. }
    assert (In : lvl * N + lvl < N * N) by nia.
    rewrite (mmul_mor_r (N * N) (N * N) 1 (tf_super N U) _ _ Sy _ _ In Nat.lt_0_1).
    rewrite (super_row_stack N U e (lvl * N + lvl) 0 In Nat.lt_0_1). unfold row_stack.
    destruct (divmod_add lvl lvl N Hl) as [-> ->].
    assert (UE : forall k, mmul N U e lvl k = (U lvl 0%nat * one_hot 0 k 0%nat)%C).
    { intro k. unfold mmul. rewrite (csum_single N 0 _ ltac:(lia)).
      - rewrite Ent. unfold one_hot at 1. cbn [Nat.eqb]. ring.
      - intros q _ Hq. rewrite Ent. unfold one_hot at 1. destruct (Nat.eqb_spec q 0); [contradiction|]. ring. }
    unfold mmul at 1. rewrite (csum_single N 0 _ ltac:(lia)).
    + rewrite UE. unfold one_hot, madj. cbn [Nat.eqb]. rewrite !Cmod_mult, conj_mod, Cmod_1. ring.
    + intros q _ Hq. rewrite UE. unfold one_hot. destruct (Nat.eqb_spec q 0); [contradiction|]. ring.
  - intro Hl. unfold population, lindbladian_population. rewrite HP, HS. cbn [rows ent]. unfold fid_populations.
    rewrite Nat.sqrt_square, !nth_error_map.
    rewrite (proj2 (nth_error_None (seq 0 N) lvl)) by (rewrite seq_length; exact Hl). split; reflexivity.
  - intros HU HN. transitivity (rs N (fun l => v_sq U l 0)); [|apply (col_sum N U 0 HU HN)].
    apply rs_ext. intros l Hl. rewrite PV by exact Hl. symmetry. apply v_sq_mod.
Qed.
Print Assumptions C107_population.

(** ** Figures that always fail *)

(** Finding: [tf_superoper_average_fidelity] hands True to [tf_project_to_comp] as the
    index, so the open-system average infidelity raises for every gate, register and set. *)
Theorem C107_lindbladian_refuted :
  forall ideal actual index dims A B props instrs, dims <> [] ->
  tf_superoper_average_fidelity A B dims = Err TypeError
  /\ (forall r, lindbladian_average_infid ideal actual index dims <> Ok r)
  /\ (rows actual = rows (projector dims (project_index dims index)) * rows (projector dims (project_index dims index)) ->
      lindbladian_average_infid ideal actual index dims = Err TypeError)
  /\ (forall r, lindbladian_average_infid_set props instrs index dims <> Ok r).
Proof.
  intros ideal actual index dims A B props instrs Hd.
  assert (T : forall A B, tf_superoper_average_fidelity A B dims = Err TypeError).
  { intros. unfold tf_superoper_average_fidelity, project_any. destruct dims; [congruence|reflexivity]. }
  assert (L : forall i a ix r, lindbladian_average_infid i a ix dims <> Ok r).
  { intros i a ix r H. unfold lindbladian_average_infid in H. destruct (project_any _ _ _ _ _) as [P|]; [|discriminate].
    cbn [rbind] in H. rewrite T in H. discriminate. }
  split; [apply T|]. split; [intro; apply L|]. split.
  - intro HR. unfold lindbladian_average_infid, project_any. rewrite HR, Nat.eqb_refl.
    destruct dims; [congruence|]. reflexivity.
  - intros r H. unfold lindbladian_average_infid_set in H. destruct props as [|[g p] props]; [discriminate|].
    cbn [lindbladian_infids] in H. destruct (dget g instrs); [|discriminate]. destruct (get_ideal_gate _ _ _ _) as [perf|]; [|discriminate].
    cbn [rbind] in H. destruct (lindbladian_average_infid perf p index dims) as [x|] eqn:E; [|discriminate]. exact (L _ _ _ _ E).
Qed.
Print Assumptions C107_lindbladian_refuted.

(** Finding: the table of ideal Clifford gates is keyed by names and is subscripted with
    numbers, so the analytical error per Clifford raises whatever the propagators are. *)
Theorem C107_epc_refuted :
  forall label n props strings decomp decomp2 num_gates cliffords,
  (forall r, epc_analytical label n props strings decomp decomp2 num_gates cliffords <> Ok r)
  /\ (forall seqs u us, epc_sequences strings decomp decomp2 num_gates cliffords = Ok seqs ->
      evaluate_sequences (mmul n) (fun _ => mid) props seqs = Ok (u :: us) ->
      epc_analytical label n props strings decomp decomp2 num_gates cliffords = Err KeyError)
  /\ (forall eval fid r, epc_figure label eval fid strings decomp decomp2 num_gates cliffords <> Ok r).
Proof.
  intros label n props strings decomp decomp2 num_gates cliffords.
  assert (K : forall i is, pyget (KInt i) (map (fun i => (KStr (label i), clifford i)) is) = Err KeyError).
  { intros i is. induction is as [|j is IH]; [reflexivity|]. cbn [map pyget]. exact IH. }
  assert (E : forall fid real r, epc_fids fid real (perfect_cliffords label) (seq 0 24) <> Ok r).
  { intros fid real r H. change (seq 0 24) with (0 :: seq 1 23) in H. cbn [epc_fids] in H.
    destruct (nth_error real 0); [|discriminate]. unfold perfect_cliffords in H. rewrite K in H. discriminate. }
  assert (F : forall eval fid r, epc_figure label eval fid strings decomp decomp2 num_gates cliffords <> Ok r).
  { intros eval fid r H. unfold epc_figure in H. destruct (epc_sequences _ _ _ _ _) as [seqs|]; [|discriminate]. cbn [rbind] in H.
    destruct (eval seqs) as [real|]; [|discriminate]. cbn [rbind] in H.
    destruct (epc_fids fid real (perfect_cliffords label) (seq 0 24)) as [l|] eqn:X; [|discriminate]. exact (E _ _ _ X). }
  split; [intro r; apply F|]. split; [|exact F].
  intros seqs u us H1 H2. unfold epc_analytical, epc_figure. rewrite H1. cbn [rbind]. rewrite H2. cbn [rbind].
  change (seq 0 24) with (0 :: seq 1 23). cbn [epc_fids nth_error]. unfold perfect_cliffords. rewrite K. reflexivity.
Qed.
Print Assumptions C107_epc_refuted.

(** ** The same figures, in general *)

(** [w] is the principal square root of [z]. *)
Definition principal_root (z w : C) : Prop :=
  (w * w)%C = z /\ ((0 < fst w)%R \/ (fst w = 0%R /\ (0 <= snd w)%R)).

Lemma principal_root_unique : forall z v w, principal_root z v -> principal_root z w -> v = w.
Proof.
  intros z [a b] [c d] [E1 P1] [E2 P2]. cbn [fst snd] in *. rewrite <- E2 in E1.
  unfold Cmult in E1. cbn [fst snd] in E1. injection E1 as X Y.
  assert (A : ((a * a - c * c) = (b * b - d * d))%R) by lra.
  assert (B : (a * b = c * d)%R) by lra.
  assert (Q : ((a * a + b * b) * (a * a + b * b) = (c * c + d * d) * (c * c + d * d))%R).
  { replace ((a * a + b * b) * (a * a + b * b))%R with ((a * a - b * b) * (a * a - b * b) + 4 * (a * b) * (a * b))%R by ring.
    replace ((c * c + d * d) * (c * c + d * d))%R with ((c * c - d * d) * (c * c - d * d) + 4 * (c * d) * (c * d))%R by ring.
    replace (a * a - b * b)%R with (c * c - d * d)%R by lra. rewrite B. ring. }
  assert (S1 : (0 <= a * a + b * b)%R) by nra. assert (S2 : (0 <= c * c + d * d)%R) by nra.
  assert (T : (a * a + b * b = c * c + d * d)%R) by (apply Rsqr_inj; unfold Rsqr; assumption).
  assert (AA : (a * a = c * c)%R) by lra. assert (BB : (b * b = d * d)%R) by lra.
  assert (Ha : (0 <= a)%R) by (destruct P1 as [|[-> _]]; lra).
  assert (Hc : (0 <= c)%R) by (destruct P2 as [|[-> _]]; lra).
  assert (Eac : a = c) by (apply Rsqr_inj; assumption). subst c.
  destruct P1 as [P1|[-> P1]].
  - f_equal. apply (Rmult_eq_reg_l a); [exact B|lra].
  - destruct P2 as [P2|[_ P2]]; [lra|]. f_equal. apply Rsqr_inj; assumption.
Qed.

Lemma csqrt_root : forall z, principal_root z (csqrt z).
Proof.
  intros [x y]. unfold csqrt. cbn [fst snd].
  set (r := Cmod (x, y)).
  assert (R2 : (r * r = x * x + y * y)%R).
  { unfold r, Cmod. rewrite sqrt_sqrt by (cbn; nra). cbn. ring. }
  assert (R0 : (0 <= r)%R) by apply Cmod_ge_0.
  assert (Hx : (x <= r)%R) by (destruct (Rle_dec x r); [assumption|nra]).
  assert (Hx' : (- x <= r)%R) by (destruct (Rle_dec (- x) r); [assumption|nra]).
  set (u := sqrt ((r + x) / 2)). set (v := sqrt ((r - x) / 2)).
  assert (U0 : (0 <= u)%R) by apply sqrt_pos. assert (V0 : (0 <= v)%R) by apply sqrt_pos.
  assert (U2 : (u * u = (r + x) / 2)%R) by (apply sqrt_sqrt; lra).
  assert (V2 : (v * v = (r - x) / 2)%R) by (apply sqrt_sqrt; lra).
  assert (UV : ((2 * (u * v)) * (2 * (u * v)) = y * y)%R).
  { replace ((2 * (u * v)) * (2 * (u * v)))%R with (4 * (u * u) * (v * v))%R by ring. rewrite U2, V2. lra. }
  destruct (Rlt_dec y 0) as [Hy|Hy].
  - assert (W : (2 * (u * v) = - y)%R).
    { apply Rsqr_inj; [|lra|unfold Rsqr; lra]. apply Rmult_le_pos; [lra|apply Rmult_le_pos; assumption]. }
    split.
    + unfold Cmult. cbn [fst snd]. f_equal; nra.
    + cbn [fst snd]. destruct (Rle_lt_or_eq_dec _ _ U0) as [L|L]; [left; exact L|]. exfalso. rewrite <- L in W. lra.
  - assert (W : (2 * (u * v) = y)%R).
    { apply Rsqr_inj; [|lra|unfold Rsqr; lra]. apply Rmult_le_pos; [lra|apply Rmult_le_pos; assumption]. }
    split.
    + unfold Cmult. cbn [fst snd]. f_equal; nra.
    + cbn [fst snd]. destruct (Rle_lt_or_eq_dec _ _ U0) as [L|L]; [left; exact L|right; split; [symmetry; exact L|exact V0]].
Qed.

(** Density matrices: with [rt] the matrix of principal roots of the {e elements}, the
    figure is 1 - Re (tr rt(rt(rho) sigma rt(rho)))^2, whatever the two matrices are. *)
Theorem C107_density_value :
  forall n rho sigma rt, (forall z, principal_root z (rt z)) ->
  let root (A : mat) : mat := fun i j => rt (A i j) in
  let t := mtrace n (root (mmul n (mmul n (root rho) sigma) (root rho))) in
  state_transfer_from_states (OneState {| rows := n; cols := n; ent := rho |})
                             (Some {| rows := n; cols := n; ent := sigma |}) = Ok (1 - fst (t * t)%C)%R.
Proof.
  intros n rho sigma rt H root t.
  assert (E : forall z, csqrt z = rt z) by (intro z; eapply principal_root_unique; [apply csqrt_root|apply H]).
  unfold state_transfer_from_states, final_state, calculate_state_overlap. cbn [rbind rows cols ent].
  rewrite !Nat.eqb_refl. cbn [andb rbind map reduce_max fold_left]. f_equal.
  assert (T : mtrace n (tf_sqrt (mmul n (mmul n (tf_sqrt rho) sigma) (tf_sqrt rho))) = t).
  { unfold t, mtrace. apply csum_ext. intros i _. unfold tf_sqrt at 1, root at 1. rewrite E. f_equal.
    unfold mmul. apply csum_ext. intros k _. unfold tf_sqrt, root. rewrite E. f_equal.
    apply csum_ext. intros k' _. rewrite E. reflexivity. }
  rewrite T. cbn. lra.
Qed.
Print Assumptions C107_density_value.

Lemma fold_Rmax_spec : forall l x, In (fold_left Rmax l x) (x :: l) /\ forall y, In y (x :: l) -> (y <= fold_left Rmax l x)%R.
Proof.
  induction l as [|a l IH]; intro x; cbn [fold_left].
  - split; [left; reflexivity|]. intros y [<-|[]]. lra.
  - destruct (IH (Rmax x a)) as [I B]. split.
    + destruct I as [I|I]; [|right; right; exact I].
      rewrite <- I. destruct (Rle_dec x a) as [L|L].
      * rewrite Rmax_right by exact L. right. left. reflexivity.
      * rewrite Rmax_left by lra. left. reflexivity.
    + intros y [<-|[<-|H]].
      * eapply Rle_trans; [apply Rmax_l|apply B; left; reflexivity].
      * eapply Rle_trans; [apply Rmax_r|apply B; left; reflexivity].
      * apply B. right. exact H.
Qed.

(** Several kets side by side: the figure is the largest over all pairs of columns. *)
Theorem C107_final_columns :
  forall n a b (A B : mat), n <> a -> 0 < a -> 0 < b ->
  let dev i j := (1 - Cmod (csum n (fun k => Cconj (A k i) * B k j)%C))%R in
  exists r, state_transfer_from_states (OneState {| rows := n; cols := a; ent := A |})
                                       (Some {| rows := n; cols := b; ent := B |}) = Ok r
  /\ (exists i j, i < a /\ j < b /\ r = dev i j)
  /\ (forall i j, i < a -> j < b -> (dev i j <= r)%R).
Proof.
  intros n a b A B Hn Ha Hb dev.
  unfold state_transfer_from_states, final_state, calculate_state_overlap. cbn [rbind rows cols ent].
  destruct (Nat.eqb_spec n a) as [X|_]; [contradiction|]. rewrite Nat.eqb_refl. cbn [rbind].
  set (l := map _ (flat_map _ _)).
  assert (IN : forall y, In y l <-> exists i j, i < a /\ j < b /\ y = dev i j).
  { intro y. unfold l. rewrite in_map_iff. split.
    - intros (o & <- & H). apply in_flat_map in H. destruct H as (i & Hi & H). apply in_map_iff in H. destruct H as (j & <- & Hj).
      apply in_seq in Hi. apply in_seq in Hj. exists i, j. split; [lia|]. split; [lia|].
      rewrite abs_mod. unfold dev. cbn. unfold mmul, madj. ring.
    - intros (i & j & Hi & Hj & ->). exists (RtoC (tf_abs (mmul n (madj A) B i j))). split.
      + rewrite abs_mod. unfold dev. cbn. unfold mmul, madj. ring.
      + apply in_flat_map. exists i. split; [apply in_seq; lia|]. apply in_map_iff. exists j. split; [reflexivity|apply in_seq; lia]. }
  exists (reduce_max l). split; [reflexivity|].
  destruct l as [|x l'] eqn:EL.
  { exfalso. assert (F : In (dev 0 0) []) by (apply IN; exists 0, 0; auto). exact F. }
  cbn [reduce_max]. destruct (fold_Rmax_spec l' x) as [I U]. split.
  - apply IN in I. exact I.
  - intros i j Hi Hj. apply U, IN. exists i, j. auto.
Qed.
Print Assumptions C107_final_columns.

(** A gate without a propagator is an error, not a number. *)
Theorem C107_population_errors :
  forall props gate lvl, (forall U, ~ In (gate, U) props) ->
  population props lvl gate = Err KeyError /\ lindbladian_population props lvl gate = Err KeyError.
Proof.
  intros props gate lvl H.
  assert (E : dget gate props = None).
  { destruct (dget gate props) as [U|] eqn:E; [|reflexivity]. exfalso. apply dget_Some_in in E. exact (H U E). }
  unfold population, lindbladian_population. rewrite E. auto.
Qed.
Print Assumptions C107_population_errors.

(** Which sequences the figure per Clifford evaluates: the given ones in the mode
    [cliffords], else the decomposition for one or for two qubits. *)
Theorem C107_epc_evaluates :
  forall label eval fid strings decomp decomp2 e,
  (forall k, eval strings = Err e -> epc_figure label eval fid strings decomp decomp2 k true = Err e)
  /\ (eval decomp = Err e -> epc_figure label eval fid strings decomp decomp2 1 false = Err e)
  /\ (eval decomp2 = Err e -> epc_figure label eval fid strings decomp decomp2 2 false = Err e)
  /\ (forall k, k <> 1 -> k <> 2 -> epc_figure label eval fid strings decomp decomp2 k false = Err AttributeError).
Proof.
  intros. unfold epc_figure. cbn [epc_sequences rbind].
  split; [intros k H; rewrite H; reflexivity|]. split; [intro H; rewrite H; reflexivity|]. split; [intro H; rewrite H; reflexivity|].
  intros k H1 H2. destruct k as [|[|[|k]]]; try reflexivity; congruence.
Qed.
Print Assumptions C107_epc_evaluates.
