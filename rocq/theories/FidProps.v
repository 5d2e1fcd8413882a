(** Properties C45 to C49: infidelities and populations. *)
From Coq Require Import Reals Lra Lia Setoid Morphisms Permutation.
From Coquelicot Require Import Coquelicot.
From Verif Require Import Base Mat RSum HilbertModel HilbertProofs Hilbert2Proofs Hilbert2Props GateModel GateProofs GateProps PropModel SuperProofs
                          FidModel FidProofs.
Local Open Scope list_scope.
Local Open Scope nat_scope.
Local Notation length := List.length.

(** The block of a propagator between computational states (two levels of the
    selected subsystems, ground state of the others) equals c times a gate. *)
Definition block_is (dims index : list nat) (U : mat) (c : C) (V : mat) : Prop :=
  let cd := comp_dims dims index in
  forall u v, valid cd u -> valid cd v -> U (pos dims u) (pos dims v) = (c * V (pos cd u) (pos cd v))%C.

Lemma block_is_meq : forall dims index U c V, good_index dims index ->
  block_is dims index U c V <->
  meq (2 ^ length index) (2 ^ length index) (ent (tf_project_to_comp U dims index false)) (mscale c V).
Proof.
  intros dims index U c V G. pose proof (good_comp _ _ G) as E.
  destruct G as (Hne & Hnd & Hk & H1).
  destruct (C32_projection_keeps_computational_elements U dims index H1) as (_ & _ & B).
  { intros k Hkl Hm. apply mem_nat_in in Hm.
    replace (project_index dims index) with index in Hm by (destruct index; [congruence|reflexivity]). apply Hk, Hm. }
  split.
  - intros H. rewrite <- E. intros x y Hx Hy.
    destruct (pos_surj _ _ Hx) as (u & Hu & <-). destruct (pos_surj _ _ Hy) as (v & Hv & <-).
    rewrite B by assumption. apply H; assumption.
  - intros H u v Hu Hv. rewrite <- B by assumption. apply H; rewrite <- E; apply pos_lt; assumption.
Qed.

(** The registers of qubits, all of them evaluated: the block is the whole matrix. *)
Lemma qubits_good : forall k, good_index (repeat 2 (S k)) (seq 0 (S k)).
Proof.
  intro k. unfold good_index. rewrite repeat_length.
  assert (N : forall q, q < S k -> nth q (repeat 2 (S k)) 0 = 2).
  { intros q Hq. apply (repeat_spec (S k) 2). apply nth_In. rewrite repeat_length. exact Hq. }
  split; [discriminate|]. split; [apply seq_NoDup|]. split.
  - intros q Hq. apply in_seq in Hq. split; [lia|]. rewrite N; lia.
  - intros q Hq. rewrite N; lia.
Qed.
Lemma qubits_comp : forall k, comp_dims (repeat 2 (S k)) (seq 0 (S k)) = repeat 2 (S k).
Proof.
  intro k. unfold comp_dims. rewrite repeat_length.
  change (project_index (repeat 2 (S k)) (seq 0 (S k))) with (seq 0 (S k)).
  rewrite (map_ext_in _ (fun _ => 2)).
  - assert (E : forall m s, map (fun _ : nat => 2) (seq s m) = repeat 2 m).
    { induction m as [|m IH]; intro s; [reflexivity|]. cbn [seq map repeat]. rewrite IH. reflexivity. }
    apply E.
  - intros q Hq. rewrite (proj2 (mem_nat_in q _) Hq). reflexivity.
Qed.
Lemma qubits_block : forall k U, let n := 2 ^ S k in
  meq n n (ent (tf_project_to_comp U (repeat 2 (S k)) (seq 0 (S k)) false)) U.
Proof.
  intros k U n. unfold n.
  pose proof (block_is_meq (repeat 2 (S k)) (seq 0 (S k)) U (RtoC 1) U (qubits_good k)) as B.
  rewrite seq_length in B. rewrite (proj1 B); [apply mscale_1|].
  intros u v _ _. rewrite qubits_comp. ring.
Qed.
Lemma qubits_dim : forall k, prod_dims (repeat 2 k) = 2 ^ k.
Proof. induction k as [|k IH]; [reflexivity|]. cbn [repeat]. rewrite prod_dims_cons, IH. cbn [Nat.pow]. lia. Qed.

(** ** C45 *)

Lemma unitary_infid_value : forall ideal U index dims, good_index dims index -> cols ideal = 2 ^ length index ->
  let d := 2 ^ length index in
  unitary_infid ideal U (Some index) dims
  = Ok (1 - (Cmod (inner d d (ent (tf_project_to_comp U dims index false)) (ent ideal)) / INR d) ^ 2)%R.
Proof.
  intros ideal U index dims G Hc d. unfold unitary_infid. destruct (project_dims U dims index G) as [-> ->].
  rewrite Hc, Nat.eqb_refl, overlap_value. reflexivity.
Qed.
Lemma ratio_range : forall d z, (0 < d -> 0 <= z -> z ^ 2 <= d * d -> 0 <= 1 - (z / d) ^ 2 <= 1 /\ (1 - (z / d) ^ 2 = 0 <-> z = d))%R.
Proof.
  intros d z Hd Hz Hb. assert (z <= d)%R by nra.
  assert (0 <= z / d)%R by (apply Rmult_le_pos; [lra|left; apply Rinv_0_lt_compat, Hd]).
  assert (z / d <= 1)%R by (apply Rmult_le_reg_r with d; [lra|]; unfold Rdiv; rewrite Rmult_assoc, Rinv_l by lra; lra).
  split; [nra|]. split.
  - intro E. assert ((z / d) * (z / d) = 1)%R by nra. assert (z / d = 1)%R by nra.
    apply Rmult_eq_reg_r with (/ d)%R; [|apply Rinv_neq_0_compat; lra]. rewrite Rinv_r by lra. exact H3.
  - intros ->. field. lra.
Qed.

Theorem C45_range_and_zero :
  forall dims index U ideal, good_index dims index ->
  unitary (prod_dims dims) U -> cols ideal = 2 ^ length index -> unitary (2 ^ length index) (ent ideal) ->
  exists r, unitary_infid ideal U (Some index) dims = Ok r
   /\ (0 <= r <= 1)%R
   /\ (r = 0%R <-> exists c, Cmod c = 1%R /\ block_is dims index U c (ent ideal)).
Proof.
  intros dims index U ideal G HU Hc HV. set (d := 2 ^ length index) in *.
  eexists. split; [apply unitary_infid_value; assumption|]. fold d.
  pose proof (two_pow_pos (length index)) as Pd. fold d in Pd.
  pose proof (nrm2_unitary d _ HV) as NV. pose proof (project_block U dims index G HU) as NA. fold d in NA. cbv zeta in NA.
  set (A := ent (tf_project_to_comp U dims index false)) in *.
  pose proof (inner_bound d d A (ent ideal) (INR d) Pd NV) as B.
  assert (B' : (Cmod (inner d d A (ent ideal)) ^ 2 <= INR d * INR d)%R) by nra.
  destruct (ratio_range (INR d) _ Pd (Cmod_ge_0 _) B') as [R Z]. split; [exact R|].
  rewrite Z, (inner_maximal d d A (ent ideal) (INR d) Pd NV NA).
  split; intros (c & H1 & H2); exists c; split; auto; apply (block_is_meq dims index U c (ent ideal) G), H2.
Qed.
Print Assumptions C45_range_and_zero.

(** On a register of qubits, with [index] omitted. *)
Lemma unitary_infid_qubits : forall k U V n, n = 2 ^ S k ->
  unitary_infid {| rows := n; cols := n; ent := V |} U None (repeat 2 (S k))
  = Ok (1 - (Cmod (inner n n U V) / INR n) ^ 2)%R.
Proof.
  intros k U V n ->.
  change (unitary_infid {| rows := 2 ^ S k; cols := 2 ^ S k; ent := V |} U None (repeat 2 (S k)))
    with (unitary_infid {| rows := 2 ^ S k; cols := 2 ^ S k; ent := V |} U (Some (seq 0 (length (repeat 2 (S k))))) (repeat 2 (S k))).
  rewrite repeat_length, unitary_infid_value by (try apply qubits_good; rewrite seq_length; reflexivity).
  rewrite seq_length. cbn [ent].
  rewrite (inner_mor _ _ _ U V V (qubits_block k U) (reflexivity V)). reflexivity.
Qed.
Definition gate_on (n : nat) (V : mat) : smat := {| rows := n; cols := n; ent := V |}.

Theorem C45_zero_iff_equal_up_to_phase :
  forall k U V, let n := 2 ^ S k in unitary n U -> unitary n V ->
  exists r, unitary_infid (gate_on n V) U None (repeat 2 (S k)) = Ok r
    /\ (0 <= r <= 1)%R
    /\ (r = 0%R <-> exists c, Cmod c = 1%R /\ meq n n U (mscale c V)).
Proof.
  intros k U V n HU HV. eexists. split; [apply unitary_infid_qubits; reflexivity|].
  pose proof (two_pow_pos (S k)) as Pd. fold n in Pd.
  pose proof (nrm2_unitary n _ HV) as NV. pose proof (nrm2_unitary n _ HU) as NU.
  pose proof (inner_bound n n U V (INR n) Pd NV) as B. rewrite NU in B.
  destruct (ratio_range (INR n) _ Pd (Cmod_ge_0 _) B) as [R Z]. split; [exact R|].
  rewrite Z. apply inner_maximal; [exact Pd|exact NV|lra].
Qed.
Print Assumptions C45_zero_iff_equal_up_to_phase.

Theorem C45_symmetric_and_phase_invariant :
  forall k U V a b, let n := 2 ^ S k in Cmod a = 1%R -> Cmod b = 1%R ->
  unitary_infid (gate_on n V) U None (repeat 2 (S k)) = unitary_infid (gate_on n U) V None (repeat 2 (S k))
  /\ unitary_infid (gate_on n (mscale b V)) (mscale a U) None (repeat 2 (S k))
     = unitary_infid (gate_on n V) U None (repeat 2 (S k)).
Proof.
  intros k U V a b n Ha Hb. unfold gate_on. rewrite !unitary_infid_qubits by reflexivity. split.
  - rewrite <- (inner_conj n n V U), conj_mod. reflexivity.
  - rewrite inner_scale_l, inner_scale_r, !Cmod_mult, conj_mod, Ha, Hb, !Rmult_1_l. reflexivity.
Qed.
Print Assumptions C45_symmetric_and_phase_invariant.

Example C45_example :
  good_index [3; 4; 2] [2; 0] /\ unitary 24 mid /\ unitary 4 mid
  /\ block_is [3; 4; 2] [2; 0] mid (RtoC 1) mid.
Proof.
  split; [|split; [apply unitary_id|split; [apply unitary_id|]]].
  - split; [discriminate|]. split; [repeat constructor; cbn; lia|]. split.
    + intros k [<-|[<-|[]]]; cbn; lia.
    + intros k Hk. cbn in Hk. destruct k as [|[|[|k]]]; cbn; lia.
  - intros u v Hu Hv. unfold mid.
    assert (W : forall w, valid (comp_dims [3; 4; 2] [2; 0]) w -> valid [3; 4; 2] w).
    { intros w Hw. apply (comp_valid [3; 4; 2] [2; 0]); auto; intros q Hq; cbn in Hq; destruct q as [|[|[|q]]]; cbn; try lia; discriminate. }
    destruct (Nat.eqb_spec (pos [3; 4; 2] u) (pos [3; 4; 2] v)) as [E|E].
    + apply pos_inj in E; auto. subst. rewrite Nat.eqb_refl. ring.
    + destruct (Nat.eqb_spec (pos (comp_dims [3; 4; 2] [2; 0]) u) (pos (comp_dims [3; 4; 2] [2; 0]) v)) as [E'|E']; [|ring].
      apply pos_inj in E'; auto. congruence.
Qed.

(** Finding: the empty list selects all subsystems for the projection but one
    level for the normalisation, so a perfect qubit gate gets infidelity -3. *)
Theorem C45_empty_index_refuted :
  unitary_infid (gate_on 2 mid) mid (Some []) [2] = Ok (-3)%R.
Proof.
  unfold unitary_infid. cbn [length Nat.pow].
  assert (E : tf_project_to_comp mid [2] [] false = tf_project_to_comp mid [2] [0] false) by reflexivity.
  rewrite E. clear E. pose proof (qubits_good 0) as G. cbn [seq repeat] in G.
  destruct (project_dims mid [2] [0] G) as [-> ->]. cbn [length Nat.pow gate_on cols ent Nat.eqb Nat.mul Nat.add].
  f_equal. unfold tf_unitary_overlap. rewrite abs_squared, <- inner_trace.
  pose proof (qubits_block 0 mid) as B. cbn [seq repeat Nat.pow Nat.mul Nat.add] in B.
  rewrite (inner_mor 2 2 _ mid mid mid B (reflexivity _)), nrm2_inner, nrm2_id.
  replace (RtoC (INR 2) / RtoC (INR 1))%C with (RtoC 2) by (apply C_ext; cbn; field).
  rewrite Cmod_R, Rabs_pos_eq by lra. ring.
Qed.
Print Assumptions C45_empty_index_refuted.

(** ** C46 *)

Lemma average_infid_value : forall ideal U index dims, good_index dims index -> rows ideal = 2 ^ length index ->
  let d := 2 ^ length index in
  average_infid ideal U index dims
  = Ok (1 - (Cmod (inner d d (ent (tf_project_to_comp U dims index false)) (ent ideal)) ^ 2 / INR d + 1) / (INR d + 1))%R.
Proof.
  intros ideal U index dims G Hr d. unfold average_infid. destruct (project_dims U dims index G) as [-> _].
  rewrite Hr, Nat.eqb_refl, average_value. reflexivity.
Qed.
Lemma average_range : forall d z, (0 < d -> 0 <= z -> z ^ 2 <= d * d ->
   0 <= 1 - (z ^ 2 / d + 1) / (d + 1) <= d / (d + 1) /\ (1 - (z ^ 2 / d + 1) / (d + 1) = 0 <-> z = d))%R.
Proof.
  intros d z Hd Hz Hb.
  replace (1 - (z ^ 2 / d + 1) / (d + 1))%R with ((d * d - z ^ 2) / (d * (d + 1)))%R by (field; lra).
  assert (P : (0 < d * (d + 1))%R) by nra. assert (P' : (0 < / (d * (d + 1)))%R) by (apply Rinv_0_lt_compat, P).
  split; [split|].
  - apply Rmult_le_pos; nra.
  - replace (d / (d + 1))%R with ((d * d) / (d * (d + 1)))%R by (field; lra).
    apply Rmult_le_compat_r; [lra|]. nra.
  - split.
    + intro E. assert (d * d - z ^ 2 = 0)%R.
      { apply Rmult_eq_reg_r with (/ (d * (d + 1)))%R; [|lra]. rewrite Rmult_0_l. exact E. }
      nra.
    + intros ->. field. lra.
Qed.

(** With d = 2^k, fidelity F = (|tr V+ U|^2 + d) / (d (d + 1)). *)
Theorem C46_value :
  forall k U V, let n := 2 ^ S k in
  average_infid (gate_on n V) U (seq 0 (S k)) (repeat 2 (S k))
  = Ok (1 - (Cmod (mtrace n (mmul n (madj V) U)) ^ 2 + INR n) / (INR n * (INR n + 1)))%R.
Proof.
  intros k U V n. rewrite (average_infid_value (gate_on n V) U (seq 0 (S k)) (repeat 2 (S k)) (qubits_good k))
    by (rewrite seq_length; reflexivity).
  rewrite seq_length. fold n. cbn [gate_on ent].
  pose proof (qubits_block k U) as QB. fold n in QB.
  rewrite (inner_mor _ _ _ U V V QB (reflexivity V)).
  rewrite inner_trace, (mtrace_mmul n n U). pose proof (two_pow_pos (S k)) as P. fold n in P.
  f_equal. field. lra.
Qed.
Print Assumptions C46_value.

Theorem C46_range_and_zero :
  forall dims index U ideal, good_index dims index ->
  unitary (prod_dims dims) U -> rows ideal = 2 ^ length index -> unitary (2 ^ length index) (ent ideal) ->
  exists r, average_infid ideal U index dims = Ok r
   /\ (0 <= r <= INR (2 ^ length index) / (INR (2 ^ length index) + 1))%R
   /\ (r = 0%R <-> exists c, Cmod c = 1%R /\ block_is dims index U c (ent ideal)).
Proof.
  intros dims index U ideal G HU Hc HV. set (d := 2 ^ length index) in *.
  eexists. split; [apply average_infid_value; assumption|]. fold d.
  pose proof (two_pow_pos (length index)) as Pd. fold d in Pd.
  pose proof (nrm2_unitary d _ HV) as NV. pose proof (project_block U dims index G HU) as NA. fold d in NA. cbv zeta in NA.
  set (A := ent (tf_project_to_comp U dims index false)) in *.
  pose proof (inner_bound d d A (ent ideal) (INR d) Pd NV) as B.
  assert (B' : (Cmod (inner d d A (ent ideal)) ^ 2 <= INR d * INR d)%R) by nra.
  destruct (average_range (INR d) _ Pd (Cmod_ge_0 _) B') as [R Z]. split; [exact R|].
  rewrite Z, (inner_maximal d d A (ent ideal) (INR d) Pd NV NA).
  split; intros (c & H1 & H2); exists c; split; auto; apply (block_is_meq dims index U c (ent ideal) G), H2.
Qed.
Print Assumptions C46_range_and_zero.

(** The two figures order gates alike: (d + 1) average_infid = d unitary_infid. *)
Theorem C46_relation_to_unitary_infid :
  forall dims index U ideal r s, good_index dims index ->
  rows ideal = 2 ^ length index -> cols ideal = 2 ^ length index ->
  unitary_infid ideal U (Some index) dims = Ok r -> average_infid ideal U index dims = Ok s ->
  ((INR (2 ^ length index) + 1) * s = INR (2 ^ length index) * r)%R.
Proof.
  intros dims index U ideal r s G Hr Hc H1 H2.
  rewrite unitary_infid_value in H1 by assumption. rewrite average_infid_value in H2 by assumption.
  injection H1 as <-. injection H2 as <-. pose proof (two_pow_pos (length index)). field. lra.
Qed.
Print Assumptions C46_relation_to_unitary_infid.

(** An ideal gate of another size than the chosen subsystems is refused; the empty index, read as
    all subsystems by the projection and as none by the figure, is refused with every ideal gate. *)
Theorem C46_shapes :
  forall dims index U ideal, good_index dims index ->
  (rows ideal <> 2 ^ length index -> average_infid ideal U index dims = Err ValueError)
  /\ (index = seq 0 (length dims) -> average_infid ideal U [] dims = Err ValueError).
Proof.
  intros dims index U ideal G. unfold average_infid. split.
  - intro N. destruct (project_dims U dims index G) as [-> _]. rewrite (proj2 (Nat.eqb_neq (2 ^ length index) (rows ideal))) by congruence. reflexivity.
  - intros ->. destruct (project_dims U dims _ G) as [R _].
    replace (tf_project_to_comp U dims [] false) with (tf_project_to_comp U dims (seq 0 (length dims)) false).
    + rewrite R, seq_length. destruct dims as [|d dims]; [destruct G as [G _]; destruct G; reflexivity|].
      rewrite (proj2 (Nat.eqb_neq (2 ^ length (d :: dims)) (2 ^ length (@nil nat)))), andb_false_r; [reflexivity|].
      cbn [length Nat.pow]. pose proof (Nat.pow_nonzero 2 (length dims) ltac:(lia)). lia.
    + unfold tf_project_to_comp, project_index. destruct (seq 0 (length dims)) eqn:E; [|reflexivity].
      destruct dims; [reflexivity|discriminate].
Qed.
Print Assumptions C46_shapes.

Example C46_example : average_infid (gate_on 2 mid) mid [0] [2] = Ok 0%R.
Proof.
  pose proof (C46_value 0 mid mid) as V. cbn [seq repeat Nat.pow Nat.mul Nat.add] in V. rewrite V. f_equal.
  rewrite (mtrace_proper 2 _ mid) by (rewrite mmul_id_r; apply madj_id). rewrite mtrace_id.
  rewrite Cmod_R, Rabs_pos_eq by apply pos_INR. cbn. field.
Qed.

(** ** C47 *)

Theorem C47_range_and_zero :
  forall dims index U ideal psi, good_index dims index ->
  let d := 2 ^ length index in
  unitary (prod_dims dims) U ->
  rows ideal = d -> cols ideal = d -> unitary d (ent ideal) ->
  rows psi = d -> rs d (fun i => Cmod (ent psi i 0%nat) ^ 2)%R = 1%R ->
  exists r, state_transfer_infid ideal U index dims psi = Ok r
   /\ (0 <= r <= 1)%R
   /\ (r = 0%R <-> exists c, Cmod c = 1%R
        /\ meq d 1 (mmul d (ent (tf_project_to_comp U dims index false)) (ent psi))
                   (mscale c (mmul d (ent ideal) (ent psi)))).
Proof.
  intros dims index U ideal psi G d HU Hr Hc HV Hp Hn.
  unfold state_transfer_infid. destruct (project_dims U dims index G) as [-> ->]. fold d.
  rewrite Hr, Hc, Hp, !Nat.eqb_refl. cbn [andb].
  eexists. split; [reflexivity|].
  set (A := ent (tf_project_to_comp U dims index false)).
  set (a := mmul d A (ent psi)). set (b := mmul d (ent ideal) (ent psi)).
  assert (N1 : nrm2 d 1 (ent psi) = 1%R).
  { unfold nrm2. rewrite <- Hn. apply rs_ext. intros i _. cbn [rs]. ring. }
  assert (Nb : nrm2 d 1 b = 1%R) by (unfold b; rewrite unitary_norm by exact HV; exact N1).
  assert (Na : (nrm2 d 1 a <= 1)%R) by (rewrite <- N1; apply project_contract; assumption).
  assert (E : tf_ketket_fid d b a = Cmod (inner d 1 a b)).
  { unfold tf_ketket_fid. rewrite abs_mod. f_equal. unfold mmul, madj, inner. apply csum_ext. intros i _.
    cbn [csum]. rewrite Cplus_0_l. ring. }
  rewrite E. pose proof (inner_bound d 1 a b 1 Rlt_0_1 Nb) as B.
  pose proof (Cmod_ge_0 (inner d 1 a b)) as P. split; [nra|].
  rewrite <- (inner_maximal d 1 a b 1 Rlt_0_1 Nb Na). split; intro; lra.
Qed.
Print Assumptions C47_range_and_zero.

Example C47_example :
  good_index [3; 2] [0] /\ rs 2 (fun i => Cmod (one_hot 0 i 0%nat) ^ 2)%R = 1%R.
Proof.
  split.
  - split; [discriminate|]. split; [repeat constructor; cbn; lia|]. split.
    + intros k [<-|[]]; cbn; lia.
    + intros k Hk. cbn in Hk. destruct k as [|[|k]]; cbn; lia.
  - cbn [rs]. unfold one_hot. cbn [Nat.eqb]. rewrite !Cmod_R, Rabs_R1, Rabs_R0. ring.
Qed.

(** ** C48 *)

(** The single figures behind a set figure, one per gate of the dictionary. *)
Definition single_figures (one : smat -> mat -> result R) (ideal_of : instruction -> result smat)
           (instrs : dict instruction) (props : dict mat) (l : list R) : Prop :=
  Forall2 (fun gp r => exists i ideal, dget (fst gp) instrs = Some i /\ ideal_of i = Ok ideal
                                       /\ one ideal (snd gp) = Ok r) props l.
Definition sum_list (l : list R) : R := fold_right Rplus 0%R l.
(** [m] is the arithmetic mean of the single figures. *)
Definition is_mean_of (one : smat -> mat -> result R) (ideal_of : instruction -> result smat)
           (instrs : dict instruction) (props : dict mat) (m : R) : Prop :=
  exists l, l <> [] /\ single_figures one ideal_of instrs props l /\ (m * INR (length l) = sum_list l)%R.

Lemma infid_list_spec : forall one ideal_of instrs props l,
  infid_list one ideal_of instrs props = Ok l <-> single_figures one ideal_of instrs props l.
Proof.
  intros one ideal_of instrs props. unfold single_figures. induction props as [|[g p] props IH]; intro l; cbn [infid_list].
  - split; [intros [= <-]; constructor|]. intro H. inversion H. reflexivity.
  - split.
    + intro H. destruct (dget g instrs) as [i|] eqn:E; [|discriminate].
      destruct (ideal_of i) as [ideal|] eqn:E1; [|discriminate]. cbn [rbind] in H.
      destruct (one ideal p) as [r|] eqn:E2; [|discriminate]. cbn [rbind] in H.
      destruct (infid_list one ideal_of instrs props) as [l'|] eqn:E3; [|discriminate]. cbn [rbind] in H.
      injection H as <-. constructor; [|apply IH; reflexivity]. exists i, ideal. auto.
    + intro H. inversion H as [|? r ? l' (i & ideal & E & E1 & E2) H']; subst. cbn [fst snd] in *.
      rewrite E, E1. cbn [rbind]. rewrite E2. cbn [rbind]. rewrite (proj2 (IH l') H'). reflexivity.
Qed.
Lemma set_spec : forall one ideal_of instrs props m,
  rbind (infid_list one ideal_of instrs props) reduce_mean = Ok m <-> is_mean_of one ideal_of instrs props m.
Proof.
  intros. unfold is_mean_of. split.
  - intro H. destruct (infid_list one ideal_of instrs props) as [l|] eqn:E; [|discriminate]. cbn [rbind] in H.
    exists l. destruct l as [|r l]; [discriminate|]. split; [discriminate|]. split; [apply infid_list_spec, E|].
    unfold reduce_mean in H. injection H as <-. unfold rmean. change (rsum (r :: l)) with (sum_list (r :: l)).
    field. apply not_0_INR. discriminate.
  - intros (l & Hne & Hl & Hm). rewrite (proj2 (infid_list_spec _ _ _ _ _) Hl). cbn [rbind].
    destruct l as [|r l]; [congruence|]. unfold reduce_mean. f_equal. unfold rmean.
    change (rsum (r :: l)) with (sum_list (r :: l)). rewrite <- Hm. field. apply not_0_INR. discriminate.
Qed.

Definition unitary_one (index dims : list nat) := fun ideal p => unitary_infid ideal p (Some index) dims.
Definition average_one (index dims : list nat) := fun ideal p => average_infid ideal p index dims.
Definition transfer_one (index dims : list nat) (psi : smat) := fun ideal p => state_transfer_infid ideal p index dims psi.
Definition ideal_on (dims index : list nat) := fun i => get_ideal_gate (i_ideal i) (i_targets i) (length dims) index.

Theorem C48_sets_are_means :
  forall props instrs index dims psi m,
  (unitary_infid_set props instrs index dims = Ok m
     <-> is_mean_of (unitary_one index dims) (ideal_on dims index) instrs props m)
  /\ (average_infid_set props instrs index dims = Ok m
     <-> is_mean_of (average_one index dims) (ideal_on dims index) instrs props m)
  /\ (state_transfer_infid_set props instrs index dims psi = Ok m
     <-> is_mean_of (transfer_one index dims psi) (ideal_on dims []) instrs props m).
Proof. intros. split; [|split]; apply set_spec. Qed.
Print Assumptions C48_sets_are_means.

Lemma mean_between_extremes :
  forall one ideal_of instrs props m l,
  single_figures one ideal_of instrs props l -> is_mean_of one ideal_of instrs props m ->
  (forall lo hi, Forall (fun r => lo <= r <= hi)%R l -> (lo <= m <= hi)%R)
  /\ (Forall (fun r => 0 <= r)%R l -> (m = 0%R <-> Forall (fun r => r = 0%R) l)).
Proof.
  intros one ideal_of instrs props m l Hl (l' & Hne & Hl' & Hm).
  assert (l' = l).
  { apply infid_list_spec in Hl. apply infid_list_spec in Hl'. congruence. }
  subst l'. assert (P : (0 < INR (length l))%R) by (apply lt_0_INR; destruct l; [congruence|cbn; lia]).
  split.
  - intros lo hi H.
    assert (B : (lo * INR (length l) <= sum_list l <= hi * INR (length l))%R).
    { clear Hm Hl Hl' Hne P. induction H as [|r l [H1 H2] H IH]; [cbn; lra|].
      cbn [length sum_list fold_right]. rewrite S_INR. unfold sum_list in IH. lra. }
    split; apply Rmult_le_reg_r with (INR (length l)); lra.
  - intro H. split.
    + intros ->. rewrite Rmult_0_l in Hm. symmetry in Hm. clear Hl Hl' Hne P.
      assert (G : forall l, Forall (fun r => 0 <= r)%R l -> (0 <= sum_list l)%R).
      { induction 1; cbn [sum_list fold_right]; [lra|]. unfold sum_list in *. lra. }
      induction H as [|r l H1 H IH]; [constructor|]. cbn [sum_list fold_right] in Hm.
      pose proof (G l H) as G'. unfold sum_list in G', IH. constructor; [lra|]. apply IH. lra.
    + intro Z. assert (S : sum_list l = 0%R).
      { clear -Z. induction Z as [|r l E Z IH]; [reflexivity|]. cbn [sum_list fold_right]. unfold sum_list in IH. lra. }
      rewrite S in Hm. nra.
Qed.

Theorem C48_mean_between_extremes :
  forall props instrs index dims psi m l,
  single_figures (unitary_one index dims) (ideal_on dims index) instrs props l /\ unitary_infid_set props instrs index dims = Ok m
  \/ single_figures (average_one index dims) (ideal_on dims index) instrs props l /\ average_infid_set props instrs index dims = Ok m
  \/ single_figures (transfer_one index dims psi) (ideal_on dims []) instrs props l
      /\ state_transfer_infid_set props instrs index dims psi = Ok m ->
  (forall lo hi, Forall (fun r => lo <= r <= hi)%R l -> (lo <= m <= hi)%R)
  /\ (Forall (fun r => 0 <= r)%R l -> (m = 0%R <-> Forall (fun r => r = 0%R) l)).
Proof.
  intros props instrs index dims psi m l [[A B]|[[A B]|[A B]]]; apply (mean_between_extremes _ _ _ _ _ _ A), set_spec, B.
Qed.
Print Assumptions C48_mean_between_extremes.

Lemma sum_list_perm : forall l l', Permutation l l' -> sum_list l = sum_list l'.
Proof. induction 1; unfold sum_list in *; cbn [fold_right] in *; lra. Qed.
Lemma forall2_perm : forall {A B} (R : A -> B -> Prop) l l' m, Permutation l l' -> Forall2 R l m ->
  exists m', Permutation m m' /\ Forall2 R l' m'.
Proof.
  intros A B R l l' m H. revert m. induction H as [|x l l' H IH|x y l|l l' l'' H1 IH1 H2 IH2]; intros m F.
  - inversion F. exists []. auto.
  - inversion F as [|? b ? m0 E F']; subst. destruct (IH _ F') as (m' & P & Q). exists (b :: m'). auto.
  - inversion F as [|? b ? m0 E F']; subst. inversion F' as [|? b' ? mm E' F'']; subst.
    exists (b' :: b :: mm). split; [apply perm_swap|auto].
  - destruct (IH1 _ F) as (m' & P & Q). destruct (IH2 _ Q) as (m'' & P' & Q'). exists m''. split; [etransitivity; eauto|exact Q'].
Qed.
Lemma order_irrelevant :
  forall one ideal_of instrs props props' m, Permutation props props' ->
  is_mean_of one ideal_of instrs props m -> is_mean_of one ideal_of instrs props' m.
Proof.
  intros one ideal_of instrs props props' m H (l & Hne & Hl & Hm).
  destruct (forall2_perm _ _ _ _ H Hl) as (l' & P & Q). exists l'. split; [|split; [exact Q|]].
  - intros ->. apply Permutation_sym, Permutation_nil in P. contradiction.
  - rewrite <- (Permutation_length P), <- (sum_list_perm _ _ P). exact Hm.
Qed.

(** The order of the gates in the dictionary of propagators does not matter. *)
Theorem C48_order_irrelevant :
  forall props props' instrs index dims psi m, Permutation props props' ->
  (unitary_infid_set props instrs index dims = Ok m -> unitary_infid_set props' instrs index dims = Ok m)
  /\ (average_infid_set props instrs index dims = Ok m -> average_infid_set props' instrs index dims = Ok m)
  /\ (state_transfer_infid_set props instrs index dims psi = Ok m -> state_transfer_infid_set props' instrs index dims psi = Ok m).
Proof.
  intros props props' instrs index dims psi m P.
  split; [|split]; intro H; apply set_spec; apply (order_irrelevant _ _ _ _ _ _ P), set_spec, H.
Qed.
Print Assumptions C48_order_irrelevant.

(** Every known, compatible gate gives a figure, so the mean exists for any
    nonempty set of unitary propagators. *)
Theorem C48_set_in_range :
  forall props instrs index dims, props <> [] -> good_index dims index ->
  (forall g p, In (g, p) props -> unitary (prod_dims dims) p
     /\ exists i ideal, dget g instrs = Some i /\ ideal_on dims index i = Ok ideal
        /\ rows ideal = 2 ^ length index /\ cols ideal = 2 ^ length index /\ unitary (2 ^ length index) (ent ideal)) ->
  (exists m, unitary_infid_set props instrs index dims = Ok m /\ 0 <= m <= 1)%R
  /\ (exists m, average_infid_set props instrs index dims = Ok m /\ 0 <= m <= 1)%R.
Proof.
  intros props instrs index dims Hne G H.
  assert (K : forall one, (forall g p i ideal, In (g, p) props -> dget g instrs = Some i -> ideal_on dims index i = Ok ideal ->
       rows ideal = 2 ^ length index -> cols ideal = 2 ^ length index -> unitary (2 ^ length index) (ent ideal) ->
       unitary (prod_dims dims) p -> exists r, one ideal p = Ok r /\ (0 <= r <= 1)%R) ->
     exists m, is_mean_of one (ideal_on dims index) instrs props m /\ (0 <= m <= 1)%R).
  { intros one Hone.
    assert (L : exists l, single_figures one (ideal_on dims index) instrs props l /\ Forall (fun r => 0 <= r <= 1)%R l /\ length l = length props).
    { clear Hne. induction props as [|[g p] props IH].
      - exists []. repeat constructor.
      - destruct IH as (l & A & B & D).
        { intros g' p' Hin. apply H. right. exact Hin. }
        { intros g' p' i ideal Hin. apply (Hone g'). right. exact Hin. }
        destruct (H g p (or_introl eq_refl)) as (HU & i & ideal & E1 & E2 & E3 & E4 & E5).
        destruct (Hone g p i ideal (or_introl eq_refl) E1 E2 E3 E4 E5 HU) as (r & E6 & E7).
        exists (r :: l). split; [constructor; [exists i, ideal; auto|exact A]|]. split; [constructor; assumption|cbn; lia]. }
    destruct L as (l & A & B & D).
    assert (Hl : l <> []) by (intros ->; destruct props; [congruence|discriminate]).
    assert (M : is_mean_of one (ideal_on dims index) instrs props (sum_list l / INR (length l))%R).
    { exists l. split; [exact Hl|]. split; [exact A|]. field. apply not_0_INR. destruct l; [congruence|discriminate]. }
    exists (sum_list l / INR (length l))%R. split; [exact M|].
    destruct (mean_between_extremes _ _ _ _ _ _ A M) as [X _]. apply X, B. }
  destruct (K (unitary_one index dims)) as (m & M1 & M2).
  { intros g p i ideal _ _ _ Hr Hc HV HU.
    destruct (C45_range_and_zero dims index p ideal G HU Hc HV) as (r & E & R & _). exists r. auto. }
  destruct (K (average_one index dims)) as (m' & M1' & M2').
  { intros g p i ideal _ _ _ Hr Hc HV HU.
    destruct (C46_range_and_zero dims index p ideal G HU Hr HV) as (r & E & R & _). exists r. split; [exact E|].
    pose proof (two_pow_pos (length index)) as P. split; [lra|].
    apply Rle_trans with (INR (2 ^ length index) / (INR (2 ^ length index) + 1))%R; [lra|].
    apply Rmult_le_reg_r with (INR (2 ^ length index) + 1)%R; [lra|]. unfold Rdiv. rewrite Rmult_assoc, Rinv_l by lra. lra. }
  split; [exists m|exists m']; (split; [apply C48_sets_are_means; [exact (gate_on 1 mid)|]; assumption|assumption]).
Qed.
Print Assumptions C48_set_in_range.

Example C48_example :
  exists i ideal, dget "x"%string [("x"%string, {| i_ideal := set_ideal "x" None; i_targets := None |})] = Some i
   /\ ideal_on [2] [0] i = Ok ideal /\ rows ideal = 2 /\ cols ideal = 2.
Proof. do 2 eexists. repeat split. Qed.

(** ** C49 *)

(** A list of probabilities. *)
Definition distribution (l : list R) : Prop := Forall (fun p => 0 <= p)%R l /\ sum_list l = 1%R.
Lemma sum_list_seq : forall n (f : nat -> R) s, sum_list (map f (seq s n)) = rs n (fun i => f (s + i)%nat).
Proof.
  induction n as [|n IH]; intros f s; [reflexivity|]. rewrite rs_head. cbn [seq map sum_list fold_right].
  unfold sum_list in IH. rewrite IH, Nat.add_0_r. f_equal. apply rs_ext. intros i _. f_equal. lia.
Qed.
Lemma populations_pure : forall N psi, rs N (fun i => Cmod (psi i 0%nat) ^ 2)%R = 1%R -> distribution (populations N psi false).
Proof.
  intros N psi H. split.
  - apply Forall_forall. intros p Hp. apply in_map_iff in Hp as (i & <- & _). apply pow2_ge_0.
  - unfold populations. rewrite sum_list_seq. cbn [Nat.add]. exact H.
Qed.
Lemma col_norm : forall N psi, nrm2 N 1 psi = rs N (fun i => Cmod (psi i 0%nat) ^ 2)%R.
Proof. intros. unfold nrm2. apply rs_ext. intros i _. cbn [rs]. ring. Qed.

Lemma apply_gates_norm : forall N props s psi phi, (forall g U, dget g props = Some U -> unitary N U) ->
  rs N (fun i => Cmod (psi i 0%nat) ^ 2)%R = 1%R -> apply_gates N props s psi = Ok phi ->
  rs N (fun i => Cmod (phi i 0%nat) ^ 2)%R = 1%R.
Proof.
  intros N props s. induction s as [|g s IH]; intros psi phi HU Hn E; cbn [apply_gates] in E.
  - injection E as <-. exact Hn.
  - destruct (dget g props) as [U|] eqn:G; [|discriminate]. apply (IH _ _ HU) in E; [exact E|].
    rewrite <- col_norm, unitary_norm by (eapply HU; exact G). rewrite col_norm. exact Hn.
Qed.

(** Every sequence starts from the given state and applies its gates in order;
    the populations reported are those of the product (latest gate leftmost)
    applied to the initial state. *)
Lemma apply_gates_spec : forall N props s psi phi, apply_gates N props s psi = Ok phi <->
  exists us, Forall2 (fun g u => dget g props = Some u) s us /\ phi = fold_left (fun v u => mmul N u v) us psi.
Proof.
  intros N props s. induction s as [|g s IH]; intros psi phi; cbn [apply_gates].
  - split.
    + intros [= <-]. exists []. split; [constructor|reflexivity].
    + intros (us & F & ->). inversion F. reflexivity.
  - destruct (dget g props) as [U|] eqn:G.
    + rewrite IH. split.
      * intros (us & F & ->). exists (U :: us). split; [constructor; assumption|reflexivity].
      * intros (us & F & ->). inversion F as [|? u ? us' E F']; subst. assert (u = U) by congruence. subst u.
        exists us'. split; [exact F'|reflexivity].
    + split; [discriminate|]. intros (us & F & _). inversion F; congruence.
Qed.
Definition gate_product (N : nat) (us : list mat) : mat := fold_left (fun p u => mmul N u p) us mid.
Lemma fold_product : forall N us A psi, meq N 1 (fold_left (fun v u => mmul N u v) us (mmul N A psi))
   (mmul N (fold_left (fun p u => mmul N u p) us A) psi).
Proof.
  intros N us. induction us as [|u us IH]; intros A psi; [reflexivity|]. cbn [fold_left].
  rewrite <- IH. clear IH.
  assert (E : forall us a b, meq N 1 a b -> meq N 1 (fold_left (fun v u => mmul N u v) us a) (fold_left (fun v u => mmul N u v) us b)).
  { clear. induction us as [|u us IH]; intros a b H; [exact H|]. cbn [fold_left]. apply IH. apply mmul_mor_r. exact H. }
  apply E. apply mmul_assoc.
Qed.
Lemma populations_meq : forall N lind a b, meq N 1 a b -> populations N a lind = populations N b lind.
Proof.
  intros N lind a b H. unfold populations. destruct lind.
  - apply map_ext_in. intros i Hi. apply in_seq in Hi. unfold tf_vec_to_dm, mtrans. f_equal. apply H; [|lia].
    pose proof (Nat.sqrt_spec N (Nat.le_0_l _)). nia.
  - apply map_ext_in. intros i Hi. apply in_seq in Hi. f_equal. f_equal. apply H; lia.
Qed.
Theorem C26_populations_of_sequences :
  forall N lind props psi seqs pops,
  evaluate_legacy N lind props psi seqs = Ok pops
  <-> Forall2 (fun s p => exists us, Forall2 (fun g u => dget g props = Some u) s us
                /\ p = populations N (mmul N (gate_product N us) psi) lind) seqs pops.
Proof.
  intros N lind props psi seqs.
  assert (One : forall s p, (exists phi, apply_gates N props s psi = Ok phi /\ p = populations N phi lind)
     <-> exists us, Forall2 (fun g u => dget g props = Some u) s us
                /\ p = populations N (mmul N (gate_product N us) psi) lind).
  { intros s p.
    assert (K : forall us, populations N (fold_left (fun v u => mmul N u v) us psi) lind
                 = populations N (mmul N (gate_product N us) psi) lind).
    { intro us. apply populations_meq. unfold gate_product. rewrite <- fold_product.
      assert (E : forall us a b, meq N 1 a b -> meq N 1 (fold_left (fun v u => mmul N u v) us a) (fold_left (fun v u => mmul N u v) us b)).
      { clear. induction us as [|u us IH]; intros a b H; [exact H|]. cbn [fold_left]. apply IH. apply mmul_mor_r. exact H. }
      apply E. symmetry. apply mmul_id_l. }
    split.
    - intros (phi & E & ->). apply apply_gates_spec in E as (us & F & ->). exists us. split; [exact F|apply K].
    - intros (us & F & ->). exists (fold_left (fun v u => mmul N u v) us psi). split; [|symmetry; apply K].
      apply apply_gates_spec. exists us. auto. }
  induction seqs as [|s seqs IH]; intro pops; cbn [evaluate_legacy].
  - split; [intros [= <-]; constructor|]. intro F. inversion F. reflexivity.
  - split.
    + intro H. destruct (apply_gates N props s psi) as [phi|] eqn:E; [|discriminate]. cbn [rbind] in H.
      destruct (evaluate_legacy N lind props psi seqs) as [l|] eqn:E2; [|discriminate]. cbn [rbind] in H. injection H as <-.
      constructor; [apply One; eauto|apply IH; reflexivity].
    + intro F. inversion F as [|? p ? l A B]; subst. apply One in A as (phi & E & ->). apply IH in B.
      rewrite E. cbn [rbind]. rewrite B. reflexivity.
Qed.
Print Assumptions C26_populations_of_sequences.

Theorem C49_pure_states :
  forall N props psi seqs pops,
  rs N (fun i => Cmod (psi i 0%nat) ^ 2)%R = 1%R ->
  (forall g U, dget g props = Some U -> unitary N U) ->
  evaluate_legacy N false props psi seqs = Ok pops ->
  length pops = length seqs /\ Forall (fun p => length p = N /\ distribution p) pops.
Proof.
  intros N props psi seqs. induction seqs as [|s seqs IH]; intros pops Hn HU H; cbn [evaluate_legacy] in H.
  - injection H as <-. auto.
  - destruct (apply_gates N props s psi) as [phi|] eqn:E; [|discriminate]. cbn [rbind] in H.
    destruct (evaluate_legacy N false props psi seqs) as [l|] eqn:E2; [|discriminate]. cbn [rbind] in H. injection H as <-.
    destruct (IH l Hn HU eq_refl) as [A B]. split; [cbn; lia|]. constructor; [|exact B]. split.
    + unfold populations. rewrite map_length, seq_length. reflexivity.
    + apply populations_pure. eapply apply_gates_norm; eauto.
Qed.
Print Assumptions C49_pure_states.

(** Density vectors: the populations are the real diagonal of the density matrix
    the vector was made from; for a positive diagonal both population functions
    agree. *)
Theorem C49_density_vector :
  forall n rho, populations (n * n) (tf_dm_to_vec n rho) true = map (fun i => fst (rho i i)) (seq 0 n)
  /\ ((forall i, i < n -> snd (rho i i) = 0%R /\ (0 <= fst (rho i i))%R) ->
      fid_populations (n * n) (tf_dm_to_vec n rho) true = populations (n * n) (tf_dm_to_vec n rho) true).
Proof.
  intros n rho.
  assert (S : Nat.sqrt (n * n) = n) by apply Nat.sqrt_square.
  assert (D : forall i, i < n -> tf_dm_to_vec n rho (i * n + i)%nat 0%nat = rho i i).
  { intros i Hi. unfold tf_dm_to_vec, mtrans. destruct (divmod_add i i n Hi) as [-> ->]. reflexivity. }
  assert (A : populations (n * n) (tf_dm_to_vec n rho) true = map (fun i => fst (rho i i)) (seq 0 n)).
  { unfold populations. rewrite S. apply map_ext_in. intros i Hi. apply in_seq in Hi. unfold tf_vec_to_dm, mtrans.
    rewrite D by lia. reflexivity. }
  split; [exact A|]. intro H. rewrite A. unfold fid_populations. rewrite S. apply map_ext_in. intros i Hi. apply in_seq in Hi.
  rewrite D by lia. destruct (H i) as [H1 H2]; [lia|]. destruct (rho i i) as [a b]. cbn [fst snd] in *. subst b.
  change ((a, 0%R)) with (RtoC a). rewrite Cmod_R. apply Rabs_pos_eq, H2.
Qed.
Print Assumptions C49_density_vector.

(** Superoperators act on row-stacked vectors and the code stacks columns.  The
    populations are right whenever the initial density matrix is symmetric, as
    the ground state and the thermal state are. *)
Theorem C49_superoperator_populations :
  forall n S rho, meq n n (mtrans rho) rho ->
  populations (n * n) (mmul (n * n) S (tf_dm_to_vec n rho)) true
  = map (fun i => fst (row_unstack n (mmul (n * n) S (row_stack n rho)) i i)) (seq 0 n).
Proof.
  intros n S rho H. unfold populations. rewrite Nat.sqrt_square. apply map_ext_in. intros i Hi. apply in_seq in Hi.
  unfold tf_vec_to_dm, mtrans, row_unstack. f_equal. unfold mmul. apply csum_ext. intros a Ha. f_equal.
  unfold tf_dm_to_vec, row_stack. destruct (divmod_lt _ _ _ Ha). apply H; assumption.
Qed.
Print Assumptions C49_superoperator_populations.

(** Trace-preserving propagators keep the sum of the populations. *)
Theorem C49_density_total :
  forall n props rho seqs pops,
  (forall g S X, dget g props = Some S -> mtrace n (row_unstack n (mmul (n * n) S X)) = mtrace n (row_unstack n X)) ->
  evaluate_legacy (n * n) true props (tf_dm_to_vec n rho) seqs = Ok pops ->
  Forall (fun p => sum_list p = fst (mtrace n rho)) pops.
Proof.
  intros n props rho seqs pops HT. revert pops. induction seqs as [|s seqs IH]; intros pops H; cbn [evaluate_legacy] in H.
  - injection H as <-. constructor.
  - destruct (apply_gates (n * n) props s (tf_dm_to_vec n rho)) as [phi|] eqn:E; [|discriminate]. cbn [rbind] in H.
    destruct (evaluate_legacy (n * n) true props (tf_dm_to_vec n rho) seqs) as [l|] eqn:E2; [|discriminate]. cbn [rbind] in H.
    injection H as <-. constructor; [|apply IH; reflexivity].
    assert (T : mtrace n (row_unstack n phi) = mtrace n (row_unstack n (tf_dm_to_vec n rho))).
    { clear E2 IH. revert E. generalize (tf_dm_to_vec n rho) as v. induction s as [|g s IHs]; intros v E; cbn [apply_gates] in E.
      - injection E as <-. reflexivity.
      - destruct (dget g props) as [S|] eqn:G; [|discriminate]. rewrite (IHs _ E). eapply HT, G. }
    unfold populations. rewrite Nat.sqrt_square, sum_list_seq. cbn [Nat.add].
    unfold tf_vec_to_dm, mtrans.
    rewrite (rs_fst n (fun i => phi (i * n + i)%nat 0%nat)).
    change (csum n (fun i => phi (i * n + i)%nat 0%nat)) with (mtrace n (row_unstack n phi)). rewrite T.
    f_equal. unfold mtrace, row_unstack. apply csum_ext. intros i Hi. unfold tf_dm_to_vec, mtrans.
    destruct (divmod_add i i n Hi) as [-> ->]. reflexivity.
Qed.
Print Assumptions C49_density_total.

(** The expectation value of an operator in an open system is Re tr(rho O); for a
    pure state it is <psi|O|psi> when the amplitudes are real. *)
Theorem C49_expect_oper :
  forall n rho oper, expect_oper n (tf_dm_to_vec n rho) true oper = fst (mtrace n (mmul n rho oper)).
Proof.
  intros n rho oper. unfold expect_oper. f_equal. unfold mtrace. apply csum_ext. intros i Hi.
  unfold mmul. apply csum_ext. intros k Hk. f_equal.
  unfold tf_vec_to_dm, tf_dm_to_vec, mtrans. destruct (divmod_add k i n Hi) as [E1 E2]. rewrite E1, E2. reflexivity.
Qed.
Print Assumptions C49_expect_oper.
Lemma real_conj : forall z : C, snd z = 0%R -> Cconj z = z.
Proof. intros [a b] H. cbn in H. subst b. apply C_ext; cbn; ring. Qed.
Theorem C49_expect_oper_real_state :
  forall n psi oper, (forall i, i < n -> snd (psi i 0) = 0%R) ->
  expect_oper n psi false oper = fst (mmul n (mmul n (madj psi) oper) psi 0 0).
Proof.
  intros n psi oper HR. unfold expect_oper. f_equal. unfold mtrace.
  transitivity (csum n (fun i => csum n (fun k => (psi i 0 * Cconj (psi k 0) * oper k i)%C))).
  - apply csum_ext. intros i Hi. unfold mmul at 1. apply csum_ext. intros k Hk. f_equal.
    unfold tf_state_to_dm, mmul, mtrans. cbn [csum]. rewrite (real_conj _ (HR k Hk)). ring.
  - unfold mmul. apply csum_ext. intros i Hi. rewrite Cmult_comm, <- csum_scale. apply csum_ext. intros k Hk. unfold madj. ring.
Qed.
Print Assumptions C49_expect_oper_real_state.

(** Finding: [expect_oper] of a pure state uses the unconjugated outer product:
    the expectation value of the identity in a normalised state can be 0. *)
Theorem C49_expect_oper_refuted :
  exists psi, rs 2 (fun i => Cmod (psi i 0%nat) ^ 2)%R = 1%R /\ expect_oper 2 psi false mid = 0%R.
Proof.
  assert (S : (/ sqrt 2 * / sqrt 2 = / 2)%R).
  { rewrite <- Rinv_mult, sqrt_sqrt by lra. reflexivity. }
  assert (P : (0 < / sqrt 2)%R) by (apply Rinv_0_lt_compat, sqrt_lt_R0; lra).
  exists (fun i _ => if Nat.eqb i 0 then RtoC (/ sqrt 2) else (Ci * RtoC (/ sqrt 2))%C). split.
  - cbn [rs Nat.eqb]. rewrite Cmod_mult, !Cmod_R, !Rabs_pos_eq by lra.
    replace (Cmod Ci) with 1%R by (unfold Cmod; cbn; replace (0 * (0 * 1) + 1 * (1 * 1))%R with 1%R by ring; symmetry; apply sqrt_1). nra.
  - unfold expect_oper, mtrace, tf_state_to_dm, mmul, mtrans, mid. cbn [csum Nat.eqb]. cbn. nra.
Qed.
Print Assumptions C49_expect_oper_refuted.

Example C49_example : exists pops,
  evaluate_legacy 2 false [("g"%string, mid)] (one_hot 0) [["g"%string; "g"%string]; []] = Ok pops /\ length pops = 2.
Proof. eexists. split; reflexivity. Qed.
