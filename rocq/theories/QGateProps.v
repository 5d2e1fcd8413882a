(** C125: gates of C3 in Qiskit circuits. *)
From Coq Require Import Reals Lra Lia Setoid Morphisms.
From Coquelicot Require Import Coquelicot.
From Verif Require Import Base Mat MExp HilbertModel HilbertProofs HilbertProps Hilbert2Proofs Hilbert2Props GateModel GateProofs GateProps FidModel FidProofs FidProps QGateModel.
Local Open Scope list_scope.
Local Open Scope nat_scope.
Local Notation length := List.length.

(** ** Specification *)
(** A basis state is the list of the levels of the qubits 0, 1, ...  C3 numbers it with qubit 0 most significant, Qiskit
    with qubit 0 least significant. *)
Definition c3_number (n : nat) (l : list nat) : nat := pos (repeat 2 n) l.
Definition qiskit_number (n : nat) (l : list nat) : nat := pos (repeat 2 n) (rev l).
Definition state (n : nat) (l : list nat) : Prop := valid (repeat 2 n) l.
(** The operator [A] of Qiskit and the operator [B] of C3 do the same. *)
Definition same_operator (n : nat) (A B : mat) : Prop :=
  forall l l', state n l -> state n l' -> A (qiskit_number n l) (qiskit_number n l') = B (c3_number n l) (c3_number n l').

(** ** Proofs *)
Lemma prod_2 : forall n, prod_dims (repeat 2 n) = 2 ^ n.
Proof. induction n; [reflexivity|]. cbn [repeat]. rewrite prod_dims_cons, IHn. reflexivity. Qed.
Lemma pos_snoc : forall n l b, length l = n -> pos (repeat 2 (S n)) (l ++ [b]) = 2 * pos (repeat 2 n) l + b.
Proof.
  induction n; intros l b H.
  - destruct l; [|discriminate]. cbn. lia.
  - destruct l as [|a l]; [discriminate|]. injection H as H. change (repeat 2 (S (S n))) with (2 :: repeat 2 (S n)).
    change (repeat 2 (S n)) with (2 :: repeat 2 n) at 2. cbn [app pos]. rewrite IHn by exact H. rewrite !prod_2. cbn [Nat.pow]. lia.
Qed.
Lemma state_length : forall n l, state n l -> length l = n.
Proof. intros n l H. apply valid_length in H. rewrite repeat_length in H. exact H. Qed.
Lemma state_cons : forall n b l, state (S n) (b :: l) <-> b < 2 /\ state n l.
Proof. intros. unfold state, valid. cbn [repeat]. split; [intro H; inversion H; auto|intros [A B]; constructor; auto]. Qed.
Lemma state_bits : forall n l, state n l <-> length l = n /\ Forall (fun b => b < 2) l.
Proof.
  induction n; intro l.
  - unfold state, valid. cbn. split; [intro H; inversion H; auto|]. intros [H _]. destruct l; [constructor|discriminate].
  - destruct l as [|b l]; [split; [intro H; inversion H|intros [H _]; discriminate]|]. rewrite state_cons, IHn. cbn [length].
    split; [intros (A & <- & B); auto|]. intros [E H]. inversion H; subst. split; auto.
Qed.
Lemma state_rev : forall n l, state n l -> state n (rev l).
Proof. intros n l H. apply state_bits in H. destruct H as [A B]. apply state_bits. rewrite rev_length. split; auto. apply Forall_rev. exact B. Qed.
Lemma qbit_number : forall n l q, state n l -> q < n -> qbit (qiskit_number n l) q = nth q l 0.
Proof.
  induction n; intros l q H Hq; [lia|]. destruct l as [|b l]; [apply state_length in H; discriminate|].
  apply state_cons in H. destruct H as [Hb H]. unfold qiskit_number. cbn [rev]. rewrite pos_snoc by (rewrite rev_length; apply state_length, H).
  fold (qiskit_number n l). unfold qbit. destruct q as [|q].
  - cbn [Nat.pow nth]. rewrite Nat.div_1_r, Nat.add_comm, Nat.mul_comm, Nat.mod_add by lia. apply Nat.mod_small, Hb.
  - cbn [Nat.pow nth]. rewrite <- Nat.div_div by (try apply Nat.pow_nonzero; lia).
    replace (2 * qiskit_number n l + b) with (b + qiskit_number n l * 2) by lia. rewrite Nat.div_add, (Nat.div_small b 2) by lia.
    cbn [Nat.add]. apply IHn; [exact H|lia].
Qed.
Lemma restrict_app : forall l a b, restrict l (a ++ b) = restrict l a ++ restrict l b.
Proof. intros. unfold restrict. apply map_app. Qed.
Lemma restrict_dims : forall n ts, (forall t, In t ts -> t < n) -> restrict (repeat 2 n) ts = repeat 2 (length ts).
Proof.
  intros n ts R. induction ts as [|t ts IH]; [reflexivity|]. cbn [restrict map length repeat]. f_equal.
  - pose proof (nth_In (repeat 2 n) 0 (n := t)) as I. rewrite repeat_length in I.
    specialize (I (R t (or_introl eq_refl))). apply repeat_spec in I. exact I.
  - apply IH. intros; apply R; right; auto.
Qed.
Lemma qsub_number : forall n l qs, state n l -> (forall q, In q qs -> q < n) ->
  qsub (qiskit_number n l) qs = pos (repeat 2 (length qs)) (restrict l (rev qs)).
Proof.
  intros n l qs Hl. induction qs as [|q qs IH]; intro Hq; [reflexivity|].
  cbn [qsub rev length]. rewrite restrict_app. cbn [restrict map]. change (map (fun t => nth t l 0) ?x) with (restrict l x).
  rewrite pos_snoc by (unfold restrict; rewrite map_length, rev_length; reflexivity).
  rewrite (qbit_number n l q Hl (Hq q (or_introl eq_refl))), IH by (intros; apply Hq; right; auto). lia.
Qed.

(** A gate of any matrix on any qubits: Qiskit does with the qubits [qs] what C3 does with the targets in reverse order. *)
Theorem C125_reversed_targets :
  forall n M qs, NoDup qs -> (forall q, In q qs -> q < n) ->
  same_operator n (qiskit_embed n M qs) (insert_mat_kron (repeat 2 n) (rev qs) M).
Proof.
  intros n M qs ND Hq l l' Hl Hl'.
  assert (ND' : NoDup (rev qs)) by (apply NoDup_rev, ND).
  assert (R : forall t, In t (rev qs) -> t < length (repeat 2 n)) by (intros t Ht; rewrite repeat_length; apply Hq, in_rev, Ht).
  assert (R' : forall t, In t (rev qs) -> t < n) by (intros t Ht; apply Hq, in_rev, Ht).
  unfold c3_number. destruct (C30_embedded_gate (repeat 2 n) (rev qs) M l l' ND' R Hl Hl') as [E0 E1].
  rewrite repeat_length in E0, E1. unfold qiskit_embed.
  destruct (forallb _ (seq 0 n)) eqn:F.
  - rewrite forallb_forall in F. rewrite E0.
    + rewrite (restrict_dims n (rev qs) R'), rev_length, !(qsub_number n) by auto. reflexivity.
    + intros q Hn NI. assert (I : In q (seq 0 n)) by (apply in_seq; lia). specialize (F q I). apply orb_true_iff in F. destruct F as [F|F].
      * exfalso. apply NI, in_rev. rewrite rev_involutive. apply mem_nat_in, F.
      * apply Nat.eqb_eq in F. rewrite !(qbit_number n) in F by auto. exact F.
  - rewrite E1; [reflexivity|]. assert (X : exists q, In q (seq 0 n) /\ mem_nat q qs || Nat.eqb (qbit (qiskit_number n l) q) (qbit (qiskit_number n l') q) = false).
    { clear - F. induction (seq 0 n) as [|a r IH]; [discriminate|]. cbn [forallb] in F. apply andb_false_iff in F. destruct F as [F|F].
      - exists a. split; [left; reflexivity|exact F].
      - destruct (IH F) as (q & I & E). exists q. split; [right; exact I|exact E]. }
    destruct X as (q & I & E). apply in_seq in I. apply orb_false_iff in E. destruct E as [EA EB]. exists q. split; [lia|]. split.
    + intro J. apply in_rev in J. apply mem_nat_in in J. congruence.
    + apply Nat.eqb_neq in EB. rewrite !(qbit_number n) in EB by (auto; lia). exact EB.
Qed.
Print Assumptions C125_reversed_targets.

Lemma same_product : forall n A B A' B', same_operator n A B -> same_operator n A' B' -> same_operator n (mmul (2 ^ n) A A') (mmul (2 ^ n) B B').
Proof.
  intros n A B A' B' H H' l l' Hl Hl'. unfold mmul. rewrite <- prod_2.
  set (lab := fun x => nth x (labels (repeat 2 n)) []).
  assert (LAB : forall x, x < prod_dims (repeat 2 n) -> state n (lab x) /\ c3_number n (lab x) = x) by (intros; apply labels_nth_ok; auto).
  rewrite (csum_reindex (prod_dims (repeat 2 n)) (prod_dims (repeat 2 n)) _ (fun x => qiskit_number n (lab x))).
  - apply csum_ext. intros x Hx. destruct (LAB x Hx) as [S1 S2]. rewrite H, H', S2 by auto. reflexivity.
  - intros x Hx. destruct (LAB x Hx) as [S1 _]. apply pos_lt, state_rev, S1.
  - intros x y Hx Hy E. destruct (LAB x Hx) as [S1 S2]. destruct (LAB y Hy) as [S3 S4]. rewrite <- S2, <- S4. f_equal.
    rewrite <- (rev_involutive (lab x)), <- (rev_involutive (lab y)). f_equal. eapply pos_inj; [apply state_rev, S1|apply state_rev, S3|exact E].
  - intros x Hx. left. destruct (LAB x Hx) as [S1 S2]. exists (c3_number n (rev (lab x))).
    assert (S3 : state n (rev (lab x))) by (apply state_rev, S1). split; [apply pos_lt, S3|].
    unfold lab at 1. rewrite (nth_error_nth _ _ _ (labels_nth _ _ S3)). unfold qiskit_number. rewrite rev_involutive. exact S2.
Qed.
Lemma same_id : forall n, same_operator n mid mid.
Proof.
  intros n l l' Hl Hl'. unfold mid. destruct (Nat.eqb_spec (c3_number n l) (c3_number n l')) as [E|E].
  - apply pos_inj in E; auto. subst. rewrite Nat.eqb_refl. reflexivity.
  - destruct (Nat.eqb_spec (qiskit_number n l) (qiskit_number n l')) as [F|F]; [|reflexivity]. exfalso. apply E.
    apply pos_inj in F; [|apply state_rev, Hl|apply state_rev, Hl']. rewrite <- (rev_involutive l), F, rev_involutive. reflexivity.
Qed.

(** Circuits of any gates on any number of qubits mean the same, if C3 is given the targets in reverse order. *)
Theorem C125_circuits_with_reversed_targets :
  forall n gs, (forall M qs, In (M, qs) gs -> NoDup qs /\ forall q, In q qs -> q < n) ->
  same_operator n (qiskit_circuit n gs) (time_ordered (2 ^ n) (map (fun g => insert_mat_kron (repeat 2 n) (rev (snd g)) (fst g)) gs)).
Proof.
  intros n gs. induction gs as [|[M qs] gs IH]; intro H; [apply same_id|]. cbn [qiskit_circuit map time_ordered fst snd].
  destruct (H M qs (or_introl eq_refl)) as [ND Hq]. apply same_product; [apply IH; intros M0 qs0 I0; apply (H M0 qs0); right; exact I0|]. apply C125_reversed_targets; auto.
Qed.
Print Assumptions C125_circuits_with_reversed_targets.

Lemma cos_PI4_half : forall x, (x = PI / 2 -> cos (x / 2) = / sqrt 2 /\ sin (x / 2) = / sqrt 2)%R.
Proof. intros x ->. replace (PI / 2 / 2)%R with (PI / 4)%R by field. rewrite cos_PI4, sin_PI4. unfold Rdiv. split; ring. Qed.

(** The nine rotation classes have the matrices of the C3 gates of the same name. *)
Theorem C125_rotations :
  forall name a theta, dget name C3_ROTATIONS = Some (a, theta) ->
  exists m g, gate_class name = Ok m /\ dget name GATES = Some g
   /\ rows m = 2 /\ cols m = 2 /\ rows g = 2 /\ cols g = 2 /\ unitary 2 (ent g) /\ meq 2 2 (ent m) (ent g)
   /\ ent m = qiskit_rotation a theta.
Proof.
  intros name a theta H.
  assert (E : forall k G, dget name GATE_LITERALS = Some (k, G) -> length G = 2 -> meq 2 2 (qiskit_rotation a theta) (gl k G) ->
    exists m g, gate_class name = Ok m /\ dget name GATES = Some g
     /\ rows m = 2 /\ cols m = 2 /\ rows g = 2 /\ cols g = 2 /\ unitary 2 (ent g) /\ meq 2 2 (ent m) (ent g) /\ ent m = qiskit_rotation a theta).
  { intros k G EG L M. assert (EG' : dget name GATES = Some (lit_smat (k, G))) by (rewrite gates_get, EG; reflexivity).
    destruct (C36_tabulated_gates_unitary _ _ EG') as [_ U]. cbn [lit_smat rows snd] in U. rewrite L in U.
    unfold gate_class. rewrite H. do 2 eexists. split; [reflexivity|]. split; [exact EG'|]. cbn [rows cols ent lit_smat snd fst]. rewrite L. repeat (split; [reflexivity|]). split; [exact U|]. split; [exact M|reflexivity]. }
  assert (Q : forall x y : R, x = y -> RtoC x = RtoC y) by (intros; f_equal; auto).
  assert (C1 : cos (PI / 2 / 2) = / sqrt 2) by (apply cos_PI4_half; reflexivity).
  assert (S1 : sin (PI / 2 / 2) = / sqrt 2) by (apply cos_PI4_half; reflexivity).
  assert (C2 : cos (- (PI / 2) / 2) = / sqrt 2) by (replace (- (PI / 2) / 2)%R with (- (PI / 2 / 2))%R by field; rewrite cos_neg; exact C1).
  assert (S2 : sin (- (PI / 2) / 2) = - / sqrt 2) by (replace (- (PI / 2) / 2)%R with (- (PI / 2 / 2))%R by field; rewrite sin_neg, S1; reflexivity).
  unfold C3_ROTATIONS in H. cbn [dget] in H.
  repeat match type of H with (if String.eqb name ?k then _ else _) = _ =>
    destruct (String.eqb_spec name k) as [->|_]; [injection H as <- <-;
      eapply E; [reflexivity|reflexivity|];
      intros [|[|i]] [|[|j]] Hi Hj; try lia; unfold qiskit_rotation, gl, gentry, gev, Cpow, s2; cbn [nth fst snd]; rewrite ?C1, ?S1, ?C2, ?S2, ?cos_PI2, ?sin_PI2;
      unfold RtoC, Cmult, Copp, Ci; cbn [fst snd]; apply injective_projections; cbn [fst snd]; ring |] end.
  discriminate H.
Qed.
Print Assumptions C125_rotations.

Lemma perfect_spec : forall instrs n ks acc gates, perfect_loop instrs n ks acc = Ok gates ->
  (forall g, In g ks -> exists i U, dget g instrs = Some i /\ get_ideal_gate (i_ideal i) (i_targets i) n [] = Ok U /\ dget g gates = Some U)
  /\ (forall g, ~ In g ks -> dget g gates = dget g acc).
Proof.
  intros instrs n ks. induction ks as [|k ks IH]; intros acc gates H; cbn [perfect_loop] in H.
  - injection H as <-. split; [intros g []|auto].
  - destruct (dget k instrs) as [i|] eqn:E; [|discriminate]. destruct (get_ideal_gate (i_ideal i) (i_targets i) n []) as [U|] eqn:EU; [|discriminate].
    cbn [rbind] in H. destruct (IH _ _ H) as [A B]. split.
    + intros g [<-|I]; [|apply A, I]. destruct (in_dec String.string_dec k ks) as [J|J]; [apply A, J|].
      exists i, U. split; [exact E|]. split; [exact EU|]. rewrite (B k J). apply dget_dset_same.
    + intros g NI. rewrite B by (intro; apply NI; right; auto). apply dget_dset_other. intro. subst. apply NI. left; auto.
Qed.
(** [get_perfect_gates] returns exactly the gates asked for, each the ideal of its instruction on the register; an unknown
    name is a KeyError. *)
Theorem C125_perfect_gates :
  forall instrs n ks gates,
  let asked := match ks with None => keys instrs | Some l => l end in
  (get_perfect_gates instrs n ks = Ok gates ->
     forall g, match dget g gates with
               | Some U => In g asked /\ exists i, dget g instrs = Some i /\ get_ideal_gate (i_ideal i) (i_targets i) n [] = Ok U
               | None => ~ In g asked
               end)
  /\ (forall g r, asked = g :: r -> dget g instrs = None -> get_perfect_gates instrs n ks = Err KeyError)
  /\ ((exists g, In g asked /\ dget g instrs = None) -> exists x, get_perfect_gates instrs n ks = Err x).
Proof.
  intros instrs n ks gates asked. unfold get_perfect_gates. fold asked. split; [|split].
  - intros H g. destruct (perfect_spec _ _ _ _ _ H) as [A B]. destruct (in_dec String.string_dec g asked) as [I|I].
    + destruct (A g I) as (i & U & E1 & E2 & E3). rewrite E3. split; [exact I|]. exists i. auto.
    + rewrite (B g I). exact I.
  - intros g r -> E. cbn [perfect_loop]. rewrite E. reflexivity.
  - intros (g & I & E). destruct (perfect_loop instrs n asked []) as [gs|x] eqn:H; [|eauto]. exfalso.
    destruct (perfect_spec _ _ _ _ _ H) as [A _]. destruct (A g I) as (i & U & E1 & _). congruence.
Qed.
Print Assumptions C125_perfect_gates.

(** A circuit of rotation gates on a register of any size does in Qiskit what the ideal gates of the C3 instructions
    of the same names do. *)
Theorem C125_rotation_circuits :
  forall n (key : string -> nat -> string) (circuit : list (string * nat)) instrs gates,
  (forall name q, In (name, q) circuit -> q < n /\ In name (keys C3_ROTATIONS)
     /\ exists i, dget (key name q) instrs = Some i /\ dget name GATES = Some (i_ideal i) /\ i_targets i = Some [q]) ->
  get_perfect_gates instrs n None = Ok gates ->
  exists ms P, Forall2 (fun g m => gate_class (fst g) = Ok m) circuit ms
   /\ sequence_product (2 ^ n) gates (map (fun g => key (fst g) (snd g)) circuit) = Ok P
   /\ same_operator n (qiskit_circuit n (combine (map ent ms) (map (fun g => [snd g]) circuit))) P.
Proof.
  intros n key circuit instrs gates H HG. destruct (perfect_spec _ _ _ _ _ HG) as [A _].
  induction circuit as [|[name q] circuit IH].
  - exists [], mid. split; [constructor|]. split; [reflexivity|]. apply same_id.
  - destruct IH as (ms & P & F & EP & S0); [intros; apply H; right; auto|].
    destruct (H name q (or_introl eq_refl)) as (Hq & IN & i & Ei & Eg & Et).
    destruct (dget name C3_ROTATIONS) as [[a theta]|] eqn:ER; [|exfalso; apply dget_in_keys in IN; destruct IN; congruence].
    destruct (C125_rotations name a theta ER) as (m & g & Em & Eg' & R1 & R2 & R3 & R4 & U & M & _).
    rewrite Eg in Eg'. injection Eg' as <-.
    destruct (A (key name q)) as (i' & V & E1 & E2 & E3); [apply dget_in_keys; eauto|]. rewrite Ei in E1. injection E1 as <-.
    exists (m :: ms), (mmul (2 ^ n) P (ent V)). split; [constructor; auto|]. split.
    + cbn [map fst snd sequence_product]. rewrite E3, EP. reflexivity.
    + cbn [map combine qiskit_circuit snd]. apply same_product; [exact S0|].
      assert (EV : ent V = insert_mat_kron (repeat 2 n) [q] (ent (i_ideal i))).
      { unfold get_ideal_gate in E2. rewrite Et in E2. cbn [existsb orb map] in E2.
        destruct (Nat.leb_spec n q); [lia|]. cbn [orb] in E2.
        assert (X : prod_dims [nth q (repeat 2 n) 0] = 2).
        { pose proof (restrict_dims n [q]) as X. cbn in X. rewrite X by (intros t [<-|[]]; auto). reflexivity. }
        rewrite X in E2. unfold bcast in E2. rewrite R3, R4 in E2. cbn [Nat.eqb orb andb rbind] in E2. injection E2 as <-. reflexivity. }
      intros l l' Hl Hl'. rewrite EV. change [q] with (rev [q]). rewrite <- (C125_reversed_targets n (ent (i_ideal i)) [q]); auto.
      * unfold qiskit_embed. destruct (forallb _ _); [|reflexivity]. apply M; cbn [qsub]; unfold qbit;
          match goal with |- context [?x mod 2] => pose proof (Nat.mod_upper_bound x 2) end; lia.
      * repeat constructor. intros [].
      * intros t [<-|[]]. exact Hq.
Qed.
Print Assumptions C125_rotation_circuits.

(** Gates that look the same with their qubits in reverse order, such as iswap, cz and ccz, mean the same. *)
Definition symmetric_gate (k : nat) (M : mat) : Prop :=
  forall l l', state k l -> state k l' -> M (qiskit_number k l) (qiskit_number k l') = M (c3_number k l) (c3_number k l').
Lemma restrict_state : forall n l qs, state n l -> (forall q, In q qs -> q < n) -> state (length qs) (restrict l qs).
Proof.
  intros n l qs Hl Hq. apply state_bits in Hl. destruct Hl as [L B]. apply state_bits. unfold restrict. split; [apply map_length|].
  apply Forall_map, Forall_forall. intros q I. rewrite Forall_forall in B. apply B, nth_In. rewrite L. apply Hq, I.
Qed.
Theorem C125_symmetric_gates :
  forall n M qs, NoDup qs -> (forall q, In q qs -> q < n) -> symmetric_gate (length qs) M ->
  same_operator n (qiskit_embed n M qs) (insert_mat_kron (repeat 2 n) qs M).
Proof.
  intros n M qs ND Hq SY l l' Hl Hl'. rewrite (C125_reversed_targets n M qs ND Hq l l' Hl Hl'). unfold c3_number.
  assert (ND' : NoDup (rev qs)) by (apply NoDup_rev, ND).
  assert (R : forall t, In t qs -> t < length (repeat 2 n)) by (intros t Ht; rewrite repeat_length; apply Hq, Ht).
  assert (R' : forall t, In t (rev qs) -> t < length (repeat 2 n)) by (intros t Ht; apply R, in_rev, Ht).
  assert (R2 : forall t, In t (rev qs) -> t < n) by (intros t Ht; apply Hq, in_rev, Ht).
  destruct (C30_embedded_gate (repeat 2 n) (rev qs) M l l' ND' R' Hl Hl') as [A0 A1].
  destruct (C30_embedded_gate (repeat 2 n) qs M l l' ND R Hl Hl') as [B0 B1].
  destruct (outside_dec (repeat 2 n) qs l l') as [O|(q & Q1 & Q2 & Q3)].
  - rewrite A0, B0 by (auto; intros q Q1 Q2; apply O; auto; intro X; apply Q2, in_rev; rewrite rev_involutive; exact X).
    rewrite (restrict_dims n qs Hq), (restrict_dims n (rev qs) R2), rev_length.
    specialize (SY (restrict l qs) (restrict l' qs) (restrict_state n l qs Hl Hq) (restrict_state n l' qs Hl' Hq)).
    unfold qiskit_number, c3_number in SY. unfold restrict in *. rewrite !map_rev. exact SY.
  - rewrite A1, B1; [reflexivity|exists q; auto|]. exists q. split; auto. split; auto. intro X. apply Q2, in_rev, X.
Qed.
Print Assumptions C125_symmetric_gates.
Theorem C125_symmetric_table :
  forall name g k, In (name, k) [("iswap", 2); ("cz", 2); ("ccz", 3)]%string -> dget name GATES = Some g -> rows g = 2 ^ k /\ symmetric_gate k (ent g).
Proof.
  assert (L2 : forall l, state 2 l -> In l [[0; 0]; [0; 1]; [1; 0]; [1; 1]]).
  { intros l H. apply state_bits in H. destruct H as [L B]. destruct l as [|a [|b [|]]]; try discriminate L.
    inversion B as [|? ? Ha B1]; subst. inversion B1 as [|? ? Hb B2]; subst. destruct a as [|[|]]; destruct b as [|[|]]; try lia; cbn; tauto. }
  assert (L3 : forall l, state 3 l -> In l [[0; 0; 0]; [0; 0; 1]; [0; 1; 0]; [0; 1; 1]; [1; 0; 0]; [1; 0; 1]; [1; 1; 0]; [1; 1; 1]]).
  { intros l H. destruct l as [|a l]; [apply state_length in H; discriminate|]. apply state_cons in H. destruct H as [Ha H]. apply L2 in H. cbn in H.
    destruct a as [|[|]]; [| |lia]; cbn; intuition (subst; tauto). }
  intros name g k I H. rewrite gates_get in H. cbn in I.
  destruct I as [E|[E|[E|[]]]]; injection E as <- <-; cbn in H; injection H as <-; (split; [reflexivity|]); intros l l' Hl Hl'.
  - apply L2 in Hl. apply L2 in Hl'. cbn in Hl, Hl'.
    repeat destruct Hl as [<-|Hl]; try contradiction; repeat destruct Hl' as [<-|Hl']; try contradiction; reflexivity.
  - apply L2 in Hl. apply L2 in Hl'. cbn in Hl, Hl'.
    repeat destruct Hl as [<-|Hl]; try contradiction; repeat destruct Hl' as [<-|Hl']; try contradiction; reflexivity.
  - apply L3 in Hl. apply L3 in Hl'. cbn in Hl, Hl'.
    repeat destruct Hl as [<-|Hl]; try contradiction; repeat destruct Hl' as [<-|Hl']; try contradiction; reflexivity.
Qed.
Print Assumptions C125_symmetric_table.

Lemma literal_differs : forall k G x y x' y', gentry G x y <> gentry G x' y' -> ent (lit_smat (k, G)) x y <> ent (lit_smat (k, G)) x' y'.
Proof.
  intros k G x y x' y' N H. cbn [lit_smat ent fst snd] in H. unfold gl in H. apply N.
  assert (NZ : Cpow s2 k <> RtoC 0).
  { assert (s2 <> RtoC 0) by (unfold s2; intro X; apply RtoC_inj in X; pose proof (Rinv_0_lt_compat _ (sqrt_lt_R0 2 ltac:(lra))); lra).
    clear - H0. induction k; cbn; [intro X; apply RtoC_inj in X; lra|]. apply Cmult_neq_0; auto. }
  assert (Z : gev (gentry G x y) = gev (gentry G x' y')).
  { apply (f_equal (fun z => / Cpow s2 k * z)%C) in H. rewrite !Cmult_assoc, !(Cinv_l _ NZ), !Cmult_1_l in H. exact H. }
  unfold gev in Z. destruct (gentry G x y) as [a b]. destruct (gentry G x' y') as [c d]. cbn [fst snd] in Z. injection Z as Z1 Z2.
  apply eq_IZR in Z1. apply eq_IZR in Z2. congruence.
Qed.
(** Finding: the two-qubit gates are handed to Qiskit with the matrices of C3, in which the first qubit is the most
    significant one.  The cross-resonance gates "cr" and "cr90" act on qubits 0 and 1 of a Qiskit circuit with the roles of the
    qubits exchanged.  The tabulated "cx" has the second of its qubits as control, in Qiskit (and in the matrix of "crxp") it is the
    first. *)
Theorem C125_two_qubit_refuted :
  forall name g, In name ["cr"; "cr90"; "cx"; "crxp"; "crzp"]%string -> dget name GATES = Some g ->
  ~ same_operator 2 (qiskit_embed 2 (ent g) [0; 1]) (insert_mat_kron (repeat 2 2) [0; 1] (ent g))
  /\ same_operator 2 (qiskit_embed 2 (ent g) [0; 1]) (insert_mat_kron (repeat 2 2) [1; 0] (ent g)).
Proof.
  intros name g I H.
  assert (ND : NoDup [0; 1]) by (repeat constructor; cbn; intuition discriminate).
  assert (RG : forall q, In q [0; 1] -> q < 2) by (intros q [<-|[<-|[]]]; lia).
  split; [|exact (C125_reversed_targets 2 (ent g) [0; 1] ND RG)].
  intro SO.
  assert (KEY : forall l l', state 2 l -> state 2 l' -> ent g (qiskit_number 2 l) (qiskit_number 2 l') = ent g (c3_number 2 l) (c3_number 2 l')).
  { intros l l' Hl Hl'. specialize (SO l l' Hl Hl'). rewrite (C125_reversed_targets 2 (ent g) [0; 1] ND RG l l' Hl Hl') in SO. unfold c3_number in SO.
    destruct (C30_embedded_gate (repeat 2 2) (rev [0; 1]) (ent g) l l') as [A0 _]; auto; [apply NoDup_rev, ND|intros t [<-|[<-|[]]]; cbn; lia|].
    destruct (C30_embedded_gate (repeat 2 2) [0; 1] (ent g) l l') as [B0 _]; auto.
    assert (NO : forall q ts, (ts = [0; 1] \/ ts = rev [0; 1]) -> q < length (repeat 2 2) -> ~ In q ts -> nth q l 0 = nth q l' 0).
    { intros q ts [->| ->] Hq NI; exfalso; apply NI; cbn in Hq |- *; (destruct q as [|[|q]]; [tauto|tauto|lia]). }
    rewrite A0 in SO by (intros q Q1 Q2; exact (NO q (rev [0; 1]) (or_intror eq_refl) Q1 Q2)).
    rewrite B0 in SO by (intros q Q1 Q2; exact (NO q [0; 1] (or_introl eq_refl) Q1 Q2)).
    destruct l as [|a [|b [|]]]; try (apply state_length in Hl; discriminate Hl). destruct l' as [|c [|d [|]]]; try (apply state_length in Hl'; discriminate Hl').
    exact SO. }
  assert (ST : forall a b, a < 2 -> b < 2 -> state 2 [a; b]) by (intros a b Ha Hb; apply state_cons; split; [exact Ha|]; apply state_cons; split; [exact Hb|constructor]).
  rewrite gates_get in H. cbn [In] in I.
  destruct I as [E|[E|[E|[E|[E|[]]]]]]; subst name; cbn in H; injection H as <-.
  - specialize (KEY [0; 0] [0; 1] (ST 0 0 ltac:(lia) ltac:(lia)) (ST 0 1 ltac:(lia) ltac:(lia))). revert KEY. apply literal_differs. discriminate.
  - specialize (KEY [0; 0] [0; 1] (ST 0 0 ltac:(lia) ltac:(lia)) (ST 0 1 ltac:(lia) ltac:(lia))). revert KEY. apply literal_differs. discriminate.
  - specialize (KEY [0; 1] [1; 1] (ST 0 1 ltac:(lia) ltac:(lia)) (ST 1 1 ltac:(lia) ltac:(lia))). revert KEY. apply literal_differs. discriminate.
  - specialize (KEY [1; 0] [1; 1] (ST 1 0 ltac:(lia) ltac:(lia)) (ST 1 1 ltac:(lia) ltac:(lia))). revert KEY. apply literal_differs. discriminate.
  - specialize (KEY [1; 0] [1; 0] (ST 1 0 ltac:(lia) ltac:(lia)) (ST 1 0 ltac:(lia) ltac:(lia))). revert KEY. apply literal_differs. discriminate.
Qed.
Print Assumptions C125_two_qubit_refuted.

(** The class for the controlled rotation cannot be constructed. *)
Theorem C125_crxp_class : gate_class "crxp" = Err NotImplemented
  /\ forall name, In name ["cr"; "cr90"]%string -> exists g, gate_class name = Ok g /\ dget name GATES = Some g.
Proof. split; [reflexivity|]. intros name [<-|[<-|[]]]; eexists; split; reflexivity. Qed.
Print Assumptions C125_crxp_class.

Example C125_example : exists gates P,
  get_perfect_gates [("rx90p[0]", {| i_ideal := lit_smat (1, [[i1; mj]; [mj; i1]]); i_targets := Some [0] |});
                     ("ryp[1]", {| i_ideal := lit_smat (0, [[i0; m1]; [i1; i0]]); i_targets := Some [1] |})]%string 2 None = Ok gates
  /\ sequence_product 4 gates ["rx90p[0]"; "ryp[1]"]%string = Ok P
  /\ same_operator 2 (qiskit_circuit 2 [(qiskit_rotation QX (PI / 2), [0]); (qiskit_rotation QY PI, [1])]) P.
Proof.
  set (instrs := [("rx90p[0]", {| i_ideal := lit_smat (1, [[i1; mj]; [mj; i1]]); i_targets := Some [0] |});
                     ("ryp[1]", {| i_ideal := lit_smat (0, [[i0; m1]; [i1; i0]]); i_targets := Some [1] |})]%string).
  destruct (get_perfect_gates instrs 2 None) as [gates|x] eqn:E; [|exfalso; cbn in E; discriminate E].
  destruct (C125_rotation_circuits 2 (fun name q => if Nat.eqb q 0 then "rx90p[0]" else "ryp[1]")%string [("rx90p", 0); ("ryp", 1)]%string instrs gates) as (ms & P & F & EP & SO); [|exact E|].
  - intros name q [I|[I|[]]]; injection I as <- <-; (split; [lia|]); (split; [cbn; tauto|]); eexists; (split; [reflexivity|]); split; reflexivity.
  - exists gates, P. split; [reflexivity|]. split; [exact EP|].
    inversion F as [|? m1' ? ms1 E1 F1]; subst. inversion F1 as [|? m2' ? ms2 E2 F2]; subst. inversion F2; subst.
    cbn in E1, E2. injection E1 as <-. injection E2 as <-. exact SO.
Qed.
Print Assumptions C125_example.
