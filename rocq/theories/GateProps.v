(** Properties C34 to C36: randomised benchmarking, Clifford group, ideal gates.
    [peq n A B] means A = c B for some complex c of modulus one. *)
From Coq Require Import Ascii.
From Verif Require Import Base Mat MExp HilbertModel HilbertProofs HilbertProps Hilbert2Proofs Hilbert2Props GateModel GateProofs.
Local Open Scope list_scope.
Local Open Scope nat_scope.
Local Notation length := List.length.

(** Specification: the unitary of a gate sequence, first gate applied first. *)
Fixpoint time_ordered (n : nat) (gs : list mat) : mat :=
  match gs with [] => mid | g :: r => mmul n (time_ordered n r) g end.

Lemma time_ordered_app : forall n a b,
  meq n n (time_ordered n (a ++ b)) (mmul n (time_ordered n b) (time_ordered n a)).
Proof.
  intros n a b. induction a as [|g a IH]; cbn [app time_ordered].
  - symmetry. apply mmul_id_r.
  - rewrite IH. symmetry. apply mmul_assoc.
Qed.

(** ** C35 *)
Theorem C35_decompositions :
  forall i, 1 <= i <= 24 ->
  meq 2 2 (time_ordered 2 (map gate2 (nth (i - 1) cliffords_decomp []))) (clifford i).
Proof.
  assert (R : cliffords_decomp = map (@rev string) CLIFFORD_FACTORS) by reflexivity.
  assert (T : forall fs, meq 2 2 (time_ordered 2 (map gate2 (rev fs))) (at_prod (map gate2 fs))).
  { intros fs. destruct fs as [|f fs]; [reflexivity|]. cbn [map at_prod].
    assert (G : forall l A, meq 2 2 (fold_left (mmul 2) l A) (mmul 2 A (time_ordered 2 (rev l)))).
    { induction l as [|x l IH]; intros A; cbn [fold_left rev].
      - symmetry. apply mmul_id_r.
      - rewrite IH, time_ordered_app. cbn [time_ordered]. rewrite mmul_id_l. symmetry. apply mmul_assoc. }
    rewrite G. cbn [rev]. rewrite map_app, time_ordered_app. cbn [map time_ordered].
    rewrite mmul_id_l, map_rev. reflexivity. }
  intros i Hi. rewrite R. unfold clifford, CLIFFORDS.
  assert (L : i - 1 < length CLIFFORD_FACTORS) by (simpl length; lia).
  change (@nil string) with (rev (@nil string)) at 1. rewrite map_nth.
  rewrite (nth_indep _ mzero (at_prod (map gate2 []))) by (rewrite map_length; auto).
  rewrite (map_nth (fun fs => at_prod (map gate2 fs))). apply T.
Qed.
Print Assumptions C35_decompositions.

Theorem C35_pairwise_different :
  forall i j, 1 <= i <= 24 -> 1 <= j <= 24 -> i <> j -> ~ peq 2 (clifford i) (clifford j).
Proof. exact cliff_distinct. Qed.
Print Assumptions C35_pairwise_different.

Lemma cliff_identity : peq 2 mid (clifford 1).
Proof.
  assert (K : peqb (lid 2) (clit 1) = true) by (vm_compute; reflexivity).
  apply peqb_spec in K. eapply peq_trans; [apply peq_meq; symmetry; apply lid_ev|].
  eapply peq_trans; [exact K|]. apply peq_meq. symmetry. apply clifford_lit. lia.
Qed.

(** Products of any number of Cliffords are Cliffords, inverses are Cliffords. *)
Theorem C35_closed_under_products :
  forall is, (forall i, In i is -> 1 <= i <= 24) ->
  exists t, 1 <= t <= 24 /\ peq 2 (time_ordered 2 (map clifford is)) (clifford t).
Proof.
  induction is as [|i is IH]; intros H.
  - exists 1. split; [lia|]. apply cliff_identity.
  - destruct IH as (t & Ht & P). { intros; apply H; right; auto. }
    destruct (cliff_closed t i Ht (H i (or_introl eq_refl))) as (t' & Ht' & P').
    exists t'. split; auto. cbn [map time_ordered]. eapply peq_trans; [|exact P'].
    apply peq_mul; [exact P|apply peq_refl].
Qed.
Print Assumptions C35_closed_under_products.

Theorem C35_inverses :
  forall i, 1 <= i <= 24 -> exists t, 1 <= t <= 24
    /\ peq 2 (mmul 2 (clifford t) (clifford i)) mid /\ peq 2 (mmul 2 (clifford i) (clifford t)) mid.
Proof. exact cliff_inverse. Qed.
Print Assumptions C35_inverses.

(** C2 (ry90p then rx90p) followed by C3 (rx90m then ry90m) is the identity. *)
Example C35_example : peq 2 (mmul 2 (clifford 3) (clifford 2)) mid /\ nth 1 cliffords_decomp [] = ["ry90p"; "rx90p"]%string.
Proof.
  split; [|reflexivity].
  assert (K : peqb (lmul 2 (clit 3) (clit 2)) (lid 2) = true) by (vm_compute; reflexivity).
  apply peqb_spec in K. eapply peq_trans; [|eapply peq_trans; [exact K|apply peq_meq, lid_ev]].
  apply peq_meq. rewrite lmul_ev, (clifford_lit 3) by lia. rewrite (clifford_lit 2) by lia. reflexivity.
Qed.

(** ** C34 *)
Lemma seq_operation_time : forall sq A,
  meq 2 2 (fold_left (fun op c => mmul 2 (clifford c) op) sq A) (mmul 2 (time_ordered 2 (map clifford sq)) A).
Proof.
  induction sq as [|c sq IH]; intros A; cbn [fold_left map time_ordered].
  - symmetry. apply mmul_id_l.
  - rewrite IH. apply mmul_assoc.
Qed.

Lemma inverseC_spec : forall sq, (forall c, In c sq -> 1 <= c <= 24) ->
  exists i, inverseC sq = Some i /\ 1 <= i <= 24
    /\ peq 2 (mmul 2 (clifford i) (time_ordered 2 (map clifford sq))) mid.
Proof.
  intros sq H. destruct (C35_closed_under_products sq H) as (t & Ht & P).
  assert (O : meq 2 2 (seq_operation sq) (time_ordered 2 (map clifford sq))).
  { unfold seq_operation. rewrite seq_operation_time. apply mmul_id_r. }
  assert (Q : forall i, peq 2 (mmul 2 (clifford i) (seq_operation sq)) (mmul 2 (clifford i) (clifford t))).
  { intro i. apply peq_mul; [apply peq_refl|]. eapply peq_trans; [apply peq_meq, O|exact P]. }
  unfold inverseC. destruct (find (inverse_test (seq_operation sq)) (seq 1 24)) as [i|] eqn:F.
  - apply find_some in F. destruct F as [Hi T]. apply in_seq in Hi. assert (Hi' : 1 <= i <= 24) by lia.
    exists i. split; auto. split; auto.
    eapply peq_trans. { apply peq_mul; [apply peq_refl|exact P]. }
    destruct (cliff_trace i t Hi' Ht) as [E|E]; auto. exfalso.
    unfold inverse_test in T. rewrite (peq_trace _ _ _ (Q i)) in T.
    destruct (Rlt_dec _ _) as [L|]; [|discriminate].
    set (m := Cmod (mtrace 2 (mmul 2 (clifford i) (clifford t)))) in *.
    pose proof (Cmod_ge_0 (mtrace 2 (mmul 2 (clifford i) (clifford t)))) as M. fold m in M.
    apply Rabs_def2 in L. nra.
  - exfalso. destruct (cliff_inverse t Ht) as (u & Hu & E & _).
    pose proof (find_none _ _ F u ltac:(apply in_seq; lia)) as T. unfold inverse_test in T.
    rewrite (peq_trace _ _ _ (Q u)), (peq_trace _ _ _ E), mtrace_id, Cmod_R in T.
    destruct (Rlt_dec _ _) as [L|L]; [discriminate|]. apply L. simpl INR.
    rewrite (Rabs_pos_eq (1 + 1)) by lra. replace (2 - (1 + 1))%R with 0%R by ring. rewrite Rabs_R0. lra.
Qed.


(** Every sequence is the concatenation of the decompositions of the drawn
    Cliffords and one more Clifford, RB_length in total, and its gates multiply
    (in time order) to the identity up to a global phase. *)
Theorem C34_sequences_invert :
  forall RB_length target choices,
  1 <= RB_length ->
  (forall d, In d choices -> length d = RB_length - 1 /\ forall c, In c d -> c < 24) ->
  exists seqs, single_length_RB RB_length target choices = Ok seqs
    /\ length seqs = length choices
    /\ forall k, k < length choices ->
       let gs := nth k seqs [] in
       (forall g, In g gs -> snd g = target)
       /\ (exists i, 1 <= i <= 24 /\
           let cliffs := map S (nth k choices []) ++ [i] in
           length cliffs = RB_length
           /\ map fst gs = flat_map (fun c => nth (c - 1) cliffords_decomp []) cliffs)
       /\ peq 2 (time_ordered 2 (map (fun g => gate2 (fst g)) gs)) mid.
Proof.
  intros L target choices HL HC.
  assert (One : forall d, length d = L - 1 -> (forall c, In c d -> c < 24) ->
     exists gs, rb_sequence target d = Ok gs /\ (forall g, In g gs -> snd g = target)
       /\ (exists i, 1 <= i <= 24 /\
           let cliffs := map S d ++ [i] in
           length cliffs = L
           /\ map fst gs = flat_map (fun c => nth (c - 1) cliffords_decomp []) cliffs)
       /\ peq 2 (time_ordered 2 (map (fun g => gate2 (fst g)) gs)) mid).
  { intros d Ld Hd.
    assert (HS : forall c, In c (map S d) -> 1 <= c <= 24).
    { intros c Hc. apply in_map_iff in Hc. destruct Hc as (x & <- & Hx). specialize (Hd x Hx). lia. }
    destruct (inverseC_spec (map S d) HS) as (i & Ei & Hi & P). unfold rb_sequence. rewrite Ei.
    eexists. split; [reflexivity|].
    assert (MF : map fst (flat_map (fun c => map (fun g => (g, target)) (nth (c - 1) cliffords_decomp [])) (map S d ++ [i]))
                 = flat_map (fun c => nth (c - 1) cliffords_decomp []) (map S d ++ [i])).
    { generalize (map S d ++ [i]). induction l as [|c l IH]; [reflexivity|]. cbn [flat_map].
      rewrite map_app, IH, map_map. cbn [fst]. rewrite map_id. reflexivity. }
    split; [|split].
    - intros g Hg. apply in_flat_map in Hg. destruct Hg as (c & _ & Hg). apply in_map_iff in Hg.
      destruct Hg as (x & <- & _). reflexivity.
    - exists i. split; auto. split; [|exact MF]. rewrite app_length, map_length. simpl. lia.
    - rewrite <- (map_map fst gate2), MF.
      eapply peq_trans; [|exact P]. apply peq_meq.
      assert (G : forall cs, (forall c, In c cs -> 1 <= c <= 24) ->
         meq 2 2 (time_ordered 2 (map gate2 (flat_map (fun c => nth (c - 1) cliffords_decomp []) cs)))
                 (time_ordered 2 (map clifford cs))).
      { induction cs as [|c cs IH]; intros Hcs; [reflexivity|]. cbn [flat_map map time_ordered].
        rewrite map_app, time_ordered_app, IH by (intros; apply Hcs; right; auto).
        rewrite (C35_decompositions c) by (apply Hcs; left; auto). reflexivity. }
      rewrite G.
      + rewrite map_app, time_ordered_app. cbn [map time_ordered]. rewrite mmul_id_l. reflexivity.
      + intros c Hc. apply in_app_or in Hc. destruct Hc as [Hc|[<-|[]]]; auto. }
  assert (All : exists seqs, rb_all target choices = Ok seqs /\ length seqs = length choices
    /\ forall k, k < length choices -> rb_sequence target (nth k choices []) = Ok (nth k seqs [])).
  { clear HL. induction choices as [|d ds IH]; [exists []; simpl; split; [auto|split; [auto|intros; lia]]|].
    destruct IH as (ss & E & Ls & Hs). { intros; apply HC; right; auto. }
    destruct (HC d (or_introl eq_refl)) as [Ld Hd]. destruct (One d Ld Hd) as (gs & Eg & _).
    exists (gs :: ss). cbn [rb_all]. rewrite Eg, E. cbn [rbind]. split; [reflexivity|]. split; [simpl; lia|].
    intros [|k] Hk; cbn [nth]; auto. apply Hs. simpl in Hk. lia. }
  destruct All as (seqs & E & Ls & Hs). exists seqs. split.
  - unfold single_length_RB. destruct choices; destruct L; auto; lia.
  - split; auto. intros k Hk gs. specialize (Hs k Hk).
    destruct (HC (nth k choices []) (nth_In _ _ Hk)) as [Ld Hd].
    destruct (One _ Ld Hd) as (gs' & Eg & Rest). rewrite Hs in Eg. injection Eg as <-. exact Rest.
Qed.
Print Assumptions C34_sequences_invert.

(** On a register of qubits the embedded sequence is the identity as well. *)
Lemma invert_on_register :
  forall nq target gs, target < nq ->
  (forall g, In g gs -> snd g = target) ->
  peq 2 (time_ordered 2 (map (fun g => gate2 (fst g)) gs)) mid ->
  let dims := repeat 2 nq in
  peq (prod_dims dims)
      (time_ordered (prod_dims dims) (map (fun g => insert_mat_kron dims [snd g] (gate2 (fst g))) gs)) mid.
Proof.
  intros nq target gs Ht Hg (c & Hc & P) dims.
  assert (ND : NoDup [target]) by (constructor; [simpl; tauto|constructor]).
  assert (Ld : length dims = nq) by apply repeat_length.
  assert (R : forall t, In t [target] -> t < length dims). { intros t [<-|[]]. rewrite Ld. auto. }
  assert (Td : restrict dims [target] = [2]).
  { unfold restrict. cbn [map]. f_equal. unfold dims.
    pose proof (nth_In (repeat 2 nq) 0 (n := target)) as I. rewrite repeat_length in I.
    specialize (I Ht). apply repeat_spec in I. exact I. }
  assert (Pm : prod_dims (restrict dims [target]) = 2) by (rewrite Td; reflexivity).
  assert (Pr : forall A B, meq 2 2 A B -> meq (prod_dims dims) (prod_dims dims) (insert_mat_kron dims [target] A) (insert_mat_kron dims [target] B)).
  { intros A B E. apply meq_labels. intros l l' Hl Hl'.
    destruct (outside_dec dims [target] l l') as [O|O].
    - destruct (insert_entry dims [target] A l l' ND R Hl Hl') as [-> _]; auto.
      destruct (insert_entry dims [target] B l l' ND R Hl Hl') as [-> _]; auto.
      apply E; rewrite <- Pm; apply pos_lt; apply restrict_valid; auto.
    - destruct (insert_entry dims [target] A l l' ND R Hl Hl') as [_ ->]; auto.
      destruct (insert_entry dims [target] B l l' ND R Hl Hl') as [_ ->]; auto. }
  assert (E : meq (prod_dims dims) (prod_dims dims)
     (time_ordered (prod_dims dims) (map (fun g => insert_mat_kron dims [snd g] (gate2 (fst g))) gs))
     (insert_mat_kron dims [target] (time_ordered 2 (map (fun g => gate2 (fst g)) gs)))).
  { clear P. induction gs as [|g gs IH].
    - cbn [map time_ordered]. symmetry. apply (C30_embedding_algebra dims [target] mid mid ND R).
    - cbn [map time_ordered]. rewrite IH by (intros; apply Hg; right; auto).
      rewrite (Hg g (or_introl eq_refl)).
      destruct (C30_embedding_algebra dims [target] (time_ordered 2 (map (fun g => gate2 (fst g)) gs)) (gate2 (fst g)) ND R) as (M & _).
      rewrite Pm in M. symmetry. exact M. }
  exists c. split; auto. rewrite E, (Pr _ _ P).
  apply meq_labels. intros l l' Hl Hl'.
  assert (I : insert_mat_kron dims [target] mid (pos dims l) (pos dims l') = mid (pos dims l) (pos dims l')).
  { apply (C30_embedding_algebra dims [target] mid mid ND R); apply pos_lt; auto. }
  unfold mscale at 2. rewrite <- I.
  destruct (outside_dec dims [target] l l') as [O|O].
  - destruct (insert_entry dims [target] (mscale c mid) l l' ND R Hl Hl') as [-> _]; auto.
    destruct (insert_entry dims [target] mid l l' ND R Hl Hl') as [-> _]; auto.
  - destruct (insert_entry dims [target] (mscale c mid) l l' ND R Hl Hl') as [_ ->]; auto.
    destruct (insert_entry dims [target] mid l l' ND R Hl Hl') as [_ ->]; auto. ring.
Qed.

(** On a register of [nq] qubits every sequence returned for qubit [target] is the
    identity up to a phase. *)
Theorem C34_sequences_invert_on_register :
  forall nq RB_length target choices seqs, target < nq -> 1 <= RB_length ->
  (forall d, In d choices -> length d = RB_length - 1 /\ forall c, In c d -> c < 24) ->
  single_length_RB RB_length target choices = Ok seqs ->
  let dims := repeat 2 nq in
  length seqs = length choices
  /\ forall gs, In gs seqs ->
     peq (prod_dims dims)
         (time_ordered (prod_dims dims) (map (fun g => insert_mat_kron dims [snd g] (gate2 (fst g))) gs)) mid.
Proof.
  intros nq L target choices seqs Ht HL HC Hs dims.
  destruct (C34_sequences_invert L target choices HL HC) as (seqs' & E & Len & A).
  assert (seqs' = seqs) by congruence. subst seqs'. split; [exact Len|].
  intros gs I. apply (In_nth _ _ []) in I as (k & Hk & <-). rewrite Len in Hk.
  destruct (A k Hk) as (T & _ & P). apply (invert_on_register nq target); assumption.
Qed.
Print Assumptions C34_sequences_invert_on_register.

Theorem C34_zero_length_refused :
  forall target d ds, single_length_RB 0 target (d :: ds) = Err ValueError.
Proof. reflexivity. Qed.

Example C34_example : exists s, single_length_RB 4 0 [[0; 5; 23]; [11; 11; 11]] = Ok s /\ length s = 2.
Proof.
  destruct (C34_sequences_invert 4 0 [[0; 5; 23]; [11; 11; 11]]) as (s & E & L & _); [lia| |eauto].
  intros d [<-|[<-|[]]]; (split; [reflexivity|]); simpl; intuition lia.
Qed.

(** ** C36 *)
Theorem C36_tabulated_gates_unitary :
  forall name g, dget name GATES = Some g -> rows g = cols g /\ unitary (rows g) (ent g).
Proof.
  intros name g H. rewrite gates_get in H. destruct (dget name GATE_LITERALS) as [x|] eqn:E; [|discriminate].
  injection H as <-. split; [reflexivity|]. cbn [lit_smat rows ent].
  assert (K : forallb (fun kv => unitb (length (snd (snd kv))) (snd kv)) GATE_LITERALS = true) by (vm_compute; reflexivity).
  rewrite forallb_forall in K. apply dget_Some_in in E. specialize (K _ E). apply unitb_spec. exact K.
Qed.
Print Assumptions C36_tabulated_gates_unitary.

(** ":".join *)
Fixpoint join_colon (ks : list string) : string :=
  match ks with
  | [] => EmptyString
  | [k] => k
  | k :: r => (k ++ String ":"%char (join_colon r))%string
  end.
Fixpoint no_colon (s : string) : bool :=
  match s with EmptyString => true | String c r => negb (Ascii.eqb c ":"%char) && no_colon r end.

Lemma append_assoc : forall a b c : string, ((a ++ b) ++ c)%string = (a ++ (b ++ c))%string.
Proof. induction a; intros; simpl; congruence. Qed.
Lemma append_nil : forall a : string, (a ++ EmptyString)%string = a.
Proof. induction a; simpl; congruence. Qed.
Lemma split_part : forall k acc r, no_colon k = true ->
  split_colon_aux (k ++ String ":"%char r) acc = (acc ++ k)%string :: split_colon_aux r EmptyString.
Proof.
  induction k as [|c k IH]; intros acc r H; simpl in *.
  - rewrite append_nil. reflexivity.
  - apply andb_true_iff in H. destruct H as [H1 H2]. apply negb_true_iff in H1. rewrite H1, IH by auto.
    rewrite append_assoc. reflexivity.
Qed.
Lemma split_last : forall k acc, no_colon k = true -> split_colon_aux k acc = [(acc ++ k)%string].
Proof.
  induction k as [|c k IH]; intros acc H; simpl in *.
  - rewrite append_nil. reflexivity.
  - apply andb_true_iff in H. destruct H as [H1 H2]. apply negb_true_iff in H1. rewrite H1, IH by auto.
    rewrite append_assoc. reflexivity.
Qed.
Lemma split_join : forall ks, ks <> [] -> (forall k, In k ks -> no_colon k = true) -> split_colon (join_colon ks) = ks.
Proof.
  induction ks as [|k ks IH]; intros Hn H; [congruence|]. unfold split_colon.
  destruct ks as [|k' ks].
  - cbn [join_colon]. rewrite split_last by (apply H; left; auto). reflexivity.
  - change (join_colon (k :: k' :: ks)) with (k ++ String ":"%char (join_colon (k' :: ks)))%string.
    rewrite split_part by (apply H; left; auto). fold (split_colon (join_colon (k' :: ks))).
    rewrite IH; [reflexivity|discriminate|]. intros x Hx. apply H. right; auto.
Qed.

Lemma kron_unitary : forall n m A B, unitary n A -> unitary m B -> unitary (n * m) (kron m m A B).
Proof.
  intros n m A B [A1 A2] [B1 B2]. split.
  - rewrite (kron_madj n n m m), (kron_mmul n n n m m m). rewrite <- kron_id. apply kron_mor; auto.
  - rewrite (kron_madj n n m m), (kron_mmul n n n m m m). rewrite <- kron_id. apply kron_mor; auto.
Qed.

(** The ideal gate of "g1:g2:...:gk" is the Kronecker product of the tabulated
    gates, unitary, and of the product dimension. *)
Theorem C36_joined_names_unitary :
  forall ks, ks <> [] -> (forall k, In k ks -> exists g, dget k GATES = Some g) ->
  let m := set_ideal (join_colon ks) None in
  exists gs, Forall2 (fun k g => dget k GATES = Some g) ks gs
  /\ m = np_kron_n gs /\ rows m = prod_dims (map rows gs) /\ cols m = rows m /\ unitary (rows m) (ent m).
Proof.
  intros ks Hn H m.
  assert (NC : forall k, In k ks -> no_colon k = true).
  { intros k Hk. destruct (H k Hk) as [g Hg]. rewrite gates_get in Hg.
    destruct (dget k GATE_LITERALS) as [x|] eqn:E; [|discriminate]. apply dget_Some_in in E.
    assert (K : forallb (fun kv => no_colon (fst kv)) GATE_LITERALS = true) by (vm_compute; reflexivity).
    rewrite forallb_forall in K. apply (K _ E). }
  assert (G : Forall2 (fun k g => dget k GATES = Some g) ks (known_gates ks)).
  { clear Hn NC m. induction ks as [|k ks IH]; [constructor|]. cbn [known_gates].
    destruct (H k (or_introl eq_refl)) as [g Hg]. rewrite Hg. constructor; auto.
    apply IH. intros; apply H; right; auto. }
  exists (known_gates ks). split; auto. unfold m, set_ideal. rewrite split_join by auto. split; [reflexivity|].
  destruct (kron_shape (known_gates ks)) as [-> ->]. split; [reflexivity|].
  assert (SQ : map cols (known_gates ks) = map rows (known_gates ks)).
  { clear - G. induction G as [|k g ks gs Hg G IH]; [reflexivity|]. simpl. rewrite IH.
    destruct (C36_tabulated_gates_unitary _ _ Hg) as [-> _]. reflexivity. }
  split; [rewrite SQ; reflexivity|].
  assert (U : forall gs acc n, rows acc = n -> cols acc = n -> unitary n (ent acc) ->
     Forall (fun g => rows g = cols g /\ unitary (rows g) (ent g)) gs ->
     unitary (n * prod_dims (map rows gs)) (ent (fold_left skron gs acc))).
  { induction gs as [|g gs IH]; intros acc n R Cc Ua Hg.
    - cbn [map prod_dims fold_right fold_left]. rewrite Nat.mul_1_r. exact Ua.
    - inversion Hg as [|? ? [Sq Ug] Hg']; subst. cbn [map fold_left]. rewrite prod_dims_cons, Nat.mul_assoc.
      apply IH; auto.
      + cbn [skron cols]. congruence.
      + cbn [skron ent]. rewrite <- Sq. apply kron_unitary; auto. }
  specialize (U (known_gates ks) (seye 1 1) 1 eq_refl eq_refl (unitary_id 1)).
  rewrite Nat.mul_1_l in U. apply U. clear - G.
  induction G as [|k g ks gs Hg G IH]; constructor; auto. apply (C36_tabulated_gates_unitary _ _ Hg).
Qed.
Print Assumptions C36_joined_names_unitary.

(** [get_ideal_gate]: an ideal of the dimension of its targets is embedded as a
    unitary of the whole register. *)
Theorem C36_ideal_gate_on_register :
  forall ideal ts nq, NoDup ts -> (forall t, In t ts -> t < nq) ->
  rows ideal = 2 ^ length ts -> cols ideal = 2 ^ length ts -> unitary (2 ^ length ts) (ent ideal) ->
  exists g, get_ideal_gate ideal (Some ts) nq [] = Ok g /\ rows g = 2 ^ nq /\ unitary (2 ^ nq) (ent g)
  /\ forall l l', valid (repeat 2 nq) l -> valid (repeat 2 nq) l' ->
     (forall q, q < nq -> ~ In q ts -> nth q l 0 = nth q l' 0) ->
     ent g (pos (repeat 2 nq) l) (pos (repeat 2 nq) l')
     = ent ideal (pos (repeat 2 (length ts)) (restrict l ts)) (pos (repeat 2 (length ts)) (restrict l' ts)).
Proof.
  intros ideal ts nq ND R Hr Hc U.
  assert (PR : forall n, prod_dims (repeat 2 n) = 2 ^ n).
  { induction n; [reflexivity|]. cbn [repeat]. rewrite prod_dims_cons, IHn. reflexivity. }
  assert (TD : restrict (repeat 2 nq) ts = repeat 2 (length ts)).
  { clear - R. induction ts as [|t ts IH]; [reflexivity|]. cbn [restrict map length repeat]. f_equal.
    - pose proof (nth_In (repeat 2 nq) 0 (n := t)) as I. rewrite repeat_length in I.
      specialize (I (R t (or_introl eq_refl))). apply repeat_spec in I. exact I.
    - apply IH. intros; apply R; right; auto. }
  assert (Rd : forall t, In t ts -> t < length (repeat 2 nq)) by (intros; rewrite repeat_length; auto).
  unfold get_ideal_gate. cbv zeta.
  assert (X : existsb (fun t => Nat.leb nq t) ts = false).
  { destruct (existsb _ ts) eqn:E; auto. apply existsb_exists in E. destruct E as (t & Ht & L).
    apply Nat.leb_le in L. specialize (R t Ht). lia. }
  rewrite X. change (map (fun t => nth t (repeat 2 nq) 0) ts) with (restrict (repeat 2 nq) ts).
  rewrite TD, PR. unfold bcast. rewrite Hr, Hc, Nat.eqb_refl. cbn [orb andb rbind].
  eexists. split; [reflexivity|]. cbn [rows ent]. rewrite PR. split; [reflexivity|].
  set (m := fun i j => ent ideal (if 2 ^ length ts =? 1 then 0 else i) (if 2 ^ length ts =? 1 then 0 else j)).
  assert (M : meq (2 ^ length ts) (2 ^ length ts) m (ent ideal)).
  { intros i j Hi Hj. unfold m. destruct (Nat.eqb_spec (2 ^ length ts) 1) as [E|]; auto.
    rewrite E in Hi, Hj. destruct i; [|lia]. destruct j; [|lia]. reflexivity. }
  split.
  - rewrite <- PR. apply C30_embedded_unitary; auto. rewrite TD, PR.
    destruct U as [U1 U2]. split; rewrite M; auto.
  - intros l l' Hl Hl' O.
    destruct (insert_entry (repeat 2 nq) ts m l l' ND Rd Hl Hl') as [-> _].
    + rewrite TD. rewrite M; auto; rewrite <- PR; apply pos_lt; rewrite <- TD; apply restrict_valid; auto.
    + intros q Hq. rewrite repeat_length in Hq. auto.
Qed.
Print Assumptions C36_ideal_gate_on_register.

(** Finding: a name without any known gate gets the 1x1 matrix [[1]] as its
    ideal, which NumPy broadcasting turns into the all-ones matrix on the
    targets: [get_ideal_gate] returns a matrix that is not unitary instead of
    raising its "No ideal representation" error. *)
Theorem C36_unknown_names_refuted :
  forall name, (forall k, In k (split_colon name) -> dget k GATES = None) ->
  let m := set_ideal name None in
  rows m = 1 /\ cols m = 1
  /\ exists g, get_ideal_gate m (Some [0]) 1 [] = Ok g
     /\ (forall i j, i < 2 -> j < 2 -> ent g i j = RtoC 1) /\ ~ unitary 2 (ent g).
Proof.
  intros name H m.
  assert (Em : m = seye 1 1).
  { unfold m, set_ideal. replace (known_gates (split_colon name)) with (@nil smat); [reflexivity|].
    induction (split_colon name) as [|k ks IH]; [reflexivity|]. cbn [known_gates].
    rewrite (H k (or_introl eq_refl)). apply IH. intros; apply H; right; auto. }
  rewrite Em. split; [reflexivity|]. split; [reflexivity|].
  assert (ND : NoDup [0]) by (constructor; [simpl; tauto|constructor]).
  assert (R : forall t, In t [0] -> t < length [2]) by (intros t [<-|[]]; simpl; lia).
  assert (V : forall i, i < 2 -> valid [2] [i]) by (intros; constructor; [auto|constructor]).
  eexists. split; [reflexivity|]. cbn [ent].
  assert (A : forall i j, i < 2 -> j < 2 ->
     insert_mat_kron (repeat 2 1) [0] (fun _ _ : nat => mid 0 0) i j = RtoC 1).
  { intros i j Hi Hj. change (repeat 2 1) with [2].
    pose proof (insert_entry [2] [0] (fun _ _ => mid 0 0) [i] [j] ND R (V i Hi) (V j Hj)) as [E _].
    replace (pos [2] [i]) with i in E by (simpl; lia). replace (pos [2] [j]) with j in E by (simpl; lia).
    rewrite E; [reflexivity|]. intros q Hq Hi'. simpl in Hq. destruct q; [exfalso; apply Hi'; left; auto|lia]. }
  split.
  - intros i j Hi Hj. apply A; auto.
  - intros [U _]. specialize (U 0 1 ltac:(lia) ltac:(lia)). unfold mmul in U. cbn [csum] in U. unfold madj in U.
    change (seye 1 1).(ent) with mid in U. cbn [seye rows cols Nat.eqb] in U.
    rewrite !A in U by lia. rewrite conj_R in U. unfold mid in U. simpl in U.
    apply (f_equal fst) in U. simpl in U. lra.
Qed.
Print Assumptions C36_unknown_names_refuted.

Example C36_example :
  (exists g, dget "rx90p"%string GATES = Some g) /\ join_colon ["rx90p"; "id"; "cz"]%string = "rx90p:id:cz"%string
  /\ rows (set_ideal "rx90p:id:cz" None) = 16 /\ split_colon "foo:bar" = ["foo"; "bar"]%string
  /\ dget "foo"%string GATES = None.
Proof. repeat split. eexists. reflexivity. Qed.
