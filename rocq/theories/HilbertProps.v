(** C27-C29: labels, embedded operators, ladder operators. *)
From Verif Require Import Base Mat HilbertModel HilbertProofs.
Local Open Scope list_scope.
Local Open Scope nat_scope.
Local Notation length := List.length.

(** C27.  Specification: [valid dims l] says that l has one level per subsystem,
    each below its dimension; [pos dims l] is the Kronecker position
    sum_k l_k * prod_{m>k} dims_m (last subsystem fastest). *)
Theorem C27_index_is_kronecker_position :
  forall dims l, valid dims l ->
  get_state_index dims l = Ok (pos dims l)
  /\ nth_error (labels dims) (pos dims l) = Some l
  /\ pos dims l < prod_dims dims.
Proof.
  intros dims l H. split; [|split].
  - apply index_of_nth; [apply labels_nodup|apply labels_nth; auto].
  - apply labels_nth; auto.
  - apply pos_lt; auto.
Qed.
Print Assumptions C27_index_is_kronecker_position.

Theorem C27_labels_enumerate_every_state_once :
  forall dims,
  NoDup (labels dims) /\ length (labels dims) = prod_dims dims
  /\ (forall l, In l (labels dims) <-> valid dims l)
  /\ (forall i, i < prod_dims dims ->
      exists l, nth_error (labels dims) i = Some l /\ get_state_index dims l = Ok i).
Proof.
  intros dims. split; [apply labels_nodup|]. split; [apply labels_length|]. split; [apply in_labels|].
  intros i Hi. destruct (pos_surj _ _ Hi) as (l & Hl & <-). exists l.
  destruct (C27_index_is_kronecker_position dims l Hl) as (? & ? & _). auto.
Qed.
Print Assumptions C27_labels_enumerate_every_state_once.

(** States outside the space (wrong length or too high level) are refused. *)
Theorem C27_unknown_state_refused :
  forall dims l, ~ valid dims l -> get_state_index dims l = Err ValueError.
Proof. intros dims l H. apply index_of_none. rewrite in_labels. exact H. Qed.
Print Assumptions C27_unknown_state_refused.

Theorem C27_indeces_pointwise :
  forall dims states idx,
  get_state_indeces dims states = Ok idx <-> Forall2 (fun s i => get_state_index dims s = Ok i) states idx.
Proof.
  intros dims. induction states as [|s r IH]; intros idx; cbn [get_state_indeces].
  - split; [intros [= <-]; constructor|intro H; inversion H; auto].
  - destruct (get_state_index dims s) as [i|e] eqn:E; cbn [rbind].
    + destruct (get_state_indeces dims r) as [is|e]; cbn [rbind].
      * split; [intros [= <-]; constructor; auto; apply IH; auto|].
        intro H. inversion H as [|? i' ? is' Hi H']; subst. apply IH in H'. congruence.
      * split; [discriminate|]. intro H. inversion H as [|? i' ? is' Hi H']; subst. apply IH in H'. discriminate.
    + split; [discriminate|]. intro H. inversion H; subst. congruence.
Qed.
Print Assumptions C27_indeces_pointwise.

Example C27_example :
  get_state_index [3; 2; 4] [2; 1; 3] = Ok 23 /\ get_state_index [3; 2; 4] [1; 0; 2] = Ok 10
  /\ get_state_index [3; 2; 4] [1; 2; 2] = Err ValueError.
Proof. repeat split. Qed.

(** C28 *)
Theorem C28_embedded_operator :
  forall op k dims, k < length dims ->
  exists m, hilbert_space_kron op k dims = Ok m
  /\ rows m = prod_dims dims /\ cols m = prod_dims dims
  /\ forall l l', valid dims l -> valid dims l' ->
     ((forall q, q < length dims -> q <> k -> nth q l 0 = nth q l' 0) ->
        ent m (pos dims l) (pos dims l') = op (nth k l 0) (nth k l' 0))
     /\ ((exists q, q < length dims /\ q <> k /\ nth q l 0 <> nth q l' 0) ->
        ent m (pos dims l) (pos dims l') = RtoC 0).
Proof.
  intros op k dims Hk. exists (np_kron_n (family (one_at k op) 0 dims)).
  destruct (family_shape (one_at k op) 0 dims) as [R Cc].
  destruct (kron_shape (family (one_at k op) 0 dims)) as [R' C']. rewrite R in R'. rewrite Cc in C'.
  split; [apply hsk_family; auto|]. split; [auto|]. split; [auto|].
  intros l l' Hl Hl'. apply one_at_entry; auto.
Qed.
Print Assumptions C28_embedded_operator.

Theorem C28_bad_index_refused :
  forall op k dims, length dims <= k -> hilbert_space_kron op k dims = Err C3Error.
Proof. intros op k dims H. unfold hilbert_space_kron. destruct (Nat.leb_spec (length dims) k); auto; lia. Qed.
Print Assumptions C28_bad_index_refused.

(** Embedding respects products, adjoints and the identity, and operators on
    different subsystems commute. *)
Theorem C28_embedding_algebra :
  forall dims k A B eA eB eAB eAd e1, k < length dims ->
  let d := nth k dims 0 in let N := prod_dims dims in
  hilbert_space_kron A k dims = Ok eA -> hilbert_space_kron B k dims = Ok eB ->
  hilbert_space_kron (mmul d A B) k dims = Ok eAB -> hilbert_space_kron (madj A) k dims = Ok eAd ->
  hilbert_space_kron mid k dims = Ok e1 ->
  meq N N (mmul N (ent eA) (ent eB)) (ent eAB) /\ meq N N (madj (ent eA)) (ent eAd) /\ meq N N (ent e1) mid.
Proof.
  intros dims k A B eA eB eAB eAd e1 Hk d N. rewrite !hsk_family by auto.
  intros [= <-] [= <-] [= <-] [= <-] [= <-]. split; [|split].
  - unfold N. rewrite family_mul. apply family_ext. intros q Hq. unfold one_at.
    destruct (Nat.eqb_spec q k) as [->|E]; [reflexivity|]. apply mmul_id_l.
  - unfold N. rewrite family_adj. apply family_ext. intros q Hq. unfold one_at.
    destruct (Nat.eqb_spec q k) as [->|E]; [reflexivity|]. apply madj_id.
  - apply meq_labels. intros l l' Hl Hl'. rewrite family_kron by auto. unfold mid at 2.
    destruct (Nat.eqb_spec (pos dims l) (pos dims l')) as [E|E].
    + apply pos_inj in E; auto. subst l'. apply cprod_one. intros i Hi. unfold one_at, mid.
      destruct (Nat.eqb i k); rewrite Nat.eqb_refl; reflexivity.
    + destruct (differ_dec (length dims) l l' (fun _ => true)) as [H|(m & Hm & _ & D)].
      * exfalso. apply E. f_equal. apply nth_ext with (d := 0) (d' := 0).
        -- rewrite (valid_length _ _ Hl), (valid_length _ _ Hl'). reflexivity.
        -- intros q Hq. apply H; auto. rewrite <- (valid_length _ _ Hl). exact Hq.
      * apply (cprod_zero _ _ m); auto. unfold one_at, mid.
        destruct (Nat.eqb m k); destruct (Nat.eqb_spec (nth m l 0) (nth m l' 0)); auto; contradiction.
Qed.
Print Assumptions C28_embedding_algebra.

Theorem C28_different_subsystems_commute :
  forall dims k k' A B eA eB, k < length dims -> k' < length dims -> k <> k' ->
  let N := prod_dims dims in
  hilbert_space_kron A k dims = Ok eA -> hilbert_space_kron B k' dims = Ok eB ->
  meq N N (mmul N (ent eA) (ent eB)) (mmul N (ent eB) (ent eA)).
Proof.
  intros dims k k' A B eA eB Hk Hk' Hne N. rewrite !hsk_family by auto. intros [= <-] [= <-].
  unfold N. rewrite !family_mul. apply family_ext. intros q Hq. unfold one_at.
  destruct (Nat.eqb_spec q k) as [E|E]; destruct (Nat.eqb_spec q k') as [E'|E'].
  - congruence.
  - rewrite mmul_id_l, mmul_id_r. reflexivity.
  - rewrite mmul_id_l, mmul_id_r. reflexivity.
  - reflexivity.
Qed.
Print Assumptions C28_different_subsystems_commute.

Example C28_example :
  exists m, hilbert_space_kron (fun i j => RtoC (INR (10 * i + j))) 1 [2; 3] = Ok m
  /\ ent m 4 5 = RtoC (INR 12) /\ ent m 1 5 = RtoC 0.
Proof.
  destruct (C28_embedded_operator (fun i j => RtoC (INR (10 * i + j))) 1 [2; 3] ltac:(simpl; lia))
    as (m & E & _ & _ & H).
  exists m. split; [exact E|].
  assert (V : forall a b, a < 2 -> b < 3 -> valid [2; 3] [a; b]) by (intros; constructor; [auto|]; constructor; [auto|]; constructor).
  split.
  - destruct (H [1; 1] [1; 2] (V 1 1 ltac:(lia) ltac:(lia)) (V 1 2 ltac:(lia) ltac:(lia))) as [H1 _].
    apply H1. intros q Hq Hn. simpl in Hq. destruct q as [|[|q]]; simpl; auto; lia.
  - destruct (H [0; 1] [1; 2] (V 0 1 ltac:(lia) ltac:(lia)) (V 1 2 ltac:(lia) ltac:(lia))) as [_ H1].
    apply H1. exists 0. simpl. repeat split; lia.
Qed.

(** C29 *)
Lemma lowering_number : forall d, 
  meq d d (mmul d (madj lowering) lowering) (fun i j => if Nat.eqb i j then RtoC (INR i) else RtoC 0).
Proof.
  intros d i j Hi Hj. unfold mmul, madj, lowering.
  destruct i as [|i].
  - rewrite csum_0.
    + destruct j; simpl; auto.
    + intros l Hl. simpl. rewrite conj_R. ring.
  - rewrite (csum_single d i); [|lia|].
    + rewrite Nat.eqb_refl. destruct (Nat.eqb_spec j (S i)) as [->|E].
      * rewrite Nat.eqb_refl, conj_R, <- RtoC_mult, sqrt_sqrt by apply pos_INR. reflexivity.
      * destruct (Nat.eqb_spec (S i) j); [congruence|]. ring.
    + intros l Hl E. destruct (Nat.eqb_spec (S i) (S l)); [congruence|]. rewrite conj_R. ring.
Qed.
Lemma lowering_anti : forall d,
  meq d d (mmul d lowering (madj lowering))
      (fun i j => if Nat.eqb i j then (if Nat.eqb (S i) d then RtoC 0 else RtoC (INR (S i))) else RtoC 0).
Proof.
  intros d i j Hi Hj. unfold mmul, madj, lowering.
  destruct (Nat.eqb_spec (S i) d) as [E|E].
  - rewrite csum_0.
    + destruct (Nat.eqb i j); auto.
    + intros l Hl. destruct (Nat.eqb_spec l (S i)); [lia|]. ring.
  - rewrite (csum_single d (S i)); [|lia|].
    + rewrite Nat.eqb_refl. destruct (Nat.eqb_spec i j) as [->|E'].
      * rewrite Nat.eqb_refl, conj_R, <- RtoC_mult, sqrt_sqrt by apply pos_INR. reflexivity.
      * destruct (Nat.eqb_spec (S i) (S j)); [congruence|]. rewrite conj_R. ring.
    + intros l Hl E'. destruct (Nat.eqb_spec l (S i)); [congruence|]. ring.
Qed.

(** Lowering by one with weight sqrt(n): the element between l and l' is
    sqrt(l'_k) when l' is l with level k raised by one, and 0 otherwise. *)
Theorem C29_annihilator_lowers :
  forall dims k a, k < length dims -> ann_oper dims k = Ok a ->
  forall l l', valid dims l -> valid dims l' ->
  (nth k l' 0 = S (nth k l 0) /\ (forall q, q < length dims -> q <> k -> nth q l 0 = nth q l' 0) ->
     ent a (pos dims l) (pos dims l') = RtoC (sqrt (INR (nth k l' 0))))
  /\ (~ (nth k l' 0 = S (nth k l 0) /\ (forall q, q < length dims -> q <> k -> nth q l 0 = nth q l' 0)) ->
     ent a (pos dims l) (pos dims l') = RtoC 0).
Proof.
  intros dims k a Hk. unfold ann_oper. rewrite hsk_family by auto. intros [= <-] l l' Hl Hl'.
  destruct (one_at_entry lowering k dims l l' Hk Hl Hl') as [H1 H2]. split.
  - intros [E H]. rewrite H1 by auto. unfold lowering. rewrite E, Nat.eqb_refl. reflexivity.
  - intros N. destruct (differ_dec (length dims) l l' (fun q => negb (Nat.eqb q k))) as [H|(m & Hm & HP & D)].
    + assert (H' : forall q, q < length dims -> q <> k -> nth q l 0 = nth q l' 0).
      { intros q Hq Hn. apply H; auto. destruct (Nat.eqb_spec q k); auto; contradiction. }
      rewrite H1 by auto. unfold lowering. destruct (Nat.eqb_spec (nth k l' 0) (S (nth k l 0))); auto.
      exfalso. apply N. auto.
    + apply H2. exists m. split; auto. split; auto. destruct (Nat.eqb_spec m k); [discriminate|auto].
Qed.
Print Assumptions C29_annihilator_lowers.

Lemma diag_embed : forall dims k (f : nat -> C) l l', k < length dims -> valid dims l -> valid dims l' ->
  ent (np_kron_n (family (one_at k (fun i j => if Nat.eqb i j then f i else RtoC 0)) 0 dims)) (pos dims l) (pos dims l')
  = if list_eqb l l' then f (nth k l 0) else RtoC 0.
Proof.
  intros dims k f l l' Hk Hl Hl'.
  destruct (one_at_entry (fun i j => if Nat.eqb i j then f i else RtoC 0) k dims l l' Hk Hl Hl') as [H1 H2].
  destruct (differ_dec (length dims) l l' (fun q => negb (Nat.eqb q k))) as [H|(m & Hm & HP & D)].
  - assert (H' : forall q, q < length dims -> q <> k -> nth q l 0 = nth q l' 0).
    { intros q Hq Hn. apply H; auto. destruct (Nat.eqb_spec q k); auto; contradiction. }
    rewrite H1 by auto. destruct (Nat.eqb_spec (nth k l 0) (nth k l' 0)) as [E|E].
    + assert (l = l').
      { apply nth_ext with (d := 0) (d' := 0).
        - rewrite (valid_length _ _ Hl), (valid_length _ _ Hl'). auto.
        - intros q Hq. rewrite (valid_length _ _ Hl) in Hq. destruct (Nat.eq_dec q k) as [->|]; auto. }
      subst. rewrite (proj2 (list_eqb_eq l' l')); auto.
    + destruct (list_eqb l l') eqn:E'; auto. apply list_eqb_eq in E'. congruence.
  - rewrite H2.
    + destruct (list_eqb l l') eqn:E'; auto. apply list_eqb_eq in E'. congruence.
    + exists m. split; auto. split; auto. destruct (Nat.eqb_spec m k); [discriminate|auto].
Qed.

(** The number operator a+ a is diagonal and reads the level of subsystem k. *)
Theorem C29_number_operator :
  forall dims k a, k < length dims -> ann_oper dims k = Ok a ->
  let N := prod_dims dims in
  forall l l', valid dims l -> valid dims l' ->
  mmul N (madj (ent a)) (ent a) (pos dims l) (pos dims l')
  = if list_eqb l l' then RtoC (INR (nth k l 0)) else RtoC 0.
Proof.
  intros dims k a Hk Ha N l l' Hl Hl'. unfold ann_oper in Ha. rewrite hsk_family in Ha by auto.
  injection Ha as <-. pose proof (pos_lt _ _ Hl). pose proof (pos_lt _ _ Hl').
  assert (E : meq N N (mmul N (madj (ent (np_kron_n (family (one_at k lowering) 0 dims))))
                              (ent (np_kron_n (family (one_at k lowering) 0 dims))))
     (ent (np_kron_n (family (one_at k (fun i j => if Nat.eqb i j then RtoC (INR i) else RtoC 0)) 0 dims)))).
  { unfold N. rewrite family_adj, family_mul. apply family_ext. intros q Hq. unfold one_at.
    destruct (Nat.eqb_spec q k) as [->|].
    - apply lowering_number.
    - rewrite mmul_id_r. apply madj_id. }
  rewrite (E _ _ H H0). rewrite (diag_embed dims k (fun i => RtoC (INR i))); auto.
Qed.
Print Assumptions C29_number_operator.

(** [a, a+] = 1 except on the top level, where truncation gives 1 - d. *)
Theorem C29_commutator :
  forall dims k a, k < length dims -> ann_oper dims k = Ok a ->
  let N := prod_dims dims in
  forall l l', valid dims l -> valid dims l' ->
  msub (mmul N (ent a) (madj (ent a))) (mmul N (madj (ent a)) (ent a)) (pos dims l) (pos dims l')
  = if list_eqb l l' then
      (if Nat.eqb (S (nth k l 0)) (nth k dims 0) then RtoC (1 - INR (nth k dims 0)) else RtoC 1)
    else RtoC 0.
Proof.
  intros dims k a Hk Ha N l l' Hl Hl'. unfold msub.
  unfold N. rewrite (C29_number_operator dims k a Hk Ha l l' Hl Hl'). fold N.
  unfold ann_oper in Ha. rewrite hsk_family in Ha by auto. injection Ha as <-.
  pose proof (pos_lt _ _ Hl) as H. pose proof (pos_lt _ _ Hl') as H0.
  set (f := fun i => if Nat.eqb (S i) (nth k dims 0) then RtoC 0 else RtoC (INR (S i))).
  assert (E : meq N N (mmul N (ent (np_kron_n (family (one_at k lowering) 0 dims)))
                              (madj (ent (np_kron_n (family (one_at k lowering) 0 dims)))))
     (ent (np_kron_n (family (one_at k (fun i j => if Nat.eqb i j then f i else RtoC 0)) 0 dims)))).
  { unfold N. rewrite family_adj, family_mul. apply family_ext. intros q Hq. unfold one_at.
    destruct (Nat.eqb_spec q k) as [->|].
    - apply lowering_anti.
    - rewrite mmul_id_l. apply madj_id. }
  rewrite (E _ _ H H0). rewrite (diag_embed dims k f); auto.
  destruct (list_eqb l l'); [|ring]. unfold f.
  destruct (Nat.eqb_spec (S (nth k l 0)) (nth k dims 0)) as [D|D].
  - rewrite <- D, S_INR, <- RtoC_minus. f_equal. ring.
  - rewrite S_INR, <- RtoC_minus. f_equal. ring.
Qed.
Print Assumptions C29_commutator.

Theorem C29_different_subsystems_commute :
  forall dims k k' a b, k < length dims -> k' < length dims -> k <> k' ->
  ann_oper dims k = Ok a -> ann_oper dims k' = Ok b ->
  let N := prod_dims dims in
  meq N N (mmul N (ent a) (ent b)) (mmul N (ent b) (ent a))
  /\ meq N N (mmul N (ent a) (madj (ent b))) (mmul N (madj (ent b)) (ent a)).
Proof.
  intros dims k k' a b Hk Hk' Hne Ha Hb N. split.
  - apply (C28_different_subsystems_commute dims k k' lowering lowering); auto.
  - unfold ann_oper in *. rewrite hsk_family in Ha, Hb by auto. injection Ha as <-. injection Hb as <-.
    pose proof (C28_different_subsystems_commute dims k k' lowering (madj lowering)
      _ _ Hk Hk' Hne (hsk_family _ _ _ Hk) (hsk_family _ _ _ Hk')) as E. cbv zeta in E. fold N in E.
    assert (A : meq N N (madj (ent (np_kron_n (family (one_at k' lowering) 0 dims))))
                        (ent (np_kron_n (family (one_at k' (madj lowering)) 0 dims)))).
    { unfold N. rewrite family_adj. apply family_ext. intros q Hq. unfold one_at.
      destruct (Nat.eqb q k'); [reflexivity|apply madj_id]. }
    rewrite A. exact E.
Qed.
Print Assumptions C29_different_subsystems_commute.

Example C29_example :
  exists a, ann_oper [2; 3] 1 = Ok a /\ ent a (pos [2; 3] [1; 1]) (pos [2; 3] [1; 2]) = RtoC (sqrt 2)
  /\ ent a (pos [2; 3] [0; 1]) (pos [2; 3] [1; 2]) = RtoC 0.
Proof.
  assert (Hk : 1 < length [2; 3]) by (simpl; lia).
  exists (np_kron_n (family (one_at 1 lowering) 0 [2; 3])).
  assert (E : ann_oper [2; 3] 1 = Ok (np_kron_n (family (one_at 1 lowering) 0 [2; 3]))) by (apply hsk_family; auto).
  split; [exact E|].
  assert (V : forall a b, a < 2 -> b < 3 -> valid [2; 3] [a; b]) by (intros; constructor; [auto|]; constructor; [auto|]; constructor).
  split.
  - destruct (C29_annihilator_lowers _ _ _ Hk E [1; 1] [1; 2] (V 1 1 ltac:(lia) ltac:(lia)) (V 1 2 ltac:(lia) ltac:(lia))) as [H _].
    rewrite H.
    + simpl. do 2 f_equal.
    + split; auto. intros q Hq Hn. simpl in Hq. destruct q as [|[|q]]; simpl; auto; lia.
  - destruct (C29_annihilator_lowers _ _ _ Hk E [0; 1] [1; 2] (V 0 1 ltac:(lia) ltac:(lia)) (V 1 2 ltac:(lia) ltac:(lia))) as [_ H].
    apply H. intros [_ X]. specialize (X 0 ltac:(simpl; lia) ltac:(lia)). simpl in X. lia.
Qed.
