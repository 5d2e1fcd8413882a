(** Proofs about the dephasing channel. *)
From Coq Require Import Reals Lra Lia Setoid Morphisms.
From Coquelicot Require Import Coquelicot.
From Verif Require Import Base Mat MExp HilbertModel HilbertProofs HilbertProps PropModel PropProofs SuperProofs.
Local Open Scope list_scope.
Local Open Scope C_scope.
Local Notation length := List.length.

(** The parity operator (-1)^n of subsystem [q] in the product basis. *)
Definition parity (dims : list nat) (q : nat) : mat :=
  fun i j => if Nat.eqb i j then RtoC ((-1) ^ nth q (nth i (labels dims) []) 0%nat)%R else RtoC 0.

Lemma expi_pi : forall k, expi (PI * INR k) = RtoC ((-1) ^ k)%R.
Proof.
  induction k.
  - replace (PI * INR 0)%R with 0%R by (simpl; ring). apply expi_0.
  - rewrite S_INR, Rmult_plus_distr_l, Rmult_1_r, expi_add, IHk. cbn [pow].
    rewrite RtoC_mult. rewrite Cmult_comm. f_equal. unfold expi. rewrite cos_PI, sin_PI. reflexivity.
Qed.

Lemma parity_exp : forall dims q a, (q < length dims)%nat -> ann_oper dims q = Ok a ->
    let n := prod_dims dims in
    meq n n (mexp n (mscale (RtoC PI) (mscale Ci (mmul n (madj (ent a)) (ent a))))) (parity dims q).
Proof.
  intros dims q a Hq Ha n.
  set (lab := fun i => nth i (labels dims) []).
  assert (LL : forall l, valid dims l -> lab (pos dims l) = l).
  { intros l V. unfold lab. apply nth_error_nth. apply labels_nth; auto. }
  rewrite (mexp_diag n _ (fun i => (PI * INR (nth q (lab i) 0%nat))%R)).
  - intros i j Hi Hj. unfold parity. destruct (Nat.eqb i j); [|reflexivity]. apply expi_pi.
  - apply meq_labels. intros l l' Hl Hl'. unfold mscale. unfold n.
    rewrite (C29_number_operator dims q a Hq Ha l l' Hl Hl').
    destruct (Nat.eqb_spec (pos dims l) (pos dims l')) as [E|E].
    + apply pos_inj in E; auto. subst l'. rewrite (proj2 (list_eqb_eq l l) eq_refl), LL by auto.
      rewrite RtoC_mult. ring.
    + destruct (list_eqb l l') eqn:Y; [apply list_eqb_eq in Y; congruence|]. ring.
Qed.

Lemma parity_sq : forall k, ((-1) ^ k * (-1) ^ k = 1)%R.
Proof. induction k; cbn [pow]; [ring|]. replace (-1 * (-1) ^ k * (-1 * (-1) ^ k))%R with ((-1)^k * (-1)^k)%R by ring. exact IHk. Qed.
Lemma parity_unitary : forall dims q, unitary (prod_dims dims) (parity dims q).
Proof.
  intros dims q.
  assert (H : forall n, meq n n (mmul n (parity dims q) (parity dims q)) mid).
  { intros n i j Hi Hj. unfold mmul, parity, mid.
    rewrite (csum_single n i); [|exact Hi|].
    - rewrite Nat.eqb_refl. destruct (Nat.eqb i j); [|ring].
      rewrite <- RtoC_mult, parity_sq. reflexivity.
    - intros k Hk E. destruct (Nat.eqb_spec i k); [congruence|ring]. }
  assert (S : forall n, meq n n (madj (parity dims q)) (parity dims q)).
  { intros n i j _ _. unfold madj, parity. rewrite (Nat.eqb_sym j i).
    destruct (Nat.eqb_spec i j) as [->|E]; apply conj_R. }
  split; rewrite S; apply H.
Qed.

Definition diagonal (N : nat) (A : mat) : Prop :=
  forall i j, (i < N)%nat -> (j < N)%nat -> i <> j -> A i j = RtoC 0.
Lemma had_diag : forall N A B, diagonal N A -> diagonal N B -> meq N N (had A B) (mmul N B A).
Proof.
  intros N A B HA HB i j Hi Hj. unfold had, mmul. destruct (Nat.eq_dec i j) as [<-|E].
  - rewrite (csum_single N i); [ring|exact Hi|]. intros k Hk Ek. rewrite (HA k i) by auto. ring.
  - rewrite (HA i j) by auto. symmetry. rewrite csum_0; [ring|]. intros k Hk.
    destruct (Nat.eq_dec i k) as [<-|Ek]; [rewrite (HA i j) by auto|rewrite (HB i k) by auto]; ring.
Qed.
Lemma diag_had : forall N A B, diagonal N A -> diagonal N (had A B).
Proof. intros N A B HA i j Hi Hj E. unfold had. rewrite HA by auto. ring. Qed.
Lemma diag_mor : forall N A B, meq N N A B -> diagonal N A -> diagonal N B.
Proof. intros N A B H HA i j Hi Hj E. rewrite <- (H i j Hi Hj). auto. Qed.
Lemma diag_id : forall N, diagonal N mid.
Proof. intros N i j _ _ E. unfold mid. destruct (Nat.eqb_spec i j); [congruence|reflexivity]. Qed.
Lemma diag_kron : forall n A B, diagonal n A -> diagonal n B -> diagonal (n * n) (kron n n A B).
Proof.
  intros n A B HA HB i j Hi Hj E. unfold kron.
  destruct (divmod_lt _ _ _ Hi), (divmod_lt _ _ _ Hj).
  destruct (Nat.eq_dec (i / n) (j / n)) as [E1|E1].
  - destruct (Nat.eq_dec (i mod n) (j mod n)) as [E2|E2].
    + exfalso. apply E. assert (n <> 0)%nat by (intro; subst; lia).
      rewrite (Nat.div_mod i n), (Nat.div_mod j n), E1, E2 by assumption. reflexivity.
    + rewrite (HB (i mod n) (j mod n))%nat by auto. ring.
  - rewrite (HA (i / n) (j / n))%nat by auto. ring.
Qed.
Lemma diag_super : forall n A, diagonal n A -> diagonal (n * n) (tf_super n A).
Proof.
  intros n A HA. eapply diag_mor; [symmetry; apply super_kron|]. apply diag_kron; [exact HA|].
  intros i j Hi Hj E. unfold mconj. rewrite HA by auto. apply conj_R.
Qed.
Lemma diag_parity : forall dims q N, diagonal N (parity dims q).
Proof. intros dims q N i j _ _ E. unfold parity. destruct (Nat.eqb_spec i j); [congruence|reflexivity]. Qed.

(** One dephasing step: with probability [p] the parity of [q] is applied. *)
Definition dephase (dims : list nat) (q : nat) (p : R) (rho : mat) : mat :=
  let n := prod_dims dims in
  madd (mscale (RtoC (1 - p)) rho)
       (mscale (RtoC p) (mmul n (mmul n (parity dims q) rho) (madj (parity dims q)))).

Lemma in_unit_spec : forall p, in_unit p = true <-> (0 <= p <= 1)%R.
Proof. intro p. unfold in_unit. destruct (Rle_dec 0 p), (Rle_dec p 1); split; intro H; try discriminate; try lra; reflexivity. Qed.

Lemma factor_spec : forall dims q p ch, (q < length dims)%nat -> dephasing_factor dims q p = Ok ch ->
    let n := prod_dims dims in
    (0 <= p <= 1)%R /\ diagonal (n * n) ch /\
    forall X, meq (n * n) 1 (mmul (n * n) ch (row_stack n X)) (row_stack n (dephase dims q p X)).
Proof.
  intros dims q p ch Hq H n. unfold dephasing_factor in H.
  destruct (ann_oper dims q) as [a|] eqn:Ha; [|discriminate]. cbn [rbind] in H. cbv zeta in H.
  destruct (in_unit p) eqn:Hp; [|discriminate]. apply in_unit_spec in Hp. injection H as <-.
  pose proof (parity_exp dims q a Hq Ha) as PE. cbv zeta in PE. fold n in PE.
  set (Z := mexp n _) in *. fold n. fold Z.
  split; [exact Hp|]. split.
  - eapply diag_mor.
    { rewrite (super_mor n Z _ PE). reflexivity. }
    intros i j Hi Hj E. unfold madd, mscale.
    rewrite (diag_super n mid (diag_id n) i j Hi Hj E).
    rewrite (diag_super n _ (diag_parity dims q n) i j Hi Hj E). ring.
  - intro X. unfold dephase. rewrite mmul_add_r, !mmul_scale_l, !super_row_stack. fold n.
    rewrite row_stack_add, !row_stack_scale. apply madd_proper; (apply mscale_proper; [reflexivity|]); apply row_stack_mor.
    + rewrite madj_id, mmul_id_l, mmul_id_r. reflexivity.
    + rewrite PE. reflexivity.
Qed.

Lemma str_index_lt : forall x l q, str_index x l = Ok q -> (q < length l)%nat.
Proof.
  induction l as [|y l IH]; intros q H; cbn [str_index] in H; [discriminate|].
  destruct (String.eqb x y); [injection H as <-; cbn; lia|].
  destruct (str_index x l) as [k|] eqn:E; [|discriminate]. cbn [rbind] in H. injection H as <-.
  specialize (IH k eq_refl). cbn. lia.
Qed.
