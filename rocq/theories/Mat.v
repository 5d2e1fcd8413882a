(** Complex matrices as functions of two indices; every operation takes the
    dimensions it needs and equality [meq n m] compares the entries in range.
    This is the mathematical vocabulary of the models of the TensorFlow and NumPy
    matrix code (tf.matmul, tf.linalg.adjoint, tf.linalg.trace, np.kron, ...).
    Floating point numbers are taken to be exact complex numbers. *)
From Coq Require Export Reals Lra.
From Coq Require Import Lia Arith Bool Setoid Morphisms.
From Coquelicot Require Export Complex.
Local Open Scope C_scope.

(** ** Finite sums *)
Fixpoint csum (n : nat) (f : nat -> C) : C :=
  match n with 0%nat => RtoC 0 | S k => csum k f + f k end.

Lemma csum_ext : forall n f g, (forall i, (i < n)%nat -> f i = g i) -> csum n f = csum n g.
Proof. induction n; simpl; intros; auto. rewrite (IHn f g), H; auto. Qed.

Lemma csum_0 : forall n f, (forall i, (i < n)%nat -> f i = RtoC 0) -> csum n f = RtoC 0.
Proof. induction n; simpl; intros; auto. rewrite IHn, H; auto. ring. Qed.

Lemma csum_plus : forall n f g, csum n (fun i => f i + g i) = csum n f + csum n g.
Proof. induction n; simpl; intros; [ring|]. rewrite IHn. ring. Qed.

Lemma csum_opp : forall n f, csum n (fun i => - f i) = - csum n f.
Proof. induction n; simpl; intros; [ring|]. rewrite IHn. ring. Qed.

Lemma csum_scale : forall n c f, csum n (fun i => c * f i) = c * csum n f.
Proof. induction n; simpl; intros; [ring|]. rewrite IHn. ring. Qed.

Lemma csum_scale_r : forall n c f, csum n (fun i => f i * c) = csum n f * c.
Proof. induction n; simpl; intros; [ring|]. rewrite IHn. ring. Qed.

Lemma csum_swap : forall n m f,
    csum n (fun i => csum m (fun j => f i j)) = csum m (fun j => csum n (fun i => f i j)).
Proof.
  induction n; simpl; intros.
  - symmetry. apply csum_0; auto.
  - rewrite IHn, <- csum_plus. reflexivity.
Qed.

Lemma csum_single : forall n k f, (k < n)%nat ->
    (forall i, (i < n)%nat -> i <> k -> f i = RtoC 0) -> csum n f = f k.
Proof.
  induction n; simpl; intros k f Hk H; [lia|].
  destruct (Nat.eq_dec k n) as [->|E].
  - rewrite csum_0; [ring|]. intros; apply H; lia.
  - rewrite (IHn k f); [|lia|intros; apply H; lia]. rewrite (H n); [ring|lia|lia].
Qed.

Lemma csum_delta_l : forall n k f, (k < n)%nat ->
    csum n (fun i => (if Nat.eqb k i then RtoC 1 else RtoC 0) * f i) = f k.
Proof.
  intros. rewrite (csum_single n k); auto.
  - rewrite Nat.eqb_refl. ring.
  - intros i Hi E. destruct (Nat.eqb_spec k i); [congruence|ring].
Qed.
Lemma csum_delta_r : forall n k f, (k < n)%nat ->
    csum n (fun i => f i * (if Nat.eqb i k then RtoC 1 else RtoC 0)) = f k.
Proof.
  intros. rewrite (csum_single n k); auto.
  - rewrite Nat.eqb_refl. ring.
  - intros i Hi E. destruct (Nat.eqb_spec i k); [congruence|ring].
Qed.

Lemma csum_app : forall n m f, csum (n + m) f = csum n f + csum m (fun i => f (n + i)%nat).
Proof.
  intros n m f. induction m; simpl.
  - rewrite Nat.add_0_r. ring.
  - rewrite Nat.add_succ_r. simpl. rewrite IHm. ring.
Qed.

Lemma csum_prod : forall n m f,
    csum (n * m) f = csum n (fun i => csum m (fun j => f (i * m + j)%nat)).
Proof.
  induction n; intros; auto.
  change (S n * m)%nat with (m + n * m)%nat. rewrite Nat.add_comm, csum_app, IHn. reflexivity.
Qed.

Lemma csum_head : forall n f, csum (S n) f = f 0%nat + csum n (fun i => f (S i)).
Proof. intros. change (S n) with (1 + n)%nat. rewrite csum_app. simpl. ring. Qed.

Lemma csum_const : forall n c, csum n (fun _ => c) = RtoC (INR n) * c.
Proof.
  induction n; intros; cbn [csum].
  - simpl. ring.
  - rewrite IHn, S_INR, RtoC_plus. ring.
Qed.

(** ** Conjugation *)
Lemma conj_plus : forall a b, Cconj (a + b) = Cconj a + Cconj b.
Proof. intros. unfold Cconj, Cplus. simpl. f_equal; ring. Qed.
Lemma conj_mult : forall a b, Cconj (a * b) = Cconj a * Cconj b.
Proof. intros. unfold Cconj, Cmult. simpl. f_equal; ring. Qed.
Lemma conj_opp : forall a, Cconj (- a) = - Cconj a.
Proof. intros. unfold Cconj, Copp. simpl. f_equal; ring. Qed.
Lemma conj_minus : forall a b, Cconj (a - b) = Cconj a - Cconj b.
Proof. intros. unfold Cminus. rewrite conj_plus, conj_opp. auto. Qed.
Lemma conj_conj : forall a, Cconj (Cconj a) = a.
Proof. intros [x y]. unfold Cconj. simpl. f_equal; ring. Qed.
Lemma conj_R : forall r, Cconj (RtoC r) = RtoC r.
Proof. intros. unfold Cconj, RtoC. simpl. f_equal; ring. Qed.
Lemma conj_i : Cconj Ci = - Ci.
Proof. unfold Cconj, Ci, Copp. simpl. f_equal; ring. Qed.
Lemma conj_sum : forall n f, Cconj (csum n f) = csum n (fun i => Cconj (f i)).
Proof. induction n; simpl; intros. apply conj_R. rewrite conj_plus, IHn. auto. Qed.
Lemma Ci_sqr : Ci * Ci = - RtoC 1.
Proof. unfold Ci, Cmult, Copp, RtoC. simpl. f_equal; ring. Qed.
Lemma conj_mod2 : forall a, Cconj a * a = RtoC (Cmod a ^ 2)%R.
Proof.
  intros [x y]. unfold Cmod. rewrite pow2_sqrt by (simpl; nra).
  unfold Cconj, Cmult, RtoC. simpl. f_equal; ring.
Qed.
Lemma conj_mod : forall a, Cmod (Cconj a) = Cmod a.
Proof. intros [x y]. unfold Cmod, Cconj. simpl. f_equal. ring. Qed.
Lemma C_ext : forall a b : C, fst a = fst b -> snd a = snd b -> a = b.
Proof. intros [x y] [u v]; simpl; congruence. Qed.

(** ** Matrices *)
Definition mat := nat -> nat -> C.
Definition meq (n m : nat) (A B : mat) : Prop :=
  forall i j, (i < n)%nat -> (j < m)%nat -> A i j = B i j.

Definition mzero : mat := fun _ _ => RtoC 0.
Definition mid : mat := fun i j => if Nat.eqb i j then RtoC 1 else RtoC 0.
Definition madd (A B : mat) : mat := fun i j => A i j + B i j.
Definition mopp (A : mat) : mat := fun i j => - A i j.
Definition msub (A B : mat) : mat := fun i j => A i j - B i j.
Definition mscale (c : C) (A : mat) : mat := fun i j => c * A i j.
(** (n x k) times (k x m) *)
Definition mmul (k : nat) (A B : mat) : mat := fun i j => csum k (fun l => A i l * B l j).
Definition mtrans (A : mat) : mat := fun i j => A j i.
Definition mconj (A : mat) : mat := fun i j => Cconj (A i j).
Definition madj (A : mat) : mat := fun i j => Cconj (A j i).
Definition mtrace (n : nat) (A : mat) : C := csum n (fun i => A i i).
(** [kron p q A B] with B of shape p x q. *)
Definition kron (p q : nat) (A B : mat) : mat :=
  fun i j => A (i / p)%nat (j / q)%nat * B (i mod p)%nat (j mod q)%nat.
Fixpoint mpow (n : nat) (A : mat) (k : nat) : mat :=
  match k with 0%nat => mid | S k' => mmul n (mpow n A k') A end.
Fixpoint msum (k : nat) (f : nat -> mat) : mat :=
  match k with 0%nat => mzero | S k' => madd (msum k' f) (f k') end.

Definition hermitian (n : nat) (A : mat) : Prop := meq n n (madj A) A.
Definition unitary (n : nat) (U : mat) : Prop :=
  meq n n (mmul n (madj U) U) mid /\ meq n n (mmul n U (madj U)) mid.

Global Instance meq_equiv : forall n m, Equivalence (meq n m).
Proof.
  intros n m. split.
  - intros A i j _ _. reflexivity.
  - intros A B H i j Hi Hj. symmetry; auto.
  - intros A B D H1 H2 i j Hi Hj. rewrite H1; auto.
Qed.

Global Instance madd_proper : forall n m, Proper (meq n m ==> meq n m ==> meq n m) madd.
Proof. intros n m A A' HA B B' HB i j Hi Hj. unfold madd. rewrite HA, HB; auto. Qed.
Global Instance msub_proper : forall n m, Proper (meq n m ==> meq n m ==> meq n m) msub.
Proof. intros n m A A' HA B B' HB i j Hi Hj. unfold msub. rewrite HA, HB; auto. Qed.
Global Instance mopp_proper : forall n m, Proper (meq n m ==> meq n m) mopp.
Proof. intros n m A A' HA i j Hi Hj. unfold mopp. rewrite HA; auto. Qed.
Global Instance mscale_proper : forall n m, Proper (eq ==> meq n m ==> meq n m) mscale.
Proof. intros n m c c' -> A A' HA i j Hi Hj. unfold mscale. rewrite HA; auto. Qed.
Lemma mmul_mor : forall n k m A A' B B', meq n k A A' -> meq k m B B' ->
    meq n m (mmul k A B) (mmul k A' B').
Proof.
  intros n k m A A' B B' HA HB i j Hi Hj. unfold mmul. apply csum_ext. intros l Hl.
  rewrite HA, HB; auto.
Qed.
Global Instance mmul_proper : forall n, Proper (meq n n ==> meq n n ==> meq n n) (mmul n).
Proof. intros n A A' HA B B' HB. apply mmul_mor; auto. Qed.
Global Instance madj_proper : forall n, Proper (meq n n ==> meq n n) madj.
Proof. intros n A A' HA i j Hi Hj. unfold madj. rewrite HA; auto. Qed.
Global Instance mtrans_proper : forall n, Proper (meq n n ==> meq n n) mtrans.
Proof. intros n A A' HA i j Hi Hj. unfold mtrans. rewrite HA; auto. Qed.
Global Instance mconj_proper : forall n m, Proper (meq n m ==> meq n m) mconj.
Proof. intros n m A A' HA i j Hi Hj. unfold mconj. rewrite HA; auto. Qed.
Global Instance mtrace_proper : forall n, Proper (meq n n ==> eq) (mtrace n).
Proof. intros n A A' HA. unfold mtrace. apply csum_ext. intros; apply HA; auto. Qed.

Lemma meq_ext : forall n m (A B : mat), (forall i j, A i j = B i j) -> meq n m A B.
Proof. intros n m A B H i j _ _. apply H. Qed.

Lemma mmul_assoc : forall n m k l A B D,
    meq n m (mmul l A (mmul k B D)) (mmul k (mmul l A B) D).
Proof.
  intros n m k l A B D i j _ _. unfold mmul.
  transitivity (csum l (fun a => csum k (fun b => A i a * (B a b * D b j)))).
  - apply csum_ext. intros. rewrite csum_scale. reflexivity.
  - rewrite csum_swap. apply csum_ext. intros.
    rewrite <- csum_scale_r. apply csum_ext. intros; ring.
Qed.
Lemma mmul_id_l : forall n m A, meq n m (mmul n mid A) A.
Proof. intros n m A i j Hi Hj. unfold mmul, mid. apply (csum_delta_l n i (fun l => A l j)); auto. Qed.
Lemma mmul_id_r : forall n m A, meq n m (mmul m A mid) A.
Proof. intros n m A i j Hi Hj. unfold mmul, mid. apply (csum_delta_r m j (fun l => A i l)); auto. Qed.
Lemma mmul_add_l : forall n m k A B D, meq n m (mmul k A (madd B D)) (madd (mmul k A B) (mmul k A D)).
Proof.
  intros; intros i j _ _. unfold mmul, madd. rewrite <- csum_plus. apply csum_ext; intros; ring.
Qed.
Lemma mmul_add_r : forall n m k A B D, meq n m (mmul k (madd A B) D) (madd (mmul k A D) (mmul k B D)).
Proof.
  intros; intros i j _ _. unfold mmul, madd. rewrite <- csum_plus. apply csum_ext; intros; ring.
Qed.
Lemma mmul_sub_l : forall n m k A B D, meq n m (mmul k A (msub B D)) (msub (mmul k A B) (mmul k A D)).
Proof.
  intros; intros i j _ _. unfold mmul, msub, Cminus. rewrite <- csum_opp, <- csum_plus.
  apply csum_ext; intros; ring.
Qed.
Lemma mmul_sub_r : forall n m k A B D, meq n m (mmul k (msub A B) D) (msub (mmul k A D) (mmul k B D)).
Proof.
  intros; intros i j _ _. unfold mmul, msub, Cminus. rewrite <- csum_opp, <- csum_plus.
  apply csum_ext; intros; ring.
Qed.
Lemma mmul_scale_l : forall n m k c A B, meq n m (mmul k (mscale c A) B) (mscale c (mmul k A B)).
Proof.
  intros; intros i j _ _. unfold mmul, mscale. rewrite <- csum_scale. apply csum_ext; intros; ring.
Qed.
Lemma mmul_scale_r : forall n m k c A B, meq n m (mmul k A (mscale c B)) (mscale c (mmul k A B)).
Proof.
  intros; intros i j _ _. unfold mmul, mscale. rewrite <- csum_scale. apply csum_ext; intros; ring.
Qed.
Lemma mmul_zero_l : forall n m k A, meq n m (mmul k mzero A) mzero.
Proof. intros; intros i j _ _. unfold mmul, mzero. apply csum_0. intros; ring. Qed.
Lemma mmul_zero_r : forall n m k A, meq n m (mmul k A mzero) mzero.
Proof. intros; intros i j _ _. unfold mmul, mzero. apply csum_0. intros; ring. Qed.

Lemma madj_mmul : forall n m k A B, meq n m (madj (mmul k A B)) (mmul k (madj B) (madj A)).
Proof.
  intros; intros i j _ _. unfold madj, mmul. rewrite conj_sum. apply csum_ext. intros.
  rewrite conj_mult. ring.
Qed.
Lemma madj_add : forall n m A B, meq n m (madj (madd A B)) (madd (madj A) (madj B)).
Proof. intros; intros i j _ _. unfold madj, madd. apply conj_plus. Qed.
Lemma madj_sub : forall n m A B, meq n m (madj (msub A B)) (msub (madj A) (madj B)).
Proof. intros; intros i j _ _. unfold madj, msub. apply conj_minus. Qed.
Lemma madj_scale : forall n m c A, meq n m (madj (mscale c A)) (mscale (Cconj c) (madj A)).
Proof. intros; intros i j _ _. unfold madj, mscale. apply conj_mult. Qed.
Lemma madj_madj : forall n m A, meq n m (madj (madj A)) A.
Proof. intros; intros i j _ _. unfold madj. apply conj_conj. Qed.
Lemma madj_id : forall n m, meq n m (madj mid) mid.
Proof.
  intros; intros i j _ _. unfold madj, mid. rewrite Nat.eqb_sym.
  destruct (Nat.eqb i j); apply conj_R.
Qed.
Lemma madj_zero : forall n m, meq n m (madj mzero) mzero.
Proof. intros; intros i j _ _. apply conj_R. Qed.
Lemma mtrans_mmul : forall n m k A B, meq n m (mtrans (mmul k A B)) (mmul k (mtrans B) (mtrans A)).
Proof. intros; intros i j _ _. unfold mtrans, mmul. apply csum_ext. intros; ring. Qed.

Lemma mtrace_mmul : forall n m A B, mtrace n (mmul m A B) = mtrace m (mmul n B A).
Proof.
  intros. unfold mtrace, mmul. rewrite csum_swap. apply csum_ext. intros. apply csum_ext. intros; ring.
Qed.
Lemma mtrace_add : forall n A B, mtrace n (madd A B) = mtrace n A + mtrace n B.
Proof. intros. apply csum_plus. Qed.
Lemma mtrace_sub : forall n A B, mtrace n (msub A B) = mtrace n A - mtrace n B.
Proof. intros. unfold mtrace, msub, Cminus. rewrite csum_plus, csum_opp. auto. Qed.
Lemma mtrace_scale : forall n c A, mtrace n (mscale c A) = c * mtrace n A.
Proof. intros. apply csum_scale. Qed.
Lemma mtrace_id : forall n, mtrace n mid = RtoC (INR n).
Proof.
  intros. unfold mtrace. rewrite (csum_ext _ _ (fun _ => RtoC 1)).
  - rewrite csum_const. ring.
  - intros. unfold mid. rewrite Nat.eqb_refl. auto.
Qed.
Lemma mtrace_adj : forall n A, mtrace n (madj A) = Cconj (mtrace n A).
Proof. intros. unfold mtrace. rewrite conj_sum. reflexivity. Qed.
Lemma mtrace_zero : forall n, mtrace n mzero = RtoC 0.
Proof. intros. apply csum_0. auto. Qed.

Lemma divmod_lt : forall i n p, (i < n * p)%nat -> (i / p < n /\ i mod p < p)%nat.
Proof.
  intros i n p H. assert (p <> 0)%nat by (destruct p; lia). split.
  - apply Nat.div_lt_upper_bound; lia.
  - apply Nat.mod_upper_bound; auto.
Qed.
Lemma divmod_add : forall i j p, (j < p)%nat -> ((i * p + j) / p = i /\ (i * p + j) mod p = j)%nat.
Proof.
  intros i j p H. split.
  - rewrite Nat.div_add_l, Nat.div_small; lia.
  - rewrite Nat.add_comm, Nat.mod_add, Nat.mod_small; lia.
Qed.
Lemma kron_mor : forall n m p q A A' B B', meq n m A A' -> meq p q B B' ->
    meq (n * p) (m * q) (kron p q A B) (kron p q A' B').
Proof.
  intros n m p q A A' B B' HA HB i j Hi Hj. unfold kron.
  destruct (divmod_lt _ _ _ Hi), (divmod_lt _ _ _ Hj). rewrite HA, HB; auto.
Qed.
Lemma kron_mmul : forall n m k p q r A B X Y,
    meq (n * p) (m * q)
        (mmul (k * r) (kron p r A B) (kron r q X Y))
        (kron p q (mmul k A X) (mmul r B Y)).
Proof.
  intros n m k p q r A B X Y i j Hi Hj. unfold mmul, kron.
  rewrite csum_prod, <- csum_scale_r. apply csum_ext. intros a Ha.
  rewrite <- csum_scale. apply csum_ext. intros b Hb.
  destruct (divmod_add a b r Hb) as [-> ->]. ring.
Qed.
Lemma kron_id : forall n p, meq (n * p) (n * p) (kron p p mid mid) mid.
Proof.
  intros n p i j Hi Hj. unfold kron, mid.
  destruct (divmod_lt _ _ _ Hi), (divmod_lt _ _ _ Hj).
  assert (p <> 0)%nat by lia.
  destruct (Nat.eqb_spec i j) as [->|E].
  - rewrite !Nat.eqb_refl. ring.
  - destruct (Nat.eqb_spec (i / p) (j / p)); destruct (Nat.eqb_spec (i mod p) (j mod p)); try ring.
    exfalso. apply E. rewrite (Nat.div_mod i p), (Nat.div_mod j p) by auto. congruence.
Qed.
Lemma kron_madj : forall n m p q A B,
    meq (n * p) (m * q) (madj (kron q p A B)) (kron p q (madj A) (madj B)).
Proof. intros; intros i j Hi Hj. unfold madj, kron. apply conj_mult. Qed.
Lemma kron_assoc : forall n m p q r s A B D,
    meq (n * p * r) (m * q * s)
        (kron r s (kron p q A B) D) (kron (p * r) (q * s) A (kron r s B D)).
Proof.
  intros n m p q r s A B D i j Hi Hj. unfold kron.
  assert (H : forall x a b c, (x < a * b * c)%nat ->
     (x / c / b = x / (b * c) /\ (x / c) mod b = (x mod (b * c)) / c /\ x mod c = (x mod (b * c)) mod c)%nat).
  { clear. intros x a b c H. assert (b <> 0 /\ c <> 0)%nat as [Hb Hc] by (split; intro; subst; lia).
    assert (E : (x = c * (b * (x / c / b) + (x / c) mod b) + x mod c)%nat).
    { rewrite <- Nat.div_mod by auto. apply Nat.div_mod; auto. }
    assert (H1 : (x / (b * c) = x / c / b)%nat).
    { rewrite (Nat.mul_comm b c). symmetry. apply Nat.div_div; auto. }
    assert (H2 : (x mod (b * c) = c * ((x / c) mod b) + x mod c)%nat).
    { rewrite (Nat.mod_eq x (b * c)) by nia. rewrite H1.
      set (u := (x / c / b)%nat) in *. set (v := ((x / c) mod b)%nat) in *. set (w := (x mod c)%nat) in *.
      clearbody u v w. nia. }
    assert (H3 : (x mod c < c)%nat) by (apply Nat.mod_upper_bound; auto).
    split; [auto|]. rewrite H2.
    rewrite (Nat.mul_comm c). destruct (divmod_add ((x / c) mod b) (x mod c) c H3) as [-> ->]. auto. }
  destruct (H i n p r Hi) as (-> & -> & ->). destruct (H j m q s Hj) as (-> & -> & ->). ring.
Qed.
Lemma kron_add_l : forall n m p q A B D,
    meq n m (kron p q (madd A B) D) (madd (kron p q A D) (kron p q B D)).
Proof. intros; intros i j _ _. unfold kron, madd. ring. Qed.
Lemma kron_add_r : forall n m p q A B D,
    meq n m (kron p q A (madd B D)) (madd (kron p q A B) (kron p q A D)).
Proof. intros; intros i j _ _. unfold kron, madd. ring. Qed.

Lemma msum_entry : forall k f i j, msum k f i j = csum k (fun l => f l i j).
Proof. induction k; simpl; intros; auto. unfold madd. rewrite IHk. auto. Qed.

(** ** Ring tactic helpers: pointwise reasoning *)
Ltac mat_pointwise :=
  intros; let i := fresh "i" in let j := fresh "j" in intros i j ? ?;
  unfold madd, msub, mopp, mscale, mzero; try ring.

Lemma madd_comm : forall n m A B, meq n m (madd A B) (madd B A).
Proof. mat_pointwise. Qed.
Lemma madd_assoc : forall n m A B D, meq n m (madd A (madd B D)) (madd (madd A B) D).
Proof. mat_pointwise. Qed.
Lemma madd_zero_l : forall n m A, meq n m (madd mzero A) A.
Proof. mat_pointwise. Qed.
Lemma madd_zero_r : forall n m A, meq n m (madd A mzero) A.
Proof. mat_pointwise. Qed.
Lemma mscale_mscale : forall n m a b A, meq n m (mscale a (mscale b A)) (mscale (a * b) A).
Proof. mat_pointwise. Qed.
Lemma mscale_add : forall n m a A B, meq n m (mscale a (madd A B)) (madd (mscale a A) (mscale a B)).
Proof. mat_pointwise. Qed.
Lemma mscale_1 : forall n m A, meq n m (mscale (RtoC 1) A) A.
Proof. mat_pointwise. Qed.

(** ** Unitary matrices *)
Lemma unitary_id : forall n, unitary n mid.
Proof.
  intros n. split.
  - rewrite mmul_id_r. apply madj_id.
  - rewrite mmul_id_l. apply madj_id.
Qed.
Lemma unitary_mmul : forall n U V, unitary n U -> unitary n V -> unitary n (mmul n U V).
Proof.
  intros n U V [U1 U2] [V1 V2]. split.
  - rewrite madj_mmul. rewrite <- mmul_assoc. rewrite (mmul_assoc n n n n (madj U) U V).
    rewrite U1, mmul_id_l. exact V1.
  - rewrite madj_mmul. rewrite <- mmul_assoc. rewrite (mmul_assoc n n n n V (madj V) (madj U)).
    rewrite V2, mmul_id_l. exact U2.
Qed.
Lemma unitary_madj : forall n U, unitary n U -> unitary n (madj U).
Proof.
  intros n U [U1 U2]. split; rewrite madj_madj; auto.
Qed.
Global Instance unitary_proper : forall n, Proper (meq n n ==> iff) (unitary n).
Proof.
  intros n A B H. unfold unitary. rewrite H. tauto.
Qed.
Global Instance hermitian_proper : forall n, Proper (meq n n ==> iff) (hermitian n).
Proof. intros n A B H. unfold hermitian. rewrite H. tauto. Qed.
