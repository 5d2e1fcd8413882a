(** Proofs about superoperators, the Lindblad generator and the dephasing
    channel. *)
From Coq Require Import Reals Lra Lia Setoid Morphisms.
From Coquelicot Require Import Coquelicot.
From Verif Require Import Base Mat MExp MExp2 HilbertModel PropModel PropProofs.
Local Open Scope list_scope.
Local Open Scope C_scope.
Local Notation length := List.length.

(** Row stacking: entry (i, j) goes to position i * n + j. *)
Definition row_stack (n : nat) (X : mat) : mat := fun k _ => X (k / n)%nat (k mod n)%nat.
Definition row_unstack (n : nat) (v : mat) : mat := fun i j => v (i * n + j)%nat 0%nat.

Lemma row_stack_mor : forall n X Y, meq n n X Y -> meq (n * n) 1 (row_stack n X) (row_stack n Y).
Proof. intros n X Y H k j Hk _. unfold row_stack. destruct (divmod_lt _ _ _ Hk). apply H; assumption. Qed.
Lemma row_unstack_stack : forall n X, meq n n (row_unstack n (row_stack n X)) X.
Proof. intros n X i j Hi Hj. unfold row_unstack, row_stack. destruct (divmod_add i j n Hj) as [-> ->]. reflexivity. Qed.
Lemma row_unstack_mor : forall n v w, meq (n * n) 1 v w -> meq n n (row_unstack n v) (row_unstack n w).
Proof. intros n v w H i j Hi Hj. unfold row_unstack. apply H; [|lia]. nia. Qed.
Lemma row_stack_unstack : forall n v, meq (n * n) 1 (row_stack n (row_unstack n v)) v.
Proof.
  intros n v k j Hk Hj. unfold row_unstack, row_stack. assert (j = 0)%nat by lia. subst j.
  rewrite (Nat.mul_comm (k / n)). rewrite <- Nat.div_mod; [reflexivity|]. intro E; subst n; lia.
Qed.
Lemma row_stack_inj : forall n X Y, meq (n * n) 1 (row_stack n X) (row_stack n Y) -> meq n n X Y.
Proof. intros n X Y H. rewrite <- (row_unstack_stack n X), <- (row_unstack_stack n Y).
  apply row_unstack_mor, H. Qed.

Lemma kron_row_stack : forall n A B X,
    meq (n * n) 1 (mmul (n * n) (kron n n A B) (row_stack n X))
                  (row_stack n (mmul n (mmul n A X) (mtrans B))).
Proof.
  intros n A B X k j Hk _. unfold row_stack at 2. destruct (divmod_lt _ _ _ Hk) as [H1 H2].
  set (a := (k / n)%nat) in *. set (b := (k mod n)%nat) in *.
  unfold mmul at 1. rewrite csum_prod. unfold mmul, mtrans.
  transitivity (csum n (fun p => csum n (fun q => A a p * X p q * B b q))).
  - apply csum_ext. intros p Hp. apply csum_ext. intros q Hq. unfold kron, row_stack.
    destruct (divmod_add p q n Hq) as [-> ->]. fold a b. ring.
  - rewrite csum_swap. apply csum_ext. intros q Hq. symmetry. rewrite <- csum_scale_r.
    apply csum_ext. intros; ring.
Qed.

Lemma mtrans_id : forall n, meq n n (mtrans mid) mid.
Proof. intros n i j _ _. unfold mtrans, mid. rewrite Nat.eqb_sym. reflexivity. Qed.
Lemma mtrans_mtrans : forall n A, meq n n (mtrans (mtrans A)) A.
Proof. intros n A i j _ _. reflexivity. Qed.

Lemma spre_row_stack : forall n A X,
    meq (n * n) 1 (mmul (n * n) (tf_spre n A) (row_stack n X)) (row_stack n (mmul n A X)).
Proof. intros. unfold tf_spre. rewrite kron_row_stack. apply row_stack_mor.
  rewrite mtrans_id, mmul_id_r. reflexivity. Qed.
Lemma spost_row_stack : forall n A X,
    meq (n * n) 1 (mmul (n * n) (tf_spost n A) (row_stack n X)) (row_stack n (mmul n X A)).
Proof. intros. unfold tf_spost. rewrite kron_row_stack. apply row_stack_mor.
  rewrite mtrans_mtrans, mmul_id_l. reflexivity. Qed.

Lemma super_kron : forall n A, meq (n * n) (n * n) (tf_super n A) (kron n n A (mconj A)).
Proof.
  intros n A. unfold tf_super, tf_spre, tf_spost. rewrite kron_mmul.
  apply kron_mor; [apply mmul_id_r|]. rewrite mmul_id_l. intros i j _ _. reflexivity.
Qed.
Lemma mmul_mor_l : forall n k m A A' B, meq n k A A' -> meq n m (mmul k A B) (mmul k A' B).
Proof. intros. apply mmul_mor; [assumption|reflexivity]. Qed.
Lemma mmul_mor_r : forall n k m A B B', meq k m B B' -> meq n m (mmul k A B) (mmul k A B').
Proof. intros. apply mmul_mor; [reflexivity|assumption]. Qed.

Lemma super_row_stack : forall n U X,
    meq (n * n) 1 (mmul (n * n) (tf_super n U) (row_stack n X))
                  (row_stack n (mmul n (mmul n U X) (madj U))).
Proof.
  intros n U X. rewrite (mmul_mor_l _ _ _ _ _ _ (super_kron n U)), kron_row_stack.
  apply row_stack_mor. reflexivity.
Qed.
Lemma super_mmul : forall n U V, meq (n * n) (n * n) (tf_super n (mmul n U V))
    (mmul (n * n) (tf_super n U) (tf_super n V)).
Proof.
  intros. rewrite !super_kron, kron_mmul. apply kron_mor; [reflexivity|].
  intros i j _ _. unfold mconj, mmul. rewrite conj_sum. apply csum_ext. intros. apply conj_mult.
Qed.
Lemma mconj_id : forall n, meq n n (mconj mid) mid.
Proof. intros n i j _ _. unfold mconj, mid. destruct (Nat.eqb i j); apply conj_R. Qed.
Lemma super_id : forall n, meq (n * n) (n * n) (tf_super n mid) mid.
Proof. intro n. rewrite super_kron. transitivity (kron n n mid mid); [|apply kron_id].
  apply kron_mor; [reflexivity|apply mconj_id]. Qed.
Lemma super_mor : forall n U V, meq n n U V -> meq (n * n) (n * n) (tf_super n U) (tf_super n V).
Proof. intros n U V H. rewrite !super_kron. apply kron_mor; [exact H|]. rewrite H. reflexivity. Qed.
Lemma super_adj : forall n U, meq (n * n) (n * n) (madj (tf_super n U)) (tf_super n (madj U)).
Proof.
  intros n U. rewrite !super_kron, (kron_madj n n n n). apply kron_mor; [reflexivity|].
  intros i j _ _. reflexivity.
Qed.
Lemma super_unitary : forall n U, unitary n U -> unitary (n * n) (tf_super n U).
Proof.
  intros n U [H1 H2]. split; rewrite super_adj, <- super_mmul.
  - rewrite (super_mor n _ _ H1). apply super_id.
  - rewrite (super_mor n _ _ H2). apply super_id.
Qed.

(** ** The Lindblad generator *)
Lemma row_stack_add : forall n X Y, meq (n * n) 1 (row_stack n (madd X Y)) (madd (row_stack n X) (row_stack n Y)).
Proof. intros n X Y i j _ _. reflexivity. Qed.
Lemma row_stack_sub : forall n X Y, meq (n * n) 1 (row_stack n (msub X Y)) (msub (row_stack n X) (row_stack n Y)).
Proof. intros n X Y i j _ _. reflexivity. Qed.
Lemma row_stack_scale : forall n c X, meq (n * n) 1 (row_stack n (mscale c X)) (mscale c (row_stack n X)).
Proof. intros n c X i j _ _. reflexivity. Qed.

Lemma lind_op_add_row : forall n X L d c,
    meq (n * n) 1 (mmul (n * n) L (row_stack n X)) (row_stack n d) ->
    meq (n * n) 1 (mmul (n * n) (lind_op_add n L c) (row_stack n X))
                  (row_stack n (lindblad_add n X d c)).
Proof.
  intros n X L d c H. unfold lind_op_add, lindblad_add, anticommutator.
  rewrite !mmul_sub_r, mmul_add_r, !mmul_scale_l, H.
  rewrite row_stack_sub, row_stack_add, row_stack_scale, row_stack_add.
  assert (E1 : meq (n * n) 1 (mmul (n * n) (mmul (n * n) (tf_spre n c) (tf_spost n (madj c))) (row_stack n X))
                   (row_stack n (mmul n (mmul n c X) (madj c)))).
  { rewrite <- (mmul_assoc _ _ _ (n * n)), (mmul_mor_r _ _ _ _ _ _ (spost_row_stack n (madj c) X)), spre_row_stack.
    apply row_stack_mor. apply mmul_assoc. }
  assert (E2 : meq (n * n) 1 (mmul (n * n) (mmul (n * n) (tf_spre n (madj c)) (tf_spre n c)) (row_stack n X))
                   (row_stack n (mmul n (mmul n (madj c) c) X))).
  { rewrite <- (mmul_assoc _ _ _ (n * n)), (mmul_mor_r _ _ _ _ _ _ (spre_row_stack n c X)), spre_row_stack.
    apply row_stack_mor. apply mmul_assoc. }
  assert (E3 : meq (n * n) 1 (mmul (n * n) (mmul (n * n) (tf_spost n c) (tf_spost n (madj c))) (row_stack n X))
                   (row_stack n (mmul n X (mmul n (madj c) c)))).
  { rewrite <- (mmul_assoc _ _ _ (n * n)), (mmul_mor_r _ _ _ _ _ _ (spost_row_stack n (madj c) X)), spost_row_stack.
    apply row_stack_mor. symmetry. apply mmul_assoc. }
  rewrite E1, E2, E3. intros i j _ _. unfold msub, madd, mscale. ring.
Qed.

Lemma lind_op_row : forall n h cols X,
    meq (n * n) 1 (mmul (n * n) (lind_op n h cols) (row_stack n X))
                  (row_stack n (lindblad n cols 1 X h)).
Proof.
  intros n h cols X. unfold lind_op, lindblad.
  rewrite row_stack_scale, mscale_1.
  assert (G : forall cols L d, meq (n * n) 1 (mmul (n * n) L (row_stack n X)) (row_stack n d) ->
     meq (n * n) 1 (mmul (n * n) (fold_left (lind_op_add n) cols L) (row_stack n X))
                   (row_stack n (fold_left (lindblad_add n X) cols d))).
  { induction cols0 as [|c cs IH]; intros L d H; [exact H|]. cbn [fold_left].
    apply IH, lind_op_add_row, H. }
  apply G. rewrite mmul_scale_l, mmul_sub_r, spre_row_stack, spost_row_stack.
  rewrite row_stack_scale. unfold commutator. rewrite row_stack_sub. reflexivity.
Qed.

Lemma lindblad_dt : forall n cols dt X h,
    meq n n (lindblad n cols dt X h) (mscale (RtoC dt) (lindblad n cols 1 X h)).
Proof. intros. unfold lindblad. rewrite mscale_1. reflexivity. Qed.

Lemma mat_row_ext : forall N L L', (forall v, meq N 1 (mmul N L v) (mmul N L' v)) -> meq N N L L'.
Proof.
  intros N L L' H i j Hi Hj.
  specialize (H (fun k _ => if Nat.eqb k j then RtoC 1 else RtoC 0) i 0%nat Hi (Nat.lt_0_succ 0)).
  unfold mmul in H. rewrite !csum_delta_r in H by assumption. exact H.
Qed.

Lemma clp_term_ok : forall n c L, meq (n * n) (n * n) (lind_op_add n L c) (madd L (clp_term n c)).
Proof.
  intros n c L. unfold lind_op_add, clp_term.
  assert (E1 : meq (n * n) (n * n) (madj (kron n n mid (mtrans c))) (tf_spost n (madj c))).
  { rewrite (kron_madj n n n n). unfold tf_spost. apply kron_mor; [apply madj_id|].
    intros i j _ _. reflexivity. }
  assert (E2 : meq (n * n) (n * n) (madj (kron n n c mid)) (tf_spre n (madj c))).
  { rewrite (kron_madj n n n n). unfold tf_spre. apply kron_mor; [reflexivity|apply madj_id]. }
  rewrite E1, E2. intros i j _ _. unfold tf_spre, tf_spost, madd, msub, mscale. ring.
Qed.
Lemma lind_op_vec_ok : forall n h cols, meq (n * n) (n * n) (lind_op_vec n h cols) (lind_op n h cols).
Proof.
  intros n h cols. unfold lind_op_vec, lind_op.
  change (kron n n h mid) with (tf_spre n h). change (kron n n mid (mtrans h)) with (tf_spost n h).
  generalize (mscale (- Ci) (msub (tf_spre n h) (tf_spost n h))) as L.
  induction cols as [|c cs IH]; intro L; cbn [fold_left fold_right].
  - apply madd_zero_r.
  - rewrite madd_assoc, IH.
    assert (P : forall cs L L', meq (n * n) (n * n) L L' ->
       meq (n * n) (n * n) (fold_left (lind_op_add n) cs L) (fold_left (lind_op_add n) cs L')).
    { clear. induction cs as [|c cs IH]; intros L L' H; [exact H|]. cbn [fold_left]. apply IH.
      unfold lind_op_add. rewrite H. reflexivity. }
    apply P. symmetry. apply clp_term_ok.
Qed.

(** *** Conservation laws of exp(dt L) *)
Lemma trace_row_stack : forall n X,
    csum (n * n) (fun k => (if Nat.eqb (k / n) (k mod n) then RtoC 1 else RtoC 0) * row_stack n X k 0%nat)
    = mtrace n X.
Proof.
  intros n X. rewrite csum_prod. unfold mtrace. apply csum_ext. intros i Hi.
  transitivity (csum n (fun j => (if Nat.eqb j i then RtoC 1 else RtoC 0) * X i j)).
  - apply csum_ext. intros j Hj. unfold row_stack. destruct (divmod_add i j n Hj) as [-> ->].
    rewrite Nat.eqb_sym. reflexivity.
  - rewrite (csum_ext n _ (fun j => X i j * (if Nat.eqb j i then RtoC 1 else RtoC 0))) by (intros; ring).
    apply csum_delta_r. exact Hi.
Qed.
Lemma trace_unstack : forall n v,
    csum (n * n) (fun k => (if Nat.eqb (k / n) (k mod n) then RtoC 1 else RtoC 0) * v k 0%nat)
    = mtrace n (row_unstack n v).
Proof.
  intros n v. rewrite <- trace_row_stack. apply csum_ext. intros k Hk.
  rewrite (row_stack_unstack n v k 0%nat Hk (Nat.lt_0_succ 0)). reflexivity.
Qed.

Lemma gen_trace_row : forall n h cols dt j, (j < n * n)%nat ->
    csum (n * n) (fun k => (if Nat.eqb (k / n) (k mod n) then RtoC 1 else RtoC 0)
                           * mscale (RtoC dt) (lind_op n h cols) k j) = RtoC 0.
Proof.
  intros n h cols dt j Hj.
  set (e := fun k (_ : nat) => if Nat.eqb k j then RtoC 1 else RtoC 0).
  assert (E : meq (n * n) 1 (fun k _ => lind_op n h cols k j)
                (row_stack n (lindblad n cols 1 (row_unstack n e) h))).
  { rewrite <- lind_op_row, (mmul_mor_r _ _ _ _ _ _ (row_stack_unstack n e)).
    intros k l Hk _. unfold mmul, e. rewrite csum_delta_r by exact Hj. reflexivity. }
  transitivity (RtoC dt * csum (n * n) (fun k => (if Nat.eqb (k / n) (k mod n) then RtoC 1 else RtoC 0)
                           * row_stack n (lindblad n cols 1 (row_unstack n e) h) k 0%nat)).
  - rewrite <- csum_scale. apply csum_ext. intros k Hk.
    rewrite <- (E k 0%nat Hk (Nat.lt_0_succ 0)). unfold mscale. ring.
  - rewrite trace_row_stack, mtrace_lindblad. ring.
Qed.

(** The evolved state: unstack (exp(dt L) (stack rho)). *)
Definition lind_evolve (n : nat) (h : mat) (cols : list mat) (dt : R) (rho : mat) : mat :=
  row_unstack n (mmul (n * n) (lind_slice n h cols dt) (row_stack n rho)).

Lemma lind_slice_eq : forall n h cols dt,
    meq (n * n) (n * n) (lind_slice n h cols dt) (mexp (n * n) (mscale (RtoC dt) (lind_op n h cols))).
Proof. intros. unfold lind_slice. apply mexp_proper. rewrite lind_op_vec_ok. reflexivity. Qed.

Lemma lind_evolve_trace : forall n h cols dt rho, mtrace n (lind_evolve n h cols dt rho) = mtrace n rho.
Proof.
  intros. unfold lind_evolve. rewrite <- trace_unstack, <- trace_row_stack.
  unfold mmul.
  set (tr := fun k => if Nat.eqb (k / n) (k mod n) then RtoC 1 else RtoC 0).
  transitivity (csum (n * n) (fun l => csum (n * n) (fun k => tr k * lind_slice n h cols dt k l) * row_stack n rho l 0%nat)).
  - transitivity (csum (n * n) (fun k => csum (n * n) (fun l => tr k * (lind_slice n h cols dt k l * row_stack n rho l 0%nat)))).
    + apply csum_ext. intros k Hk. fold (tr k). rewrite csum_scale. reflexivity.
    + rewrite csum_swap. apply csum_ext. intros l Hl. rewrite <- csum_scale_r. apply csum_ext. intros; ring.
  - apply csum_ext. intros l Hl. fold (tr l). f_equal.
    transitivity (csum (n * n) (fun k => tr k * mexp (n * n) (mscale (RtoC dt) (lind_op n h cols)) k l)).
    + apply csum_ext. intros k Hk. rewrite (lind_slice_eq n h cols dt k l Hk Hl). reflexivity.
    + apply mexp_row; [|exact Hl]. intros j Hj. apply gen_trace_row, Hj.
Qed.

(** Powers of the generator keep Hermiticity. *)
Lemma gen_pow_herm : forall n h cols dt rho, hermitian n h -> hermitian n rho -> forall k,
    exists X, hermitian n X /\
      meq (n * n) 1 (mmul (n * n) (mpow (n * n) (mscale (RtoC dt) (lind_op n h cols)) k) (row_stack n rho))
                    (row_stack n X).
Proof.
  intros n h cols dt rho Hh Hr. induction k as [|k [X [HX E]]].
  - exists rho. split; [exact Hr|]. cbn [mpow]. apply mmul_id_l.
  - exists (lindblad n cols dt X h). split; [apply herm_lindblad; assumption|].
    rewrite (mmul_mor_l _ _ _ _ _ _ (mpow_S_l _ _ k)), <- (mmul_assoc _ _ _ (n * n)), (mmul_mor_r _ _ _ _ _ _ E).
    rewrite mmul_scale_l, lind_op_row, <- row_stack_scale. apply row_stack_mor.
    symmetry. apply lindblad_dt.
Qed.
Lemma lind_evolve_herm : forall n h cols dt rho, hermitian n h -> hermitian n rho ->
    hermitian n (lind_evolve n h cols dt rho).
Proof.
  intros n h cols dt rho Hh Hr i j Hi Hj. unfold madj, lind_evolve, row_unstack, mmul.
  assert (Hij : (i * n + j < n * n)%nat) by nia.
  assert (Hji : (j * n + i < n * n)%nat) by nia.
  set (A := mscale (RtoC dt) (lind_op n h cols)).
  set (v := fun l => row_stack n rho l 0%nat).
  assert (E : forall a, (a < n * n)%nat ->
     csum (n * n) (fun l => lind_slice n h cols dt a l * v l) = csum (n * n) (fun l => mexp (n * n) A a l * v l)).
  { intros a Ha. apply csum_ext. intros l Hl. rewrite (lind_slice_eq n h cols dt a l Ha Hl). reflexivity. }
  fold v. change (Cconj (csum (n * n) (fun l => lind_slice n h cols dt (j * n + i)%nat l * v l))
                  = csum (n * n) (fun l => lind_slice n h cols dt (i * n + j)%nat l * v l)).
  rewrite !E by assumption.
  apply (is_cser_det (fun k => Cconj (csum (n * n) (fun l => taylor_term (n * n) A k (j * n + i)%nat l * v l)))).
  - apply is_cser_conj, mexp_vec, Hji.
  - eapply is_cser_ext; [|apply mexp_vec, Hij].
    intro k. destruct (gen_pow_herm n h cols dt rho Hh Hr k) as [X [HX EX]]. fold A in EX.
    assert (T : forall a, (a < n * n)%nat -> csum (n * n) (fun l => taylor_term (n * n) A k a l * v l)
               = / RtoC (INR (fact k)) * row_stack n X a 0%nat).
    { intros a Ha. rewrite <- (EX a 0%nat Ha (Nat.lt_0_succ 0)). unfold mmul. rewrite <- csum_scale.
      apply csum_ext. intros l Hl. unfold taylor_term, mscale at 1, v. ring. }
    rewrite !T by assumption. unfold row_stack.
    destruct (divmod_add i j n Hj) as [-> ->]. destruct (divmod_add j i n Hi) as [-> ->].
    rewrite conj_mult, <- (HX i j Hi Hj). unfold madj. f_equal.
    rewrite <- RtoC_inv by apply INR_fact_neq_0. symmetry. apply conj_R.
Qed.

(** Without collapse operators the superoperator of a slice is the
    superoperator of the unitary. *)
Lemma kron_scale_l : forall n c A B, meq (n * n) (n * n) (mscale c (kron n n A B)) (kron n n (mscale c A) B).
Proof. intros n c A B i j _ _. unfold mscale, kron. ring. Qed.
Lemma kron_scale_r : forall n c A B, meq (n * n) (n * n) (mscale c (kron n n A B)) (kron n n A (mscale c B)).
Proof. intros n c A B i j _ _. unfold mscale, kron. ring. Qed.

Lemma lind_slice_closed : forall n h dt, hermitian n h ->
    meq (n * n) (n * n) (lind_slice n h [] dt) (tf_super n (mexp n (mscale (- Ci * RtoC dt) h))).
Proof.
  intros n h dt Hh. rewrite lind_slice_eq.
  set (g := mscale (- Ci * RtoC dt) h).
  assert (E : meq (n * n) (n * n) (mscale (RtoC dt) (lind_op n h []))
                (madd (kron n n g mid) (kron n n mid (mconj g)))).
  { unfold lind_op. cbn [fold_left]. intros i j Hi Hj. unfold mscale, msub, madd, g, tf_spre, tf_spost, kron, mscale, mconj, mtrans.
    rewrite conj_mult, conj_mult, conj_opp, conj_i, conj_R.
    destruct (divmod_lt _ _ _ Hi), (divmod_lt _ _ _ Hj).
    rewrite <- (Hh (i mod n) (j mod n))%nat by assumption. unfold madj. rewrite conj_conj. ring. }
  rewrite (mexp_proper _ _ _ E), mexp_commute.
  - rewrite mexp_kron_l, mexp_kron_r, super_kron, kron_mmul. apply kron_mor; [apply mmul_id_r|].
    rewrite mmul_id_l.
    (* exp(conj g) = conj(exp g) *)
    transitivity (mtrans (madj (mexp n g))); [|intros i j _ _; reflexivity].
    rewrite mexp_adj, <- mexp_trans. apply mexp_proper. intros i j _ _. reflexivity.
  - rewrite !kron_mmul. apply kron_mor; [rewrite mmul_id_l, mmul_id_r; reflexivity|].
    rewrite mmul_id_l, mmul_id_r; reflexivity.
Qed.
