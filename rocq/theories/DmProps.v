From Coq Require Import Reals Lra Lia.
From Coquelicot Require Import Complex.
From Verif Require Import Base Mat FidModel DmModel.
Local Open Scope nat_scope.
Local Open Scope C_scope.

(** ** C132: fidelities and expectation values of density matrices *)

(** Independent definitions: <x|A|x>, positive matrices, density matrices, |phi><phi| *)
Definition qform (n : nat) (A : mat) (x : nat -> C) : C := csum n (fun i => csum n (fun j => Cconj (x i) * A i j * x j)).
Definition positive (n : nat) (A : mat) : Prop := hermitian n A /\ forall x, (0 <= fst (qform n A x))%R.
Definition density (n : nat) (A : mat) : Prop := positive n A /\ mtrace n A = RtoC 1.
Definition ket (x : nat -> C) : mat := fun i _ => x i.
Definition outer (x : nat -> C) : mat := fun i j => x i * Cconj (x j).
Definition normalised (n : nat) (x : nat -> C) : Prop := csum n (fun i => Cconj (x i) * x i) = RtoC 1.

Lemma qform_ext : forall n A B x, meq n n A B -> qform n A x = qform n B x.
Proof. intros n A B x H. apply csum_ext. intros i Hi. apply csum_ext. intros j Hj. rewrite (H i j Hi Hj). reflexivity. Qed.
Lemma qform_mmul : forall n A psi, mmul n (mmul n (madj psi) A) psi 0%nat 0%nat = qform n A (fun i => psi i 0%nat).
Proof.
  intros n A psi. unfold mmul, qform, madj. rewrite csum_swap. apply csum_ext. intros j Hj. rewrite <- csum_scale_r. reflexivity.
Qed.
Lemma qform_real : forall n A x, hermitian n A -> snd (qform n A x) = 0%R.
Proof.
  intros n A x H. assert (E : Cconj (qform n A x) = qform n A x).
  { unfold qform. rewrite conj_sum. rewrite csum_swap. apply csum_ext. intros i Hi. rewrite conj_sum. apply csum_ext. intros j Hj.
    rewrite !conj_mult, conj_conj. specialize (H j i Hj Hi). unfold madj in H. rewrite H. ring. }
  apply (f_equal snd) in E. cbn in E. lra.
Qed.
Lemma qform_outer : forall n x y, qform n (outer x) y = RtoC (Cmod (csum n (fun i => Cconj (y i) * x i)%C) ^ 2)%R.
Proof.
  intros n x y. rewrite <- conj_mod2. rewrite conj_sum. unfold qform, outer. rewrite csum_swap.
  rewrite <- csum_scale_r. apply csum_ext. intros j Hj. rewrite <- csum_scale. apply csum_ext. intros i Hi. rewrite conj_mult, conj_conj. ring.
Qed.
Lemma Csqr_pos : forall r, (0 <= r)%R -> tf_sqrt (RtoC r) = RtoC (sqrt r).
Proof.
  intros r H. unfold tf_sqrt, RtoC. cbn [fst snd]. change (r, 0%R) with (RtoC r). rewrite Cmod_R, Rabs_pos_eq by exact H.
  replace ((r + r) / 2)%R with r by lra. replace ((r - r) / 2)%R with 0%R by lra. rewrite sqrt_0, Rmult_0_r. reflexivity.
Qed.
Lemma C_of_real : forall z : C, snd z = 0%R -> z = RtoC (fst z).
Proof. intros [a b] H. cbn in *. subst. reflexivity. Qed.

(** The square root is one *)
Theorem C132_root : forall z, tf_sqrt z * tf_sqrt z = z /\ (0 <= fst (tf_sqrt z))%R.
Proof.
  intros [a b]. split; [|cbn [fst tf_sqrt]; apply sqrt_pos]. unfold tf_sqrt. cbn [fst snd].
  assert (M : (a ^ 2 + b ^ 2 = Cmod (a, b) ^ 2)%R).
  { unfold Cmod. cbn [fst snd]. rewrite pow2_sqrt; [reflexivity|]. assert (0 <= a ^ 2)%R by apply pow2_ge_0. assert (0 <= b ^ 2)%R by apply pow2_ge_0. lra. }
  pose proof (Cmod_ge_0 (a, b)) as P. set (r := Cmod (a, b)) in *. clearbody r.
  assert (A : (- r <= a <= r)%R). { pose proof (pow2_ge_0 b). split; nra. }
  assert (S1 : (sqrt ((r + a) / 2) * sqrt ((r + a) / 2) = (r + a) / 2)%R) by (apply sqrt_sqrt; lra).
  assert (S2 : (sqrt ((r - a) / 2) * sqrt ((r - a) / 2) = (r - a) / 2)%R) by (apply sqrt_sqrt; lra).
  assert (S3 : (sqrt ((r + a) / 2) * sqrt ((r - a) / 2) = Rabs b / 2)%R).
  { rewrite <- sqrt_mult by lra. replace ((r + a) / 2 * ((r - a) / 2))%R with (Rsqr (b / 2))%R by (unfold Rsqr; lra).
    rewrite sqrt_Rsqr_abs. unfold Rdiv. rewrite Rabs_mult, (Rabs_pos_eq (/ 2)) by lra. reflexivity. }
  set (u := sqrt ((r + a) / 2)) in *. set (v := sqrt ((r - a) / 2)) in *. clearbody u v.
  apply C_ext; cbn [fst snd Cmult].
  - destruct (Rlt_dec b 0); lra.
  - destruct (Rlt_dec b 0) as [L|L]; [rewrite Rabs_left in S3 by lra | rewrite Rabs_pos_eq in S3 by lra]; lra.
Qed.
Print Assumptions C132_root.

(** The expectation value in a pure state is <x|M|x>, real for an observable, and moving
    the state is moving the operator back *)
Theorem C132_expectation : forall n M x, tf_measure_operator n M (outer x) = qform n M x.
Proof.
  intros n M x. unfold tf_measure_operator, mtrace, mmul, outer, qform. apply csum_ext. intros i Hi. apply csum_ext. intros j Hj. ring.
Qed.
Print Assumptions C132_expectation.
Theorem C132_real : forall n M rho, hermitian n M -> hermitian n rho -> snd (tf_measure_operator n M rho) = 0%R.
Proof.
  intros n M rho HM HR. unfold tf_measure_operator. assert (E : Cconj (mtrace n (mmul n M rho)) = mtrace n (mmul n M rho)).
  { rewrite <- mtrace_adj. rewrite (mtrace_mmul n n M rho). unfold mtrace. apply csum_ext. intros i Hi.
    rewrite (madj_mmul n n n M rho i i Hi Hi). unfold mmul. apply csum_ext. intros l Hl. rewrite (HM l i Hl Hi), (HR i l Hi Hl). reflexivity. }
  apply (f_equal snd) in E. cbn in E. lra.
Qed.
Print Assumptions C132_real.
Theorem C132_mixture : forall n M p rho q sigma,
  tf_measure_operator n M (madd (mscale p rho) (mscale q sigma)) = p * tf_measure_operator n M rho + q * tf_measure_operator n M sigma.
Proof.
  intros n M p rho q sigma. unfold tf_measure_operator, mtrace. rewrite <- !csum_scale, <- csum_plus. apply csum_ext. intros i Hi.
  unfold mmul, madd, mscale. rewrite <- !csum_scale, <- csum_plus. apply csum_ext. intros j Hj. ring.
Qed.
Print Assumptions C132_mixture.
Lemma mtrace_ext : forall n A B, meq n n A B -> mtrace n A = mtrace n B.
Proof. intros n A B H. apply csum_ext. intros i Hi. apply H; assumption. Qed.
Theorem C132_picture : forall n M (U : mat) rho,
  tf_measure_operator n M (mmul n (mmul n U rho) (madj U)) = tf_measure_operator n (mmul n (mmul n (madj U) M) U) rho.
Proof.
  intros n M U rho. unfold tf_measure_operator.
  rewrite (mtrace_ext n _ (mmul n (mmul n M (mmul n U rho)) (madj U))) by apply mmul_assoc.
  rewrite mtrace_mmul. apply mtrace_ext. 
  rewrite (mmul_assoc n n n n (madj U) M (mmul n U rho)). rewrite (mmul_assoc n n n n (mmul n (madj U) M) U rho). reflexivity.
Qed.
Print Assumptions C132_picture.

(** The outcome [K] of a measurement (effect K^+ K) has a probability that is not negative,
    and the probabilities of the outcomes of a complete measurement add up to one *)
Theorem C132_probability : forall n K rho, positive n rho ->
  snd (tf_measure_operator n (mmul n (madj K) K) rho) = 0%R /\ (0 <= fst (tf_measure_operator n (mmul n (madj K) K) rho))%R.
Proof.
  intros n K rho [HR P].
  assert (E : tf_measure_operator n (mmul n (madj K) K) rho = csum n (fun i => qform n rho (fun j => Cconj (K i j)))).
  { unfold tf_measure_operator. rewrite (mtrace_ext n _ (mmul n (madj K) (mmul n K rho))) by (symmetry; apply mmul_assoc).
    rewrite mtrace_mmul. unfold mtrace. apply csum_ext. intros i Hi. unfold qform. unfold mmul at 1. unfold mmul. rewrite csum_swap.
    apply csum_ext. intros j Hj. rewrite <- csum_scale_r. apply csum_ext. intros l Hl. unfold madj. rewrite conj_conj. ring. }
  rewrite E. clear E. split.
  - assert (G : forall m, snd (csum m (fun i => qform n rho (fun j => Cconj (K i j)))) = 0%R); [|apply G].
    induction m as [|m IH]; [reflexivity|]. cbn [csum]. cbn [Cplus snd]. rewrite IH, (qform_real n rho _ HR). lra.
  - assert (G : forall m, (0 <= fst (csum m (fun i => qform n rho (fun j => Cconj (K i j)))))%R); [|apply G].
    induction m as [|m IH]; [cbn; lra|]. cbn [csum]. cbn [Cplus fst]. pose proof (P (fun j => Cconj (K m j))). lra.
Qed.
Print Assumptions C132_probability.
Theorem C132_complete : forall n ks rho, density n rho ->
  meq n n (fold_right (fun K acc => madd (mmul n (madj K) K) acc) mzero ks) mid ->
  fold_right Cplus (RtoC 0) (map (fun K => tf_measure_operator n (mmul n (madj K) K) rho) ks) = RtoC 1.
Proof.
  intros n ks rho [_ T] H.
  assert (E : fold_right Cplus (RtoC 0) (map (fun K => tf_measure_operator n (mmul n (madj K) K) rho) ks)
              = mtrace n (mmul n (fold_right (fun K acc => madd (mmul n (madj K) K) acc) mzero ks) rho)).
  { clear H. induction ks as [|K ks IH]; cbn [map fold_right].
    - rewrite (mtrace_ext n _ mzero) by apply mmul_zero_l. rewrite mtrace_zero. reflexivity.
    - rewrite IH. rewrite (mtrace_ext n (mmul n (madd _ _) rho) _ (mmul_add_r n n n _ _ _)). rewrite mtrace_add. reflexivity. }
  rewrite E. rewrite (mtrace_ext n _ rho). { exact T. } rewrite H. apply mmul_id_l.
Qed.
Print Assumptions C132_complete.

(** Fidelity with a state vector *)
Theorem C132_ket : forall n rho psi, positive n rho ->
  tf_dmket_fid n rho psi = RtoC (sqrt (fst (qform n rho (fun i => psi i 0%nat)))).
Proof.
  intros n rho psi [H P]. unfold tf_dmket_fid. rewrite qform_mmul. rewrite (C_of_real _ (qform_real n rho (fun i => psi i 0%nat) H)) at 1.
  apply Csqr_pos, P.
Qed.
Print Assumptions C132_ket.
Lemma outer_positive : forall n x, positive n (outer x).
Proof.
  intros n x. split; [intros i j Hi Hj; unfold madj, outer; rewrite conj_mult, conj_conj; ring|].
  intros y. rewrite qform_outer. cbn. apply pow2_ge_0.
Qed.
(** for a pure state it is the overlap [tf_ketket_fid] of the vectors *)
Theorem C132_pure : forall n x y, tf_dmket_fid n (outer x) (ket y) = RtoC (tf_ketket_fid n (ket y) (ket x)).
Proof.
  intros n x y. rewrite C132_ket by apply outer_positive. f_equal. unfold ket at 1. rewrite qform_outer. cbn [fst RtoC].
  unfold tf_ketket_fid, tf_abs, tf_abs_squared. rewrite conj_mod2. cbn [fst RtoC]. reflexivity.
Qed.
Print Assumptions C132_pure.
(** it never exceeds one *)
Theorem C132_bounded : forall n rho x, density n rho -> normalised n x ->
  (0 <= fst (tf_dmket_fid n rho (ket x)) <= 1)%R /\ snd (tf_dmket_fid n rho (ket x)) = 0%R.
Proof.
  intros n rho x [P T] N. rewrite C132_ket by exact P. cbn [fst snd RtoC]. split; [|reflexivity]. split; [apply sqrt_pos|].
  rewrite <- sqrt_1. apply sqrt_le_1_alt. unfold ket.
  set (Q := msub mid (outer x)).
  assert (I : meq n n (mmul n (outer x) (outer x)) (outer x)).
  { intros i j Hi Hj. unfold mmul, outer. rewrite (csum_ext n _ (fun l => (x i * Cconj (x j)) * (Cconj (x l) * x l))) by (intros; ring).
    rewrite csum_scale. unfold normalised in N. rewrite N. ring. }
  assert (AQ : meq n n (madj Q) Q). { intros i j Hi Hj. unfold Q, madj, msub, mid, outer. rewrite conj_minus, conj_mult, conj_conj.
    rewrite (Nat.eqb_sym j i). destruct (Nat.eqb i j); rewrite conj_R; ring. }
  assert (QQ : meq n n (mmul n (madj Q) Q) Q).
  { rewrite AQ. unfold Q. rewrite mmul_sub_r, mmul_id_l, mmul_sub_l, mmul_id_r, I. intros i j Hi Hj. unfold msub. ring. }
  pose proof (proj2 (C132_probability n Q rho P)) as G.
  assert (E : tf_measure_operator n (mmul n (madj Q) Q) rho = RtoC 1 - qform n rho x).
  { unfold tf_measure_operator. rewrite (mtrace_ext n _ (msub rho (mmul n (outer x) rho))).
    - rewrite mtrace_sub, T. f_equal. rewrite <- (C132_expectation n rho x). unfold tf_measure_operator. apply mtrace_mmul.
    - rewrite QQ. unfold Q. rewrite mmul_sub_r, mmul_id_l. reflexivity. }
  rewrite E in G. unfold Cminus, Cplus, Copp, RtoC in G. cbn [fst] in G. cbn beta. change (fun i : nat => x i) with x. lra.
Qed.
Print Assumptions C132_bounded.

(** Square roots of positive matrices are unique, so the assumption on tf.linalg.sqrtm
    below determines it on them *)
Lemma csum_nonneg_zero : forall n f, (forall i, (i < n)%nat -> (0 <= f i)%R) -> fst (csum n (fun i => RtoC (f i))) = 0%R -> forall i, (i < n)%nat -> f i = 0%R.
Proof.
  induction n as [|n IH]; intros f P H i Hi; [lia|]. cbn [csum Cplus fst RtoC] in H.
  assert (S : (0 <= fst (csum n (fun i => RtoC (f i))))%R).
  { clear - P. assert (G : forall m, (m <= n)%nat -> (0 <= fst (csum m (fun i => RtoC (f i))))%R); [|apply G; lia].
    induction m as [|m IH]; intros L; [cbn; lra|]. cbn [csum Cplus fst RtoC]. pose proof (P m). specialize (IH ltac:(lia)). pose proof (H ltac:(lia)). lra. }
  pose proof (P n ltac:(lia)) as Pn. assert (f n = 0%R) by lra. destruct (Nat.eq_dec i n) as [->|N]; [assumption|].
  apply IH; [intros; apply P; lia|lra|lia].
Qed.
Definition app (n : nat) (A : mat) (x : nat -> C) : nat -> C := fun i => csum n (fun j => A i j * x j).
Definition dot (n : nat) (x y : nat -> C) : C := csum n (fun i => Cconj (x i) * y i).
Lemma qform_dot : forall n A x, qform n A x = dot n x (app n A x).
Proof. intros n A x. unfold qform, dot, app. apply csum_ext. intros i Hi. rewrite <- csum_scale. apply csum_ext. intros; ring. Qed.
Lemma dot_app : forall n A x y, hermitian n A -> dot n x (app n A y) = dot n (app n A x) y.
Proof.
  intros n A x y H. unfold dot, app. rewrite (csum_ext n _ (fun i => csum n (fun j => Cconj (x i) * A i j * y j))).
  2:{ intros i Hi. rewrite <- csum_scale. apply csum_ext. intros; ring. }
  rewrite csum_swap. apply csum_ext. intros j Hj. rewrite conj_sum, <- csum_scale_r. apply csum_ext. intros i Hi.
  rewrite conj_mult. rewrite <- (H i j Hi Hj). unfold madj. ring.
Qed.
Lemma dot_self_zero : forall n x, fst (dot n x x) = 0%R -> forall i, (i < n)%nat -> x i = RtoC 0.
Proof.
  intros n x H i Hi. unfold dot in H. rewrite (csum_ext n _ (fun i => RtoC (Cmod (x i) ^ 2)%R)) in H by (intros; apply conj_mod2).
  assert (Z : (Cmod (x i) ^ 2 = 0)%R) by (apply (csum_nonneg_zero n (fun i => (Cmod (x i) ^ 2)%R)); [intros; apply pow2_ge_0|exact H|exact Hi]).
  apply Cmod_eq_0. nra.
Qed.
Lemma dot_self_pos : forall n x, (0 <= fst (dot n x x))%R.
Proof.
  intros n x. unfold dot. rewrite (csum_ext n _ (fun i => RtoC (Cmod (x i) ^ 2)%R)) by (intros; apply conj_mod2).
  induction n as [|n IH]; [cbn; lra|]. cbn [csum Cplus fst RtoC]. pose proof (pow2_ge_0 (Cmod (x n))). lra.
Qed.
Lemma positive_null : forall n A x, positive n A -> fst (qform n A x) = 0%R -> forall i, (i < n)%nat -> app n A x i = RtoC 0.
Proof.
  intros n A x [H P] Z. apply dot_self_zero.
  assert (K : forall t, (0 <= 2 * t * fst (dot n (app n A x) (app n A x)) + t * t * fst (qform n A (app n A x)))%R).
  { intros t. pose proof (P (fun i => x i + RtoC t * app n A x i)) as Q.
    assert (E : qform n A (fun i => x i + RtoC t * app n A x i)
      = qform n A x + RtoC t * dot n x (app n A (app n A x)) + RtoC t * dot n (app n A x) (app n A x) + RtoC (t * t) * qform n A (app n A x)).
    { rewrite !qform_dot. unfold dot. rewrite <- !csum_scale, <- !csum_plus. apply csum_ext. intros i Hi.
      assert (L : app n A (fun i => x i + RtoC t * app n A x i) i = app n A x i + RtoC t * app n A (app n A x) i).
      { unfold app at 1 3 4. rewrite <- csum_scale, <- csum_plus. apply csum_ext. intros; ring. }
      rewrite L, conj_plus, conj_mult, conj_R, RtoC_mult. ring. }
    rewrite E, (dot_app n A x _ H) in Q. 
    assert (F : forall (u v w : C) (s : R), fst (u + RtoC t * v + RtoC t * v + RtoC s * w) = (fst u + 2 * t * fst v + s * fst w)%R).
    { intros [a b] [c d] [e f] s. cbn. ring. }
    rewrite F, Z in Q. lra. }
  set (a := fst (dot n (app n A x) (app n A x))) in *. set (b := fst (qform n A (app n A x))) in *.
  assert (Ha : (0 <= a)%R) by apply dot_self_pos. assert (Hb : (0 <= b)%R) by apply P.
  destruct (Rle_lt_or_eq_dec _ _ Ha) as [L|<-]; [|reflexivity]. exfalso.
  destruct (Rle_lt_or_eq_dec _ _ Hb) as [Lb|Eb].
  - specialize (K (- (a / b))%R). replace (2 * - (a / b) * a + - (a / b) * - (a / b) * b)%R with (- (a * a / b))%R in K by (field; lra).
    assert (0 < a * a / b)%R by (apply Rdiv_lt_0_compat; nra). lra.
  - rewrite <- Eb in K. specialize (K (-1)%R). lra.
Qed.
Theorem C132_unique_root : forall n A B, positive n A -> positive n B -> meq n n (mmul n A A) (mmul n B B) -> meq n n A B.
Proof.
  intros n A B PA PB E. set (D := msub A B).
  assert (HD : hermitian n D). { intros i j Hi Hj. unfold D, madj, msub. rewrite conj_minus. rewrite <- (proj1 PA i j Hi Hj), <- (proj1 PB i j Hi Hj). reflexivity. }
  assert (AC : meq n n (madd (mmul n A D) (mmul n D B)) mzero).
  { unfold D. rewrite mmul_sub_l, mmul_sub_r, E. intros i j Hi Hj. unfold madd, msub, mzero. ring. }
  assert (T : mtrace n (mmul n (mmul n D A) D) + mtrace n (mmul n (mmul n D B) D) = RtoC 0).
  { rewrite (mtrace_ext n (mmul n (mmul n D A) D) (mmul n D (mmul n A D))) by (symmetry; apply mmul_assoc).
    rewrite (mtrace_mmul n n (mmul n D B) D). rewrite <- mtrace_add.
    rewrite (mtrace_ext n _ (mmul n D (madd (mmul n A D) (mmul n D B)))) by (rewrite mmul_add_l; reflexivity).
    rewrite (mtrace_ext n _ mzero) by (rewrite AC; apply mmul_zero_r). apply mtrace_zero. }
  assert (Q : forall M, hermitian n M -> mtrace n (mmul n (mmul n D M) D) = csum n (fun k => RtoC (fst (qform n M (fun i => D i k))))).
  { intros M HM. unfold mtrace. apply csum_ext. intros k Hk. rewrite <- (C_of_real _ (qform_real n M (fun i => D i k) HM)).
    unfold mmul, qform. rewrite csum_swap. apply csum_ext. intros j Hj. rewrite <- csum_scale_r. apply csum_ext. intros l Hl.
    rewrite <- (HD k l Hk Hl). reflexivity. }
  rewrite (Q A (proj1 PA)), (Q B (proj1 PB)), <- csum_plus in T.
  rewrite (csum_ext n _ (fun k => RtoC (fst (qform n A (fun i => D i k)) + fst (qform n B (fun i => D i k)))%R)) in T by (intros; rewrite RtoC_plus; reflexivity).
  apply (f_equal fst) in T. cbn [fst RtoC] in T.
  pose proof (csum_nonneg_zero n _ (fun k _ => Rplus_le_le_0_compat _ _ (proj2 PA (fun i => D i k)) (proj2 PB (fun i => D i k))) T) as Z. cbn beta in Z.
  assert (ND : forall k, (k < n)%nat -> forall i, (i < n)%nat -> D i k = RtoC 0).
  { intros k Hk. specialize (Z k Hk). pose proof (proj2 PA (fun i => D i k)). pose proof (proj2 PB (fun i => D i k)).
    assert (ZA : fst (qform n A (fun i => D i k)) = 0%R) by lra. assert (ZB : fst (qform n B (fun i => D i k)) = 0%R) by lra.
    pose proof (positive_null n A _ PA ZA) as NA. pose proof (positive_null n B _ PB ZB) as NB.
    apply (dot_self_zero n (fun i => D i k)).
    assert (S : dot n (fun i => D i k) (fun i => D i k) = app n A (fun i => D i k) k - app n B (fun i => D i k) k).
    { unfold dot, app. unfold Cminus. rewrite <- csum_opp, <- csum_plus. apply csum_ext. intros i Hi.
      change (Cconj (D i k)) with (madj D k i). rewrite (HD k i Hk Hi). unfold D at 1, msub. ring. }
    rewrite S, (NA k Hk), (NB k Hk). cbn. ring. }
  intros i j Hi Hj. specialize (ND j Hj i Hi). unfold D, msub in ND. 
  replace (A i j) with (A i j - B i j + B i j) by ring. rewrite ND. ring.
Qed.
Print Assumptions C132_unique_root.

(** tf.linalg.sqrtm returns the square root that is positive, if there is one *)
Definition sqrtm_ok (n : nat) (sqrtm : mat -> mat) : Prop :=
  forall A R, positive n R -> meq n n (mmul n R R) A -> meq n n (sqrtm A) R.
Lemma outer_idem : forall n x, normalised n x -> meq n n (mmul n (outer x) (outer x)) (outer x).
Proof.
  intros n x N i j Hi Hj. unfold mmul, outer. rewrite (csum_ext n _ (fun l => (x i * Cconj (x j)) * (Cconj (x l) * x l))) by (intros; ring).
  rewrite csum_scale. unfold normalised in N. rewrite N. ring.
Qed.
Lemma mscale_positive : forall n r A, (0 <= r)%R -> positive n A -> positive n (mscale (RtoC r) A).
Proof.
  intros n r A Hr [H P]. split; [intros i j Hi Hj; unfold madj, mscale; rewrite conj_mult, conj_R; rewrite <- (H i j Hi Hj); reflexivity|].
  intros x. assert (E : qform n (mscale (RtoC r) A) x = RtoC r * qform n A x).
  { unfold qform. rewrite <- csum_scale. apply csum_ext. intros i Hi. rewrite <- csum_scale. apply csum_ext. intros j Hj. unfold mscale. ring. }
  rewrite E. specialize (P x). destruct (qform n A x) as [a b]. cbn in *. nra.
Qed.

(** Two density matrices: with a pure first argument the fidelity is that of the state vector *)
Theorem C132_mixed_pure : forall sqrtm n x sigma, sqrtm_ok n sqrtm -> normalised n x -> positive n sigma ->
  tf_dmdm_fid sqrtm n (outer x) sigma = tf_dmket_fid n sigma (ket x).
Proof.
  intros sqrtm n x sigma S N P. rewrite C132_ket by exact P. unfold ket. unfold tf_dmdm_fid.
  pose proof (S (outer x) (outer x) (outer_positive n x) (outer_idem n x N)) as S1.
  set (q := fst (qform n sigma x)). assert (Hq : (0 <= q)%R) by apply P.
  assert (Q : qform n sigma x = RtoC q) by apply C_of_real, qform_real, P.
  assert (M : meq n n (mmul n (mscale (RtoC (sqrt q)) (outer x)) (mscale (RtoC (sqrt q)) (outer x)))
                      (mmul n (mmul n (sqrtm (outer x)) sigma) (sqrtm (outer x)))).
  { rewrite S1. rewrite mmul_scale_l, mmul_scale_r, (outer_idem n x N).
    intros i j Hi Hj. transitivity (x i * qform n sigma x * Cconj (x j)).
    - rewrite Q. unfold mscale, outer. replace (RtoC q) with (RtoC (sqrt q) * RtoC (sqrt q)) by (rewrite <- RtoC_mult, sqrt_sqrt by exact Hq; reflexivity). ring.
    - unfold mmul, outer, qform. rewrite csum_swap. rewrite <- csum_scale, <- csum_scale_r. apply csum_ext. intros l Hl.
      rewrite <- csum_scale. rewrite <- !csum_scale_r. apply csum_ext. intros k Hk. ring. }
  rewrite (mtrace_ext n _ _ (S _ _ (mscale_positive n _ _ (sqrt_pos q) (outer_positive n x)) M)). rewrite mtrace_scale.
  assert (T : mtrace n (outer x) = RtoC 1). { unfold normalised in N. rewrite <- N. apply csum_ext. intros. unfold outer. ring. }
  rewrite T. ring.
Qed.
Print Assumptions C132_mixed_pure.
(** Two pure states: the overlap *)
Theorem C132_two_pure : forall sqrtm n x y, sqrtm_ok n sqrtm -> normalised n x ->
  tf_dmdm_fid sqrtm n (outer x) (outer y) = RtoC (tf_ketket_fid n (ket x) (ket y)).
Proof. intros sqrtm n x y S N. rewrite C132_mixed_pure; [apply C132_pure|assumption|assumption|apply outer_positive]. Qed.
Print Assumptions C132_two_pure.
(** A density matrix with itself: one *)
Theorem C132_self : forall sqrtm n R rho, sqrtm_ok n sqrtm -> positive n R -> meq n n (mmul n R R) rho -> mtrace n rho = RtoC 1 ->
  tf_dmdm_fid sqrtm n rho rho = RtoC 1.
Proof.
  intros sqrtm n R rho S P E T. unfold tf_dmdm_fid. pose proof (S rho R P E) as S1.
  assert (HR : hermitian n rho).
  { intros i j Hi Hj. unfold madj. rewrite <- (E j i Hj Hi), <- (E i j Hi Hj). unfold mmul. rewrite conj_sum. apply csum_ext. intros l Hl.
    rewrite conj_mult. pose proof (proj1 P l j Hl Hj) as A1. pose proof (proj1 P i l Hi Hl) as A2. unfold madj in A1, A2. rewrite A1, A2. ring. }
  assert (PR : positive n rho).
  { split; [exact HR|]. intros x. rewrite <- (qform_ext n _ _ x E).
    assert (D : qform n (mmul n R R) x = dot n (app n R x) (app n R x)).
    { rewrite <- (dot_app n R x _ (proj1 P)). rewrite qform_dot. unfold dot. apply csum_ext. intros i Hi. f_equal. unfold app, mmul.
      rewrite (csum_ext n _ (fun j => csum n (fun l => R i l * R l j * x j))) by (intros; rewrite <- csum_scale_r; reflexivity).
      rewrite csum_swap. apply csum_ext. intros l Hl. rewrite <- csum_scale. apply csum_ext. intros; ring. }
    rewrite D. apply dot_self_pos. }
  rewrite (mtrace_ext n _ rho); [exact T|]. apply S; [exact PR|]. rewrite S1. rewrite <- E.
  rewrite !mmul_assoc. reflexivity.
Qed.
Print Assumptions C132_self.
(** The fidelity of two states does not change when both are transformed by the same unitary *)
Theorem C132_invariant : forall sqrtm n U x y, sqrtm_ok n sqrtm -> unitary n U -> normalised n x ->
  tf_dmdm_fid sqrtm n (outer (app n U x)) (outer (app n U y)) = tf_dmdm_fid sqrtm n (outer x) (outer y).
Proof.
  intros sqrtm n U x y S HU N.
  assert (K : forall a b, dot n (app n U a) (app n U b) = dot n a b).
  { intros a b. unfold dot, app. rewrite (csum_ext n _ (fun i => csum n (fun j => csum n (fun l => Cconj (a j) * (Cconj (U i j) * U i l) * b l)))).
    2:{ intros i Hi. rewrite conj_sum, <- csum_scale_r. apply csum_ext. intros j Hj. rewrite <- csum_scale. apply csum_ext. intros l Hl. rewrite conj_mult. ring. }
    rewrite csum_swap. apply csum_ext. intros j Hj. rewrite csum_swap. 
    rewrite (csum_ext n _ (fun l => mid j l * (Cconj (a j) * b l))).
    - unfold mid. apply (csum_delta_l n j (fun l => Cconj (a j) * b l) Hj).
    - intros l Hl. rewrite <- (proj1 HU j l Hj Hl). unfold mmul, madj. rewrite <- csum_scale_r. apply csum_ext. intros; ring. }
  assert (N' : normalised n (app n U x)) by (unfold normalised; exact (eq_trans (K x x) N)).
  rewrite !C132_two_pure by assumption. unfold tf_ketket_fid. f_equal. f_equal.
  exact (K x y).
Qed.
Print Assumptions C132_invariant.

(** Finding: the figures called fidelity disagree with each other: those of states are
    amplitudes, [tf_unitary_overlap] is a probability.  States that agree with probability
    1/2 have the fidelity sqrt (1/2). *)
Theorem C132_amplitude_refuted : forall sqrtm n x y, sqrtm_ok n sqrtm -> normalised n x ->
  fst (qform n (outer y) x) = (/ 2)%R -> tf_dmdm_fid sqrtm n (outer x) (outer y) = RtoC (sqrt (/ 2)) /\ tf_dmdm_fid sqrtm n (outer x) (outer y) <> RtoC (/ 2).
Proof.
  intros sqrtm n x y S N H. rewrite C132_mixed_pure by (try assumption; apply outer_positive). rewrite C132_ket by apply outer_positive. change (fun i : nat => ket x i 0%nat) with x. rewrite H.
  split; [reflexivity|]. intros E. apply (f_equal fst) in E. cbn [fst RtoC] in E. pose proof (sqrt_sqrt (/ 2) ltac:(lra)) as Q. rewrite E in Q. lra.
Qed.
Print Assumptions C132_amplitude_refuted.

(** Non-vacuity: a square root function as assumed (size one), and a mixed state *)
Example C132_example_sqrtm : sqrtm_ok 1 (fun A _ _ => RtoC (sqrt (fst (A 0%nat 0%nat)))).
Proof.
  intros A R [H P] E i j Hi Hj. assert (i = 0%nat) by lia. assert (j = 0%nat) by lia. subst.
  rewrite <- (E 0%nat 0%nat ltac:(lia) ltac:(lia)). unfold mmul. cbn [csum].
  specialize (H 0%nat 0%nat ltac:(lia) ltac:(lia)). unfold madj in H. specialize (P (fun _ => RtoC 1)). unfold qform in P. cbn [csum] in P.
  destruct (R 0%nat 0%nat) as [a b]. cbn in P, H. injection H as Hb. assert (b = 0%R) by lra. subst b.
  unfold RtoC. f_equal. cbn. replace (0 + (a * a - 0 * 0))%R with (a * a)%R by ring. apply sqrt_square. lra.
Qed.
Example C132_example_mixed : density 2 (mscale (RtoC (/ 2)) mid) /\ normalised 2 (fun i => if Nat.eqb i 0 then RtoC 1 else RtoC 0).
Proof.
  split; [split|].
  - apply mscale_positive; [lra|]. split; [apply madj_id|]. intros x.
    assert (E : qform 2 mid x = dot 2 x x) by (unfold qform, dot, mid; cbn [csum Nat.eqb]; ring). rewrite E. apply dot_self_pos.
  - rewrite mtrace_scale, mtrace_id. rewrite <- RtoC_mult. f_equal. cbn. lra.
  - unfold normalised. cbn [csum Nat.eqb]. rewrite !conj_R. ring.
Qed.
