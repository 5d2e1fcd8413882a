(** Finite sums of reals and the Euclidean norm of complex matrices. *)
From Coq Require Import Reals Lra Lia Setoid Morphisms.
From Coquelicot Require Import Coquelicot.
From Verif Require Import Base Mat.
Local Open Scope R_scope.

Fixpoint rs (n : nat) (f : nat -> R) : R :=
  match n with O => 0 | S k => rs k f + f k end.

Lemma rs_ext : forall n f g, (forall i, (i < n)%nat -> f i = g i) -> rs n f = rs n g.
Proof. induction n as [|n IH]; intros f g H; cbn; [reflexivity|]. rewrite (IH f g), H; auto. Qed.
Lemma rs_plus : forall n f g, rs n (fun i => f i + g i) = rs n f + rs n g.
Proof. induction n as [|n IH]; intros; cbn; [ring|]. rewrite IH. ring. Qed.
Lemma rs_scale : forall n c f, rs n (fun i => c * f i) = c * rs n f.
Proof. induction n as [|n IH]; intros; cbn; [ring|]. rewrite IH. ring. Qed.
Lemma rs_0 : forall n f, (forall i, (i < n)%nat -> f i = 0) -> rs n f = 0.
Proof. induction n as [|n IH]; intros f H; cbn; [reflexivity|]. rewrite IH, H by auto. ring. Qed.
Lemma rs_const : forall n c, rs n (fun _ => c) = INR n * c.
Proof. induction n as [|n IH]; intro c; [cbn; ring|]. cbn [rs]. rewrite IH, S_INR. ring. Qed.
Lemma rs_swap : forall n m f, rs n (fun i => rs m (fun j => f i j)) = rs m (fun j => rs n (fun i => f i j)).
Proof.
  induction n as [|n IH]; intros m f; cbn [rs].
  - symmetry. apply rs_0. reflexivity.
  - rewrite IH, <- rs_plus. reflexivity.
Qed.
Lemma rs_le : forall n f g, (forall i, (i < n)%nat -> f i <= g i) -> rs n f <= rs n g.
Proof. induction n as [|n IH]; intros f g H; cbn; [lra|]. apply Rplus_le_compat; [apply IH; auto|apply H; lia]. Qed.
Lemma rs_nonneg : forall n f, (forall i, (i < n)%nat -> 0 <= f i) -> 0 <= rs n f.
Proof. induction n as [|n IH]; intros f H; cbn; [lra|]. pose proof (IH f) as A. pose proof (H n). specialize (A (fun i Hi => H i (Nat.lt_lt_succ_r _ _ Hi))). assert (0 <= f n) by (apply H; lia). lra. Qed.
Lemma rs_zero_inv : forall n f, (forall i, (i < n)%nat -> 0 <= f i) -> rs n f = 0 -> forall i, (i < n)%nat -> f i = 0.
Proof.
  induction n as [|n IH]; intros f H E i Hi; [lia|]. cbn in E.
  assert (0 <= rs n f) by (apply rs_nonneg; intros; apply H; lia). assert (0 <= f n) by (apply H; lia).
  destruct (Nat.eq_dec i n) as [->|N]; [lra|]. apply IH; [intros; apply H; lia|lra|lia].
Qed.
Lemma rs_single : forall n k f, (k < n)%nat -> (forall i, (i < n)%nat -> i <> k -> f i = 0) -> rs n f = f k.
Proof.
  induction n as [|n IH]; intros k f Hk H; [lia|]. cbn [rs]. destruct (Nat.eq_dec k n) as [->|N].
  - rewrite rs_0; [ring|]. intros i Hi. apply H; lia.
  - rewrite (IH k) by (try lia; intros; apply H; lia). rewrite (H n) by lia. ring.
Qed.
Lemma rs_member : forall n f k, (forall i, (i < n)%nat -> 0 <= f i) -> (k < n)%nat -> f k <= rs n f.
Proof.
  induction n as [|n IH]; intros f k H Hk; [lia|]. cbn [rs].
  assert (0 <= rs n f) by (apply rs_nonneg; intros; apply H; lia). assert (0 <= f n) by (apply H; lia).
  destruct (Nat.eq_dec k n) as [->|N]; [lra|]. assert (f k <= rs n f) by (apply IH; [intros; apply H; lia|lia]). lra.
Qed.
Lemma rs_inj : forall m n f g, (forall i, (i < n)%nat -> 0 <= f i) ->
  (forall k, (k < m)%nat -> (g k < n)%nat) ->
  (forall k k', (k < m)%nat -> (k' < m)%nat -> g k = g k' -> k = k') ->
  rs m (fun k => f (g k)) <= rs n f.
Proof.
  intros m n f g H Hg Hi.
  rewrite (rs_ext m _ (fun k => rs n (fun x => if Nat.eqb x (g k) then f x else 0))).
  - rewrite rs_swap. apply rs_le. intros x Hx.
    clear Hg. induction m as [|m IH]; cbn [rs]; [apply H, Hx|].
    destruct (Nat.eqb_spec x (g m)) as [E|E].
    + rewrite rs_0; [lra|]. intros k Hk. destruct (Nat.eqb_spec x (g k)) as [E'|E']; [|reflexivity].
      exfalso. assert (k = m) by (apply Hi; try lia; congruence). lia.
    + rewrite Rplus_0_r. apply IH. intros; apply Hi; auto; lia.
  - intros k Hk. rewrite (rs_single _ (g k)); [rewrite Nat.eqb_refl; reflexivity|apply Hg, Hk|].
    intros i _ N. destruct (Nat.eqb_spec i (g k)); [contradiction|reflexivity].
Qed.
Lemma rs_csum : forall n f, csum n (fun i => RtoC (f i)) = RtoC (rs n f).
Proof. induction n as [|n IH]; intro f; cbn [csum rs]; [reflexivity|]. rewrite IH, RtoC_plus. reflexivity. Qed.
Lemma rs_fst : forall n f, rs n (fun i => fst (f i)) = fst (csum n f).
Proof. induction n as [|n IH]; intro f; cbn [csum rs]; [reflexivity|]. rewrite IH. reflexivity. Qed.
Lemma rs_head : forall n f, rs (S n) f = f 0%nat + rs n (fun i => f (S i)).
Proof. induction n as [|n IH]; intro f; [cbn; ring|]. cbn [rs] in *. rewrite IH. ring. Qed.
Lemma rs_app : forall n m f, rs (n + m) f = rs n f + rs m (fun i => f (n + i)%nat).
Proof.
  intros n m f. induction m as [|m IH]; [rewrite Nat.add_0_r; cbn; ring|].
  rewrite Nat.add_succ_r. cbn [rs]. rewrite IH. ring.
Qed.
Lemma rs_prod : forall n m f, rs (n * m) f = rs n (fun i => rs m (fun j => f (i * m + j)%nat)).
Proof.
  intros n m f. induction n as [|n IH]; [reflexivity|].
  replace (S n * m)%nat with (n * m + m)%nat by (cbn; lia). rewrite rs_app, IH. reflexivity.
Qed.

(** Squared Euclidean (Frobenius) norm. *)
Definition nrm2 (n m : nat) (A : mat) : R := rs n (fun i => rs m (fun j => Cmod (A i j) ^ 2)).
(** Inner product, conjugate linear in the second argument: tr(A B+). *)
Definition inner (n m : nat) (A B : mat) : C := csum n (fun i => csum m (fun j => A i j * Cconj (B i j))%C).

Lemma nrm2_nonneg : forall n m A, 0 <= nrm2 n m A.
Proof. intros. apply rs_nonneg. intros. apply rs_nonneg. intros. apply pow2_ge_0. Qed.
Global Instance nrm2_proper : forall n m, Proper (meq n m ==> eq) (nrm2 n m).
Proof. intros n m A B H. unfold nrm2. apply rs_ext. intros i Hi. apply rs_ext. intros j Hj. rewrite H; auto. Qed.
Lemma nrm2_zero : forall n m A, nrm2 n m A = 0 -> meq n m A mzero.
Proof.
  intros n m A H i j Hi Hj. unfold nrm2 in H.
  pose proof (rs_zero_inv _ _ (fun i _ => rs_nonneg m _ (fun j _ => pow2_ge_0 (Cmod (A i j)))) H i Hi) as H1. cbv beta in H1.
  pose proof (rs_zero_inv _ _ (fun j _ => pow2_ge_0 (Cmod (A i j))) H1 j Hj) as H2. cbv beta in H2.
  apply Cmod_eq_0. unfold mzero. nra.
Qed.
Lemma nrm2_inner : forall n m A, inner n m A A = RtoC (nrm2 n m A).
Proof.
  intros. unfold inner, nrm2. rewrite <- rs_csum. apply csum_ext. intros i _. rewrite <- rs_csum. apply csum_ext. intros j _.
  rewrite Cmult_comm. apply conj_mod2.
Qed.
Lemma inner_trace : forall n m A B, inner n m A B = mtrace n (mmul m A (madj B)).
Proof. reflexivity. Qed.
Lemma inner_sub_l : forall n m A B D, inner n m (msub A B) D = (inner n m A D - inner n m B D)%C.
Proof.
  intros. unfold inner, Cminus. rewrite <- csum_opp, <- csum_plus. apply csum_ext. intros i _.
  rewrite <- csum_opp, <- csum_plus. apply csum_ext. intros j _. unfold msub. ring.
Qed.
Lemma inner_conj : forall n m A B, Cconj (inner n m A B) = inner n m B A.
Proof.
  intros. unfold inner. rewrite conj_sum. apply csum_ext. intros i _. rewrite conj_sum. apply csum_ext. intros j _.
  rewrite conj_mult, conj_conj. ring.
Qed.
Lemma inner_sub_r : forall n m A B D, inner n m D (msub A B) = (inner n m D A - inner n m D B)%C.
Proof. intros. rewrite <- inner_conj, inner_sub_l, conj_minus, !inner_conj. reflexivity. Qed.
Lemma inner_scale_l : forall n m c A B, inner n m (mscale c A) B = (c * inner n m A B)%C.
Proof.
  intros. unfold inner. rewrite <- csum_scale. apply csum_ext. intros i _. rewrite <- csum_scale. apply csum_ext. intros j _.
  unfold mscale. ring.
Qed.
Lemma inner_scale_r : forall n m c A B, inner n m A (mscale c B) = (Cconj c * inner n m A B)%C.
Proof. intros. rewrite <- inner_conj, inner_scale_l, conj_mult, inner_conj. reflexivity. Qed.
Lemma inner_mor : forall n m A A' B B', meq n m A A' -> meq n m B B' -> inner n m A B = inner n m A' B'.
Proof.
  intros n m A A' B B' H1 H2. unfold inner. apply csum_ext. intros i Hi. apply csum_ext. intros j Hj.
  rewrite H1, H2; auto.
Qed.

(** What the best multiple of B leaves of A. *)
Lemma inner_gap : forall n m A B d, 0 < d -> nrm2 n m B = d ->
  nrm2 n m (msub A (mscale (inner n m A B / RtoC d)%C B)) = nrm2 n m A - Cmod (inner n m A B) ^ 2 / d.
Proof.
  intros n m A B d Hd HB. apply RtoC_inj. rewrite <- nrm2_inner.
  rewrite inner_sub_l, !inner_sub_r, !inner_scale_l, !inner_scale_r, !nrm2_inner, HB.
  rewrite <- (inner_conj n m A B). set (z := inner n m A B).
  rewrite RtoC_minus. unfold Rdiv. rewrite RtoC_mult, <- conj_mod2, RtoC_inv by lra.
  unfold Cdiv. rewrite conj_mult.
  replace (Cconj (/ RtoC d)%C) with (/ RtoC d)%C by (rewrite <- RtoC_inv by lra; symmetry; apply conj_R).
  assert (RtoC d <> RtoC 0) by (intro E; apply RtoC_inj in E; lra).
  field. exact H.
Qed.
Lemma inner_bound : forall n m A B d, 0 < d -> nrm2 n m B = d -> Cmod (inner n m A B) ^ 2 <= d * nrm2 n m A.
Proof.
  intros n m A B d Hd HB. pose proof (inner_gap n m A B d Hd HB) as E.
  pose proof (nrm2_nonneg n m (msub A (mscale (inner n m A B / RtoC d)%C B))) as P. rewrite E in P.
  apply Rmult_le_reg_l with (/ d); [apply Rinv_0_lt_compat, Hd|]. rewrite <- Rmult_assoc, Rinv_l by lra. unfold Rdiv in P. lra.
Qed.

(** Two elements of norm at most d and exactly d whose overlap is maximal agree
    up to a phase. *)
Lemma inner_maximal : forall n m A B d, 0 < d -> nrm2 n m B = d -> nrm2 n m A <= d ->
  Cmod (inner n m A B) = d <-> exists c, Cmod c = 1 /\ meq n m A (mscale c B).
Proof.
  intros n m A B d Hd HB HA. split.
  - intro E. exists (inner n m A B / RtoC d)%C. split.
    + unfold Cdiv. rewrite Cmod_mult, Cmod_inv, E, Cmod_R, Rabs_pos_eq by (try lra; intro X; apply RtoC_inj in X; lra). field. lra.
    + pose proof (inner_gap n m A B d Hd HB) as G. rewrite E in G.
      assert (Z : nrm2 n m (msub A (mscale (inner n m A B / RtoC d)%C B)) = 0).
      { apply Rle_antisym; [|apply nrm2_nonneg]. rewrite G. field_simplify; [|lra]. lra. }
      apply nrm2_zero in Z. intros i j Hi Hj. specialize (Z i j Hi Hj). unfold msub, mzero in Z.
      replace (A i j) with (A i j - mscale (inner n m A B / RtoC d)%C B i j + mscale (inner n m A B / RtoC d)%C B i j)%C by ring.
      rewrite Z. ring.
  - intros (c & Hc & E). rewrite (inner_mor n m A (mscale c B) B B E (reflexivity B)).
    rewrite inner_scale_l, nrm2_inner, HB, Cmod_mult, Hc, Cmod_R, Rabs_pos_eq by lra. ring.
Qed.

Lemma nrm2_scale : forall n m c A, nrm2 n m (mscale c A) = Cmod c ^ 2 * nrm2 n m A.
Proof.
  intros. unfold nrm2. rewrite <- rs_scale. apply rs_ext. intros i _. rewrite <- rs_scale. apply rs_ext. intros j _.
  unfold mscale. rewrite Cmod_mult. ring.
Qed.
Lemma nrm2_unitary : forall n U, unitary n U -> nrm2 n n U = INR n.
Proof.
  intros n U [_ H]. apply RtoC_inj. rewrite <- nrm2_inner, inner_trace, (mtrace_proper n _ _ H). apply mtrace_id.
Qed.
(** A unitary keeps the norm of every state. *)
Lemma unitary_norm : forall n m U psi, unitary n U -> nrm2 n m (mmul n U psi) = nrm2 n m psi.
Proof.
  intros n m U psi [H _]. apply RtoC_inj. rewrite <- !nrm2_inner, !inner_trace, (mtrace_mmul n m (mmul n U psi)), (mtrace_mmul n m psi).
  apply mtrace_proper.
  transitivity (mmul n (mmul n (madj psi) (madj U)) (mmul n U psi)).
  - apply mmul_mor; [apply madj_mmul|reflexivity].
  - rewrite <- (mmul_assoc m m n n). apply mmul_mor; [reflexivity|].
    rewrite (mmul_assoc n m n n). rewrite (mmul_mor n n m _ mid psi psi H (reflexivity _)). apply mmul_id_l.
Qed.
