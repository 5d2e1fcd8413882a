(** C25: how far the series exponentials are from the exponential. *)
From Coq Require Import Reals Lra Lia.
From Coquelicot Require Import Coquelicot.
From Verif Require Import Base Mat MExp RSum ExpmModel ExpmProps Euler.
Local Open Scope R_scope.

(** Every row of the n x n block of [M] has absolute sum at most [b]. *)
Definition row_sums (n : nat) (M : mat) (b : R) : Prop :=
  forall i, (i < n)%nat -> rs n (fun j => Cmod (M i j)) <= b.

Lemma taylor_sums : forall n A r, meq n n (taylor n A r) (taylor_sum n A r).
Proof. intros n A r i j _ _. unfold taylor, taylor_sum. apply msum_entry. Qed.

(** [tf_expm] misses exp(A) by at most a^r/r! exp(a) in every row, for r = max(terms, 2) and
    row sums of |A| of at most a. *)
Theorem C25_tf_expm_error :
  forall n A a terms, (0 < n)%nat -> row_sums n A a ->
  let r := Nat.max 2 terms in
  row_sums n (msub (mexp n A) (tf_expm n A terms)) (a ^ r / INR (fact r) * exp a).
Proof.
  intros n A a terms Hn Ha r. apply (bnd_proper n (msub (mexp n A) (taylor_sum n A r))).
  - intros i j Hi Hj. unfold msub. rewrite (C25_tf_expm_is_taylor n A terms i j Hi Hj). rewrite (taylor_sums n A _ i j Hi Hj). reflexivity.
  - apply taylor_remainder; assumption.
Qed.
Print Assumptions C25_tf_expm_error.

(** With enough terms [tf_expm] is as close to exp(A) as wanted. *)
Theorem C25_tf_expm_converges :
  forall n A err, 0 < err -> exists t0, forall terms i j, (t0 <= terms)%nat -> (i < n)%nat -> (j < n)%nat ->
  Cmod (mexp n A i j - tf_expm n A terms i j)%C <= err.
Proof.
  intros n A err He. destruct (bnd_exists n A) as (a & Pa & Ha).
  assert (Pe : 0 < err / exp a) by (apply Rdiv_lt_0_compat; [exact He|apply exp_pos]).
  destruct (cv_speed_pow_fact a _ Pe) as [N HN]. exists N. intros terms i j Ht Hi Hj.
  assert (Hn : (0 < n)%nat) by lia.
  pose proof (bnd_entry n _ _ i j (C25_tf_expm_error n A a terms Hn Ha) Hi Hj) as B. unfold msub in B.
  eapply Rle_trans; [exact B|]. specialize (HN (Nat.max 2 terms) ltac:(lia)). unfold R_dist in HN. rewrite Rminus_0_r in HN.
  apply Rabs_def2 in HN. destruct HN as [HN _]. pose proof (exp_pos a).
  apply (Rmult_lt_compat_r (exp a)) in HN; [|assumption]. unfold Rdiv in HN at 2. rewrite Rmult_assoc, Rinv_l, Rmult_1_r in HN; lra.
Qed.
Print Assumptions C25_tf_expm_converges.

Lemma taylor_term_plus : forall n A p q, meq n n (taylor_term n A (p + q))
  (mscale (RtoC (INR (fact p) * INR (fact q) / INR (fact (p + q)))) (mmul n (taylor_term n A p) (taylor_term n A q))).
Proof.
  intros n A p q. unfold taylor_term. rewrite mmul_scale_l, mmul_scale_r, !mscale_mscale, (mpow_add n A p q).
  intros i j _ _. unfold mscale. f_equal. unfold Rdiv. rewrite !RtoC_mult, RtoC_inv by apply INR_fact_neq_0.
  field. repeat split; apply fact_C_neq_0.
Qed.
(** The dynamic version misses exp(A) by at most n acc (exp(a) - 1) in every row. *)
Theorem C25_tf_expm_dynamic_error :
  forall fuel n A a acc res, (0 < n)%nat -> 0 <= acc -> row_sums n A a -> tf_expm_dynamic fuel n A acc = Ok res ->
  row_sums n (msub (mexp n A) res) (INR n * acc * (exp a - 1)).
Proof.
  intros fuel n A a acc res Hn Hacc Ha H.
  destruct (C25_tf_expm_dynamic_is_taylor fuel n A acc res Hacc H) as (K & E & Sm & _).
  pose proof (bnd_pos _ _ _ Ha Hn) as Pa.
  apply (bnd_proper n (msub (mexp n A) (taylor_sum n A (S K + 1)))).
  { intros i j Hi Hj. unfold msub. rewrite (E i j Hi Hj), (taylor_sums n A _ i j Hi Hj). do 3 f_equal. lia. }
  assert (B : bnd n (taylor_term n A (S K)) (INR n * acc)).
  { intros i Hi. rewrite <- rs_const. apply rs_le. intros j Hj. apply Sm; assumption. }
  intros i Hi.
  apply (cser_bound n (fun k j => taylor_term n A (k + (S K + 1)) i j) _ (fun k => INR n * acc * (/ INR (fact (k + 1)) * a ^ (k + 1)))).
  - intros j Hj. unfold msub, taylor_sum. apply (is_cser_tail (fun k => taylor_term n A k i j)). apply mexp_is; assumption.
  - intro k. replace (k + (S K + 1))%nat with (S K + (k + 1))%nat by lia.
    pose proof (bnd_mmul n _ _ _ _ Hn B (bnd_taylor n A a (k + 1) Hn Ha)) as M.
    apply (bnd_scale n (RtoC (INR (fact (S K)) * INR (fact (k + 1)) / INR (fact (S K + (k + 1)))))) in M.
    apply (bnd_proper n _ (taylor_term n A (S K + (k + 1)))) in M; [|symmetry; apply taylor_term_plus].
    eapply Rle_trans; [exact (M i Hi)|]. set (c := INR n * acc * _).
    assert (Pc : 0 <= c).
    { unfold c. apply Rmult_le_pos; [apply Rmult_le_pos; [apply pos_INR|exact Hacc]|].
      apply Rmult_le_pos; [left; apply Rinv_0_lt_compat, INR_fact_lt_0|apply pow_le, Pa]. }
    pose proof (fact_le_prod (S K) (k + 1)) as F.
    pose proof (INR_fact_lt_0 (S K)). pose proof (INR_fact_lt_0 (k + 1)). pose proof (INR_fact_lt_0 (S K + (k + 1))).
    rewrite Cmod_R, Rabs_right.
    + rewrite <- (Rmult_1_l c) at 2. apply Rmult_le_compat_r; [exact Pc|].
      apply (Rmult_le_reg_r (INR (fact (S K + (k + 1))))); [assumption|].
      unfold Rdiv. rewrite Rmult_assoc, Rinv_l by lra. lra.
    + apply Rle_ge. unfold Rdiv. apply Rmult_le_pos; [apply Rmult_le_pos; lra|left; apply Rinv_0_lt_compat; assumption].
  - apply (is_series_scal_l (INR n * acc) (fun k => / INR (fact (k + 1)) * a ^ (k + 1))).
    eapply is_series_ext; [intro k; rewrite Nat.add_1_r; reflexivity|].
    apply (is_series_incr_1 (fun k => / INR (fact k) * a ^ k)). replace (plus (exp a - 1) _) with (exp a); [apply exp_series|].
    unfold plus; cbn. field.
Qed.
Print Assumptions C25_tf_expm_dynamic_error.

(** A nilpotent matrix with entries L, d, L above the diagonal. *)
Definition chain4 (L d : R) : mat := fun i j =>
  match i, j with 0%nat, 1%nat => RtoC L | 1%nat, 2%nat => RtoC d | 2%nat, 3%nat => RtoC L | _, _ => RtoC 0 end.
Definition chain4_2 (x : R) : mat := fun i j =>
  match i, j with 0%nat, 2%nat => RtoC x | 1%nat, 3%nat => RtoC x | _, _ => RtoC 0 end.
Definition chain4_3 (x : R) : mat := fun i j => match i, j with 0%nat, 3%nat => RtoC x | _, _ => RtoC 0 end.
Ltac four i j := destruct i as [|[|[|[|i]]]]; destruct j as [|[|[|[|j]]]]; try lia.
Lemma chain_sq : forall L d, meq 4 4 (mmul 4 (chain4 L d) (chain4 L d)) (chain4_2 (L * d)).
Proof. intros L d i j Hi Hj. unfold mmul, chain4, chain4_2. cbn [csum]. four i j; apply C_ext; cbn; ring. Qed.
Lemma chain_cube : forall L d x, meq 4 4 (mmul 4 (chain4_2 x) (chain4 L d)) (chain4_3 (x * L)).
Proof. intros L d x i j Hi Hj. unfold mmul, chain4, chain4_2, chain4_3. cbn [csum]. four i j; apply C_ext; cbn; ring. Qed.
Lemma chain_four : forall L d x, meq 4 4 (mmul 4 (chain4_3 x) (chain4 L d)) mzero.
Proof. intros L d x i j Hi Hj. unfold mmul, chain4, chain4_3, mzero. cbn [csum]. four i j; apply C_ext; cbn; ring. Qed.
Lemma chain_pow : forall L d k, meq 4 4 (mpow 4 (chain4 L d) (4 + k)) mzero.
Proof.
  intros L d k. induction k as [|k IH].
  - cbn [Nat.add mpow]. rewrite mmul_id_l, chain_sq, chain_cube, chain_four. reflexivity.
  - replace (4 + S k)%nat with (S (4 + k)) by lia. cbn [mpow]. rewrite IH. apply mmul_zero_l.
Qed.
Lemma chain_exp : forall L d, mexp 4 (chain4 L d) 0%nat 3%nat = RtoC (L * d * L / 6).
Proof.
  intros L d. pose proof (is_cser_tail _ _ 4 (mexp_is 4 (chain4 L d) 0%nat 3%nat ltac:(lia) ltac:(lia))) as T.
  assert (Z : is_cser (fun _ => RtoC 0) (RtoC 0)) by (split; apply is_series_zero).
  assert (D : (mexp 4 (chain4 L d) 0%nat 3%nat - csum 4 (fun k => taylor_term 4 (chain4 L d) k 0%nat 3%nat))%C = RtoC 0).
  { eapply is_cser_det; [|exact Z]. eapply is_cser_ext; [|exact T]. intro k. cbv beta. unfold taylor_term, mscale.
    replace (k + 4)%nat with (4 + k)%nat by lia. rewrite (chain_pow L d k 0%nat 3%nat) by lia. unfold mzero. ring. }
  assert (Q : csum 4 (fun k => taylor_term 4 (chain4 L d) k 0%nat 3%nat) = RtoC (L * d * L / 6)).
  { cbn [csum]. unfold taylor_term, mscale. cbn [mpow].
    assert (P1 : meq 4 4 (mmul 4 mid (chain4 L d)) (chain4 L d)) by apply mmul_id_l.
    assert (P2 : meq 4 4 (mmul 4 (mmul 4 mid (chain4 L d)) (chain4 L d)) (chain4_2 (L * d))) by (rewrite P1; apply chain_sq).
    assert (P3 : meq 4 4 (mmul 4 (mmul 4 (mmul 4 mid (chain4 L d)) (chain4 L d)) (chain4 L d)) (chain4_3 (L * d * L))) by (rewrite P2; apply chain_cube).
    rewrite (P1 0%nat 3%nat), (P2 0%nat 3%nat), (P3 0%nat 3%nat) by lia. unfold mid, chain4, chain4_2, chain4_3. cbn [Nat.eqb].
    replace (/ RtoC (INR (fact 3)))%C with (RtoC (/ 6)); [apply C_ext; cbn; field|].
    rewrite <- RtoC_inv; [f_equal; cbn; field|cbn; lra]. }
  rewrite Q in D. replace (mexp 4 (chain4 L d) 0%nat 3%nat) with (mexp 4 (chain4 L d) 0%nat 3%nat - RtoC (L * d * L / 6) + RtoC (L * d * L / 6))%C by ring.
  rewrite D. ring.
Qed.
(** Finding: the accuracy argument of [tf_expm_dynamic] does not bound the error: the result
    can miss exp(A) by any multiple of it. *)
Theorem C25_dynamic_accuracy_refuted :
  forall acc factor, 0 < acc -> 0 <= factor -> exists A res, tf_expm_dynamic 2 4 A acc = Ok res
  /\ factor * acc < Cmod (mexp 4 A 0%nat 3%nat - res 0%nat 3%nat)%C.
Proof.
  intros acc factor Ha Hf. set (L := acc + 3 * factor + 3). set (d := 2 * acc / L).
  assert (PL : 0 < L) by (unfold L; lra). assert (Ld : L * d = 2 * acc) by (unfold d; field; lra).
  exists (chain4 L d). unfold tf_expm_dynamic. cbn [expm_loop].
  destruct (Rlt_dec acc (max_abs 4 (chain4 L d))) as [X|X].
  2:{ exfalso. assert (Y : max_abs 4 (chain4 L d) <= acc) by lra. rewrite (max_abs_spec 4 _ acc) in Y by lra.
      specialize (Y 0%nat 1%nat ltac:(lia) ltac:(lia)). unfold chain4 in Y. rewrite Cmod_R, Rabs_right in Y by lra. unfold L in Y. lra. }
  assert (E2 : meq 4 4 (mscale (/ RtoC (INR 2))%C (mmul 4 (chain4 L d) (chain4 L d))) (chain4_2 acc)).
  { rewrite chain_sq, Ld. intros i j Hi Hj. unfold mscale, chain4_2. rewrite <- RtoC_inv by (cbn; lra).
    four i j; apply C_ext; cbn; field. }
  destruct (Rlt_dec acc (max_abs 4 _)) as [Y|Y].
  { exfalso. assert (Z : max_abs 4 (mscale (/ RtoC (INR 2))%C (mmul 4 (chain4 L d) (chain4 L d))) <= acc); [|lra].
    apply max_abs_spec; [lra|]. intros i j Hi Hj. rewrite (E2 i j Hi Hj). unfold chain4_2.
    four i j; rewrite Cmod_R, Rabs_right; lra. }
  eexists. split; [reflexivity|]. rewrite chain_exp. unfold madd. rewrite (E2 0%nat 3%nat) by lia.
  unfold mid, chain4, chain4_2. cbn [Nat.eqb].
  replace (RtoC (L * d * L / 6) - (RtoC 0 + RtoC 0 + RtoC 0))%C with (RtoC (L * d * L / 6)) by ring.
  rewrite Cmod_R, Ld. replace (2 * acc * L / 6) with (acc * (L / 3)) by field.
  rewrite Rabs_right by nra. unfold L. nra.
Qed.
Print Assumptions C25_dynamic_accuracy_refuted.

Example C25_error_example : row_sums 4 (chain4 1 2) 2.
Proof.
  intros i Hi. unfold chain4. cbn [rs]. destruct i as [|[|[|[|i]]]]; try lia; rewrite !Cmod_R, !Rabs_right; lra.
Qed.
