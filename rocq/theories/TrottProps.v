From Coq Require Import Reals Lra Lia.
From Coquelicot Require Import Complex.
From Verif Require Import Base Mat MExp TrottModel.
Local Open Scope list_scope.
Local Open Scope C_scope.

(** ** C135: the step with a separate drift *)

(** What tf.linalg.eigh returns: orthonormal eigenvectors *)
Definition eigh_ok (n : nat) (h : mat) (ev : (nat -> R) * mat) : Prop :=
  unitary n (snd ev) /\ meq n n h (mmul n (mmul n (snd ev) (fun i j => if Nat.eqb i j then RtoC (fst ev i) else RtoC 0)) (madj (snd ev))).

(** Without tensorflow's numpy behaviour the function cannot be called *)
Theorem C135_unusable : forall eigh n h0 hks cflds dt, pwc_trott_drift false eigh n h0 hks cflds dt = Err AttributeError.
Proof. intros. unfold pwc_trott_drift. destruct (eigh h0). reflexivity. Qed.
Print Assumptions C135_unusable.

(** The drift over one step is exact for real eigenvectors *)
Theorem C135_drift : forall n h e v dt, eigh_ok n h (e, v) -> (forall i j, (i < n)%nat -> (j < n)%nat -> snd (v i j) = 0%R) ->
  meq n n (drift_step n e v dt) (mexp n (mscale (- Ci * RtoC dt) h)).
Proof.
  intros n h e v dt [HU HE] HR. cbn [fst snd] in *.
  assert (T : meq n n (mtrans v) (madj v)).
  { intros i j Hi Hj. unfold mtrans, madj. specialize (HR j i Hj Hi). destruct (v j i) as [a b]. cbn in HR. subst. unfold Cconj. cbn. f_equal. ring. }
  set (D := fun i j => if Nat.eqb i j then Ci * RtoC (- (e i * dt)) else RtoC 0 : C).
  assert (E : meq n n (mscale (- Ci * RtoC dt) h) (mmul n (mmul n v D) (madj v))).
  { rewrite HE. intros i j Hi Hj. unfold mscale, mmul. rewrite <- csum_scale. apply csum_ext. intros l Hl. rewrite Cmult_assoc. f_equal.
    rewrite <- csum_scale. apply csum_ext. intros k Hk. unfold D. destruct (Nat.eqb k l); [rewrite RtoC_opp, RtoC_mult|]; ring. }
  rewrite E. rewrite mexp_conj; [|apply HU|apply HU]. unfold drift_step. rewrite T.
  rewrite (mexp_diag n D (fun i => (- (e i * dt))%R)) by reflexivity. reflexivity.
Qed.
Print Assumptions C135_drift.

(** The whole step: the drift, the controls, and the drift again, with a second order term *)
Theorem C135_step : forall eigh n h0 hks cflds dt, eigh_ok n h0 (eigh h0) ->
  (forall i j, (i < n)%nat -> (j < n)%nat -> snd (snd (eigh h0) i j) = 0%R) ->
  exists U, pwc_trott_drift true eigh n h0 hks cflds dt = Ok U
    /\ let u0 := mexp n (mscale (- Ci * RtoC dt) h0) in let ht := driven hks cflds in
       meq n n U (mmul n (mmul n u0 (mexp n (mscale (- Ci * RtoC dt) ht)))
                         (madd u0 (mscale (RtoC (dt * dt / 2)) (msub (mmul n h0 ht) (mmul n ht h0))))).
Proof.
  intros eigh n h0 hks cflds dt HE HR. unfold pwc_trott_drift. destruct (eigh h0) as [e v]. cbn [negb]. eexists. split; [reflexivity|].
  cbv zeta. pose proof (C135_drift n h0 e v dt HE HR) as D.
  apply mmul_mor.
  - rewrite D. reflexivity.
  - intros i j Hi Hj. unfold msub at 1, madd. rewrite (D i j Hi Hj). unfold mscale at 2 4. rewrite RtoC_opp. ring.
Qed.
Print Assumptions C135_step.

Lemma driven_zero : forall n hks cflds, Forall (fun c => c = 0%R) cflds -> meq n n (driven hks cflds) mzero.
Proof.
  intros n hks. induction hks as [|h hks IH]; intros cflds F; [reflexivity|]. destruct cflds as [|c cflds]; [reflexivity|].
  inversion F; subst. intros i j Hi Hj. transitivity (RtoC 0 * h i j + driven hks cflds i j); [reflexivity|]. rewrite (IH cflds H2 i j Hi Hj). unfold mzero. ring.
Qed.
(** Finding: without control fields the system evolves by twice the time. *)
Theorem C135_twice : forall eigh n h0 hks cflds dt U, eigh_ok n h0 (eigh h0) ->
  (forall i j, (i < n)%nat -> (j < n)%nat -> snd (snd (eigh h0) i j) = 0%R) -> Forall (fun c => c = 0%R) cflds ->
  pwc_trott_drift true eigh n h0 hks cflds dt = Ok U -> meq n n U (mexp n (mscale (- Ci * RtoC (2 * dt)) h0)).
Proof.
  intros eigh n h0 hks cflds dt U HE HR F H. destruct (C135_step eigh n h0 hks cflds dt HE HR) as (U' & E & S). rewrite H in E. injection E as <-.
  cbv zeta in S. rewrite S. pose proof (driven_zero n hks cflds F) as Z.
  assert (Z1 : meq n n (mscale (- Ci * RtoC dt) (driven hks cflds)) mzero) by (rewrite Z; intros i j _ _; unfold mscale, mzero; ring).
  assert (Z2 : meq n n (mscale (RtoC (dt * dt / 2)) (msub (mmul n h0 (driven hks cflds)) (mmul n (driven hks cflds) h0))) mzero).
  { rewrite Z. rewrite mmul_zero_l, mmul_zero_r. intros i j _ _. unfold mscale, msub, mzero. ring. }
  rewrite Z1, Z2, mexp_0, mmul_id_r, madd_zero_r.
  assert (A : forall t, meq n n (mscale (- Ci * RtoC t) h0) (mscale (RtoC t) (mscale (- Ci) h0))) by (intros t i j _ _; unfold mscale; ring).
  rewrite !A, mexp_add. replace (dt + dt)%R with (2 * dt)%R by ring. reflexivity.
Qed.
Print Assumptions C135_twice.

(** so the step does not approximate the evolution, however small the step and whatever
    the method of diagonalisation *)
Theorem C135_wrong_refuted : forall dt, (0 < dt <= 1)%R -> exists h0 eigh U, eigh_ok 1 h0 (eigh h0) /\ pwc_trott_drift true eigh 1 h0 [] [] dt = Ok U
  /\ ~ meq 1 1 U (mexp 1 (mscale (- Ci * RtoC dt) h0)).
Proof.
  intros dt Hd. set (ev := (fun _ : nat => 1%R, mid)). exists mid, (fun _ => ev).
  assert (K : eigh_ok 1 mid ev). { split; [apply unitary_id|]. cbn [fst snd ev]. intros i j Hi Hj. assert (i = 0%nat) by lia. assert (j = 0%nat) by lia. subst.
    unfold mmul, mid, madj. cbn [csum Nat.eqb]. rewrite conj_R. ring. }
  assert (R : forall i j, (i < 1)%nat -> (j < 1)%nat -> snd (snd ev i j) = 0%R) by (intros i j _ _; cbn; unfold mid; destruct (Nat.eqb i j); reflexivity).
  destruct (C135_step (fun _ => ev) 1 mid [] [] dt K R) as (U & E & _). exists U. split; [exact K|]. split; [exact E|]. intros W.
  pose proof (C135_twice (fun _ => ev) 1 mid [] [] dt U K R (Forall_nil _) E) as T. rewrite T in W.
  assert (X : forall t, mexp 1 (mscale (- Ci * RtoC t) mid) 0%nat 0%nat = expi (- t)).
  { intros t. assert (Q : meq 1 1 (mscale (- Ci * RtoC t) mid) (fun i j => if Nat.eqb i j then Ci * RtoC (- t) else RtoC 0)).
    { intros i j Hi Hj. unfold mscale, mid. rewrite RtoC_opp. destruct (Nat.eqb i j); ring. }
    exact (mexp_diag 1 _ (fun _ => (- t)%R) Q 0%nat 0%nat ltac:(lia) ltac:(lia)). }
  specialize (W 0%nat 0%nat ltac:(lia) ltac:(lia)). rewrite !X in W.
  assert (O : expi (- dt) = RtoC 1).
  { assert (M : expi dt * expi (- (2 * dt)) = expi dt * expi (- dt)) by (rewrite W; reflexivity). rewrite <- !expi_add in M.
    replace (dt + - (2 * dt))%R with (- dt)%R in M by ring. replace (dt + - dt)%R with 0%R in M by ring. rewrite expi_0 in M. exact M. }
  apply (f_equal snd) in O. cbn in O. rewrite sin_neg in O. assert (0 < sin dt)%R by (apply sin_gt_0; [lra|]; pose proof PI_RGT_0; pose proof PI2_1; lra). lra.
Qed.
Print Assumptions C135_wrong_refuted.

(** Finding: the eigenvectors are transposed, not conjugated, so the drift also depends on
    the phase in which the eigenvectors are returned: with the phase i it has the wrong sign. *)
Theorem C135_phase_refuted : forall n h e v dt, eigh_ok n h (e, v) -> (forall i j, (i < n)%nat -> (j < n)%nat -> snd (v i j) = 0%R) ->
  eigh_ok n h (e, mscale Ci v) /\ meq n n (drift_step n e (mscale Ci v) dt) (mscale (RtoC (-1)) (mexp n (mscale (- Ci * RtoC dt) h))).
Proof.
  intros n h e v dt H R. split.
  - destruct H as [[U1 U2] HE]. cbn [fst snd] in *. split; [split|].
    + intros i j Hi Hj. rewrite <- (U1 i j Hi Hj). apply csum_ext. intros l Hl. unfold madj, mscale. cbn [snd]. rewrite conj_mult, conj_i.
      transitivity (- (Ci * Ci) * (Cconj (v l i) * v l j)); [ring|]. rewrite Ci_sqr. ring.
    + intros i j Hi Hj. rewrite <- (U2 i j Hi Hj). apply csum_ext. intros l Hl. unfold madj, mscale. cbn [snd]. rewrite conj_mult, conj_i.
      transitivity (- (Ci * Ci) * (v i l * Cconj (v j l))); [ring|]. rewrite Ci_sqr. ring.
    + rewrite HE. intros i j Hi Hj. unfold mmul. apply csum_ext. intros l Hl. rewrite <- !csum_scale_r. apply csum_ext. intros k Hk. cbn [fst snd].
      unfold madj, mscale. rewrite conj_mult, conj_i. set (d := if Nat.eqb k l then _ else _). 
      transitivity (- (Ci * Ci) * (v i k * d * Cconj (v j l))); [rewrite Ci_sqr; ring|ring].
  - rewrite <- (C135_drift n h e v dt H R). intros i j Hi Hj. unfold drift_step, mmul, mscale, mtrans. rewrite <- csum_scale. apply csum_ext. intros l Hl.
    rewrite <- !csum_scale_r, <- csum_scale. apply csum_ext. intros k Hk. set (d := if Nat.eqb k l then _ else _).
    transitivity ((Ci * Ci) * (v i k * d * v j l)); [ring|]. rewrite Ci_sqr. replace (RtoC (-1)) with (- RtoC 1) by (rewrite <- RtoC_opp; reflexivity). ring.
Qed.
Print Assumptions C135_phase_refuted.

(** Non-vacuity: a diagonal drift, with real eigenvectors *)
Example C135_example : eigh_ok 2 (fun i j => if Nat.eqb i j then RtoC (INR i) else RtoC 0) (INR, mid)
  /\ forall i j, (i < 2)%nat -> (j < 2)%nat -> snd (mid i j) = 0%R.
Proof.
  split; [split; [apply unitary_id|]|].
  - cbn [fst snd]. rewrite mmul_id_l, madj_id, mmul_id_r. reflexivity.
  - intros i j _ _. unfold mid. destruct (Nat.eqb i j); reflexivity.
Qed.
