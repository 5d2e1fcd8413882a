(** Proofs that the evolution under a Lindblad generator keeps density matrices
    positive semidefinite. *)
From Coq Require Import Reals Lra Lia List Setoid Morphisms.
From Coquelicot Require Import Coquelicot.
From Verif Require Import Base Mat MExp MExp2 RSum HilbertModel PropModel PropProofs SuperProofs Euler.
Local Open Scope R_scope.

(** The quadratic form v+ X v. *)
Definition quad (n : nat) (X : mat) (v : nat -> C) : C := csum n (fun i => csum n (fun j => Cconj (v i) * X i j * v j)%C).
Definition nonneg_form (n : nat) (X : mat) : Prop := forall v, 0 <= fst (quad n X v).

Lemma quad_proper : forall n X Y v, meq n n X Y -> quad n X v = quad n Y v.
Proof. intros n X Y v E. apply csum_ext. intros i Hi. apply csum_ext. intros j Hj. rewrite (E i j Hi Hj). reflexivity. Qed.
Lemma nonneg_form_proper : forall n X Y, meq n n X Y -> nonneg_form n X -> nonneg_form n Y.
Proof. intros n X Y E H v. rewrite <- (quad_proper n X Y v E). apply H. Qed.
Lemma quad_add : forall n X Y v, quad n (madd X Y) v = (quad n X v + quad n Y v)%C.
Proof.
  intros n X Y v. unfold quad. rewrite <- csum_plus. apply csum_ext. intros i Hi. rewrite <- csum_plus. apply csum_ext.
  intros j Hj. unfold madd. ring.
Qed.
Lemma quad_scale : forall n c X v, quad n (mscale c X) v = (c * quad n X v)%C.
Proof.
  intros n c X v. unfold quad. rewrite <- csum_scale. apply csum_ext. intros i Hi. rewrite <- csum_scale. apply csum_ext.
  intros j Hj. unfold mscale. ring.
Qed.
Lemma quad_zero : forall n v, quad n mzero v = RtoC 0.
Proof. intros n v. apply csum_0. intros i _. apply csum_0. intros j _. unfold mzero. ring. Qed.
(** The form of A X A+ at v is that of X at A+ v. *)
Lemma quad_sandwich : forall n A X v,
  quad n (mmul n (mmul n A X) (madj A)) v = quad n X (fun k => csum n (fun i => Cconj (A i k) * v i)%C).
Proof.
  intros n A X v. unfold quad, mmul, madj.
  transitivity (csum n (fun i => csum n (fun j => csum n (fun l => csum n (fun k => Cconj (v i) * A i k * X k l * Cconj (A j l) * v j))))%C).
  - apply csum_ext. intros i Hi. apply csum_ext. intros j Hj.
    rewrite <- csum_scale, <- csum_scale_r. apply csum_ext. intros l Hl.
    rewrite <- csum_scale_r, <- csum_scale, <- csum_scale_r. apply csum_ext. intros k Hk. ring.
  - transitivity (csum n (fun k => csum n (fun l => csum n (fun i => csum n (fun j => Cconj (v i) * A i k * X k l * Cconj (A j l) * v j))))%C).
    + rewrite csum_swap.
      transitivity (csum n (fun j => csum n (fun l => csum n (fun i => csum n (fun k => Cconj (v i) * A i k * X k l * Cconj (A j l) * v j))))%C).
      { apply csum_ext. intros j Hj. rewrite csum_swap. reflexivity. }
      transitivity (csum n (fun j => csum n (fun l => csum n (fun k => csum n (fun i => Cconj (v i) * A i k * X k l * Cconj (A j l) * v j))))%C).
      { apply csum_ext. intros j Hj. apply csum_ext. intros l Hl. rewrite csum_swap. reflexivity. }
      transitivity (csum n (fun j => csum n (fun k => csum n (fun l => csum n (fun i => Cconj (v i) * A i k * X k l * Cconj (A j l) * v j))))%C).
      { apply csum_ext. intros j Hj. rewrite csum_swap. reflexivity. }
      rewrite csum_swap. apply csum_ext. intros k Hk. rewrite csum_swap. apply csum_ext. intros l Hl. rewrite csum_swap. reflexivity.
    + apply csum_ext. intros k Hk. apply csum_ext. intros l Hl.
      rewrite conj_sum, <- csum_scale_r, <- csum_scale_r. apply csum_ext. intros i Hi.
      rewrite <- csum_scale. apply csum_ext. intros j Hj. rewrite conj_mult, conj_conj. ring.
Qed.
Lemma nonneg_sandwich : forall n A X, nonneg_form n X -> nonneg_form n (mmul n (mmul n A X) (madj A)).
Proof. intros n A X H v. rewrite quad_sandwich. apply H. Qed.
Lemma nonneg_add : forall n X Y, nonneg_form n X -> nonneg_form n Y -> nonneg_form n (madd X Y).
Proof. intros n X Y HX HY v. rewrite quad_add. cbn. specialize (HX v). specialize (HY v). lra. Qed.
Lemma nonneg_scale : forall n r X, 0 <= r -> nonneg_form n X -> nonneg_form n (mscale (RtoC r) X).
Proof. intros n r X Hr H v. rewrite quad_scale. cbn. specialize (H v). nra. Qed.
Lemma nonneg_zero : forall n, nonneg_form n mzero.
Proof. intros n v. rewrite quad_zero. cbn. lra. Qed.

(** ** The Lindblad generator *)
(** sum of c X c+ over the collapse operators *)
Definition jumps (n : nat) (cols : list mat) (X : mat) : mat :=
  fold_right (fun c acc => madd (mmul n (mmul n c X) (madj c)) acc) mzero cols.
(** sum of c+ c over the collapse operators *)
Definition gains (n : nat) (cols : list mat) : mat := fold_right (fun c acc => madd (mmul n (madj c) c) acc) mzero cols.
Lemma gains_herm : forall n cols, hermitian n (gains n cols).
Proof. intros n cols. induction cols as [|c r IH]; cbn; [apply herm_zero|apply herm_add; [apply herm_sq|exact IH]]. Qed.
Lemma nonneg_jumps : forall n cols X, nonneg_form n X -> nonneg_form n (jumps n cols X).
Proof. intros n cols X H. induction cols as [|c r IH]; cbn; [apply nonneg_zero|apply nonneg_add; [apply nonneg_sandwich, H|exact IH]]. Qed.
Lemma lindblad_split : forall n cols X d,
  meq n n (fold_left (lindblad_add n X) cols d)
    (msub (madd d (jumps n cols X)) (mscale (RtoC (1/2)) (madd (mmul n (gains n cols) X) (mmul n X (gains n cols))))).
Proof.
  intros n cols X. induction cols as [|c r IH]; intro d; cbn [fold_left jumps gains fold_right].
  - rewrite mmul_zero_l, mmul_zero_r. intros i j _ _. unfold msub, madd, mscale, mzero. apply C_ext; cbn; ring.
  - rewrite IH. unfold lindblad_add, anticommutator. fold (jumps n r X) (gains n r).
    rewrite (mmul_add_r n n n _ (gains n r) X), (mmul_add_l n n n X _ (gains n r)).
    intros i j _ _. unfold msub, madd, mscale. ring.
Qed.
(** K = - i h - 1/2 sum c+ c *)
Definition drift (n : nat) (h : mat) (cols : list mat) : mat := msub (mscale (- Ci)%C h) (mscale (RtoC (1/2)) (gains n cols)).
Lemma drift_adj : forall n h cols, hermitian n h ->
  meq n n (madj (drift n h cols)) (msub (mscale Ci h) (mscale (RtoC (1/2)) (gains n cols))).
Proof.
  intros n h cols Hh. pose proof (gains_herm n cols) as Hg. unfold hermitian in Hh, Hg.
  unfold drift. rewrite madj_sub, !madj_scale, Hh, Hg, conj_R, conj_opp, conj_i.
  intros i j _ _. unfold msub, mscale. ring.
Qed.
Lemma lindblad_kraus : forall n h cols X, hermitian n h ->
  meq n n (lindblad n cols 1 X h)
    (madd (madd (mmul n (drift n h cols) X) (mmul n X (madj (drift n h cols)))) (jumps n cols X)).
Proof.
  intros n h cols X Hh. rewrite (drift_adj n h cols Hh). unfold lindblad. rewrite mscale_1, lindblad_split.
  unfold drift, commutator. rewrite mmul_sub_r, mmul_sub_l, !mmul_scale_l, !mmul_scale_r.
  intros i j _ _. unfold msub, madd, mscale. ring.
Qed.
(** One step X -> X + e L(X) + e^2 K X K+ is a sum of sandwiches. *)
Lemma step_kraus : forall n h cols X e, hermitian n h ->
  let K := drift n h cols in
  let B := madd mid (mscale (RtoC e) K) in
  meq n n (madd X (madd (mscale (RtoC e) (lindblad n cols 1 X h)) (mscale (RtoC (e * e)) (mmul n (mmul n K X) (madj K)))))
          (madd (mmul n (mmul n B X) (madj B)) (mscale (RtoC e) (jumps n cols X))).
Proof.
  intros n h cols X e Hh K B. rewrite (lindblad_kraus n h cols X Hh). fold K. unfold B.
  rewrite madj_add, madj_id, madj_scale, conj_R.
  rewrite (mmul_add_r n n n mid (mscale (RtoC e) K) X), mmul_id_l, mmul_scale_l.
  rewrite mmul_add_l, mmul_id_r, mmul_scale_r, mmul_add_r, mmul_scale_l.
  intros i j _ _. unfold madd, mscale. rewrite RtoC_mult. ring.
Qed.

(** ** The limit *)
Lemma row_stack_entry : forall n X i j, (j < n)%nat -> row_stack n X (i * n + j)%nat 0%nat = X i j.
Proof. intros n X i j Hj. unfold row_stack. destruct (divmod_add i j n Hj) as [-> ->]. reflexivity. Qed.
(** Euler steps of the generator keep forms nonnegative. *)
Lemma euler_nonneg : forall n h cols dt m X, hermitian n h -> 0 <= dt -> (0 < m)%nat -> nonneg_form n X ->
  let Y := euler_step (mscale (RtoC dt) (lind_op n h cols)) (mscale (RtoC (dt * dt)) (tf_super n (drift n h cols))) m in
  forall k, nonneg_form n (row_unstack n (mmul (n * n) (mpow (n * n) Y k) (row_stack n X))).
Proof.
  intros n h cols dt m X Hh Hdt Hm HX Y.
  assert (One : forall Z, nonneg_form n Z -> nonneg_form n (row_unstack n (mmul (n * n) Y (row_stack n Z)))).
  { intros Z HZ. set (e := / INR m * dt).
    assert (Pe : 0 <= e). { apply Rmult_le_pos; [|exact Hdt]. left. apply Rinv_0_lt_compat, lt_0_INR. exact Hm. }
    set (K := drift n h cols).
    assert (E : meq (n * n) 1 (mmul (n * n) Y (row_stack n Z))
       (row_stack n (madd Z (madd (mscale (RtoC e) (lindblad n cols 1 Z h)) (mscale (RtoC (e * e)) (mmul n (mmul n K Z) (madj K))))))).
    { unfold Y, euler_step. rewrite !mmul_add_r, mmul_id_l, !mmul_scale_l, lind_op_row, super_row_stack.
      fold K. rewrite !row_stack_add, !row_stack_scale. intros i j _ _. unfold madd, mscale, e.
      rewrite !RtoC_mult. ring. }
    eapply nonneg_form_proper.
    - symmetry. etransitivity; [apply row_unstack_mor; exact E|apply row_unstack_stack].
    - eapply nonneg_form_proper; [symmetry; apply step_kraus; exact Hh|].
      apply nonneg_add; [apply nonneg_sandwich, HZ|apply nonneg_scale; [exact Pe|apply nonneg_jumps, HZ]]. }
  induction k as [|k IH].
  - cbn [mpow]. eapply nonneg_form_proper; [|exact HX]. symmetry.
    transitivity (row_unstack n (row_stack n X)); [apply row_unstack_mor, mmul_id_l|apply row_unstack_stack].
  - eapply nonneg_form_proper; [|apply (One _ IH)]. apply row_unstack_mor.
    rewrite (mmul_mor_l _ _ _ _ _ _ (mpow_S_l (n * n) Y k)), <- (mmul_assoc _ _ _ (n * n)).
    apply mmul_mor_r. apply row_stack_unstack.
Qed.
Lemma small_nonneg : forall x w, 0 <= w -> (forall m, (0 < m)%nat -> - (w / INR m) <= x) -> 0 <= x.
Proof.
  intros x w Hw H. destruct (Rle_lt_dec 0 x) as [L|L]; [exact L|exfalso].
  destruct (archimed_cor1 (- x / (w + 1))) as (m & Hm & Pm).
  { apply Rdiv_lt_0_compat; lra. }
  specialize (H m Pm). assert (Im : 0 < / INR m) by (apply Rinv_0_lt_compat, lt_0_INR, Pm).
  assert (Q : (w + 1) * / INR m < - x).
  { apply (Rmult_lt_compat_l (w + 1)) in Hm; [|lra]. replace ((w + 1) * (- x / (w + 1))) with (- x) in Hm by (field; lra). exact Hm. }
  unfold Rdiv in H. nra.
Qed.
Lemma fst_ge : forall z : C, - Cmod z <= fst z.
Proof. intro z. pose proof (fst_le_Cmod z). pose proof (Rle_abs (- fst z)). rewrite Rabs_Ropp in *. lra. Qed.
Lemma quad_bound : forall n D X v d x, bnd (n * n) D d -> 0 <= x ->
  (forall k, (k < n * n)%nat -> Cmod (row_stack n X k 0%nat) <= x) ->
  Cmod (quad n (row_unstack n (mmul (n * n) D (row_stack n X))) v)
    <= d * (x * rs n (fun i => rs n (fun j => Cmod (v i) * Cmod (v j)))).
Proof.
  intros n D X v d x HD Hx HX. unfold quad. eapply Rle_trans; [apply Cmod_csum|].
  replace (d * (x * rs n (fun i => rs n (fun j => Cmod (v i) * Cmod (v j))))) with
    (rs n (fun i => rs n (fun j => d * x * (Cmod (v i) * Cmod (v j))))).
  - apply rs_le. intros i Hi. eapply Rle_trans; [apply Cmod_csum|]. apply rs_le. intros j Hj.
    rewrite !Cmod_mult, conj_mod. unfold row_unstack.
    assert (Hk : (i * n + j < n * n)%nat) by nia.
    assert (Z : Cmod (mmul (n * n) D (row_stack n X) (i * n + j)%nat 0%nat) <= d * x).
    { unfold mmul. eapply Rle_trans; [apply Cmod_csum|].
      eapply Rle_trans; [apply (rs_le (n * n) _ (fun l => x * Cmod (D (i * n + j)%nat l)))|].
      - intros l Hl. rewrite Cmod_mult, Rmult_comm. apply Rmult_le_compat_r; [apply Cmod_ge_0|apply HX, Hl].
      - rewrite rs_scale, Rmult_comm. apply Rmult_le_compat_r; [exact Hx|apply HD, Hk]. }
    replace (d * x * (Cmod (v i) * Cmod (v j))) with (Cmod (v i) * (d * x) * Cmod (v j)) by ring.
    apply Rmult_le_compat_r; [apply Cmod_ge_0|]. apply Rmult_le_compat_l; [apply Cmod_ge_0|exact Z].
  - rewrite <- Rmult_assoc, <- rs_scale. apply rs_ext. intros i Hi. rewrite rs_scale. reflexivity.
Qed.
Lemma quad_sub : forall n X Y v, quad n (msub X Y) v = (quad n X v - quad n Y v)%C.
Proof.
  intros n X Y v. rewrite (quad_proper n _ (madd X (mscale (- RtoC 1)%C Y))).
  - rewrite quad_add, quad_scale. ring.
  - intros i j _ _. unfold msub, madd, mscale. ring.
Qed.
(** The evolution under the Lindblad equation keeps positive semidefinite matrices so. *)
Theorem lind_evolve_nonneg : forall n h cols dt X, hermitian n h -> 0 <= dt -> nonneg_form n X ->
  nonneg_form n (lind_evolve n h cols dt X).
Proof.
  intros n h cols dt X Hh Hdt HX v. destruct (Nat.eq_dec n 0) as [->|Hn]; [cbn; lra|].
  assert (HN : (0 < n * n)%nat) by nia.
  set (A := mscale (RtoC dt) (lind_op n h cols)). set (E := mscale (RtoC (dt * dt)) (tf_super n (drift n h cols))).
  destruct (euler_limit (n * n) A E HN) as (K & PK & HK).
  destruct (entries_bounded n X) as (x & Px & Hx).
  set (w := rs n (fun i => rs n (fun j => Cmod (v i) * Cmod (v j)))).
  assert (Pw : 0 <= w). { apply rs_nonneg. intros. apply rs_nonneg. intros. apply Rmult_le_pos; apply Cmod_ge_0. }
  apply (small_nonneg _ (K * (x * w))).
  { apply Rmult_le_pos; [exact PK|]. apply Rmult_le_pos; assumption. }
  intros m Hm. specialize (HK m Hm).
  set (Y := mpow (n * n) (euler_step A E m) m) in *.
  pose proof (euler_nonneg n h cols dt m X Hh Hdt Hm HX m v) as P. cbv zeta in P. fold A E Y in P.
  assert (Hx' : forall k, (k < n * n)%nat -> Cmod (row_stack n X k 0%nat) <= x).
  { intros k Hk. unfold row_stack. destruct (divmod_lt k n n Hk). apply Hx; assumption. }
  pose proof (quad_bound n (msub (mexp (n * n) A) Y) X v _ x HK Px Hx') as Q. fold w in Q.
  assert (T : quad n (row_unstack n (mmul (n * n) (msub (mexp (n * n) A) Y) (row_stack n X))) v
     = (quad n (lind_evolve n h cols dt X) v - quad n (row_unstack n (mmul (n * n) Y (row_stack n X))) v)%C).
  { rewrite <- quad_sub. apply quad_proper. unfold lind_evolve.
    transitivity (row_unstack n (msub (mmul (n * n) (lind_slice n h cols dt) (row_stack n X)) (mmul (n * n) Y (row_stack n X)))).
    - apply row_unstack_mor. rewrite (mmul_mor_l _ _ _ _ _ _ (lind_slice_eq n h cols dt)). apply mmul_sub_r.
    - reflexivity. }
  rewrite T in Q. set (q1 := quad n (lind_evolve n h cols dt X) v) in *.
  set (q2 := quad n (row_unstack n (mmul (n * n) Y (row_stack n X))) v) in *.
  pose proof (fst_ge (q1 - q2)%C) as F. assert (D : fst (q1 - q2)%C = fst q1 - fst q2) by reflexivity.
  replace (K * (x * w) / INR m) with (K / INR m * (x * w)) by (unfold Rdiv; ring). lra.
Qed.
