(** Discrete Fourier transform (tf.signal.fft / tf.signal.ifft) and the convolution
    theorem: the inverse transform of a product of transforms is the cyclic
    convolution. *)
From Coq Require Import Reals Lra Lia Arith.
From Coquelicot Require Import Complex.
From Verif Require Import Mat MExp.
Local Open Scope C_scope.

Definition ang (N k n : nat) : R := (2 * PI * (INR k * INR n) / INR N)%R.
(** tf.signal.fft: X_k = sum_n x_n exp(-2 pi i k n / N) *)
Definition dft (N : nat) (x : nat -> C) (k : nat) : C := csum N (fun n => x n * expi (- ang N k n)).
(** tf.signal.ifft: x_n = 1/N sum_k X_k exp(2 pi i k n / N) *)
Definition idft (N : nat) (X : nat -> C) (n : nat) : C := / RtoC (INR N) * csum N (fun k => X k * expi (ang N k n)).

Lemma expi_2pi_nat : forall k, expi (2 * PI * INR k) = RtoC 1.
Proof.
  induction k as [|k IH]; [replace (2 * PI * INR 0)%R with 0%R by (simpl; ring); apply expi_0|].
  rewrite S_INR. replace (2 * PI * (INR k + 1))%R with (2 * PI * INR k + 2 * PI)%R by ring. rewrite expi_add, IH.
  unfold expi. rewrite cos_2PI, sin_2PI. rewrite Cmult_1_l. reflexivity.
Qed.
Lemma expi_pow : forall t k, Cpow (expi t) k = expi (INR k * t).
Proof.
  intros t k. induction k as [|k IH]; [simpl; rewrite Rmult_0_l, expi_0; reflexivity|].
  cbn [Cpow]. rewrite IH, <- expi_add, S_INR. f_equal. ring.
Qed.
Lemma expi_ne1 : forall t, (0 < t < 2 * PI)%R -> expi t <> RtoC 1.
Proof.
  intros t H E. assert (Hc : cos t = 1%R) by (apply (f_equal fst) in E; exact E).
  replace t with (2 * (t / 2))%R in Hc by field. rewrite cos_2a_sin in Hc.
  assert (0 < sin (t / 2))%R by (apply sin_gt_0; lra). nra.
Qed.
Lemma geom : forall r n, (RtoC 1 - r) * csum n (fun k => Cpow r k) = RtoC 1 - Cpow r n.
Proof.
  intros r n. induction n as [|n IH]; [cbn; ring|]. cbn [csum Cpow].
  rewrite Cmult_plus_distr_l, IH. ring.
Qed.
(** sum over k of exp(2 pi i k d / N) for 0 <= d < N *)
Lemma roots_sum : forall N d, (d < N)%nat -> csum N (fun k => expi (ang N k d)) = if Nat.eqb d 0 then RtoC (INR N) else RtoC 0.
Proof.
  intros N d H. assert (HN : (0 < INR N)%R) by (apply lt_0_INR; lia).
  destruct (Nat.eqb_spec d 0) as [->|Hd].
  - rewrite (csum_ext N _ (fun _ => RtoC 1)); [rewrite csum_const; ring|].
    intros i _. unfold ang. replace (2 * PI * (INR i * INR 0) / INR N)%R with 0%R by (simpl; field; lra). apply expi_0.
  - set (t := (2 * PI * (INR d / INR N))%R).
    rewrite (csum_ext N _ (fun k => Cpow (expi t) k)).
    2:{ intros k _. rewrite expi_pow. f_equal. unfold ang, t. field. lra. }
    assert (Ht : (0 < t < 2 * PI)%R).
    { unfold t. pose proof PI_RGT_0. assert (0 < INR d / INR N < 1)%R. { split; [apply Rdiv_lt_0_compat; [apply lt_0_INR; lia|lra]|]. apply Rmult_lt_reg_r with (INR N); [lra|]. unfold Rdiv. rewrite Rmult_assoc, Rinv_l by lra. rewrite Rmult_1_r, Rmult_1_l. apply lt_INR, H. }
      split; nra. }
    pose proof (geom (expi t) N) as G. rewrite (expi_pow t N) in G.
    replace (INR N * t)%R with (2 * PI * INR d)%R in G by (unfold t; field; lra). rewrite expi_2pi_nat in G.
    replace (RtoC 1 - RtoC 1) with (RtoC 0) in G by ring.
    destruct (Ceq_dec (RtoC 1 - expi t) (RtoC 0)) as [Z|Z].
    + exfalso. apply (expi_ne1 t Ht). replace (expi t) with (RtoC 1 - (RtoC 1 - expi t)) by ring. rewrite Z. ring.
    + apply (f_equal (fun z => / (RtoC 1 - expi t) * z)) in G. rewrite Cmult_assoc, Cinv_l in G by exact Z. rewrite Cmult_1_l in G. rewrite G. ring.
Qed.
(** the same for any difference n - (m + l), reduced to a residue *)
Lemma roots_orth : forall N n s, (n < N)%nat -> (s < 2 * N)%nat ->
  csum N (fun k => expi (ang N k n) * expi (- ang N k s)) =
  if orb (Nat.eqb s n) (Nat.eqb s (n + N)) then RtoC (INR N) else RtoC 0.
Proof.
  intros N n s Hn Hs. assert (HN : (0 < INR N)%R) by (apply lt_0_INR; lia).
  (* n - s = d - q N with 0 <= d < N *)
  assert (D : exists d q, (d < N)%nat /\ (n + q * N = s + d)%nat /\ (d = 0%nat <-> (s = n \/ s = n + N)%nat)).
  { destruct (le_lt_dec s n) as [L|L]; [exists (n - s)%nat, 0%nat; lia|].
    destruct (le_lt_dec s (n + N)) as [L2|L2].
    - destruct (Nat.eq_dec s (n + N)) as [->|Q]; [exists 0%nat, 1%nat; lia|exists (n + N - s)%nat, 1%nat; lia].
    - exists (n + 2 * N - s)%nat, 2%nat. lia. }
  destruct D as (d & q & Hd & E & Z).
  rewrite (csum_ext N _ (fun k => expi (ang N k d))).
  - rewrite roots_sum by exact Hd. destruct (Nat.eqb_spec d 0) as [->|Q].
    + destruct (proj1 Z eq_refl) as [->| ->]; [rewrite Nat.eqb_refl; reflexivity|rewrite Nat.eqb_refl, Bool.orb_true_r; reflexivity].
    + destruct (Nat.eqb_spec s n) as [A|A]; [exfalso; apply Q, Z; left; exact A|].
      destruct (Nat.eqb_spec s (n + N)) as [B|B]; [exfalso; apply Q, Z; right; exact B|reflexivity].
  - intros k _. rewrite <- expi_add.
    assert (Ek : (ang N k n + - ang N k s + 2 * PI * INR (k * q) = ang N k d)%R).
    { unfold ang. assert (E' : (INR n + INR q * INR N = INR s + INR d)%R) by (rewrite <- mult_INR, <- !plus_INR; f_equal; exact E).
      rewrite mult_INR. assert (Q : (INR n - INR s + INR q * INR N = INR d)%R) by lra. rewrite <- Q. field. lra. }
    rewrite <- Ek, (expi_add (ang N k n + - ang N k s) (2 * PI * INR (k * q))), expi_2pi_nat, Cmult_1_r. reflexivity.
Qed.
Lemma ang_add : forall N k a b, ang N k (a + b) = (ang N k a + ang N k b)%R.
Proof. intros. unfold ang. rewrite plus_INR. unfold Rdiv. ring. Qed.

Lemma mod_cyc : forall N n m, (n < N)%nat -> (m < N)%nat ->
  ((n + N - m) mod N = if Nat.leb m n then n - m else n + N - m)%nat.
Proof.
  intros N n m Hn Hm. destruct (Nat.leb_spec m n).
  - replace (n + N - m)%nat with ((n - m) + 1 * N)%nat by lia. rewrite Nat.mod_add by lia. apply Nat.mod_small. lia.
  - apply Nat.mod_small. lia.
Qed.
(** convolution theorem *)
Theorem dft_convolution : forall N x y n, (n < N)%nat ->
  idft N (fun k => dft N x k * dft N y k) n = csum N (fun m => x m * y ((n + N - m) mod N)).
Proof.
  intros N x y n Hn. assert (HN : INR N <> 0%R) by (apply not_0_INR; lia).
  assert (HC : RtoC (INR N) <> RtoC 0) by (intro Q; apply HN; injection Q; auto).
  unfold idft, dft.
  rewrite (csum_ext N _ (fun k => csum N (fun m => csum N (fun l => (x m * y l) * (expi (ang N k n) * expi (- ang N k (m + l))))))).
  2:{ intros k _. rewrite <- csum_scale_r. rewrite <- csum_scale_r. apply csum_ext. intros m _.
      rewrite <- csum_scale, <- csum_scale_r. apply csum_ext. intros l _. rewrite ang_add, Ropp_plus_distr, expi_add. ring. }
  rewrite csum_swap.
  rewrite (csum_ext N (fun j => csum N (fun i => csum N (fun l => _))) (fun m => RtoC (INR N) * (x m * y ((n + N - m) mod N)))).
  - rewrite csum_scale, Cmult_assoc, Cinv_l by exact HC. apply Cmult_1_l.
  - intros m Hm. rewrite csum_swap.
    rewrite (csum_ext N _ (fun l => if Nat.eqb l ((n + N - m) mod N) then RtoC (INR N) * (x m * y l) else RtoC 0)).
    + rewrite (csum_single N ((n + N - m) mod N)).
      * rewrite Nat.eqb_refl. reflexivity.
      * apply Nat.mod_upper_bound. lia.
      * intros i Hi Q. destruct (Nat.eqb_spec i ((n + N - m) mod N)); [contradiction|reflexivity].
    + intros l Hl. rewrite csum_scale, roots_orth by lia. rewrite mod_cyc by assumption.
      destruct (Nat.leb_spec m n).
      * destruct (Nat.eqb_spec (m + l) n) as [A|A]; destruct (Nat.eqb_spec (m + l) (n + N)) as [B|B]; destruct (Nat.eqb_spec l (n - m)) as [D|D]; try lia; cbn [orb]; ring.
      * destruct (Nat.eqb_spec (m + l) n) as [A|A]; destruct (Nat.eqb_spec (m + l) (n + N)) as [B|B]; destruct (Nat.eqb_spec l (n + N - m)) as [D|D]; try lia; cbn [orb]; ring.
Qed.
(** the transforms are inverse to each other *)
Theorem idft_dft : forall N x n, (n < N)%nat -> idft N (dft N x) n = x n.
Proof.
  intros N x n Hn. assert (HN : INR N <> 0%R) by (apply not_0_INR; lia).
  assert (HC : RtoC (INR N) <> RtoC 0) by (intro Q; apply HN; injection Q; auto).
  unfold idft, dft.
  rewrite (csum_ext N _ (fun k => csum N (fun m => x m * (expi (ang N k n) * expi (- ang N k m))))).
  2:{ intros k _. rewrite <- csum_scale_r. apply csum_ext. intros m _. ring. }
  rewrite csum_swap. rewrite (csum_single N n _ Hn).
  - rewrite csum_scale, roots_orth by lia. rewrite Nat.eqb_refl. cbn [orb]. field. exact HC.
  - intros m Hm Q. rewrite csum_scale, roots_orth by lia.
    destruct (Nat.eqb_spec m n) as [A|A]; [contradiction|]. destruct (Nat.eqb_spec m (n + N)) as [B|B]; [lia|]. cbn [orb]. ring.
Qed.
