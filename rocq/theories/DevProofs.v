(** Lemmas about the devices: grids, element-wise operations, convolution. *)
From Coq Require Import Reals Lra Lia.
From Coquelicot Require Import Complex.
From Verif Require Import Base QuantityModel Mat MExp RSum Dft OptModel OptProps EnvModel EnvProps DevModel.
Local Open Scope list_scope.
Local Open Scope nat_scope.
Local Notation length := List.length.

Lemma tf_linspace_ok : forall a b n, 0 < n -> tf_linspace a b n = Ok (linspace a b n).
Proof. intros a b [|n] H; [lia|reflexivity]. Qed.
Lemma linspace_len : forall a b n, length (linspace a b n) = n.
Proof. intros. apply (C58_linspace a b n). Qed.
Lemma linspace_nth : forall a b n i, i < n -> nth i (linspace a b n) 0%R = (a + INR i * ((b - a) / INR (n - 1)))%R.
Proof. intros a b n i H. apply (proj1 (proj2 (C58_linspace a b n))), H. Qed.

Lemma slices_exact : forall res t0 t1 n, (0 < res)%R -> (t1 - t0 = INR n / res)%R -> calc_slice_num res t0 t1 = n.
Proof.
  intros res t0 t1 n Hr H. unfold calc_slice_num. assert (0 <= INR n / res)%R by (apply Rmult_le_pos; [apply pos_INR|left; apply Rinv_0_lt_compat; lra]).
  rewrite Rabs_left1 by lra. replace (- (t0 - t1) * res)%R with (INR n). apply floor_nat_INR. replace (- (t0 - t1))%R with (INR n / res)%R by lra. field. lra.
Qed.

Lemma ew_same : forall {A B D} (f : A -> B -> D) a b, length a = length b ->
  elementwise f a b = Ok (map (fun xy => f (fst xy) (snd xy)) (combine a b)).
Proof. intros A B D f a b H. unfold elementwise. rewrite H, Nat.eqb_refl. reflexivity. Qed.
Lemma ew_nth : forall {A B D} (f : A -> B -> D) a b da db dd i, length a = length b -> i < length a ->
  nth i (map (fun xy => f (fst xy) (snd xy)) (combine a b)) dd = f (nth i a da) (nth i b db).
Proof.
  intros A B D f a. induction a as [|x a IH]; intros [|y b] da db dd i HL Hi; cbn in *; try lia.
  destruct i as [|i]; [reflexivity|]. apply IH; lia.
Qed.
Lemma ew_len : forall {A B D} (f : A -> B -> D) a b, length a = length b ->
  length (map (fun xy => f (fst xy) (snd xy)) (combine a b)) = length a.
Proof. intros. rewrite map_length, combine_length. lia. Qed.
Lemma nth_map_d : forall {A B} (f : A -> B) l i da db, i < length l -> nth i (map f l) db = f (nth i l da).
Proof. intros A B f l. induction l as [|x l IH]; intros [|i] da db H; cbn in *; try lia; [reflexivity|]. apply IH. lia. Qed.

(** ** Convolution *)
Lemma fft_conv_len : forall a b, length (fft_conv a b) = length a.
Proof. intros. unfold fft_conv. rewrite map_length, seq_length. reflexivity. Qed.
Lemma fft_conv_nth : forall a b n, n < length a ->
  nth n (fft_conv a b) (RtoC 0) = csum (length a) (fun m => (nth m a (RtoC 0) * nth ((n + length a - m) mod length a) b (RtoC 0))%C).
Proof.
  intros a b n H. unfold fft_conv. rewrite (nth_map_d _ (seq 0 (length a)) n 0) by (rewrite seq_length; exact H).
  rewrite seq_nth by exact H. apply (dft_convolution (length a) (fun m => nth m a (RtoC 0)) (fun m => nth m b (RtoC 0)) n H).
Qed.
Lemma nth_zeros : forall n i, nth i (zeros n) (RtoC 0) = RtoC 0.
Proof. intros n i. unfold zeros. destruct (le_lt_dec n i); [apply nth_overflow; rewrite repeat_length; lia|apply nth_repeat]. Qed.
Lemma nth_pad : forall l n i, nth i (l ++ zeros n) (RtoC 0) = nth i l (RtoC 0).
Proof.
  intros l n i. destruct (le_lt_dec (length l) i) as [H|H]; [|apply app_nth1, H].
  rewrite app_nth2 by exact H. rewrite nth_zeros. symmetry. apply nth_overflow, H.
Qed.
Lemma nth_firstn_lt : forall {A} (l : list A) n i d, i < n -> nth i (firstn n l) d = nth i l d.
Proof. intros A l. induction l as [|x l IH]; intros [|n] [|i] d H; cbn; try lia; try reflexivity. apply IH. lia. Qed.
Lemma nth_skipn_add : forall {A} (l : list A) n i d, nth i (skipn n l) d = nth (n + i) l d.
Proof. intros A l. induction l as [|x l IH]; intros [|n] i d; cbn; try reflexivity; [destruct i; reflexivity|]. apply IH. Qed.
(** reversal of the summation index *)
Lemma csum_rev : forall n f, csum n f = csum n (fun i => f (n - 1 - i)).
Proof.
  induction n as [|n IH]; intro f; [reflexivity|]. rewrite (csum_head n (fun i => f (S n - 1 - i))). cbn [csum]. rewrite IH.
  replace (S n - 1 - 0) with n by lia. rewrite Cplus_comm. f_equal. apply csum_ext. intros i Hi. f_equal. lia.
Qed.
Lemma csum_tail0 : forall n m f, n <= m -> (forall i, n <= i -> i < m -> f i = RtoC 0) -> csum m f = csum n f.
Proof.
  intros n m f H Z. replace m with (n + (m - n)) by lia. rewrite csum_app. rewrite (csum_0 (m - n)); [apply Cplus_0_r|]. intros i Hi. apply Z; lia.
Qed.

(** causal linear convolution *)
Definition conv_at (sig resp : list C) (n : nat) : C := csum (S n) (fun k => (nth k resp (RtoC 0) * nth (n - k) sig (RtoC 0))%C).

Lemma tf_convolve_len : forall sig resp, length (tf_convolve sig resp) = length sig.
Proof.
  intros. unfold tf_convolve. rewrite firstn_length, fft_conv_len, app_length. lia.
Qed.
Lemma tf_convolve_nth : forall sig resp n, n < length sig -> nth n (tf_convolve sig resp) (RtoC 0) = conv_at sig resp n.
Proof.
  intros sig resp n H. unfold tf_convolve. rewrite nth_firstn_lt by exact H.
  assert (L : length (sig ++ zeros (length resp)) = length sig + length resp) by (rewrite app_length; unfold zeros; rewrite repeat_length; reflexivity).
  rewrite fft_conv_nth by (rewrite L; lia). rewrite L. set (M := length sig + length resp).
  rewrite (csum_tail0 (S n) M).
  - unfold conv_at. rewrite csum_rev. apply csum_ext. intros k Hk. rewrite !nth_pad.
    rewrite mod_cyc by (unfold M; lia). replace (S n - 1 - k) with (n - k) by lia.
    destruct (Nat.leb_spec (n - k) n); [|lia]. replace (n - (n - k)) with k by lia. ring.
  - unfold M. lia.
  - intros i Hi HM. rewrite !nth_pad. rewrite mod_cyc by (unfold M in *; lia). destruct (Nat.leb_spec i n); [lia|].
    destruct (le_lt_dec (length sig) i) as [Q|Q]; [rewrite (nth_overflow sig) by exact Q; ring|].
    rewrite (nth_overflow resp) by (unfold M; lia). ring.
Qed.
Lemma legacy_len : forall sig resp, resp <> [] -> length (tf_convolve_legacy sig resp) = length sig.
Proof.
  intros sig resp H. unfold tf_convolve_legacy. destruct resp as [|r resp]; [contradiction|]. cbn [length].
  rewrite firstn_length, skipn_length, fft_conv_len, !app_length. unfold zeros. rewrite !repeat_length. lia.
Qed.
Lemma legacy_nth : forall sig resp n, resp <> [] -> n < length sig ->
  nth n (tf_convolve_legacy sig resp) (RtoC 0) = match n with 0 => RtoC 0 | S m => conv_at sig resp m end.
Proof.
  intros sig resp n Hr H. unfold tf_convolve_legacy. remember (length resp) as M eqn:EM. destruct M as [|M]; [destruct resp; [contradiction|discriminate]|].
  rewrite nth_firstn_lt by exact H. rewrite nth_skipn_add.
  assert (L : length (zeros (S M) ++ sig ++ zeros (S M)) = length sig + 2 * S M) by (rewrite !app_length; unfold zeros; rewrite repeat_length; lia).
  rewrite fft_conv_nth by (rewrite L; lia). rewrite L. set (T := length sig + 2 * S M).
  assert (P : forall i, nth i (zeros (S M) ++ sig ++ zeros (S M)) (RtoC 0) = if Nat.ltb i (S M) then RtoC 0 else nth (i - S M) sig (RtoC 0)).
  { intro i. destruct (Nat.ltb_spec i (S M)) as [Q|Q].
    - rewrite app_nth1 by (unfold zeros; rewrite repeat_length; exact Q). apply nth_zeros.
    - rewrite app_nth2 by (unfold zeros; rewrite repeat_length; exact Q). unfold zeros at 1. rewrite repeat_length. apply nth_pad. }
  rewrite (csum_tail0 (M + n + 1) T).
  - replace (M + n + 1) with (S M + n) by lia. rewrite csum_app. rewrite (csum_0 (S M)).
    2:{ intros i Hi. rewrite P. destruct (Nat.ltb_spec i (S M)); [ring|lia]. }
    rewrite Cplus_0_l. destruct n as [|m]; [reflexivity|]. unfold conv_at. rewrite (csum_rev (S m) (fun k => (nth k resp (RtoC 0) * nth (m - k) sig (RtoC 0))%C)). apply csum_ext. intros k Hk.
    rewrite P. destruct (Nat.ltb_spec (S M + k) (S M)); [lia|]. replace (S M + k - S M) with k by lia.
    rewrite nth_pad. rewrite mod_cyc by (unfold T; lia). destruct (Nat.leb_spec (S M + k) (M + S m)); [|lia].
    replace (M + S m - (S M + k)) with (S m - 1 - k) by lia. replace (m - (S m - 1 - k)) with k by lia. ring.
  - unfold T. lia.
  - intros i Hi HT. rewrite P, nth_pad. rewrite mod_cyc by (unfold T in *; lia). destruct (Nat.leb_spec i (M + n)); [lia|].
    destruct (Nat.ltb_spec i (S M)); [ring|].
    destruct (le_lt_dec (length sig) (i - S M)) as [Q|Q]; [rewrite (nth_overflow sig) by exact Q; ring|].
    rewrite (nth_overflow resp) by (rewrite <- EM; unfold T; lia). ring.
Qed.
(** real signals and responses *)
Definition rconv_at (sig resp : list R) (n : nat) : R := rs (S n) (fun k => (nth k resp 0 * nth (n - k) sig 0)%R).
Lemma nth_RtoC : forall l i, nth i (map RtoC l) (RtoC 0) = RtoC (nth i l 0%R).
Proof. intros l i. rewrite (map_nth RtoC). reflexivity. Qed.
Lemma conv_real : forall sig resp n, conv_at (map RtoC sig) (map RtoC resp) n = RtoC (rconv_at sig resp n).
Proof.
  intros. unfold conv_at, rconv_at. rewrite <- rs_csum. apply csum_ext. intros k _. rewrite !nth_RtoC, <- RtoC_mult. reflexivity.
Qed.
Lemma real_convolve_nth : forall sig resp n, n < length sig ->
  nth n (map fst (tf_convolve (map RtoC sig) (map RtoC resp))) 0%R = rconv_at sig resp n.
Proof.
  intros sig resp n H. rewrite (nth_map_d fst _ n (RtoC 0)) by (rewrite tf_convolve_len, map_length; exact H).
  rewrite tf_convolve_nth by (rewrite map_length; exact H). rewrite conv_real. reflexivity.
Qed.
Lemma real_convolve_len : forall sig resp, length (map fst (tf_convolve (map RtoC sig) (map RtoC resp))) = length sig.
Proof. intros. rewrite map_length, tf_convolve_len, map_length. reflexivity. Qed.
Lemma real_legacy_nth : forall sig resp n, resp <> [] -> n < length sig ->
  nth n (map fst (tf_convolve_legacy (map RtoC sig) (map RtoC resp))) 0%R = match n with 0 => 0%R | S m => rconv_at sig resp m end.
Proof.
  intros sig resp n Hr H. assert (map RtoC resp <> []) by (destruct resp; [contradiction|discriminate]).
  rewrite (nth_map_d fst _ n (RtoC 0)) by (rewrite legacy_len, map_length; assumption).
  rewrite legacy_nth by (try rewrite map_length; assumption). destruct n; [reflexivity|]. rewrite conv_real. reflexivity.
Qed.
Lemma real_legacy_len : forall sig resp, resp <> [] -> length (map fst (tf_convolve_legacy (map RtoC sig) (map RtoC resp))) = length sig.
Proof. intros sig resp H. rewrite map_length, legacy_len, map_length; [reflexivity|]. destruct resp; [contradiction|discriminate]. Qed.

(** sums of lists *)
Lemma sum_rs : forall l, fold_right Rplus 0%R l = rs (length l) (fun i => nth i l 0%R).
Proof. induction l as [|x l IH]; [reflexivity|]. cbn [fold_right length]. rewrite rs_head, IH. reflexivity. Qed.
Lemma sum_div : forall l c, fold_right Rplus 0%R (map (fun x => (x / c)%R) l) = (fold_right Rplus 0 l / c)%R.
Proof. induction l as [|x l IH]; intro c; cbn; [unfold Rdiv; ring|]. rewrite IH. unfold Rdiv. ring. Qed.
Lemma sum_pos : forall l, l <> [] -> (forall x, In x l -> (0 < x)%R) -> (0 < fold_right Rplus 0 l)%R.
Proof.
  induction l as [|x l IH]; intros H P; [contradiction|]. cbn. pose proof (P x (or_introl eq_refl)).
  destruct l as [|y l]; [cbn; lra|]. assert (0 < fold_right Rplus 0 (y :: l))%R by (apply IH; [discriminate|]; intros z Hz; apply P; right; exact Hz). lra.
Qed.
