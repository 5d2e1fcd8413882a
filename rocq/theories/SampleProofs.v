(** Proofs about the sampling of the Hamiltonian by the ODE solvers. *)
From Coq Require Import Reals Lra Lia Permutation Sorted.
From Coquelicot Require Import Coquelicot.
From Verif Require Import Base Mat HilbertModel PropModel.
Local Open Scope list_scope.
Local Open Scope R_scope.
Local Notation length := List.length.

(** The regular time grid of N points. *)
Definition grid (t0 dt : R) (N : nat) : list R := map (fun i => t0 + INR i * dt) (seq 0 N).

(** *** Sorting *)
Lemma rinsert_perm : forall x l, Permutation (x :: l) (rinsert x l).
Proof.
  induction l as [|y l IH]; cbn [rinsert]; [reflexivity|].
  destruct (Rle_dec x y); [reflexivity|].
  rewrite perm_swap. constructor. exact IH.
Qed.
Lemma rsort_perm : forall l, Permutation l (rsort l).
Proof. induction l as [|x l IH]; cbn [rsort fold_right]; [constructor|].
  rewrite <- rinsert_perm. constructor. exact IH. Qed.
Lemma rinsert_sorted : forall x l, StronglySorted Rle l -> StronglySorted Rle (rinsert x l).
Proof.
  induction l as [|y l IH]; intro H; cbn [rinsert].
  - repeat constructor.
  - inversion H as [|? ? S F]; subst. destruct (Rle_dec x y) as [L|L].
    + constructor; [exact H|]. constructor; [exact L|].
      eapply Forall_impl; [|exact F]. intros z Hz. cbn beta. lra.
    + constructor; [apply IH, S|].
      rewrite Forall_forall in *. intros z Hz.
      apply (Permutation_in _ (Permutation_sym (rinsert_perm x l))) in Hz.
      destruct Hz as [<-|Hz]; [lra|]. apply F, Hz.
Qed.
Lemma rsort_sorted : forall l, StronglySorted Rle (rsort l).
Proof. induction l as [|x l IH]; cbn [rsort fold_right]; [constructor|]. apply rinsert_sorted, IH. Qed.
Lemma sorted_unique : forall l l', Permutation l l' -> StronglySorted Rle l -> StronglySorted Rle l' -> l = l'.
Proof.
  induction l as [|x l IH]; intros l' P S S'.
  - apply Permutation_nil in P. auto.
  - destruct l' as [|y l']; [apply Permutation_sym, Permutation_nil in P; discriminate|].
    inversion S as [|? ? S1 F1]; inversion S' as [|? ? S2 F2]; subst.
    rewrite Forall_forall in F1, F2.
    assert (E : x = y).
    { pose proof (Permutation_in x P (or_introl eq_refl)) as [->|Hx]; [reflexivity|].
      pose proof (Permutation_in y (Permutation_sym P) (or_introl eq_refl)) as [->|Hy]; [reflexivity|].
      apply Rle_antisym; [apply F1, Hy|apply F2, Hx]. }
    subst y. f_equal. apply IH; auto. eapply Permutation_cons_inv; exact P.
Qed.
Lemma ssorted_app : forall l l', StronglySorted Rle l -> StronglySorted Rle l' ->
    (forall x y, In x l -> In y l' -> x <= y) -> StronglySorted Rle (l ++ l').
Proof.
  induction l as [|x l IH]; intros l' S S' H; [exact S'|].
  inversion S as [|? ? S1 F1]; subst. cbn [app]. constructor.
  - apply IH; auto. intros; apply H; auto. right; auto.
  - apply Forall_app. split; [exact F1|]. apply Forall_forall. intros y Hy. apply H; auto. left; auto.
Qed.

(** *** Times of the interpolation *)
Definition blocks (t0 dt : R) (cs : list R) (s N : nat) : list R :=
  flat_map (fun i => map (fun c => t0 + INR i * dt + c * dt) cs) (seq s N).

Lemma flat_map_cons_perm : forall {A B} (f : A -> B) (g : A -> list B) l,
    Permutation (flat_map (fun c => f c :: g c) l) (map f l ++ flat_map g l).
Proof.
  induction l as [|a l IH]; cbn [flat_map map app]; [constructor|].
  constructor. rewrite IH. rewrite !app_assoc. apply Permutation_app_tail, Permutation_app_comm.
Qed.
Lemma flat_map_swap_perm : forall {A B D} (f : A -> B -> D) la lb,
    Permutation (flat_map (fun a => map (fun b => f a b) lb) la)
                (flat_map (fun b => map (fun a => f a b) la) lb).
Proof.
  intros A B D f la lb. induction lb as [|b lb IH]; cbn [map flat_map].
  - induction la; auto.
  - rewrite (flat_map_cons_perm (fun a => f a b) (fun a => map (fun b => f a b) lb)).
    apply Permutation_app_head, IH.
Qed.
Lemma flat_map_map : forall {A B D} (g : A -> B) (f : B -> list D) l,
    flat_map f (map g l) = flat_map (fun a => f (g a)) l.
Proof. induction l; cbn; congruence. Qed.

Lemma shifted_perm : forall t0 dt cs N,
    Permutation (shifted (grid t0 dt N) dt cs) (blocks t0 dt (0 :: cs) 0 N).
Proof.
  intros. unfold shifted, blocks.
  transitivity (flat_map (fun c => map (fun t => t + c * dt) (grid t0 dt N)) (0 :: cs)).
  - cbn [flat_map]. apply Permutation_app_tail.
    rewrite <- map_id at 1. erewrite map_ext; [reflexivity|]. intro t. cbv beta. ring.
  - rewrite (flat_map_swap_perm (fun c t => t + c * dt)). unfold grid. rewrite flat_map_map. reflexivity.
Qed.

Lemma block_sorted : forall a dt cs, 0 <= dt -> StronglySorted Rle cs ->
    StronglySorted Rle (map (fun c => a + c * dt) cs).
Proof.
  intros a dt cs Hd S. induction S as [|c cs S IH F]; cbn [map]; constructor; [exact IH|].
  rewrite Forall_forall in *. intros x Hx. apply in_map_iff in Hx as [c' [<- Hc]].
  specialize (F c' Hc). nra.
Qed.
Lemma blocks_sorted : forall t0 dt cs N s, 0 <= dt -> StronglySorted Rle cs ->
    (forall c, In c cs -> 0 <= c <= 1) -> StronglySorted Rle (blocks t0 dt cs s N).
Proof.
  induction N; intros s Hd HS Hc; unfold blocks; cbn [seq flat_map]; [constructor|].
  apply ssorted_app.
  - apply block_sorted; assumption.
  - apply (IHN (S s)); assumption.
  - intros x y Hx Hy. apply in_map_iff in Hx as [c [<- Hc1]].
    apply in_flat_map in Hy as [i [Hi Hy]]. apply in_map_iff in Hy as [c' [<- Hc2]].
    apply in_seq in Hi. pose proof (Hc c Hc1). pose proof (Hc c' Hc2).
    assert (INR s + 1 <= INR i) by (rewrite <- S_INR; apply le_INR; lia). nra.
Qed.

Lemma rsort_shifted : forall t0 dt cs N, 0 <= dt -> StronglySorted Rle (0 :: cs) ->
    (forall c, In c (0 :: cs) -> 0 <= c <= 1) ->
    rsort (shifted (grid t0 dt N) dt cs) = blocks t0 dt (0 :: cs) 0 N.
Proof.
  intros. apply sorted_unique.
  - rewrite <- rsort_perm. apply shifted_perm.
  - apply rsort_sorted.
  - apply blocks_sorted; assumption.
Qed.

(** Stage times of the solvers, in units of the step. *)
Definition nodes (s : solver) : list R :=
  match s with
  | RK4 => [0; 1 / 2; 1]
  | RK38 => [0; 1 / 3; 2 / 3; 1]
  | RK5 => [0; 1 / 5; 3 / 10; 4 / 5; 8 / 9; 1]
  | Tsit5 => [0; 0.161; 0.327; 0.9; 0.9800255409045097; 1]
  end.

Lemma grid_nth : forall t0 dt N i d, (i < N)%nat -> nth i (grid t0 dt N) d = t0 + INR i * dt.
Proof.
  intros. unfold grid. rewrite (nth_indep _ d (t0 + INR 0 * dt)) by (rewrite map_length, seq_length; lia).
  rewrite (map_nth (fun i => t0 + INR i * dt)), seq_nth by lia. reflexivity.
Qed.
Lemma grid_length : forall t0 dt N, length (grid t0 dt N) = N.
Proof. intros. unfold grid. rewrite map_length, seq_length. reflexivity. Qed.

Lemma grid_last : forall t0 dt N d, last (grid t0 dt (S N)) d = t0 + INR N * dt.
Proof.
  intros. unfold grid. rewrite seq_S, map_app. cbn [map Nat.add]. rewrite last_last. reflexivity.
Qed.

Lemma skipn_seq : forall k s n, skipn k (seq s n) = seq (s + k) (n - k).
Proof.
  induction k; intros s n.
  - rewrite Nat.add_0_r, Nat.sub_0_r. reflexivity.
  - destruct n; [reflexivity|]. cbn [seq skipn]. rewrite IHk. f_equal; lia.
Qed.
Lemma firstn_seq : forall k s n, (k <= n)%nat -> firstn k (seq s n) = seq s k.
Proof.
  induction k; intros s n H; [reflexivity|]. destruct n; [lia|]. cbn [seq firstn]. rewrite IHk by lia. reflexivity.
Qed.

Lemma map_seq_add : forall a n, map (fun k => a + k)%nat (seq 0 n) = seq a n.
Proof.
  intros a n. revert a. induction n; intro a; [reflexivity|]. cbn [seq map]. rewrite Nat.add_0_r. f_equal.
  rewrite <- (IHn (S a)), <- seq_shift, map_map. apply map_ext. intro k. lia.
Qed.

Lemma slice_lin : forall t0 dt N res i, (2 <= N)%nat -> (0 < res)%nat -> (i < N)%nat ->
     tf_slice (linspace t0 (last (grid t0 dt N) t0 + dt) (length (grid t0 dt N) * res)) (res * i) (S res)
     = Ok (map (fun k => t0 + INR i * dt + INR k / INR res * dt) (seq 0 (S res))).
Proof.
  intros t0 dt N res i HN Hres Hi. unfold tf_slice. rewrite grid_length.
  unfold linspace. rewrite map_length, seq_length.
  destruct (Nat.leb_spec (res * i + S res) (S (N * res))) as [L|L]; [|nia].
  f_equal. rewrite skipn_map, skipn_seq, firstn_map, firstn_seq by nia.
  cbn [Nat.add].
  rewrite <- (map_seq_add (res * i) (S res)).
  rewrite map_map. apply map_ext_in. intros k Hk. apply in_seq in Hk.
  destruct N as [|N]; [lia|]. rewrite grid_last.
  rewrite plus_INR, !mult_INR, S_INR.
  assert (0 < INR res) by (apply lt_0_INR; lia). pose proof (pos_INR N). field. lra.
Qed.

Lemma blocks_length : forall t0 dt cs s N, length (blocks t0 dt cs s N) = (N * length cs)%nat.
Proof.
  intros. revert s. induction N; intro s; [reflexivity|]. unfold blocks in *. cbn [seq flat_map].
  rewrite app_length, map_length, IHN. lia.
Qed.
Lemma blocks_app : forall t0 dt cs s a b,
    blocks t0 dt cs s (a + b) = blocks t0 dt cs s a ++ blocks t0 dt cs (s + a) b.
Proof. intros. unfold blocks. rewrite seq_app, flat_map_app. reflexivity. Qed.
Lemma slice_blocks : forall t0 dt cs N i, (i < N)%nat ->
    tf_slice (blocks t0 dt cs 0 N) (length cs * i) (length cs)
    = Ok (map (fun c => t0 + INR i * dt + c * dt) cs).
Proof.
  intros t0 dt cs N i Hi. unfold tf_slice. rewrite blocks_length.
  destruct (Nat.leb_spec (length cs * i + length cs) (N * length cs)) as [L|L]; [|nia].
  f_equal. replace N with (i + (1 + (N - i - 1)))%nat by lia. rewrite blocks_app.
  rewrite skipn_app, skipn_all2 by (rewrite blocks_length; lia). cbn [app].
  rewrite blocks_length. replace (length cs * i - i * length cs)%nat with 0%nat by lia.
  cbn [skipn Nat.add]. rewrite (blocks_app t0 dt cs i 1).
  unfold blocks at 1. cbn [seq flat_map]. rewrite app_nil_r.
  rewrite firstn_app, map_length, Nat.sub_diag. cbn [firstn]. rewrite app_nil_r.
  rewrite firstn_all2 by (rewrite map_length; lia). reflexivity.
Qed.

Lemma interp_times_unfold : forall ts a b r res, ts = a :: b :: r ->
    interp_times ts res
    = if Z.eqb res (-1) then Ok (rsort (shifted ts (b - a) dopri_nodes))
      else if Z.eqb res (-2) then Ok (rsort (shifted ts (b - a) tsit_nodes))
      else Ok (linspace a (last ts a + (b - a)) (length ts * Z.to_nat res)).
Proof. intros. subst ts. reflexivity. Qed.

(** The interpolation times on a regular grid. *)
Lemma interp_times_grid : forall t0 dt N s, (2 <= N)%nat -> 0 <= dt ->
    exists tsi, interp_times (grid t0 dt N) (solver_res s) = Ok tsi /\
      forall i, (i < N)%nat ->
        tf_slice tsi (solver_start s * i) (solver_stop s)
        = Ok (map (fun c => t0 + INR i * dt + c * dt) (nodes s)).
Proof.
  intros t0 dt N s HN Hd.
  assert (G : exists r, grid t0 dt N = t0 :: (t0 + dt) :: r).
  { destruct N as [|[|N]]; try lia. unfold grid. cbn [seq map]. eexists.
    replace (t0 + INR 0 * dt) with t0 by (simpl; ring).
    replace (t0 + INR 1 * dt) with (t0 + dt) by (simpl; ring). reflexivity. }
  destruct G as [r G].
  rewrite (interp_times_unfold _ _ _ _ _ G). replace (t0 + dt - t0) with dt by ring.
  destruct s; cbn [solver_res Z.eqb Pos.eqb]; (eexists; split; [reflexivity|]); intros i Hi.
  - change (Z.to_nat 2) with 2%nat. cbn [solver_start solver_stop].
    rewrite slice_lin by (assumption || lia). f_equal. cbn [seq map nodes]. simpl INR.
    repeat f_equal; field.
  - change (Z.to_nat 3) with 3%nat. cbn [solver_start solver_stop].
    rewrite slice_lin by (assumption || lia). f_equal. cbn [seq map nodes]. simpl INR.
    repeat f_equal; field.
  - rewrite rsort_shifted; [apply (slice_blocks t0 dt (nodes RK5) N i Hi)|exact Hd| |].
    + unfold dopri_nodes. repeat constructor; lra.
    + unfold dopri_nodes. cbn [In]. intros c Hc. repeat (destruct Hc as [<-|Hc]; [split; lra|]). contradiction.
  - rewrite rsort_shifted; [apply (slice_blocks t0 dt (nodes Tsit5) N i Hi)|exact Hd| |].
    + unfold tsit_nodes. repeat constructor; lra.
    + unfold tsit_nodes. cbn [In]. intros c Hc. repeat (destruct Hc as [<-|Hc]; [split; lra|]). contradiction.
Qed.

(** *** The Hamiltonian samples *)
Lemma rsum_const : forall l x, (forall y, In y l -> y = x) -> rsum l = INR (length l) * x.
Proof.
  induction l as [|a l IH]; intros x H; cbn [rsum fold_right length]; [simpl; ring|].
  fold (rsum l). rewrite (IH x) by (intros; apply H; right; auto). rewrite (H a (or_introl eq_refl)).
  rewrite S_INR. ring.
Qed.
Lemma rmean_const : forall l x, l <> [] -> (forall y, In y l -> y = x) -> rmean l = x.
Proof.
  intros l x N H. unfold rmean. rewrite (rsum_const l x H). field.
  apply not_0_INR. destruct l; [congruence|]. discriminate.
Qed.
Lemma rvar_const : forall l x, l <> [] -> (forall y, In y l -> y = x) -> rvar l = 0.
Proof.
  intros l x N H. unfold rvar. apply rmean_const.
  - destruct l; [congruence|discriminate].
  - intros y Hy. apply in_map_iff in Hy as [z [<- Hz]]. rewrite (rmean_const l x N H), (H z Hz). ring.
Qed.
Lemma diffs_grid : forall t0 dt N y, In y (diffs (grid t0 dt N)) -> y = dt.
Proof.
  intros t0 dt N. unfold grid.
  assert (G : forall N s y, In y (diffs (map (fun i => t0 + INR i * dt) (seq s N))) -> y = dt).
  { induction N0 as [|N0 IH]; intros s y Hy; [contradiction|].
    cbn [seq map] in Hy. destruct N0 as [|N0]; [contradiction|].
    cbn [seq map diffs] in Hy. destruct Hy as [<-|Hy].
    - rewrite S_INR. ring.
    - apply (IH (S s)). exact Hy. }
  intros y Hy. apply (G N 0%nat y Hy).
Qed.

Section Samples.
  Variable interp : list R -> list R -> R -> R.
  Variables (h0 : mat) (hctrls : dict mat) (signal : dict channel) (hks : list mat) (t0 dt : R) (N : nat).
  Hypotheses (HN : (2 <= N)%nat) (Hd : 0 < dt)
             (Hne : signal <> [])
             (Hgrid : forall k ch, In (k, ch) signal -> ch_ts ch = grid t0 dt N)
             (Hctrl : lookup_controls hctrls (keys signal) = Ok hks).

  (** H(t) = sum_k c_k(t) H_k + H_0 with the interpolated signals. *)
  Definition H_at (t : R) : mat :=
    sum_H h0 hks (map (fun kv => interp (grid t0 dt N) (ch_values (snd kv)) t) signal).

  Lemma times_const : map (fun kv : string * channel => ch_ts (snd kv)) signal
                      = repeat (grid t0 dt N) (length signal).
  Proof.
    clear Hne Hctrl. induction signal as [|[k c] l IH]; [reflexivity|]. cbn [map repeat length snd].
    rewrite (Hgrid k c (or_introl eq_refl)). f_equal. apply IH. intros; eapply Hgrid. right; eauto.
  Qed.

  Lemma interpolate_all_ok : forall ts res tsi sigs, interp_times ts res = Ok tsi ->
      interpolate_all interp ts res sigs = Ok (map (fun v => map (interp ts v) tsi) sigs).
  Proof.
    intros ts res tsi sigs H. induction sigs as [|s ss IH]; [reflexivity|].
    cbn [interpolate_all map]. unfold interpolate_signal. rewrite H. cbn [rbind]. rewrite IH. reflexivity.
  Qed.

  Lemma sum_Hs_ok : forall tsi,
      calculate_sum_Hs h0 hks (map (fun v => map (interp (grid t0 dt N) v) tsi)
                                   (map (fun kv => ch_values (snd kv)) signal))
      = map H_at tsi.
  Proof.
    intro tsi. unfold calculate_sum_Hs. destruct signal as [|[k c] l] eqn:E; [congruence|].
    cbn [map]. rewrite map_length.
    change (map (fun j => sum_H h0 hks (row 0 (map (fun v => map (interp (grid t0 dt N) v) tsi)
               (map (fun kv => ch_values (snd kv)) ((k, c) :: l))) j)) (seq 0 (length tsi)) = map H_at tsi).
    rewrite <- E in *. clear E.
    assert (X : tsi = map (fun j => nth j tsi 0) (seq 0 (length tsi))).
    { apply (nth_ext _ _ 0 0); [rewrite map_length, seq_length; reflexivity|].
      intros n Hn. rewrite (nth_indep (map _ _) 0 (nth 0 tsi 0)) by (rewrite map_length, seq_length; exact Hn).
      rewrite (map_nth (fun j => nth j tsi 0)), seq_nth by exact Hn. reflexivity. }
    transitivity (map H_at (map (fun j => nth j tsi 0) (seq 0 (length tsi)))); [|rewrite <- X; reflexivity].
    rewrite (map_map (fun j => nth j tsi 0) H_at). apply map_ext_in. intros j Hj. apply in_seq in Hj.
    unfold H_at, row. f_equal. rewrite !map_map. apply map_ext. intros kv.
    rewrite (nth_indep _ 0 (interp (grid t0 dt N) (ch_values (snd kv)) 0)) by (rewrite map_length; lia).
    apply map_nth.
  Qed.

  Lemma Hs_of_t_ok : forall s, exists tsi,
      interp_times (grid t0 dt N) (solver_res s) = Ok tsi /\
      Hs_of_t interp h0 hctrls signal (solver_res s)
      = Ok {| d_Hs := map H_at tsi; d_ts := grid t0 dt N; d_dt := dt |}.
  Proof.
    intro s. destruct (interp_times_grid t0 dt N s HN (Rlt_le _ _ Hd)) as (tsi & Ht & _).
    exists tsi. split; [exact Ht|]. unfold Hs_of_t. rewrite Hctrl. cbn [rbind].
    rewrite times_const.
    assert (L : length signal <> 0%nat) by (destruct signal; [congruence|discriminate]).
    destruct (length signal) as [|m] eqn:El; [congruence|]. cbn [repeat].
    change (grid t0 dt N :: repeat (grid t0 dt N) m) with (repeat (grid t0 dt N) (S m)).
    assert (F : forallb (fun l => Nat.eqb (length l) (length (grid t0 dt N))) (repeat (grid t0 dt N) (S m)) = true).
    { apply forallb_forall. intros x Hx. apply repeat_spec in Hx. subst x. apply Nat.eqb_refl. }
    rewrite F. cbn [negb]. rewrite grid_length.
    assert (C : forall j y, In y (time_column (repeat (grid t0 dt N) (S m)) j) -> y = nth j (grid t0 dt N) 0).
    { intros j y Hy. unfold time_column, row in Hy. apply in_map_iff in Hy as [z [<- Hz]].
      apply repeat_spec in Hz. subst z. reflexivity. }
    assert (C' : forall j, time_column (repeat (grid t0 dt N) (S m)) j <> []) by (intro; discriminate).
    assert (M : map (fun j => rmean (time_column (repeat (grid t0 dt N) (S m)) j)) (seq 0 N) = grid t0 dt N).
    { unfold grid at 2. apply map_ext_in. intros j Hj. apply in_seq in Hj.
      rewrite (rmean_const _ _ (C' j) (C j)). apply grid_nth. lia. }
    rewrite M.
    assert (G : exists r, grid t0 dt N = t0 :: (t0 + dt) :: r).
    { destruct N as [|[|N']]; try lia. unfold grid. cbn [seq map]. eexists.
      replace (t0 + INR 0 * dt) with t0 by (simpl; ring).
      replace (t0 + INR 1 * dt) with (t0 + dt) by (simpl; ring). reflexivity. }
    destruct G as [r G]. rewrite G at 1. replace (t0 + dt - t0) with dt by ring.
    assert (V : forallb (fun j => rltb (rvar (time_column (repeat (grid t0 dt N) (S m)) j)) (1 / 100000 * dt)) (seq 0 N) = true).
    { apply forallb_forall. intros j _. rewrite (rvar_const _ _ (C' j) (C j)). unfold rltb.
      destruct (Rlt_dec 0 (1 / 100000 * dt)); [reflexivity|lra]. }
    rewrite V. cbn [negb].
    assert (W : rltb (rvar (diffs (grid t0 dt N))) (1 / 100000 * dt) = true).
    { rewrite (rvar_const _ dt); [|rewrite G; discriminate|apply diffs_grid]. unfold rltb.
      destruct (Rlt_dec 0 (1 / 100000 * dt)); [reflexivity|lra]. }
    rewrite W. cbn [negb]. rewrite (interpolate_all_ok _ _ _ _ Ht). cbn [rbind].
    rewrite sum_Hs_ok. reflexivity.
  Qed.

  Lemma tf_slice_map : forall {A B} (f : A -> B) l a len x,
      tf_slice l a len = Ok x -> tf_slice (map f l) a len = Ok (map f x).
  Proof.
    intros A B f l a len x. unfold tf_slice. rewrite map_length.
    destruct (Nat.leb (a + len) (length l)); [|discriminate]. intro E. injection E as <-.
    rewrite skipn_map, firstn_map. reflexivity.
  Qed.

  (** Samples of step [i]. *)
  Definition stage_hams (s : solver) (i : nat) : list mat :=
    map H_at (map (fun c => t0 + INR i * dt + c * dt) (nodes s)).

  Lemma slices_ok : forall s d, Hs_of_t interp h0 hctrls signal (solver_res s) = Ok d ->
      d_ts d = grid t0 dt N /\ d_dt d = dt /\
      forall i, (i < N)%nat -> tf_slice (d_Hs d) (solver_start s * i) (solver_stop s) = Ok (stage_hams s i).
  Proof.
    intros s d H. destruct (Hs_of_t_ok s) as (tsi & Ht & E). rewrite E in H. injection H as <-. cbn.
    repeat split. intros i Hi. apply tf_slice_map.
    destruct (interp_times_grid t0 dt N s HN (Rlt_le _ _ Hd)) as (tsi' & Ht' & S).
    rewrite Ht in Ht'. injection Ht' as <-. apply S, Hi.
  Qed.
End Samples.

(** *** The solver loop *)
(** State after [k] steps when step [i] uses the samples [h i]. *)
Fixpoint state_after (step : mat -> list mat -> mat) (h : nat -> list mat) (k : nat) (init : mat) : mat :=
  match k with O => init | S k' => step (state_after step h k' init) (h k') end.

Lemma ode_loop_ok : forall s fr Hs h N, (forall i, (i < N)%nat ->
     tf_slice Hs (solver_start s * i) (solver_stop s) = Ok (h i)) ->
   forall steps index init, (index + steps = N)%nat ->
   ode_loop s fr Hs index steps (state_after (solver_fun s fr) h index init)
   = Ok (map (fun k => state_after (solver_fun s fr) h (S k) init) (seq index steps)).
Proof.
  intros s fr Hs h N H. induction steps; intros index init E; [reflexivity|].
  cbn [ode_loop]. rewrite H by lia. cbn [rbind].
  change (solver_fun s fr (state_after (solver_fun s fr) h index init) (h index))
    with (state_after (solver_fun s fr) h (S index) init).
  rewrite IHsteps by lia. reflexivity.
Qed.
Lemma ode_final_ok : forall s fr Hs h N, (forall i, (i < N)%nat ->
     tf_slice Hs (solver_start s * i) (solver_stop s) = Ok (h i)) ->
   forall steps index init, (index + steps = N)%nat ->
   ode_final s fr Hs index steps (state_after (solver_fun s fr) h index init)
   = Ok (state_after (solver_fun s fr) h N init).
Proof.
  intros s fr Hs h N H. induction steps; intros index init E; cbn [ode_final].
  - replace index with N by lia. reflexivity.
  - rewrite H by lia. cbn [rbind].
    change (solver_fun s fr (state_after (solver_fun s fr) h index init) (h index))
      with (state_after (solver_fun s fr) h (S index) init).
    apply IHsteps. lia.
Qed.
