(** Properties C53 to C55: sampling, learning and validation sets, estimators. *)
From Coq Require Import Reals Lra Lia Permutation Sorted.
From Coquelicot Require Import Coquelicot.
From Verif Require Import Base LearnModel.
Local Open Scope list_scope.
Local Open Scope nat_scope.
Local Notation length := List.length.

(** ** C53 *)

(** A valid choice of at most [b] of [total] data points. *)
Definition choice (total b : nat) (l : list nat) : Prop :=
  NoDup l /\ (forall i, In i l -> i < total) /\ length l <= b.

Lemma every_incl : forall {A} n (l : list A) k x, In x (every_from k n l) -> In x l.
Proof.
  intros A n l. induction l as [|a l IH]; intros k x H; cbn [every_from] in H; [destruct H|]. destruct k; [destruct H as [->|H]|]; [left; reflexivity|right; eapply IH; eauto|right; eapply IH; eauto].
Qed.
Lemma every_nodup : forall {A} n (l : list A) k, NoDup l -> NoDup (every_from k n l).
Proof.
  intros A n l. induction l as [|a l IH]; intros k H; cbn [every_from]; [constructor|]. inversion H as [|? ? H1 H2]; subst.
  destruct k; [constructor; [|auto]|auto]. intro C. apply H1. eapply every_incl, C.
Qed.
Lemma every_value : forall {A} n (d : A) l k, 0 < n -> k < n ->
  every_from k n l = map (fun i => nth (k + i * n) l d) (seq 0 ((length l + (n - 1 - k)) / n)).
Proof.
  intros A n d l. induction l as [|a l IH]; intros k Hn Hk; cbn [every_from length].
  - rewrite Nat.div_small by lia. reflexivity.
  - destruct k as [|k].
    + rewrite IH by lia. replace (S (length l) + (n - 1 - 0)) with (length l + (n - 1 - (n - 1)) + 1 * n) by lia.
      rewrite Nat.div_add by lia. rewrite Nat.add_1_r. cbn [seq map]. f_equal. rewrite <- seq_shift, map_map. apply map_ext.
      intro i. cbn [Nat.mul Nat.add]. replace (n + i * n) with (S (n - 1 + i * n)) by lia. reflexivity.
    + rewrite IH by lia. replace (S (length l) + (n - 1 - S k)) with (length l + (n - 1 - k)) by lia. apply map_ext. intro i. reflexivity.
Qed.
Lemma ceil_pos : forall a b, 0 < a -> 0 < b -> 0 < ceil_div a b.
Proof. intros a b Ha Hb. unfold ceil_div. apply Nat.div_str_pos. lia. Qed.
Lemma ceil_ge : forall a b, 0 < b -> a <= b * ceil_div a b.
Proof. intros a b Hb. unfold ceil_div. pose proof (Nat.div_mod (a + b - 1) b). pose proof (Nat.mod_upper_bound (a + b - 1) b). lia. Qed.
Lemma ceil_ceil : forall a b, 0 < a -> 0 < b -> ceil_div a (ceil_div a b) <= b.
Proof.
  intros a b Ha Hb. pose proof (ceil_ge a b Hb) as G. pose proof (ceil_pos a b Ha Hb) as P. set (n := ceil_div a b) in *.
  unfold ceil_div. apply Nat.lt_succ_r, Nat.div_lt_upper_bound; lia.
Qed.
Lemma every_length : forall {A} n (l : list A), 0 < n -> length (every_from 0 n l) = ceil_div (length l) n.
Proof.
  intros A n l Hn. destruct l as [|a l].
  - cbn [every_from length]. unfold ceil_div. symmetry. apply Nat.div_small. lia.
  - rewrite (every_value n a) by lia. rewrite map_length, seq_length. unfold ceil_div. f_equal. lia.
Qed.

Theorem C53_all_and_prefix :
  forall total b,
  s_all total b = seq 0 total /\ s_from_start total b = seq 0 (Nat.min b total) /\ choice total b (s_from_start total b).
Proof.
  intros total b. split; [reflexivity|].
  assert (E : s_from_start total b = seq 0 (Nat.min b total)).
  { unfold s_from_start, slice_to. generalize 0. revert b. induction total as [|t IH]; intros [|b] s; cbn [seq firstn Nat.min]; try reflexivity.
    rewrite IH. reflexivity. }
  split; [exact E|]. rewrite E. split; [apply seq_NoDup|]. split; [|rewrite seq_length; lia].
  intros i Hi. apply in_seq in Hi. lia.
Qed.
Print Assumptions C53_all_and_prefix.

Lemma skipn_seq : forall k n s, skipn k (seq s n) = seq (s + k) (n - k).
Proof.
  induction k as [|k IH]; intros n s; [rewrite Nat.add_0_r, Nat.sub_0_r; reflexivity|]. destruct n as [|n]; [reflexivity|].
  cbn [seq skipn Nat.sub]. rewrite IH. f_equal. lia.
Qed.
Theorem C53_suffix :
  forall total b, 0 < b ->
  s_from_end total b = seq (total - b) (Nat.min b total) /\ choice total b (s_from_end total b).
Proof.
  intros total b Hb.
  assert (E : s_from_end total b = seq (total - b) (Nat.min b total)).
  { unfold s_from_end, slice_last. destruct (Nat.eqb_spec b 0); [lia|]. rewrite seq_length, skipn_seq. f_equal. lia. }
  split; [exact E|]. rewrite E. split; [apply seq_NoDup|]. split; [|rewrite seq_length; lia].
  intros i Hi. apply in_seq in Hi. lia.
Qed.
Print Assumptions C53_suffix.
(** Finding: a batch size of zero selects everything from the end. *)
Theorem C53_suffix_zero_refuted : forall total, s_from_end total 0 = seq 0 total /\ s_from_start total 0 = [].
Proof. intro total. split; reflexivity. Qed.
Print Assumptions C53_suffix_zero_refuted.

(** Evenly spaced: the multiples of the step, as many as fit. *)
Theorem C53_even :
  forall total b, 0 < total -> 0 < b ->
  exists step l, 0 < step /\ s_even total b = Ok l /\ choice total b l
   /\ l = map (fun i => i * step) (seq 0 (length l))
   /\ (forall i, i < total -> (i mod step = 0 <-> In i l)).
Proof.
  intros total b Ht Hb. pose proof (ceil_pos total b Ht Hb) as P. exists (ceil_div total b), (every_from 0 (ceil_div total b) (seq 0 total)).
  set (n := ceil_div total b) in *.
  assert (L : length (every_from 0 n (seq 0 total)) = ceil_div total n) by (rewrite every_length, seq_length by exact P; reflexivity).
  assert (V : every_from 0 n (seq 0 total) = map (fun i => i * n) (seq 0 (ceil_div total n))).
  { rewrite (every_value n 0) by lia. rewrite seq_length. replace (total + (n - 1 - 0)) with (total + n - 1) by lia.
    fold (ceil_div total n). apply map_ext_in. intros i Hi. apply in_seq in Hi. rewrite seq_nth; [reflexivity|].
    cbn [Nat.add]. destruct Hi as [_ Hi]. cbn [Nat.add] in Hi. unfold ceil_div in Hi.
    assert (S i * n <= total + n - 1).
    { apply Nat.le_trans with (n * ((total + n - 1) / n)); [|apply Nat.mul_div_le; lia]. rewrite Nat.mul_comm. apply Nat.mul_le_mono_l. lia. }
    lia. }
  split; [exact P|]. split.
  { unfold s_even. destruct (Nat.eqb_spec b 0); [lia|]. unfold slice_step. fold n. destruct (Nat.eqb_spec n 0); [lia|reflexivity]. }
  split; [|split].
  - split; [apply every_nodup, seq_NoDup|]. split; [intros i Hi; apply every_incl, in_seq in Hi; lia|].
    rewrite L. apply ceil_ceil; assumption.
  - rewrite L. exact V.
  - intros i Hi. rewrite V, in_map_iff. split.
    + intro M. exists (i / n). split; [pose proof (Nat.div_mod i n); lia|]. apply in_seq. split; [lia|]. cbn [Nat.add].
      unfold ceil_div. apply Nat.lt_le_trans with (S (i / n)); [lia|].
      replace (S (i / n)) with ((i + 1 * n) / n) by (rewrite Nat.div_add; lia). apply Nat.div_le_mono; lia.
    + intros (q & <- & _). apply Nat.mod_mul. lia.
Qed.
Print Assumptions C53_even.
Theorem C53_even_errors :
  forall b, s_even b 0 = Err ZeroDivision /\ (0 < b -> s_even 0 b = Err ValueError).
Proof.
  intro b. split; [reflexivity|]. intro H. unfold s_even. destruct (Nat.eqb_spec b 0); [lia|].
  unfold slice_step, ceil_div. cbn [Nat.add]. rewrite Nat.div_small by lia. reflexivity.
Qed.
Print Assumptions C53_even_errors.

(** Random choice: for all random numbers. *)
Lemma set_nth_app : forall {A} (a : list A) z j x, j < length a -> set_nth (a ++ [z]) j x = set_nth a j x ++ [z].
Proof. intros A a z. induction a as [|y a IH]; intros j x H; cbn [length] in H; [lia|]. destruct j; [reflexivity|]. cbn [app set_nth]. rewrite IH by lia. reflexivity. Qed.
Lemma set_nth_perm : forall (a : list nat) z j, j < length a -> Permutation (a ++ [z]) (nth j a 0 :: set_nth a j z).
Proof.
  induction a as [|y a IH]; intros z j H; cbn [length] in H; [lia|]. destruct j as [|j]; cbn [app nth set_nth].
  - constructor. rewrite <- Permutation_cons_append. apply Permutation_refl.
  - rewrite (IH z j) by lia. apply perm_swap.
Qed.
Lemma draw_perm : forall pool j, j < length pool ->
  Permutation pool (nth j pool 0 :: removelast (set_nth pool j (last pool 0))).
Proof.
  intros pool j H. destruct (exists_last (l := pool)) as (a & z & ->); [destruct pool; [cbn in H; lia|discriminate]|].
  rewrite last_last. rewrite app_length in H. cbn [length] in H. destruct (Nat.eq_dec j (length a)) as [->|N].
  - rewrite app_nth2, Nat.sub_diag by lia. cbn [nth].
    assert (E : set_nth (a ++ [z]) (length a) z = a ++ [z]) by (clear; induction a; cbn; congruence).
    rewrite E, removelast_last. symmetry. apply Permutation_cons_append.
  - rewrite app_nth1, set_nth_app, removelast_last by lia. apply set_nth_perm. lia.
Qed.
Lemma draw_spec : forall rnd k i pool, k <= length pool -> NoDup pool ->
  NoDup (draw rnd i k pool) /\ incl (draw rnd i k pool) pool /\ length (draw rnd i k pool) = k.
Proof.
  intro rnd. induction k as [|k IH]; intros i pool Hk Hn; cbn [draw].
  - split; [constructor|]. split; [intros x []|reflexivity].
  - assert (J : rnd i mod length pool < length pool) by (apply Nat.mod_upper_bound; lia).
    set (j := rnd i mod length pool) in *. pose proof (draw_perm pool j J) as P.
    set (rest := removelast (set_nth pool j (last pool 0))) in *.
    assert (Hr : NoDup (nth j pool 0 :: rest)) by (eapply Permutation_NoDup; eauto).
    assert (Lr : length pool = S (length rest)) by (rewrite (Permutation_length P); reflexivity).
    inversion Hr as [|? ? N1 N2]; subst. destruct (IH (S i) rest) as (A & B & C); [lia|exact N2|].
    split; [constructor; [intro D; apply N1, B, D|exact A]|]. split; [|cbn; lia].
    intros x [<-|Hx]; [apply nth_In, J|]. eapply Permutation_in; [symmetry; exact P|]. right. apply B, Hx.
Qed.
Theorem C53_random :
  forall rnd total b,
  (b <= total -> exists l, s_random rnd total b = Ok l /\ choice total b l /\ length l = b)
  /\ (total < b -> s_random rnd total b = Err ValueError).
Proof.
  intros rnd total b. unfold s_random. split; intro H; destruct (Nat.ltb_spec total b); try lia; [|reflexivity].
  eexists. split; [reflexivity|]. destruct (draw_spec rnd b 0 (seq 0 total)) as (A & B & C); [rewrite seq_length; exact H|apply seq_NoDup|].
  split; [|exact C]. split; [exact A|]. split; [|lia]. intros i Hi. apply B, in_seq in Hi. lia.
Qed.
Print Assumptions C53_random.
(** No data point is out of reach of the random choice. *)
Theorem C53_random_reaches_every_point :
  forall total b i, 0 < b -> b <= total -> i < total -> exists rnd l, s_random rnd total b = Ok l /\ In i l.
Proof.
  intros total b i Hb Ht Hi. exists (fun _ => i). unfold s_random. destruct (Nat.ltb_spec total b); [lia|].
  eexists. split; [reflexivity|]. destruct b as [|b]; [lia|]. cbn [draw]. left. rewrite seq_length, Nat.mod_small by exact Hi.
  rewrite seq_nth by exact Hi. reflexivity.
Qed.
Print Assumptions C53_random_reaches_every_point.

(** What is assumed of np.argsort. *)
Definition sorting (argsort : list R -> list nat) : Prop :=
  forall v, Permutation (argsort v) (seq 0 (length v))
            /\ StronglySorted (fun i j => nth i v 0 <= nth j v 0)%R (argsort v).

Lemma sorted_skip : forall {A} (R : A -> A -> Prop) k l x y, StronglySorted R l -> In x (firstn k l) -> In y (skipn k l) -> R x y.
Proof.
  intros A R k. induction k as [|k IH]; intros l x y H Hx Hy; [destruct Hx|]. destruct l as [|a l]; [destruct Hx|].
  inversion H as [|? ? H1 H2]; subst. cbn [firstn skipn] in *. destruct Hx as [<-|Hx].
  - rewrite Forall_forall in H2. apply H2. rewrite <- (firstn_skipn k l). apply in_or_app. right. exact Hy.
  - eapply IH; eauto.
Qed.
Lemma nodup_skip : forall {A} k (l : list A), NoDup l -> NoDup (skipn k l).
Proof. intros A k. induction k as [|k IH]; intros l H; [exact H|]. destruct l; [exact H|]. inversion H; subst. apply IH. assumption. Qed.
Theorem C53_high_std :
  forall argsort data b, sorting argsort -> 0 < b ->
  let l := s_high_std argsort data b in
  let spread := fun i => (std_l (nth i data []) / mean_l (nth i data []))%R in
  choice (length data) b l /\ length l = Nat.min b (length data)
  /\ forall i j, In i l -> j < length data -> ~ In j l -> (spread j <= spread i)%R.
Proof.
  intros argsort data b HS Hb l spread. unfold l, s_high_std, slice_last.
  set (v := map (fun s => std_l s / mean_l s)%R data). destruct (HS v) as [P S]. unfold v in P at 2. rewrite map_length in P.
  destruct (Nat.eqb_spec b 0); [lia|]. set (k := length (argsort v) - b).
  assert (Ls : length (argsort v) = length data) by (rewrite (Permutation_length P), seq_length; reflexivity).
  assert (Lk : length (skipn k (argsort v)) = Nat.min b (length data)) by (rewrite skipn_length; unfold k; lia).
  assert (V : forall i, i < length data -> nth i v 0%R = spread i).
  { intros i Hi. unfold v, spread. rewrite nth_indep with (d' := (fun s => std_l s / mean_l s)%R []) by (rewrite map_length; exact Hi).
    rewrite map_nth with (f := fun s => (std_l s / mean_l s)%R). reflexivity. }
  assert (B : forall i, In i (skipn k (argsort v)) -> i < length data).
  { intros i Hi. assert (I : In i (argsort v)) by (rewrite <- (firstn_skipn k (argsort v)); apply in_or_app; right; exact Hi).
    eapply Permutation_in in I; [|exact P]. apply in_seq in I. lia. }
  split; [split; [|split; [exact B|lia]]|split; [exact Lk|]].
  - apply nodup_skip. eapply Permutation_NoDup; [symmetry; exact P|apply seq_NoDup].
  - intros i j Hi Hj Hn. rewrite <- (V i (B i Hi)), <- (V j Hj).
    apply (sorted_skip _ k (argsort v) j i S); [|exact Hi].
    assert (I : In j (argsort v)) by (eapply Permutation_in; [symmetry; exact P|]; apply in_seq; lia).
    rewrite <- (firstn_skipn k (argsort v)) in I. apply in_app_or in I. destruct I; [assumption|contradiction].
Qed.
Print Assumptions C53_high_std.
Theorem C53_even_fid :
  forall argsort data b, sorting argsort -> 0 < b -> 0 < length data ->
  exists l, s_even_fid argsort data b = Ok l /\ choice (length data) b l
   /\ StronglySorted (fun i j => mean_l (nth i data []) <= mean_l (nth j data []))%R l.
Proof.
  intros argsort data b HS Hb Hd. unfold s_even_fid. set (v := map mean_l data). destruct (HS v) as [P S].
  unfold v in P at 2. rewrite map_length in P. pose proof (ceil_pos (length data) b Hd Hb) as Pn.
  destruct (Nat.eqb_spec b 0) as [?|Nb]; [lia|]. unfold slice_step. destruct (Nat.eqb_spec (ceil_div (length data) b) 0) as [?|Nc]; [lia|].
  set (n := ceil_div (length data) b) in *. eexists. split; [reflexivity|].
  assert (Ls : length (argsort v) = length data) by (rewrite (Permutation_length P), seq_length; reflexivity).
  assert (B : forall i, In i (argsort v) -> i < length data) by (intros i I; eapply Permutation_in in I; [|exact P]; apply in_seq in I; lia).
  split; [split; [|split]|].
  - apply every_nodup. eapply Permutation_NoDup; [symmetry; exact P|apply seq_NoDup].
  - intros i Hi. apply B. eapply every_incl, Hi.
  - rewrite every_length by exact Pn. rewrite Ls. apply ceil_ceil; assumption.
  - assert (V : forall i, i < length data -> nth i v 0%R = mean_l (nth i data [])).
    { intros i Hi. unfold v. rewrite nth_indep with (d' := mean_l []) by (rewrite map_length; exact Hi). apply map_nth. }
    clear -S B V. generalize 0 as k. induction S as [|a l S IH F]; intro k; cbn [every_from]; [constructor|].
    assert (B' : forall i, In i l -> i < length data) by (intros; apply B; right; assumption).
    destruct k; [|apply IH; exact B']. constructor; [apply IH; exact B'|]. apply Forall_forall. intros x Hx. apply every_incl in Hx.
    rewrite Forall_forall in F. specialize (F x Hx). rewrite !V in F; auto. apply B. left. reflexivity.
Qed.
Print Assumptions C53_even_fid.

(** Insertion sort is such an argsort. *)
Fixpoint ins (v : list R) (i : nat) (l : list nat) : list nat :=
  match l with
  | [] => [i]
  | j :: r => if Rle_dec (nth i v 0%R) (nth j v 0%R) then i :: j :: r else j :: ins v i r
  end.
Definition isort (v : list R) : list nat := fold_right (ins v) [] (seq 0 (length v)).
Example C53_example : sorting isort.
Proof.
  intro v. unfold isort. generalize (seq 0 (length v)) as l.
  assert (PI : forall i l, Permutation (ins v i l) (i :: l)).
  { intros i l. induction l as [|j l IH]; cbn [ins]; [reflexivity|]. destruct (Rle_dec _ _); [reflexivity|]. rewrite IH. apply perm_swap. }
  induction l as [|i l [P S]]; [split; constructor|]. cbn [fold_right]. set (m := fold_right (ins v) [] l) in *.
  split; [rewrite PI, P; reflexivity|]. clear P. induction S as [|j m S IH F]; cbn [ins]; [repeat constructor|].
  destruct (Rle_dec (nth i v 0%R) (nth j v 0%R)) as [H|H].
  - constructor; [constructor; assumption|]. constructor; [exact H|]. eapply Forall_impl; [|exact F]. intros a Ha. cbn in Ha. lra.
  - constructor; [exact IH|]. rewrite Forall_forall in *. intros x Hx. eapply Permutation_in in Hx; [|apply PI].
    destruct Hx as [<-|Hx]; [lra|apply F, Hx].
Qed.

(** ** C54 *)

Theorem C54_partition :
  forall indeces total, NoDup indeces -> (forall i, In i indeces -> i < total) ->
  let learn := select_from_data indeces total false in
  let validate := select_from_data indeces total true in
  Permutation (learn ++ validate) (seq 0 total)
  /\ (forall i, In i validate <-> i < total /\ ~ In i learn) /\ NoDup validate.
Proof.
  intros ind total Hn Hv learn validate. unfold learn, validate, select_from_data.
  assert (M : forall i, existsb (Nat.eqb i) ind = true <-> In i ind).
  { intro i. rewrite existsb_exists. split; [intros (x & Hx & E); apply Nat.eqb_eq in E; subst; exact Hx|].
    intro Hi. exists i. split; [exact Hi|apply Nat.eqb_refl]. }
  assert (V : forall i, In i (filter (fun i => negb (existsb (Nat.eqb i) ind)) (seq 0 total)) <-> i < total /\ ~ In i ind).
  { intro i. rewrite filter_In, in_seq. rewrite negb_true_iff. rewrite <- M. destruct (existsb (Nat.eqb i) ind); intuition (try lia; try congruence). }
  assert (N : NoDup (filter (fun i => negb (existsb (Nat.eqb i) ind)) (seq 0 total))) by apply NoDup_filter, seq_NoDup.
  split; [|split; [exact V|exact N]]. apply NoDup_Permutation; [|apply seq_NoDup|].
  - assert (G : forall l, NoDup l -> (forall i, In i l -> In i ind) -> NoDup (l ++ filter (fun i => negb (existsb (Nat.eqb i) ind)) (seq 0 total))).
    { induction 1 as [|x l H1 H2 IH]; intro HI; [exact N|]. cbn [app]. constructor; [|apply IH; intros; apply HI; right; assumption].
      intro C. apply in_app_or in C. destruct C as [C|C]; [contradiction|]. apply V in C. apply (proj2 C), HI. left. reflexivity. }
    apply G; auto.
  - intro i. rewrite in_app_iff, V, in_seq. split; [intros [H|H]; [apply Hv in H|]; lia|].
    intro H. destruct (in_dec Nat.eq_dec i ind); [left; assumption|right; split; [lia|assumption]].
Qed.
Print Assumptions C54_partition.

(** Finding: with random sampling learning and validation draw independently, so
    points used for learning can be used for validation, and others in neither. *)
Theorem C54_random_refuted :
  exists rnd rnd' l l', s_random rnd 3 2 = Ok l /\ s_random rnd' 3 2 = Ok l'
   /\ In 0 (select_from_data l 3 false) /\ In 0 (select_from_data l' 3 true)
   /\ ~ In 2 (select_from_data l 3 false) /\ ~ In 2 (select_from_data l' 3 true).
Proof.
  exists (fun i => i), (fun _ => 1). do 2 eexists. split; [vm_compute; reflexivity|]. split; [vm_compute; reflexivity|].
  vm_compute. intuition discriminate.
Qed.
Print Assumptions C54_random_refuted.
Example C54_example : NoDup [4; 0; 2] /\ (forall i, In i [4; 0; 2] -> i < 6) /\ select_from_data [4; 0; 2] 6 true = [1; 3; 5].
Proof. split; [repeat constructor; cbn; intuition lia|]. split; [cbn; intuition lia|reflexivity]. Qed.

(** ** C55 *)
Local Open Scope R_scope.

Lemma rsum_nonneg : forall {A} (f : A -> R) l, (forall x, In x l -> 0 <= f x) ->
  0 <= rsum_l (map f l) /\ (rsum_l (map f l) = 0 <-> forall x, In x l -> f x = 0).
Proof.
  intros A f l. induction l as [|a l IH]; intro H; cbn [map rsum_l fold_right].
  - split; [lra|]. split; [intros _ x []|reflexivity].
  - destruct IH as [P Z]; [intros; apply H; right; assumption|]. unfold rsum_l in *.
    assert (Ha : 0 <= f a) by (apply H; left; reflexivity). split; [lra|]. split.
    + intros E x [<-|Hx]; [lra|]. apply Z; [lra|exact Hx].
    + intro E. rewrite (proj2 Z) by (intros; apply E; right; assumption). rewrite (E a) by (left; reflexivity). ring.
Qed.
Lemma len_pos : forall {A} (l : list A), l <> [] -> 0 < INR (length l).
Proof. intros A l H. apply lt_0_INR. destruct l; [congruence|cbn; lia]. Qed.
Lemma mean_nonneg : forall {A} (f : A -> R) l, l <> [] -> (forall x, In x l -> 0 <= f x) ->
  0 <= mean_l (map f l) /\ (mean_l (map f l) = 0 <-> forall x, In x l -> f x = 0).
Proof.
  intros A f l Hl H. destruct (rsum_nonneg f l H) as [P Z]. pose proof (len_pos l Hl) as L. unfold mean_l. rewrite map_length.
  split; [apply Rmult_le_pos; [exact P|left; apply Rinv_0_lt_compat, L]|]. rewrite <- Z. split.
  - intro E. apply Rmult_eq_reg_r with (/ INR (length l)); [|apply Rinv_neq_0_compat; lra]. rewrite Rmult_0_l. exact E.
  - intros ->. unfold Rdiv. ring.
Qed.
Lemma zip3_spec : forall a b c l, zip3 a b c = Some l ->
  a = map (fun t => fst (fst t)) l /\ b = map (fun t => snd (fst t)) l /\ c = map snd l.
Proof.
  induction a as [|x a IH]; intros [|y b] [|z c] l H; cbn [zip3] in H; try discriminate; [injection H as <-; auto|].
  destruct (zip3 a b c) as [m|] eqn:E; [|discriminate]. injection H as <-. destruct (IH _ _ _ E) as (-> & -> & ->). cbn. auto.
Qed.
Lemma zip3_some : forall a b c, length a = length b -> length a = length c -> exists l, zip3 a b c = Some l /\ length l = length a.
Proof.
  induction a as [|x a IH]; intros [|y b] [|z c] H1 H2; cbn in *; try discriminate; [exists []; auto|].
  destruct (IH b c) as (l & -> & L); [lia|lia|]. exists ((x, y, z) :: l). split; [reflexivity|cbn; lia].
Qed.
Lemma mean_of_inv : forall f ex sim th r, mean_of f ex sim th = Ok r ->
  exists l, l <> [] /\ zip3 ex sim th = Some l /\ r = mean_l (map (fun t => f (fst (fst t)) (snd (fst t)) (snd t)) l).
Proof.
  intros f ex sim th r H. unfold mean_of in H. destruct (zip3 ex sim th) as [l|] eqn:E; [|discriminate].
  exists l. destruct l as [|t l]; [discriminate|]. injection H as <-. split; [discriminate|]. auto.
Qed.
(** The premises on the entries a figure is used with. *)
Definition entries (P : R -> R -> Prop) (sim th : list R) : Prop := forall y z, In (y, z) (combine sim th) -> P y z.
Lemma entries_zip : forall P ex sim th l, zip3 ex sim th = Some l -> entries P sim th ->
  forall t, In t l -> P (snd (fst t)) (snd t).
Proof.
  intros P ex sim th l Hz H t Ht. apply H. destruct (zip3_spec _ _ _ _ Hz) as (_ & -> & ->). clear -Ht.
  induction l as [|s l IH]; [destruct Ht|]. cbn [map combine]. destruct Ht as [->|Ht]; [left; destruct t as [[? ?] ?]; reflexivity|right; auto].
Qed.
Lemma agree_iff : forall ex sim th l, zip3 ex sim th = Some l ->
  (ex = sim <-> forall t, In t l -> fst (fst t) = snd (fst t)).
Proof.
  intros ex sim th l H. destruct (zip3_spec _ _ _ _ H) as (-> & -> & _). clear. induction l as [|t l IH]; cbn [map].
  - split; [intros _ t []|reflexivity].
  - split.
    + intros E s [<-|Hs]; injection E as E1 E2; [exact E1|]. apply IH; assumption.
    + intro E. f_equal; [apply E; left; reflexivity|]. apply IH. intros; apply E; right; assumption.
Qed.
Lemma mean_of_distance : forall f (P : R -> R -> Prop) ex sim th r,
  (forall x y z, P y z -> 0 <= f x y z /\ (f x y z = 0 <-> x = y)) -> entries P sim th ->
  mean_of f ex sim th = Ok r -> 0 <= r /\ (r = 0 <-> ex = sim).
Proof.
  intros f P ex sim th r Hf HP H. destruct (mean_of_inv _ _ _ _ _ H) as (l & Hl & Hz & ->).
  pose proof (entries_zip P _ _ _ _ Hz HP) as E.
  destruct (mean_nonneg (fun t => f (fst (fst t)) (snd (fst t)) (snd t)) l Hl) as [A B]; [intros t Ht; apply (Hf _ _ _ (E t Ht))|].
  split; [exact A|]. rewrite B, (agree_iff _ _ _ _ Hz). split; intros G t Ht; apply (Hf _ _ _ (E t Ht)), G, Ht.
Qed.
Lemma rmap_ok : forall {A B} (f : A -> B) x r, rmap f x = Ok r -> exists a, x = Ok a /\ r = f a.
Proof. intros A B f [a|e] r H; [|discriminate]. injection H as <-. exists a. auto. Qed.
Lemma sqrt_dist : forall m, 0 <= m -> 0 <= sqrt m /\ (sqrt m = 0 <-> m = 0).
Proof. intros m H. split; [apply sqrt_pos|]. split; [apply sqrt_eq_0, H|intros ->; apply sqrt_0]. Qed.
Lemma entries_right : forall (Q : R -> Prop) sim th, Forall Q th -> entries (fun _ z => Q z) sim th.
Proof. intros Q sim th H y z Hi. rewrite Forall_forall in H. apply H. eapply in_combine_r, Hi. Qed.
Lemma entries_both : forall (Q S : R -> Prop) sim th, Forall Q sim -> Forall S th -> entries (fun y z => Q y /\ S z) sim th.
Proof. intros Q S sim th H G y z Hi. rewrite Forall_forall in H, G. split; [eapply H, in_combine_l, Hi|eapply G, in_combine_r, Hi]. Qed.
Lemma entries_any : forall sim th, entries (fun _ _ => True) sim th.
Proof. intros sim th y z _. exact I. Qed.
Lemma abs_zero : forall x y, Rabs (x - y) = 0 <-> x = y.
Proof. intros x y. split; [|intros ->; rewrite Rminus_diag_eq, Rabs_R0; reflexivity]. intro H. destruct (Req_dec (x - y) 0) as [E|E]; [lra|]. apply Rabs_no_R0 in E. contradiction. Qed.
Lemma abs_div : forall x y s, 0 < s -> 0 <= Rabs (x - y) / s /\ (Rabs (x - y) / s = 0 <-> x = y).
Proof.
  intros x y s Hs. assert (Hi : 0 < / s) by (apply Rinv_0_lt_compat, Hs). pose proof (Rabs_pos (x - y)). split; [unfold Rdiv; nra|].
  rewrite <- (abs_zero x y). split; intro E; [|rewrite E; unfold Rdiv; ring]. unfold Rdiv in E. apply Rmult_integral in E. destruct E; [assumption|lra].
Qed.
Lemma square_zero : forall a, 0 <= a -> 0 <= a ^ 2 /\ (a ^ 2 = 0 <-> a = 0).
Proof. intros a Ha. split; [nra|]. split; [intro; nra|intros ->; ring]. Qed.
Lemma sim_std_pos : forall y n, (0 < y < 1) /\ 0 < n -> 0 < sim_std y n.
Proof. intros y n [[H1 H2] H3]. unfold sim_std. apply sqrt_lt_R0. apply Rdiv_lt_0_compat; nra. Qed.

(** The values the simulation must have so that its standard deviation is not zero. *)
Definition proper_sim (sim shots : list R) : Prop := Forall (fun y => 0 < y < 1) sim /\ Forall (fun n => 0 < n) shots.

Theorem C55_distances :
  forall ex sim stds shots r, Forall (fun s => 0 < s) stds -> proper_sim sim shots ->
  In (Ok r) [mean_dist ex sim stds shots; rms_dist ex sim stds shots; mean_exp_stds_dist ex sim stds shots;
             rms_exp_stds_dist ex sim stds shots; mean_sim_stds_dist ex sim stds shots; rms_sim_stds_dist ex sim stds shots] ->
  0 <= r /\ (r = 0 <-> ex = sim).
Proof.
  intros ex sim stds shots r Hs [Hy Hn] H. cbn [In] in H.
  pose proof (entries_both (fun y => 0 < y < 1) (fun n => 0 < n) sim shots Hy Hn) as E.
  assert (SQ : forall f (P : R -> R -> Prop) th, (forall x y z, P y z -> 0 <= f x y z /\ (f x y z = 0 <-> x = y)) -> entries P sim th ->
               rmap sqrt (mean_of f ex sim th) = Ok r -> 0 <= r /\ (r = 0 <-> ex = sim)).
  { intros f P th Hf HP Hr. destruct (rmap_ok _ _ _ Hr) as (m & Em & ->). destruct (mean_of_distance f P ex sim th m Hf HP Em) as [A B].
    destruct (sqrt_dist m A) as [C D]. split; [exact C|]. rewrite D. exact B. }
  destruct H as [H|[H|[H|[H|[H|[H|[]]]]]]].
  - eapply (mean_of_distance _ (fun _ _ => True)); [|apply entries_any|exact H]. intros x y z _. split; [apply Rabs_pos|apply abs_zero].
  - eapply (SQ _ (fun _ _ => True)); [|apply entries_any|exact H]. intros x y z _.
    destruct (square_zero (Rabs (x - y)) (Rabs_pos _)) as [A B]. split; [exact A|]. rewrite B. apply abs_zero.
  - eapply (mean_of_distance _ (fun _ s => 0 < s)); [|apply entries_right, Hs|exact H]. intros x y z Hz. apply abs_div, Hz.
  - eapply (SQ _ (fun _ s => 0 < s)); [|apply entries_right, Hs|exact H]. intros x y z Hz.
    destruct (abs_div x y z Hz) as [A B]. destruct (square_zero _ A) as [C D]. split; [exact C|]. rewrite D. exact B.
  - eapply mean_of_distance; [|exact E|exact H]. intros x y z Hz. apply abs_div, sim_std_pos, Hz.
  - eapply SQ; [|exact E|exact H]. intros x y z Hz.
    destruct (abs_div x y _ (sim_std_pos _ _ Hz)) as [A B]. destruct (square_zero _ A) as [C D]. split; [exact C|]. rewrite D. exact B.
Qed.
Print Assumptions C55_distances.

(** They are defined for any nonempty lists of equal length. *)
Theorem C55_defined :
  forall ex sim stds shots, ex <> [] -> length sim = length ex -> length stds = length ex -> length shots = length ex ->
  Forall (fun x => exists r, x = Ok r)
    [mean_dist ex sim stds shots; rms_dist ex sim stds shots; mean_exp_stds_dist ex sim stds shots;
     rms_exp_stds_dist ex sim stds shots; mean_sim_stds_dist ex sim stds shots; rms_sim_stds_dist ex sim stds shots;
     std_of_diffs ex sim stds shots;
     neg_loglkh_gauss ex sim stds shots; neg_loglkh_gauss_norm ex sim stds shots; neg_loglkh_gauss_norm_sum ex sim stds shots;
     g_LL_prime ex sim stds shots].
Proof.
  intros ex sim stds shots Hne H1 H2 H3.
  assert (Z : forall th, length th = length ex -> exists t l, zip3 ex sim th = Some (t :: l)).
  { intros th Ht. destruct (zip3_some ex sim th) as (l & E & L); [lia|lia|]. destruct l as [|t l]; [destruct ex; [congruence|discriminate]|]. eauto. }
  assert (M : forall f th, length th = length ex -> exists r, mean_of f ex sim th = Ok r).
  { intros f th Ht. destruct (Z th Ht) as (t & l & E). unfold mean_of. rewrite E. eauto. }
  assert (S : forall g f th, length th = length ex -> exists r : R, rmap g (mean_of f ex sim th) = Ok r).
  { intros g f th Ht. destruct (M f th Ht) as (r & ->). cbn. eauto. }
  repeat (apply Forall_cons; [first [apply M; auto | apply S; auto | idtac]|]); [| |constructor].
  - unfold std_of_diffs. destruct (Z ex eq_refl) as (t & l & ->). eauto.
  - unfold neg_loglkh_gauss_norm_sum. destruct (Z shots H3) as (t & l & ->). eauto.
Qed.
Print Assumptions C55_defined.

Theorem C55_mean_at_most_rms :
  forall ex sim stds shots m q, mean_dist ex sim stds shots = Ok m -> rms_dist ex sim stds shots = Ok q -> m <= q.
Proof.
  intros ex sim stds shots m q Hm Hq. destruct (rmap_ok _ _ _ Hq) as (a & Ha & ->). unfold mean_dist in Hm.
  destruct (mean_of_inv _ _ _ _ _ Hm) as (l & Hl & Hz & Em). destruct (mean_of_inv _ _ _ _ _ Ha) as (l' & _ & Hz' & Ea).
  rewrite Hz in Hz'. injection Hz' as <-.
  set (d := fun t : R * R * R => Rabs (fst (fst t) - snd (fst t))) in *.
  assert (J : m ^ 2 <= a).
  { destruct (mean_nonneg (fun t => (d t - m) ^ 2) l Hl) as [V _]; [intros; apply pow2_ge_0|].
    pose proof (len_pos l Hl) as L. unfold mean_l in *. rewrite map_length in *.
    assert (S : rsum_l (map (fun t => (d t - m) ^ 2) l)
                = rsum_l (map (fun t => d t ^ 2) l) - 2 * m * rsum_l (map d l) + INR (length l) * m ^ 2).
    { clear -d. induction l as [|t l IH]; [cbn; ring|]. cbn [map rsum_l fold_right length]. rewrite S_INR. unfold rsum_l in IH. rewrite IH. ring. }
    rewrite S in V. change (rsum_l (map (fun t => Rabs (fst (fst t) - snd (fst t)) ^ 2) l)) with (rsum_l (map (fun t => d t ^ 2) l)) in Ea.
    change (m = rsum_l (map d l) / INR (length l)) in Em.
    assert (Sd : rsum_l (map d l) = m * INR (length l)) by (rewrite Em; field; lra).
    assert (Sa : rsum_l (map (fun t => d t ^ 2) l) = a * INR (length l)) by (rewrite Ea; field; lra).
    rewrite Sd, Sa in V.
    replace ((a * INR (length l) - 2 * m * (m * INR (length l)) + INR (length l) * m ^ 2) / INR (length l)) with (a - m ^ 2) in V by (field; lra). lra. }
  apply Rsqr_incr_0_var; [|apply sqrt_pos]. rewrite Rsqr_sqrt by nra. unfold Rsqr. nra.
Qed.
Print Assumptions C55_mean_at_most_rms.

(** The standard deviation of the differences is no distance: a constant offset
    between experiment and simulation is not seen. *)
Theorem C55_std_of_diffs_refuted : std_of_diffs [1; 1] [0; 0] [1; 1] [1; 1] = Ok 0.
Proof.
  unfold std_of_diffs, std_l, mean_l, rsum_l. cbn [zip3 map fold_right length fst snd INR]. f_equal.
  rewrite Rminus_0_r, Rabs_R1. transitivity (sqrt 0); [f_equal; field|apply sqrt_0].
Qed.
Print Assumptions C55_std_of_diffs_refuted.

Lemma gauss_norm_entry : forall x y n, (0 < y < 1) /\ 0 < n ->
  let s := sim_std y n in normal_log_prob y s x - normal_log_prob y s y = - ((x - y) ^ 2 / (2 * s ^ 2)).
Proof. intros x y n H s. unfold normal_log_prob. replace (y - y) with 0 by ring. unfold Rdiv. ring. Qed.
Lemma mean_ext : forall {A} (f g : A -> R) l, (forall x, In x l -> f x = g x) -> mean_l (map f l) = mean_l (map g l).
Proof. intros A f g l H. f_equal. apply map_ext_in, H. Qed.
Lemma mean_affine : forall {A} (f : A -> R) a b l, l <> [] -> mean_l (map (fun x => a * f x + b) l) = a * mean_l (map f l) + b.
Proof.
  intros A f a b l Hl. pose proof (len_pos l Hl) as L. unfold mean_l. rewrite !map_length.
  assert (E : rsum_l (map (fun x => a * f x + b) l) = a * rsum_l (map f l) + INR (length l) * b).
  { clear. induction l as [|x l IH]; [cbn; ring|]. cbn [map rsum_l fold_right length]. rewrite S_INR. unfold rsum_l in IH. rewrite IH. ring. }
  rewrite E. field. lra.
Qed.

(** Normalised Gaussian likelihood: nonnegative, zero exactly at agreement; the
    goal function g_LL_prime is it minus one half, so both rank simulations alike;
    the sum variant is the number of values times the mean. *)
Theorem C55_gaussian :
  forall ex sim stds shots g, proper_sim sim shots -> neg_loglkh_gauss_norm ex sim stds shots = Ok g ->
  (0 <= g /\ (g = 0 <-> ex = sim))
  /\ g_LL_prime ex sim stds shots = Ok (g - / 2)
  /\ neg_loglkh_gauss_norm_sum ex sim stds shots = Ok (INR (length ex) * g).
Proof.
  intros ex sim stds shots g [Hy Hn] H. unfold neg_loglkh_gauss_norm in H. destruct (rmap_ok _ _ _ H) as (m & Em & ->).
  pose proof (entries_both (fun y => 0 < y < 1) (fun n => 0 < n) sim shots Hy Hn) as E.
  destruct (mean_of_inv _ _ _ _ _ Em) as (l & Hl & Hz & Ev). pose proof (entries_zip _ _ _ _ _ Hz E) as El.
  set (c := fun t : R * R * R => (fst (fst t) - snd (fst t)) ^ 2 / (2 * sim_std (snd (fst t)) (snd t) ^ 2)).
  assert (Ev' : m = - mean_l (map c l)).
  { rewrite Ev. rewrite (mean_ext _ (fun t => - 1 * c t + 0)) by (intros t Ht; rewrite (gauss_norm_entry _ _ _ (El t Ht)); unfold c; ring).
    rewrite mean_affine by exact Hl. ring. }
  assert (Cp : forall t, In t l -> 0 <= c t /\ (c t = 0 <-> fst (fst t) = snd (fst t))).
  { intros t Ht. pose proof (sim_std_pos _ _ (El t Ht)) as Sp. unfold c.
    assert (D : 0 < / (2 * sim_std (snd (fst t)) (snd t) ^ 2)) by (apply Rinv_0_lt_compat; nra).
    pose proof (pow2_ge_0 (fst (fst t) - snd (fst t))). split; [unfold Rdiv; nra|]. split.
    - intro Z. unfold Rdiv in Z. apply Rmult_integral in Z. destruct Z; nra.
    - intros ->. unfold Rdiv. ring. }
  destruct (mean_nonneg c l Hl) as [P Z]; [intros; apply Cp; assumption|].
  split; [|split].
  - rewrite Ev'. rewrite Ropp_involutive. split; [exact P|]. rewrite Z, (agree_iff _ _ _ _ Hz). split; intros G t Ht; apply (Cp t Ht), G, Ht.
  - unfold g_LL_prime, mean_of. rewrite Hz. destruct l as [|t0 l0] eqn:El0; [congruence|]. rewrite <- El0 in *. f_equal.
    rewrite (mean_ext _ (fun t => 1 * c t + - / 2)).
    + rewrite mean_affine by exact Hl. rewrite Ev'. ring.
    + intros t Ht. unfold c. pose proof (sim_std_pos _ _ (El t Ht)). field. nra.
  - unfold neg_loglkh_gauss_norm_sum. rewrite Hz. f_equal.
    assert (Lx : length ex = length l) by (destruct (zip3_spec _ _ _ _ Hz) as (-> & _); apply map_length).
    rewrite Lx, Ev. unfold mean_l. rewrite map_length. pose proof (len_pos l Hl) as L.
    rewrite (map_ext _ (fun t => normal_log_prob (snd (fst t)) (sim_std (snd (fst t)) (snd t)) (fst (fst t)) -
               normal_log_prob (snd (fst t)) (sim_std (snd (fst t)) (snd t)) (snd (fst t)))) by (intros [[x y] z]; reflexivity).
    field. lra.
Qed.
Print Assumptions C55_gaussian.

(** The negative log-likelihood: with n results it is -1/n times the logarithm of
    the product of the normal densities centred at the simulation with the shot
    noise deviation. *)
Definition normal_density (m s x : R) : R := / (s * sqrt (2 * PI)) * exp (- (x - m) ^ 2 / (2 * s ^ 2)).
Fixpoint density_product (ex sim shots : list R) : R :=
  match ex, sim, shots with
  | x :: ex', y :: sim', n :: shots' => normal_density y (sqrt (y * (1 - y) / n)) x * density_product ex' sim' shots'
  | _, _, _ => 1
  end.
Lemma log_density : forall m s x, 0 < s -> exp (normal_log_prob m s x) = normal_density m s x.
Proof.
  intros m s x Hs. unfold normal_log_prob, normal_density.
  assert (P : 0 < s * sqrt (2 * PI)) by (apply Rmult_lt_0_compat; [exact Hs|apply sqrt_lt_R0; pose proof PI_RGT_0; lra]).
  unfold Rminus at 1. rewrite exp_plus, exp_Ropp, exp_Ropp, exp_ln by exact P. rewrite Rmult_comm. f_equal.
  rewrite <- exp_Ropp. f_equal. unfold Rdiv. ring.
Qed.
Theorem C55_likelihood :
  forall ex sim stds shots g, proper_sim sim shots -> neg_loglkh_gauss ex sim stds shots = Ok g ->
  exp (- (INR (length ex) * g)) = density_product ex sim shots.
Proof.
  intros ex sim stds shots g [Hy Hn] H. unfold neg_loglkh_gauss in H. destruct (rmap_ok _ _ _ H) as (m & Em & ->).
  pose proof (entries_both (fun y => 0 < y < 1) (fun n => 0 < n) sim shots Hy Hn) as E.
  destruct (mean_of_inv _ _ _ _ _ Em) as (l & Hl & Hz & Ev). pose proof (entries_zip _ _ _ _ _ Hz E) as El.
  assert (Lx : length ex = length l) by (destruct (zip3_spec _ _ _ _ Hz) as (-> & _); apply map_length).
  pose proof (len_pos l Hl) as L. rewrite Lx, Ev. unfold mean_l. rewrite map_length.
  match goal with |- exp (- (_ * - (?s / _))) = _ => replace (- (INR (length l) * - (s / INR (length l)))) with s by (field; lra) end.
  clear Em H Hl Ev L Lx Hy Hn E. revert ex sim shots Hz. induction l as [|[[x y] n] l IH]; intros ex sim shots Hz.
  - destruct ex, sim, shots; cbn [zip3] in Hz; try discriminate; try (cbn; apply exp_0);
    destruct (zip3 ex sim shots); discriminate.
  - destruct ex as [|x' ex], sim as [|y' sim], shots as [|n' shots]; cbn [zip3] in Hz; try discriminate.
    destruct (zip3 ex sim shots) as [l'|] eqn:Z; [|discriminate]. injection Hz as -> -> -> ->.
    cbn [map rsum_l fold_right density_product fst snd]. rewrite exp_plus.
    fold (rsum_l (map (fun t => normal_log_prob (snd (fst t)) (sim_std (snd (fst t)) (snd t)) (fst (fst t))) l)).
    rewrite (IH (fun t Ht => El t (or_intror Ht)) ex sim shots Z). f_equal.
    apply log_density. apply (sim_std_pos y n). exact (El _ (or_introl eq_refl)).
Qed.
Print Assumptions C55_likelihood.

(** The combined goal is the weighted mean of the goals: between the extremes. *)
Theorem C55_combined_between :
  forall gs ws lo hi, length gs = length ws -> Forall (fun w => 0 < w) ws -> ws <> [] -> Forall (fun g => lo <= g <= hi) gs ->
  lo <= g_LL_prime_combined gs ws <= hi
  /\ g_LL_prime_combined gs ws * rsum_l ws = wsum ws gs.
Proof.
  intros gs ws lo hi HL Hw Hne Hg. unfold g_LL_prime_combined.
  assert (K : 0 < rsum_l ws).
  { destruct Hw as [|w ws H1 H2]; [congruence|]. cbn [rsum_l fold_right].
    assert (0 <= rsum_l ws) by (clear -H2; induction H2; cbn [rsum_l fold_right]; unfold rsum_l in *; lra). unfold rsum_l in *. lra. }
  assert (B : lo * rsum_l ws <= wsum ws gs <= hi * rsum_l ws).
  { clear K Hne. revert gs HL Hg. induction Hw as [|w ws H1 H2 IH]; intros [|g gs] HL Hg; cbn in HL; try discriminate; [cbn; lra|].
    inversion Hg as [|? ? G1 G2]; subst. cbn [wsum rsum_l fold_right]. specialize (IH gs ltac:(lia) G2). unfold rsum_l in IH.
    assert (w * lo <= w * g <= w * hi) by (split; apply Rmult_le_compat_l; lra). lra. }
  split; [|field; lra]. split; apply Rmult_le_reg_r with (rsum_l ws); try exact K; unfold Rdiv; rewrite Rmult_assoc, Rinv_l by lra; lra.
Qed.
Print Assumptions C55_combined_between.

(** Its gradient: if the i-th goal has derivative dv_i at v, the combined goal has
    the combined derivative. *)
Theorem C55_gradient :
  forall (gs : list (R -> R)) dvs ws v,
  Forall2 (fun g d => is_derive g v d) gs dvs -> length gs = length ws ->
  is_derive (fun u => g_LL_prime_combined (map (fun g => g u) gs) ws) v
            (dv_g_LL_prime (map (fun g => g v) gs) dvs ws).
Proof.
  intros gs dvs ws v H HL. unfold g_LL_prime_combined, dv_g_LL_prime.
  assert (D : is_derive (fun u => wsum ws (map (fun g => g u) gs)) v (wsum ws dvs)).
  { revert ws HL. induction H as [|g d gs dvs Hd H IH]; intros [|w ws] HL; cbn in HL; try discriminate.
    - cbn. apply (is_derive_const 0 v).
    - cbn [map wsum]. apply (is_derive_plus (fun u => w * g u) (fun u => wsum ws (map (fun g => g u) gs))).
      + apply (is_derive_scal g v w d Hd).
      + apply IH. lia. }
  unfold Rdiv. apply (is_derive_ext (fun u => / rsum_l ws * wsum ws (map (fun g => g u) gs))); [intro; apply Rmult_comm|].
  rewrite (Rmult_comm (wsum ws dvs)). apply (is_derive_scal _ v (/ rsum_l ws) _ D).
Qed.
Print Assumptions C55_gradient.

Example C55_example : proper_sim [0.5; 0.25] [100; 1000] /\ Forall2 (fun g d => is_derive g 1 d) [fun v : R => v; fun v : R => 2 * v] [1; 2].
Proof.
  split; [split; repeat constructor; unfold Q2R; cbn; lra|]. constructor; [apply (is_derive_id 1)|]. constructor; [|constructor].
  assert (D : is_derive (fun v : R => 2 * v) 1 (2 * 1)) by apply (is_derive_scal (fun v => v) 1 2 1 (is_derive_id 1)).
  rewrite Rmult_1_r in D. exact D.
Qed.
