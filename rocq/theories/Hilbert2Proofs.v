From Coq Require Import Sorted.
From Verif Require Import Base Mat HilbertModel HilbertProofs.
Local Open Scope list_scope.
Local Open Scope nat_scope.
Local Notation length := List.length.

Lemma csum_reindex : forall n m (f : nat -> C) (g : nat -> nat),
    (forall y, y < m -> g y < n) ->
    (forall y y', y < m -> y' < m -> g y = g y' -> y = y') ->
    (forall x, x < n -> (exists y, y < m /\ g y = x) \/ f x = RtoC 0) ->
    csum n f = csum m (fun y => f (g y)).
Proof.
  intros n m f g Hg Hinj Hf. symmetry.
  transitivity (csum m (fun y => csum n (fun x => Cmult (if Nat.eqb (g y) x then RtoC 1 else RtoC 0) (f x)))).
  { apply csum_ext. intros y Hy. symmetry. apply csum_delta_l. auto. }
  rewrite csum_swap. apply csum_ext. intros x Hx.
  rewrite csum_scale_r. destruct (Hf x Hx) as [(y & Hy & <-)|E].
  - rewrite (csum_single m y); auto.
    + rewrite Nat.eqb_refl. ring.
    + intros y' Hy' E. destruct (Nat.eqb_spec (g y') (g y)); auto. exfalso. apply E. auto.
  - rewrite E. ring.
Qed.

(** ** List updates *)
Lemma upd_length : forall {A} (l : list A) k x, length (list_upd l k x) = length l.
Proof. induction l; intros [|k] x; simpl; auto. Qed.
Lemma upd_nth_same : forall {A} (l : list A) k x d, k < length l -> nth k (list_upd l k x) d = x.
Proof. induction l; intros [|k] x d H; simpl in *; try lia; auto. apply IHl. lia. Qed.
Lemma upd_nth_other : forall {A} (l : list A) k q x d, q <> k -> nth q (list_upd l k x) d = nth q l d.
Proof. induction l; intros [|k] [|q] x d H; simpl in *; try lia; auto. Qed.

Definition upd_all {A} (l : list A) (ts : list nat) (xs : list A) : list A :=
  fold_left (fun ids im => list_upd ids (fst im) (snd im)) (combine ts xs) l.
Lemma upd_all_length : forall {A} ts xs (l : list A), length (upd_all l ts xs) = length l.
Proof.
  intros A ts. unfold upd_all. induction ts as [|t ts IH]; intros [|x xs] l; simpl; auto.
  rewrite IH. apply upd_length.
Qed.
Lemma upd_all_other : forall {A} ts xs (l : list A) q d, ~ In q ts -> nth q (upd_all l ts xs) d = nth q l d.
Proof.
  intros A ts. unfold upd_all. induction ts as [|t ts IH]; intros [|x xs] l q d H; simpl; auto.
  rewrite IH by (intro; apply H; right; auto). apply upd_nth_other. intros ->. apply H. left; auto.
Qed.
Lemma upd_all_target : forall {A} ts xs (l : list A) k d, NoDup ts -> length xs = length ts ->
    (forall t, In t ts -> t < length l) -> k < length ts ->
    nth (nth k ts 0) (upd_all l ts xs) d = nth k xs d.
Proof.
  intros A ts. induction ts as [|t ts IH]; intros [|x xs] l k d Hn Hl Hr Hk; simpl in Hl, Hk; try lia.
  inversion Hn as [|? ? Ht Hn']; subst. unfold upd_all. cbn [combine fold_left fst snd].
  destruct k as [|k]; cbn [nth].
  - fold (upd_all (list_upd l t x) ts xs). rewrite upd_all_other by auto.
    apply upd_nth_same. apply Hr. left; auto.
  - apply IH; auto; try lia. intros t' H'. rewrite upd_length. apply Hr. right; auto.
Qed.

Lemma valid_intro : forall dims l, length l = length dims -> (forall q, q < length dims -> nth q l 0 < nth q dims 0) ->
    valid dims l.
Proof.
  induction dims as [|d ds IH]; intros [|i l] Hl H; simpl in Hl; try lia; constructor.
  - apply (H 0). simpl; lia.
  - apply IH; auto. intros q Hq. apply (H (S q)). simpl; lia.
Qed.
Lemma labels_ext : forall dims l l', valid dims l -> valid dims l' ->
    (forall q, q < length dims -> nth q l 0 = nth q l' 0) -> l = l'.
Proof.
  intros dims l l' Hl Hl' H. apply nth_ext with (d := 0) (d' := 0).
  - rewrite (valid_length _ _ Hl), (valid_length _ _ Hl'). auto.
  - intros q Hq. apply H. rewrite <- (valid_length _ _ Hl). auto.
Qed.

(** Restriction of a label to the targets, and the label with the targets
    overwritten. *)
Definition restrict (l ts : list nat) : list nat := map (fun t => nth t l 0) ts.
Lemma restrict_valid : forall dims l ts, valid dims l -> (forall t, In t ts -> t < length dims) ->
    valid (restrict dims ts) (restrict l ts).
Proof.
  intros dims l ts Hl. induction ts as [|t ts IH]; intros H; simpl; constructor.
  - apply valid_nth; auto. apply H. left; auto.
  - apply IH. intros; apply H; right; auto.
Qed.
Lemma restrict_nth : forall l ts k, k < length ts -> nth k (restrict l ts) 0 = nth (nth k ts 0) l 0.
Proof.
  intros l ts k H. unfold restrict.
  rewrite (nth_indep _ 0 (nth 0 l 0)) by (rewrite map_length; auto).
  apply (map_nth (fun t => nth t l 0)).
Qed.

Lemma overwrite_valid : forall dims l ts u, valid dims l -> NoDup ts -> (forall t, In t ts -> t < length dims) ->
    valid (restrict dims ts) u -> valid dims (upd_all l ts u).
Proof.
  intros dims l ts u Hl Hn Hr Hu.
  assert (Lu : length u = length ts).
  { rewrite (valid_length _ _ Hu). unfold restrict. apply map_length. }
  apply valid_intro.
  - rewrite upd_all_length. apply valid_length; auto.
  - intros q Hq. destruct (in_dec Nat.eq_dec q ts) as [I|I].
    + destruct (In_nth _ _ 0 I) as (k & Hk & <-).
      rewrite upd_all_target; auto.
      2:{ intros t Ht. rewrite (valid_length _ _ Hl). auto. }
      rewrite <- restrict_nth by auto. apply valid_nth; auto. unfold restrict. rewrite map_length. auto.
    + rewrite upd_all_other by auto. apply valid_nth; auto.
Qed.
Lemma overwrite_restrict : forall dims l ts u, valid dims l -> NoDup ts -> (forall t, In t ts -> t < length dims) ->
    valid (restrict dims ts) u -> restrict (upd_all l ts u) ts = u.
Proof.
  intros dims l ts u Hl Hn Hr Hu.
  assert (Lu : length u = length ts).
  { rewrite (valid_length _ _ Hu). unfold restrict. apply map_length. }
  apply nth_ext with (d := 0) (d' := 0).
  - unfold restrict. rewrite map_length. auto.
  - intros k Hk. unfold restrict in Hk. rewrite map_length in Hk. rewrite restrict_nth by auto.
    apply upd_all_target; auto. intros t Ht. rewrite (valid_length _ _ Hl). auto.
Qed.

(** ** Basis tuples *)
Definition unit_s (d p : nat) : smat := {| rows := d; cols := d; ent := unit_mat (p / d) (p mod d) |}.
Fixpoint mkb (td p : list nat) : list smat :=
  match td, p with d :: td', x :: p' => unit_s d x :: mkb td' p' | _, _ => [] end.
Definition sqd (td : list nat) : list nat := map (fun d => d * d) td.
Fixpoint rowl (td p : list nat) : list nat :=
  match td, p with d :: td', x :: p' => (x / d) :: rowl td' p' | _, _ => [] end.
Fixpoint coll (td p : list nat) : list nat :=
  match td, p with d :: td', x :: p' => (x mod d) :: coll td' p' | _, _ => [] end.
Fixpoint pairl (td a b : list nat) : list nat :=
  match td, a, b with d :: td', i :: a', j :: b' => (i * d + j) :: pairl td' a' b' | _, _, _ => [] end.

Lemma basis_product : forall td, list_product (map basis_matrices td) = map (mkb td) (labels (sqd td)).
Proof.
  induction td as [|d td IH]; auto. cbn [map list_product sqd labels]. fold (sqd td). rewrite IH.
  unfold basis_matrices. rewrite !flat_map_concat_map, concat_map, !map_map. f_equal.
  apply map_ext. intro p. rewrite !map_map. apply map_ext. intro q. reflexivity.
Qed.
Lemma rowl_valid : forall td p, valid (sqd td) p -> valid td (rowl td p) /\ valid td (coll td p).
Proof.
  induction td as [|d td IH]; intros p H; inversion H as [|x d' p' ds Hx H']; subst; simpl.
  - split; constructor.
  - destruct (IH p' H'). destruct (divmod_lt _ _ _ Hx). split; constructor; auto.
Qed.
Lemma pairl_valid : forall td a b, valid td a -> valid td b ->
    valid (sqd td) (pairl td a b) /\ rowl td (pairl td a b) = a /\ coll td (pairl td a b) = b.
Proof.
  intros td a b H. revert b. induction H as [|i d a td Hi H IH]; intros b Hb;
    inversion Hb as [|j d' b' ds Hj Hb']; subst; simpl.
  - repeat split; constructor.
  - destruct (IH b' Hb') as (V & E1 & E2). destruct (divmod_add i j d Hj) as [-> ->].
    split; [constructor; [nia|auto]|]. rewrite E1, E2. auto.
Qed.
Lemma rowl_coll_inj : forall td p p', valid (sqd td) p -> valid (sqd td) p' ->
    rowl td p = rowl td p' -> coll td p = coll td p' -> p = p'.
Proof.
  induction td as [|d td IH]; intros p p' H H' E1 E2; inversion H as [|x d' q ds Hx Hq]; subst;
    inversion H' as [|x' d'' q' ds' Hx' Hq']; subst; auto.
  cbn [rowl coll] in *. inversion E1. inversion E2. f_equal; [|apply IH; auto].
  assert (d <> 0) by nia. rewrite (Nat.div_mod x d), (Nat.div_mod x' d) by auto. congruence.
Qed.
Lemma mkb_shape : forall td p, length p = length td -> map rows (mkb td p) = td /\ map cols (mkb td p) = td.
Proof.
  induction td as [|d td IH]; intros [|x p] H; simpl in *; try lia; auto.
  destruct (IH p ltac:(lia)) as [-> ->]. auto.
Qed.
Lemma mkb_entry : forall td p u v, length p = length td -> valid td u -> valid td v ->
    kron_entry (mkb td p) u v = if list_eqb u (rowl td p) && list_eqb v (coll td p) then RtoC 1 else RtoC 0.
Proof.
  intros td p u v Hp Hu. revert p v Hp. induction Hu as [|i d u td Hi Hu IH]; intros [|x p] v Hp Hv;
    simpl in Hp; try lia; inversion Hv as [|j d' v' ds Hj Hv']; subst; auto.
  cbn [mkb kron_entry rowl coll list_eqb unit_s ent]. rewrite IH by (auto; lia). unfold unit_mat.
  destruct (Nat.eqb i (x / d)); destruct (Nat.eqb j (x mod d)); destruct (list_eqb u (rowl td p));
    destruct (list_eqb v' (coll td p)); simpl; ring.
Qed.

Lemma mkb_norm : forall td p, valid (sqd td) p ->
    entry_sum (rows (np_kron_n (mkb td p))) (cols (np_kron_n (mkb td p)))
              (fun i j => RtoC (Cmod (ent (np_kron_n (mkb td p)) i j))) = RtoC 1.
Proof.
  intros td p Hp. assert (Lp : length p = length td) by (rewrite (valid_length _ _ Hp); apply map_length).
  destruct (kron_shape (mkb td p)) as [-> ->]. destruct (mkb_shape td p Lp) as [R Cc]. rewrite R, Cc.
  destruct (rowl_valid td p Hp) as [Va Vb]. unfold entry_sum.
  assert (En : forall u v, valid td u -> valid td v -> ent (np_kron_n (mkb td p)) (pos td u) (pos td v)
       = if list_eqb u (rowl td p) && list_eqb v (coll td p) then RtoC 1 else RtoC 0).
  { intros u v Hu Hv. rewrite <- (mkb_entry td p u v Lp Hu Hv).
    pose proof (kron_n_entry (mkb td p) u v) as E. rewrite R, Cc in E. apply E; auto. }
  rewrite (csum_single _ (pos td (rowl td p))); [| apply pos_lt; auto |].
  - rewrite (csum_single _ (pos td (coll td p))); [| apply pos_lt; auto |].
    + rewrite En by auto. rewrite !(proj2 (list_eqb_eq _ _)) by auto. simpl. rewrite Cmod_1. reflexivity.
    + intros j Hj E. destruct (pos_surj _ _ Hj) as (v & Hv & <-). rewrite En by auto.
      destruct (list_eqb v (coll td p)) eqn:X.
      * apply list_eqb_eq in X. congruence.
      * rewrite andb_false_r, Cmod_0. reflexivity.
  - intros i Hi E. apply csum_0. intros j Hj. destruct (pos_surj _ _ Hj) as (v & Hv & <-).
    destruct (pos_surj _ _ Hi) as (u & Hu & <-). rewrite En by auto.
    destruct (list_eqb u (rowl td p)) eqn:X.
    + apply list_eqb_eq in X. congruence.
    + simpl. rewrite Cmod_0. reflexivity.
Qed.

Lemma mkb_overlap : forall td p (M : mat) c, valid (sqd td) p -> c = RtoC 1 ->
    entry_sum (rows (np_kron_n (mkb td p))) (cols (np_kron_n (mkb td p)))
              (fun i j => Cmult (M i j) (mscale c (ent (np_kron_n (mkb td p))) i j))
    = M (pos td (rowl td p)) (pos td (coll td p)).
Proof.
  intros td p M c Hp ->. assert (Lp : length p = length td) by (rewrite (valid_length _ _ Hp); apply map_length).
  destruct (kron_shape (mkb td p)) as [-> ->]. destruct (mkb_shape td p Lp) as [R Cc]. rewrite R, Cc.
  destruct (rowl_valid td p Hp) as [Va Vb]. unfold entry_sum, mscale.
  assert (En : forall u v, valid td u -> valid td v -> ent (np_kron_n (mkb td p)) (pos td u) (pos td v)
       = if list_eqb u (rowl td p) && list_eqb v (coll td p) then RtoC 1 else RtoC 0).
  { intros u v Hu Hv. rewrite <- (mkb_entry td p u v Lp Hu Hv).
    pose proof (kron_n_entry (mkb td p) u v) as E. rewrite R, Cc in E. apply E; auto. }
  rewrite (csum_single _ (pos td (rowl td p))); [| apply pos_lt; auto |].
  - rewrite (csum_single _ (pos td (coll td p))); [| apply pos_lt; auto |].
    + rewrite En by auto. rewrite !(proj2 (list_eqb_eq _ _)) by auto. simpl. ring.
    + intros j Hj E. destruct (pos_surj _ _ Hj) as (v & Hv & <-). rewrite En by auto.
      destruct (list_eqb v (coll td p)) eqn:X.
      * apply list_eqb_eq in X. congruence.
      * rewrite andb_false_r. ring.
  - intros i Hi E. apply csum_0. intros j Hj. destruct (pos_surj _ _ Hj) as (v & Hv & <-).
    destruct (pos_surj _ _ Hi) as (u & Hu & <-). rewrite En by auto.
    destruct (list_eqb u (rowl td p)) eqn:X.
    + apply list_eqb_eq in X. congruence.
    + simpl. ring.
Qed.

Lemma kron_entry_nth : forall ms l l' d, length l = length ms -> length l' = length ms ->
    kron_entry ms l l' = cprod (length ms) (fun q => ent (nth q ms d) (nth q l 0) (nth q l' 0)).
Proof.
  induction ms as [|m ms IH]; intros [|i l] [|j l'] d H H'; simpl in *; try lia; auto.
  f_equal. apply IH; lia.
Qed.
Lemma mkb_nth : forall td p k d, k < length td -> length p = length td ->
    nth k (mkb td p) d = unit_s (nth k td 0) (nth k p 0).
Proof.
  induction td as [|e td IH]; intros [|x p] k d H Hp; simpl in *; try lia.
  destruct k; auto. apply IH; lia.
Qed.
Lemma mkb_length : forall td p, length p = length td -> length (mkb td p) = length td.
Proof. induction td; intros [|x p] H; simpl in *; try lia; auto. Qed.
Lemma rowl_nth : forall td p k, k < length td -> length p = length td ->
    nth k (rowl td p) 0 = nth k p 0 / nth k td 0 /\ nth k (coll td p) 0 = nth k p 0 mod nth k td 0.
Proof.
  induction td as [|e td IH]; intros [|x p] k H Hp; simpl in *; try lia.
  destruct k; auto. apply IH; lia.
Qed.

(** Matrix element of one embedded basis tuple. *)
Lemma kron_ids_entry : forall dims ts p l l',
    NoDup ts -> (forall t, In t ts -> t < length dims) ->
    valid (sqd (restrict dims ts)) p -> valid dims l -> valid dims l' ->
    ((forall q, q < length dims -> ~ In q ts -> nth q l 0 = nth q l' 0) ->
       ent (kron_ids dims ts (mkb (restrict dims ts) p)) (pos dims l) (pos dims l')
       = if list_eqb (restrict l ts) (rowl (restrict dims ts) p)
            && list_eqb (restrict l' ts) (coll (restrict dims ts) p) then RtoC 1 else RtoC 0)
    /\ ((exists q, q < length dims /\ ~ In q ts /\ nth q l 0 <> nth q l' 0) ->
       ent (kron_ids dims ts (mkb (restrict dims ts) p)) (pos dims l) (pos dims l') = RtoC 0).
Proof.
  intros dims ts p l l' Hn Hr Hp Hl Hl'. set (td := restrict dims ts) in *.
  assert (Ltd : length td = length ts) by (unfold td, restrict; apply map_length).
  assert (Lp : length p = length td) by (rewrite (valid_length _ _ Hp); apply map_length).
  unfold kron_ids. fold (upd_all (map (fun d => seye d d) dims) ts (mkb td p)).
  set (ms := upd_all (map (fun d => seye d d) dims) ts (mkb td p)).
  assert (Lm : length ms = length dims) by (unfold ms; rewrite upd_all_length, map_length; auto).
  assert (N1 : forall q, q < length dims -> ~ In q ts -> nth q ms (seye 0 0) = seye (nth q dims 0) (nth q dims 0)).
  { intros q Hq Hi. unfold ms. rewrite upd_all_other by auto.
    exact (map_nth (fun d => seye d d) dims 0 q). }
  assert (N2 : forall k, k < length ts -> nth (nth k ts 0) ms (seye 0 0) = unit_s (nth k td 0) (nth k p 0)).
  { intros k Hk. unfold ms. rewrite upd_all_target; auto.
    - apply mkb_nth; lia.
    - rewrite mkb_length; lia.
    - intros t Ht. rewrite map_length. auto. }
  assert (Sh : map rows ms = dims /\ map cols ms = dims).
  { assert (G : forall q, q < length dims -> rows (nth q ms (seye 0 0)) = nth q dims 0
                                        /\ cols (nth q ms (seye 0 0)) = nth q dims 0).
    { intros q Hq. destruct (in_dec Nat.eq_dec q ts) as [I|I].
      - destruct (In_nth _ _ 0 I) as (k & Hk & <-). rewrite N2 by auto. cbn [unit_s rows cols].
        unfold td. rewrite restrict_nth by auto. auto.
      - rewrite N1 by auto. auto. }
    split; apply nth_ext with (d := 0) (d' := 0); try (rewrite map_length; auto).
    - intros q Hq. rewrite Lm in Hq. change 0 with (rows (seye 0 0)) at 1. rewrite map_nth. apply G. auto.
    - intros q Hq. rewrite Lm in Hq. change 0 with (cols (seye 0 0)) at 1. rewrite map_nth. apply G. auto. }
  destruct Sh as [R Cc].
  pose proof (kron_n_entry ms l l') as E. rewrite R, Cc in E. rewrite E by auto.
  rewrite (kron_entry_nth ms l l' (seye 0 0)).
  2: rewrite Lm; apply valid_length; auto.
  2: rewrite Lm; apply valid_length; auto.
  rewrite Lm. split.
  - intro H. destruct (list_eqb (restrict l ts) (rowl td p) && list_eqb (restrict l' ts) (coll td p)) eqn:B.
    + apply andb_true_iff in B. destruct B as [B1 B2]. apply list_eqb_eq in B1, B2.
      apply cprod_one. intros q Hq. destruct (in_dec Nat.eq_dec q ts) as [I|I].
      * destruct (In_nth _ _ 0 I) as (k & Hk & <-). rewrite N2 by auto. cbn [unit_s ent]. unfold unit_mat.
        rewrite <- (restrict_nth l ts k Hk), <- (restrict_nth l' ts k Hk), B1, B2.
        destruct (rowl_nth td p k ltac:(lia) Lp) as [-> ->]. rewrite !Nat.eqb_refl. reflexivity.
      * rewrite N1 by auto. cbn [seye ent]. rewrite (H q Hq I). unfold mid. rewrite Nat.eqb_refl. reflexivity.
    + assert (D : exists k, k < length ts /\ (nth k (restrict l ts) 0 <> nth k (rowl td p) 0
                                          \/ nth k (restrict l' ts) 0 <> nth k (coll td p) 0)).
      { destruct (rowl_valid td p Hp) as [Va Vb].
        assert (Vl : valid td (restrict l ts)) by (apply restrict_valid; auto).
        assert (Vl' : valid td (restrict l' ts)) by (apply restrict_valid; auto).
        destruct (differ_dec (length td) (restrict l ts) (rowl td p) (fun _ => true)) as [A|(k & Hk & _ & D)].
        - destruct (differ_dec (length td) (restrict l' ts) (coll td p) (fun _ => true)) as [A'|(k & Hk & _ & D)].
          + assert (restrict l ts = rowl td p) by (apply (labels_ext td); auto).
            assert (restrict l' ts = coll td p) by (apply (labels_ext td); auto).
            rewrite !(proj2 (list_eqb_eq _ _)) in B by auto. discriminate.
          + exists k. rewrite <- Ltd. auto.
        - exists k. rewrite <- Ltd. auto. }
      destruct D as (k & Hk & D). assert (Ht : nth k ts 0 < length dims) by (apply Hr, nth_In; auto).
      apply (cprod_zero _ _ (nth k ts 0)); auto. rewrite N2 by auto. cbn [unit_s ent]. unfold unit_mat.
      rewrite <- (restrict_nth l ts k Hk), <- (restrict_nth l' ts k Hk).
      destruct (rowl_nth td p k ltac:(lia) Lp) as [<- <-].
      destruct (Nat.eqb_spec (nth k (restrict l ts) 0) (nth k (rowl td p) 0)); destruct (Nat.eqb_spec (nth k (restrict l' ts) 0) (nth k (coll td p) 0)); simpl; auto. destruct D; contradiction.
  - intros (q & Hq & I & D). apply (cprod_zero _ _ q); auto. rewrite N1 by auto. cbn [seye ent]. unfold mid.
    destruct (Nat.eqb_spec (nth q l 0) (nth q l' 0)); auto. contradiction.
Qed.

(** Sums over lists *)
Definition lsum (l : list C) : C := fold_right Cplus (RtoC 0) l.
Lemma fold_madd_entry : forall {A} (f : A -> mat) l acc i j,
    fold_left (fun out b => madd out (f b)) l acc i j = Cplus (acc i j) (lsum (map (fun b => f b i j) l)).
Proof.
  intros A f l. induction l as [|b l IH]; intros acc i j; simpl.
  - ring.
  - rewrite IH. unfold madd. ring.
Qed.
Lemma lsum_0 : forall {A} (f : A -> C) l, (forall x, In x l -> f x = RtoC 0) -> lsum (map f l) = RtoC 0.
Proof.
  intros A f l. induction l as [|x l IH]; intros H; simpl; auto.
  rewrite (H x) by (left; auto). rewrite IH; [ring|]. intros; apply H; right; auto.
Qed.
Lemma lsum_single : forall {A} (f : A -> C) l x, NoDup l -> In x l ->
    (forall y, In y l -> y <> x -> f y = RtoC 0) -> lsum (map f l) = f x.
Proof.
  intros A f l. induction l as [|a l IH]; intros x Hn Hx H; [destruct Hx|].
  inversion Hn as [|? ? Ha Hn']; subst. cbn [map]. destruct Hx as [->|Hx].
  - change (lsum (f x :: map f l)) with (Cplus (f x) (lsum (map f l))). rewrite lsum_0; [ring|].
    intros y Hy. apply H; [right; auto|]. intros ->. contradiction.
  - change (lsum (f a :: map f l)) with (Cplus (f a) (lsum (map f l))).
    rewrite (H a); [|left; auto|intros ->; contradiction].
    rewrite (IH x); auto; [ring|]. intros y Hy. apply H. right; auto.
Qed.

(** Element of the embedded matrix. *)
Lemma insert_entry : forall dims ts M l l',
    NoDup ts -> (forall t, In t ts -> t < length dims) -> valid dims l -> valid dims l' ->
    ((forall q, q < length dims -> ~ In q ts -> nth q l 0 = nth q l' 0) ->
       insert_mat_kron dims ts M (pos dims l) (pos dims l')
       = M (pos (restrict dims ts) (restrict l ts)) (pos (restrict dims ts) (restrict l' ts)))
    /\ ((exists q, q < length dims /\ ~ In q ts /\ nth q l 0 <> nth q l' 0) ->
       insert_mat_kron dims ts M (pos dims l) (pos dims l') = RtoC 0).
Proof.
  intros dims ts M l l' Hn Hr Hl Hl'. set (td := restrict dims ts).
  unfold insert_mat_kron. rewrite (fold_madd_entry (insert_term dims ts M)).
  assert (B : list_product (map (fun t => basis_matrices (nth t dims 0)) ts) = map (mkb td) (labels (sqd td))).
  { rewrite <- basis_product. f_equal. unfold td, restrict. rewrite map_map. reflexivity. }
  rewrite B, map_map. unfold mzero.
  assert (T : forall p, valid (sqd td) p -> insert_term dims ts M (mkb td p) (pos dims l) (pos dims l')
     = Cmult (M (pos td (rowl td p)) (pos td (coll td p))) (ent (kron_ids dims ts (mkb td p)) (pos dims l) (pos dims l'))).
  { intros p Hp. unfold insert_term. cbv zeta. rewrite (mkb_norm td p Hp).
    rewrite Cmod_1, sqrt_1.
    assert (I1 : (/ RtoC 1)%C = RtoC 1).
    { field. intro X. apply (f_equal fst) in X. simpl in X. lra. }
    rewrite (mkb_overlap td p M _ Hp I1). unfold mscale. rewrite I1. ring. }
  assert (Vl : valid td (restrict l ts)) by (apply restrict_valid; auto).
  assert (Vl' : valid td (restrict l' ts)) by (apply restrict_valid; auto).
  destruct (pairl_valid td (restrict l ts) (restrict l' ts) Vl Vl') as (Vp & Ep1 & Ep2).
  split.
  - intro H. rewrite (lsum_single _ _ (pairl td (restrict l ts) (restrict l' ts))).
    + rewrite T by auto. destruct (kron_ids_entry dims ts _ l l' Hn Hr Vp Hl Hl') as [K _]. fold td in K.
      rewrite (K H). rewrite Ep1, Ep2. rewrite !(proj2 (list_eqb_eq _ _)) by auto. simpl. ring.
    + apply labels_nodup.
    + apply in_labels. auto.
    + intros y Hy E. apply in_labels in Hy. rewrite T by auto.
      destruct (kron_ids_entry dims ts y l l' Hn Hr Hy Hl Hl') as [K _]. fold td in K. rewrite (K H).
      destruct (list_eqb (restrict l ts) (rowl td y)) eqn:X; [|simpl; ring].
      destruct (list_eqb (restrict l' ts) (coll td y)) eqn:X'; [|simpl; ring].
      apply list_eqb_eq in X, X'. exfalso. apply E. apply (rowl_coll_inj td); auto; congruence.
  - intro H. rewrite lsum_0; [ring|]. intros y Hy. apply in_labels in Hy. rewrite T by auto.
    destruct (kron_ids_entry dims ts y l l' Hn Hr Hy Hl Hl') as [_ K]. fold td in K. rewrite (K H). ring.
Qed.
