From Verif Require Import Base Mat HilbertModel.
Local Open Scope list_scope.
Local Open Scope nat_scope.
Local Notation length := List.length.
Local Notation concat := List.concat.

(** A level tuple of the product space, and its Kronecker position: subsystem k
    contributes its level times the product of the later dimensions. *)
Definition valid (dims l : list nat) : Prop := Forall2 (fun i d => i < d) l dims.
Fixpoint pos (dims l : list nat) : nat :=
  match dims, l with
  | d :: ds, i :: is => i * prod_dims ds + pos ds is
  | _, _ => 0
  end.

Lemma prod_dims_cons : forall d ds, prod_dims (d :: ds) = d * prod_dims ds.
Proof. reflexivity. Qed.

Lemma pos_lt : forall dims l, valid dims l -> pos dims l < prod_dims dims.
Proof.
  intros dims l H. induction H as [|i d l ds Hi H IH]; [simpl; lia|].
  cbn [pos]. rewrite prod_dims_cons. nia.
Qed.

Lemma pos_inj : forall dims l l', valid dims l -> valid dims l' -> pos dims l = pos dims l' -> l = l'.
Proof.
  intros dims l l' H. revert l'. induction H as [|i d l ds Hi H IH]; intros l' H' E.
  - inversion H'. auto.
  - inversion H' as [|i' d' l'' ds' Hi' H'']; subst. cbn [pos] in E.
    pose proof (pos_lt _ _ H). pose proof (pos_lt _ _ H'').
    assert (i = i') by nia. subst. f_equal. apply IH; auto. lia.
Qed.

Lemma pos_surj : forall dims x, x < prod_dims dims -> exists l, valid dims l /\ pos dims l = x.
Proof.
  induction dims as [|d ds IH]; intros x Hx.
  - exists []. split; [constructor|]. simpl in *. lia.
  - rewrite prod_dims_cons in Hx. destruct (divmod_lt _ _ _ Hx) as [H1 H2].
    destruct (IH _ H2) as (l & Hl & E). exists (x / prod_dims ds :: l). split.
    + constructor; auto.
    + cbn [pos]. rewrite E. rewrite (Nat.div_mod x (prod_dims ds)) at 3; lia.
Qed.

Lemma labels_length : forall dims, length (labels dims) = prod_dims dims.
Proof.
  induction dims as [|d ds IH]; auto. cbn [labels]. rewrite prod_dims_cons.
  rewrite flat_map_concat_map.
  assert (G : forall n s, length (concat (map (fun i => map (cons i) (labels ds)) (seq s n))) = n * prod_dims ds).
  { induction n as [|n IHn]; intros s; simpl; auto. rewrite app_length, map_length, IHn, IH. reflexivity. }
  apply G.
Qed.

Lemma in_labels : forall dims l, In l (labels dims) <-> valid dims l.
Proof.
  induction dims as [|d ds IH]; intros l; cbn [labels].
  - split.
    + intros [<-|[]]. constructor.
    + intro H. inversion H. left; auto.
  - rewrite in_flat_map. split.
    + intros (i & Hi & Hl). apply in_map_iff in Hl. destruct Hl as (l' & <- & Hl').
      apply in_seq in Hi. constructor; [lia|]. apply IH. auto.
    + intro H. inversion H as [|i d' l' ds' Hi H']; subst. exists i. split.
      * apply in_seq. lia.
      * apply in_map. apply IH. auto.
Qed.

Lemma nth_concat_map : forall {A} (f : nat -> list A) m n s i j,
    (forall k, length (f k) = m) -> i < n -> j < m ->
    nth_error (concat (map f (seq s n))) (i * m + j) = nth_error (f (s + i)) j.
Proof.
  intros A f m n. induction n as [|n IH]; intros s i j Hf Hi Hj; [lia|].
  cbn [seq map List.concat]. destruct i as [|i].
  - rewrite Nat.add_0_r. simpl. apply nth_error_app1. rewrite Hf. auto.
  - rewrite nth_error_app2 by (rewrite Hf; simpl; lia).
    rewrite Hf. replace (S i * m + j - m) with (i * m + j) by (simpl; lia).
    rewrite IH by (auto; lia). f_equal. f_equal. lia.
Qed.

Lemma labels_nth : forall dims l, valid dims l -> nth_error (labels dims) (pos dims l) = Some l.
Proof.
  intros dims l H. induction H as [|i d l ds Hi H IH]; auto.
  cbn [labels pos]. rewrite flat_map_concat_map.
  rewrite nth_concat_map; auto.
  - rewrite Nat.add_0_l. rewrite nth_error_map, IH. reflexivity.
  - intro k. rewrite map_length. apply labels_length.
  - apply pos_lt; auto.
Qed.

Lemma labels_nodup : forall dims, NoDup (labels dims).
Proof.
  intros. apply NoDup_nth_error. intros i j Hi E. rewrite labels_length in Hi.
  destruct (pos_surj _ _ Hi) as (l & Hl & <-).
  rewrite labels_nth in E by auto.
  destruct (lt_dec j (prod_dims dims)) as [Hj|Hj].
  - destruct (pos_surj _ _ Hj) as (l' & Hl' & <-). rewrite labels_nth in E by auto. congruence.
  - rewrite (proj2 (nth_error_None _ _)) in E; [discriminate|]. rewrite labels_length. lia.
Qed.

Lemma list_eqb_eq : forall a b, list_eqb a b = true <-> a = b.
Proof.
  induction a as [|x a IH]; intros [|y b]; simpl; try (split; congruence).
  rewrite andb_true_iff, Nat.eqb_eq, IH. split; [intros [-> ->]; auto|intros [= -> ->]; auto].
Qed.

Lemma index_of_nth : forall ls x i, NoDup ls -> nth_error ls i = Some x -> index_of x ls = Ok i.
Proof.
  induction ls as [|y ls IH]; intros x i Hn H; [destruct i; discriminate|].
  inversion Hn as [|y' ls' Hy Hn']; subst. cbn [index_of]. destruct i as [|i].
  - inversion H; subst. rewrite (proj2 (list_eqb_eq x x)); auto.
  - simpl in H. destruct (list_eqb x y) eqn:E.
    + apply list_eqb_eq in E. subst. exfalso. apply Hy. eapply nth_error_In; eauto.
    + rewrite (IH x i); auto.
Qed.
Lemma index_of_none : forall ls x, ~ In x ls -> index_of x ls = Err ValueError.
Proof.
  induction ls as [|y ls IH]; intros x H; auto. cbn [index_of].
  destruct (list_eqb x y) eqn:E.
  - apply list_eqb_eq in E. subst. exfalso. apply H. left; auto.
  - rewrite IH; auto. intro; apply H; right; auto.
Qed.

(** Matrices are determined by their elements between labels. *)
Lemma meq_labels : forall dr dc A B,
    (forall l l', valid dr l -> valid dc l' -> A (pos dr l) (pos dc l') = B (pos dr l) (pos dc l')) ->
    meq (prod_dims dr) (prod_dims dc) A B.
Proof.
  intros dr dc A B H i j Hi Hj.
  destruct (pos_surj _ _ Hi) as (l & Hl & <-). destruct (pos_surj _ _ Hj) as (l' & Hl' & <-). auto.
Qed.

(** Matrix element of a Kronecker product: product of the elements. *)
Fixpoint kron_entry (ms : list smat) (l l' : list nat) : C :=
  match ms, l, l' with
  | m :: ms', i :: is, j :: js => Cmult (ent m i j) (kron_entry ms' is js)
  | _, _, _ => RtoC 1
  end.

Lemma kron_fold_shape : forall ms acc,
    rows (fold_left skron ms acc) = rows acc * prod_dims (map rows ms)
    /\ cols (fold_left skron ms acc) = cols acc * prod_dims (map cols ms).
Proof.
  induction ms as [|m ms IH]; intros acc; cbn [fold_left map].
  - unfold prod_dims; simpl; lia.
  - destruct (IH (skron acc m)) as [-> ->]. rewrite !prod_dims_cons. cbn [skron rows cols]. lia.
Qed.
Lemma kron_shape : forall ms,
    rows (np_kron_n ms) = prod_dims (map rows ms) /\ cols (np_kron_n ms) = prod_dims (map cols ms).
Proof. intros. unfold np_kron_n. destruct (kron_fold_shape ms (seye 1 1)) as [-> ->]. simpl; lia. Qed.

Lemma kron_fold_entry : forall ms acc a b l l',
    valid (map rows ms) l -> valid (map cols ms) l' ->
    ent (fold_left skron ms acc) (a * prod_dims (map rows ms) + pos (map rows ms) l)
        (b * prod_dims (map cols ms) + pos (map cols ms) l')
    = Cmult (ent acc a b) (kron_entry ms l l').
Proof.
  induction ms as [|m ms IH]; intros acc a b l l' Hl Hl'.
  - simpl. rewrite !Nat.mul_1_r, !Nat.add_0_r. ring.
  - cbn [map] in *. inversion Hl as [|i d ls ds Hi H]; subst. inversion Hl' as [|j d' ls' ds' Hj H']; subst.
    cbn [fold_left pos]. rewrite !prod_dims_cons.
    replace (a * (rows m * prod_dims (map rows ms)) + (i * prod_dims (map rows ms) + pos (map rows ms) ls))
      with ((a * rows m + i) * prod_dims (map rows ms) + pos (map rows ms) ls) by ring.
    replace (b * (cols m * prod_dims (map cols ms)) + (j * prod_dims (map cols ms) + pos (map cols ms) ls'))
      with ((b * cols m + j) * prod_dims (map cols ms) + pos (map cols ms) ls') by ring.
    rewrite IH by auto. cbn [skron ent kron_entry]. unfold kron.
    destruct (divmod_add a i (rows m) Hi) as [-> ->]. destruct (divmod_add b j (cols m) Hj) as [-> ->].
    ring.
Qed.
Lemma kron_n_entry : forall ms l l',
    valid (map rows ms) l -> valid (map cols ms) l' ->
    ent (np_kron_n ms) (pos (map rows ms) l) (pos (map cols ms) l') = kron_entry ms l l'.
Proof.
  intros ms l l' H H'. unfold np_kron_n.
  pose proof (kron_fold_entry ms (seye 1 1) 0 0 l l' H H') as E. simpl in E. rewrite E.
  unfold mid. simpl. ring.
Qed.

(** ** Kronecker products multiply factor by factor *)
Fixpoint factors_mul (As Bs : list smat) : list smat :=
  match As, Bs with
  | A :: As', B :: Bs' => {| rows := rows A; cols := cols B; ent := mmul (cols A) (ent A) (ent B) |}
                          :: factors_mul As' Bs'
  | _, _ => []
  end.

Lemma kron_mul_fold : forall As Bs, Forall2 (fun A B => cols A = rows B) As Bs ->
  forall l l', valid (map rows As) l -> valid (map cols Bs) l' ->
    csum (prod_dims (map cols As))
      (fun x => Cmult (ent (np_kron_n As) (pos (map rows As) l) x) (ent (np_kron_n Bs) x (pos (map cols Bs) l')))
    = kron_entry (factors_mul As Bs) l l'.
Proof.
  intros As Bs H. 
  assert (G : forall l l', valid (map rows As) l -> valid (map cols Bs) l' ->
    forall accA accB a b,
    csum (prod_dims (map cols As))
      (fun x => Cmult (ent (fold_left skron As accA) (a * prod_dims (map rows As) + pos (map rows As) l)
                           (0 * prod_dims (map cols As) + x))
                      (ent (fold_left skron Bs accB) (0 * prod_dims (map rows Bs) + x)
                           (b * prod_dims (map cols Bs) + pos (map cols Bs) l')))
    = Cmult (Cmult (ent accA a 0) (ent accB 0 b)) (kron_entry (factors_mul As Bs) l l')).
  { induction H as [|A B As Bs HAB H IH]; intros l l' Hl Hl' accA accB a b.
    - simpl. rewrite !Nat.mul_1_r, !Nat.add_0_r. ring.
    - cbn [map] in *. inversion Hl as [|i d ls ds Hi Hls]; subst.
      inversion Hl' as [|j d' ls' ds' Hj Hls']; subst.
      rewrite !prod_dims_cons, csum_prod.
      transitivity (csum (cols A) (fun y => Cmult (Cmult (ent accA a 0) (ent accB 0 b))
          (Cmult (Cmult (ent A i y) (ent B y j)) (kron_entry (factors_mul As Bs) ls ls')))).
      2:{ rewrite csum_scale, csum_scale_r. cbn [factors_mul kron_entry ent]. unfold mmul. ring. }
      apply csum_ext. intros y Hy.
      assert (F : map cols As = map rows Bs).
      { clear -H. induction H; simpl; auto. congruence. }
      transitivity (csum (prod_dims (map cols As)) (fun z =>
         Cmult (Cmult (Cmult (ent accA a 0) (ent A i y)) (Cmult (ent accB 0 b) (ent B y j)))
               (Cmult (ent (np_kron_n As) (pos (map rows As) ls) z) (ent (np_kron_n Bs) z (pos (map cols Bs) ls'))))).
      { apply csum_ext. intros z Hz. destruct (pos_surj _ _ Hz) as (lz & Hlz & <-).
        pose proof (kron_fold_entry (A :: As) accA a 0 (i :: ls) (y :: lz)) as E1.
        pose proof (kron_fold_entry (B :: Bs) accB 0 b (y :: lz) (j :: ls')) as E2.
        cbn [map pos] in E1, E2. rewrite !prod_dims_cons in E1, E2. cbn [pos].
        rewrite <- F in E2. rewrite <- F. rewrite <- HAB in E2. rewrite <- HAB.
        rewrite E1, E2.
        - cbn [kron_entry]. rewrite (kron_n_entry As ls lz) by auto.
          pose proof (kron_n_entry Bs lz ls') as E3. rewrite <- F in E3. rewrite E3 by auto. ring.
        - constructor; auto.
        - constructor; auto.
        - constructor; auto.
        - constructor; auto. }
      rewrite csum_scale.
      specialize (IH ls ls' Hls Hls' (seye 1 1) (seye 1 1) 0 0).
      fold (np_kron_n As) in IH. fold (np_kron_n Bs) in IH.
      transitivity (Cmult (Cmult (Cmult (ent accA a 0) (ent A i y)) (Cmult (ent accB 0 b) (ent B y j)))
                     (Cmult (Cmult (ent (seye 1 1) 0 0) (ent (seye 1 1) 0 0)) (kron_entry (factors_mul As Bs) ls ls'))).
      2:{ cbn [seye ent]. unfold mid. simpl. ring. }
      f_equal. rewrite <- IH. apply csum_ext. intros z Hz. reflexivity. }
  intros l l' Hl Hl'. specialize (G l l' Hl Hl' (seye 1 1) (seye 1 1) 0 0).
  fold (np_kron_n As) in G. fold (np_kron_n Bs) in G.
  transitivity (Cmult (Cmult (ent (seye 1 1) 0 0) (ent (seye 1 1) 0 0)) (kron_entry (factors_mul As Bs) l l')).
  - rewrite <- G. apply csum_ext. intros. reflexivity.
  - cbn [seye ent]. unfold mid. simpl. ring.
Qed.

Lemma kron_n_mul : forall As Bs, Forall2 (fun A B => cols A = rows B) As Bs ->
    meq (prod_dims (map rows As)) (prod_dims (map cols Bs))
        (mmul (prod_dims (map cols As)) (ent (np_kron_n As)) (ent (np_kron_n Bs)))
        (ent (np_kron_n (factors_mul As Bs))).
Proof.
  intros As Bs H. apply meq_labels. intros l l' Hl Hl'.
  unfold mmul. rewrite kron_mul_fold by auto.
  assert (R : map rows (factors_mul As Bs) = map rows As /\ map cols (factors_mul As Bs) = map cols Bs).
  { clear -H. induction H as [|A B As Bs HAB H [IH1 IH2]]; simpl; auto. split; congruence. }
  destruct R as [R1 R2].
  pose proof (kron_n_entry (factors_mul As Bs) l l') as E. rewrite R1, R2 in E. rewrite E; auto.
Qed.

(** ** Families of one matrix per subsystem *)
Fixpoint cprod (n : nat) (g : nat -> C) : C :=
  match n with 0 => RtoC 1 | S m => Cmult (g 0) (cprod m (fun i => g (S i))) end.
Lemma cprod_ext : forall n f g, (forall i, i < n -> f i = g i) -> cprod n f = cprod n g.
Proof.
  induction n; intros f g H; auto. cbn [cprod]. rewrite (H 0) by lia. f_equal. apply IHn. intros; apply H; lia.
Qed.
Lemma cprod_zero : forall n g k, k < n -> g k = RtoC 0 -> cprod n g = RtoC 0.
Proof.
  induction n; intros g k Hk H; [lia|]. cbn [cprod]. destruct k as [|k].
  - rewrite H. ring.
  - rewrite (IHn (fun i => g (S i)) k); [ring|lia|auto].
Qed.
Lemma cprod_one : forall n g, (forall i, i < n -> g i = RtoC 1) -> cprod n g = RtoC 1.
Proof.
  induction n; intros g H; auto. cbn [cprod]. rewrite (H 0) by lia. rewrite IHn; [ring|]. intros; apply H; lia.
Qed.
Lemma cprod_single : forall n g k, k < n -> (forall i, i < n -> i <> k -> g i = RtoC 1) -> cprod n g = g k.
Proof.
  induction n; intros g k Hk H; [lia|]. cbn [cprod]. destruct k as [|k].
  - rewrite cprod_one; [ring|]. intros; apply H; lia.
  - rewrite (H 0) by lia. rewrite (IHn (fun i => g (S i)) k); [ring|lia|]. intros; apply H; lia.
Qed.

Definition family (f : nat -> mat) (s : nat) (dims : list nat) : list smat :=
  map (fun kd => {| rows := snd kd; cols := snd kd; ent := f (fst kd) |})
      (combine (seq s (length dims)) dims).

Lemma family_shape : forall f s dims, map rows (family f s dims) = dims /\ map cols (family f s dims) = dims.
Proof.
  intros f s dims. unfold family. revert s. induction dims as [|d ds IH]; intros s; auto.
  cbn [length seq combine map rows cols snd]. destruct (IH (S s)) as [-> ->]. auto.
Qed.
Lemma family_entry : forall f dims s l l', valid dims l -> valid dims l' ->
    kron_entry (family f s dims) l l' = cprod (length dims) (fun m => f (s + m) (nth m l 0) (nth m l' 0)).
Proof.
  intros f dims s l l' H. revert s l'. unfold family.
  induction H as [|i d l ds Hi H IH]; intros s l' H'; auto.
  inversion H' as [|j d' ls' ds' Hj Hls']; subst.
  cbn [length seq combine map kron_entry cprod fst ent nth]. rewrite Nat.add_0_r. f_equal.
  rewrite (IH (S s) ls' Hls'). apply cprod_ext. intros m Hm. f_equal. lia.
Qed.
Lemma family_kron : forall f dims l l', valid dims l -> valid dims l' ->
    ent (np_kron_n (family f 0 dims)) (pos dims l) (pos dims l')
    = cprod (length dims) (fun m => f m (nth m l 0) (nth m l' 0)).
Proof.
  intros f dims l l' H H'. destruct (family_shape f 0 dims) as [R Cc].
  pose proof (kron_n_entry (family f 0 dims) l l') as E. rewrite R, Cc in E. rewrite E by auto.
  rewrite family_entry by auto. reflexivity.
Qed.
Lemma family_ext : forall f g dims,
    (forall k, k < length dims -> meq (nth k dims 0) (nth k dims 0) (f k) (g k)) ->
    meq (prod_dims dims) (prod_dims dims) (ent (np_kron_n (family f 0 dims))) (ent (np_kron_n (family g 0 dims))).
Proof.
  intros f g dims H. apply meq_labels. intros l l' Hl Hl'. rewrite !family_kron by auto.
  apply cprod_ext. intros m Hm. apply H; auto.
  - clear - Hl Hm. revert m Hm. induction Hl; intros m Hm; simpl in *; [lia|]. destruct m; auto. apply IHHl. lia.
  - clear - Hl' Hm. revert m Hm. induction Hl'; intros m Hm; simpl in *; [lia|]. destruct m; auto. apply IHHl'. lia.
Qed.
Lemma family_mul : forall f g dims,
    meq (prod_dims dims) (prod_dims dims)
      (mmul (prod_dims dims) (ent (np_kron_n (family f 0 dims))) (ent (np_kron_n (family g 0 dims))))
      (ent (np_kron_n (family (fun k => mmul (nth k dims 0) (f k) (g k)) 0 dims))).
Proof.
  intros f g dims.
  destruct (family_shape f 0 dims) as [R1 C1]. destruct (family_shape g 0 dims) as [R2 C2].
  assert (F : Forall2 (fun A B => cols A = rows B) (family f 0 dims) (family g 0 dims)).
  { unfold family. generalize 0. induction dims as [|d ds IH]; intros s; simpl; constructor; auto.
    apply IH; [apply family_shape|apply family_shape|apply family_shape|apply family_shape]. }
  pose proof (kron_n_mul _ _ F) as E. rewrite R1, C2, C1 in E. rewrite E.
  apply meq_ext. intros i j.
  assert (X : factors_mul (family f 0 dims) (family g 0 dims)
              = family (fun k => mmul (nth k dims 0) (f k) (g k)) 0 dims).
  { clear. assert (G : forall ds s (h : nat -> nat), (forall k, k < length ds -> h (s + k) = nth k ds 0) ->
      factors_mul (family f s ds) (family g s ds) = family (fun k => mmul (h k) (f k) (g k)) s ds).
    { induction ds as [|d ds IH]; intros s h Hh; auto. unfold family.
      cbn [length seq combine map factors_mul fst snd rows cols ent].
      specialize (Hh 0 ltac:(simpl; lia)) as H0. rewrite Nat.add_0_r in H0. cbn [nth] in H0. rewrite <- H0.
      f_equal. apply (IH (S s) h). intros k Hk. specialize (Hh (S k) ltac:(simpl; lia)).
      cbn [nth] in Hh. rewrite <- Hh. f_equal. lia. }
    apply (G dims 0 (fun k => nth k dims 0)). intros; reflexivity. }
  rewrite X. reflexivity.
Qed.
Lemma family_adj : forall f dims,
    meq (prod_dims dims) (prod_dims dims)
      (madj (ent (np_kron_n (family f 0 dims))))
      (ent (np_kron_n (family (fun k => madj (f k)) 0 dims))).
Proof.
  intros f dims. apply meq_labels. intros l l' Hl Hl'. unfold madj at 1. rewrite !family_kron by auto.
  assert (G : forall n g, Cconj (cprod n g) = cprod n (fun m => Cconj (g m))).
  { induction n as [|n IH]; intros g; cbn [cprod]; [apply conj_R|]. rewrite conj_mult, IH. reflexivity. }
  rewrite G. reflexivity.
Qed.

Definition one_at (k : nat) (op : mat) : nat -> mat := fun m => if Nat.eqb m k then op else mid.

Lemma hsk_family : forall op k dims, k < length dims ->
    hilbert_space_kron op k dims = Ok (np_kron_n (family (one_at k op) 0 dims)).
Proof.
  intros op k dims Hk. unfold hilbert_space_kron.
  destruct (Nat.leb_spec (length dims) k); [lia|]. do 2 f_equal. unfold family. apply map_ext. intros [m d].
  cbn [fst snd]. unfold one_at. destruct (Nat.eqb m k); reflexivity.
Qed.

Lemma valid_length : forall dims l, valid dims l -> length l = length dims.
Proof. intros dims l H. induction H; simpl; auto. Qed.
Lemma valid_nth : forall dims l m, valid dims l -> m < length dims -> nth m l 0 < nth m dims 0.
Proof. intros dims l m H. revert m. induction H; intros m Hm; simpl in *; [lia|]. destruct m; auto. apply IHForall2. lia. Qed.

Lemma one_at_entry : forall op k dims l l', k < length dims -> valid dims l -> valid dims l' ->
    ((forall m, m < length dims -> m <> k -> nth m l 0 = nth m l' 0) ->
      ent (np_kron_n (family (one_at k op) 0 dims)) (pos dims l) (pos dims l') = op (nth k l 0) (nth k l' 0))
    /\ ((exists m, m < length dims /\ m <> k /\ nth m l 0 <> nth m l' 0) ->
      ent (np_kron_n (family (one_at k op) 0 dims)) (pos dims l) (pos dims l') = RtoC 0).
Proof.
  intros op k dims l l' Hk Hl Hl'. rewrite family_kron by auto. split.
  - intro H. rewrite (cprod_single _ _ k); auto.
    + unfold one_at. rewrite Nat.eqb_refl. reflexivity.
    + intros i Hi E. unfold one_at. destruct (Nat.eqb_spec i k); [contradiction|].
      rewrite (H i) by auto. unfold mid. rewrite Nat.eqb_refl. reflexivity.
  - intros (m & Hm & E & D). apply (cprod_zero _ _ m); auto. unfold one_at.
    destruct (Nat.eqb_spec m k); [contradiction|]. unfold mid.
    destruct (Nat.eqb_spec (nth m l 0) (nth m l' 0)); [contradiction|reflexivity].
Qed.
Lemma differ_dec : forall n (l l' : list nat) (P : nat -> bool),
    (forall m, m < n -> P m = true -> nth m l 0 = nth m l' 0)
    \/ (exists m, m < n /\ P m = true /\ nth m l 0 <> nth m l' 0).
Proof.
  induction n as [|n IH]; intros l l' P.
  - left. intros; lia.
  - destruct (IH l l' P) as [H|(m & Hm & HP & D)].
    + destruct (P n) eqn:E.
      * destruct (Nat.eq_dec (nth n l 0) (nth n l' 0)) as [D|D].
        -- left. intros m Hm HP. destruct (Nat.eq_dec m n) as [->|]; auto. apply H; auto; lia.
        -- right. exists n. auto.
      * left. intros m Hm HP. destruct (Nat.eq_dec m n) as [->|]; [congruence|]. apply H; auto; lia.
    + right. exists m. auto.
Qed.
