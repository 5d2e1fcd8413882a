From Verif Require Import Base FoldModel.
Local Open Scope list_scope.
Local Notation length := List.length.

Section P.
  Context {M : Type}.
  Variable mul : M -> M -> M.
  Hypothesis assoc : forall a b c, mul a (mul b c) = mul (mul a b) c.

  (** Ordered product with later factors on the left, for a non-empty list. *)
  Fixpoint lprod (a : M) (l : list M) : M :=
    match l with [] => a | x :: r => lprod (mul x a) r end.
  Fixpoint rprod (a : M) (l : list M) : M :=
    match l with [] => a | x :: r => rprod (mul a x) r end.

  Lemma lprod_app : forall l a r, lprod a (l ++ r) = lprod (lprod a l) r.
  Proof. induction l; simpl; auto. Qed.
  Lemma rprod_app : forall l a r, rprod a (l ++ r) = rprod (rprod a l) r.
  Proof. induction l; simpl; auto. Qed.

  Lemma rprod_mul : forall l a b, rprod (mul a b) l = mul a (rprod b l).
  Proof. induction l; simpl; intros; auto. rewrite <- assoc, IHl. auto. Qed.
  Lemma lprod_mul : forall l a b, lprod (mul b a) l = mul (lprod b l) a.
  Proof. induction l as [|x l IH]; simpl; intros; auto. rewrite assoc, IH. auto. Qed.
  Lemma lprod_cons : forall l a x, lprod a (x :: l) = mul (lprod x l) a.
  Proof. intros. simpl. apply lprod_mul. Qed.

  Lemma fold_left_rprod : forall l a, fold_left (fun a x => mul a x) l a = rprod a l.
  Proof. induction l; simpl; auto. Qed.

  Lemma left_ok : forall l a, tf_matmul_left mul (a :: l) = Ok (lprod a l).
  Proof.
    intros. unfold tf_matmul_left. simpl.
    destruct (rev l ++ [a]) as [|b r] eqn:E.
    { destruct (rev l); discriminate. }
    f_equal. rewrite fold_left_rprod.
    revert a b r E. induction l as [|x l IH]; simpl; intros.
    - inversion E; subst. reflexivity.
    - rewrite lprod_mul.
      destruct (rev l ++ [x]) as [|b' r'] eqn:E'.
      { destruct (rev l); discriminate. }
      simpl in E. inversion E; subst.
      rewrite rprod_app. simpl. rewrite (IH x b r' E'). reflexivity.
  Qed.

  (** Pairing consecutive factors. *)
  Fixpoint pairs (l : list M) : list M :=
    match l with
    | a :: b :: r => mul b a :: pairs r
    | l => l
    end.

  Lemma pair_ind (P : list M -> Prop) :
    P [] -> (forall a, P [a]) -> (forall a b r, P r -> P (a :: b :: r)) -> forall l, P l.
  Proof.
    intros H0 H1 H2.
    assert (forall l, P l /\ forall a, P (a :: l)).
    { induction l as [|b l [IH1 IH2]]; split; auto. }
    intro l; apply H.
  Qed.

  Definition lprodo (l : list M) : option M :=
    match l with [] => None | a :: r => Some (lprod a r) end.

  Lemma lprodo_cons2 : forall a b r, lprodo (a :: b :: r) = lprodo (mul b a :: r).
  Proof. reflexivity. Qed.

  Lemma lprodo_cons : forall a l, lprodo (a :: l) =
      Some (match lprodo l with None => a | Some p => mul p a end).
  Proof. intros a [|b l]; simpl; auto. f_equal. apply lprod_mul. Qed.

  Lemma pairs_prod : forall l, lprodo (pairs l) = lprodo l.
  Proof.
    apply pair_ind; auto. intros a b r IH. cbn [pairs].
    rewrite lprodo_cons2, !lprodo_cons, IH. auto.
  Qed.

  Lemma pairs_length : forall l, length (pairs l) = Nat.div2 (S (length l)).
  Proof. apply pair_ind; auto. intros. simpl in *. rewrite H. reflexivity. Qed.

  Lemma evens_odds : forall l : list M, forall a, evens (a :: l) = a :: odds l.
  Proof.
    intros l a. destruct l; reflexivity.
  Qed.
  Lemma odds_cons : forall (a : M) l, odds (a :: l) = evens l.
  Proof. reflexivity. Qed.

  Lemma evens_len : forall l : list M, length (evens l) = Nat.div2 (S (length l)).
  Proof. apply pair_ind; auto. intros. simpl in *. rewrite H. reflexivity. Qed.
  Lemma odds_len : forall l : list M, length (odds l) = Nat.div2 (length l).
  Proof. intros [|a l]; auto. rewrite odds_cons, evens_len. reflexivity. Qed.

  Lemma even_layer : forall l, Nat.even (length l) = true ->
      apply_layer mul LEven (odds l) (evens l) = Ok (pairs l).
  Proof.
    intros l H. unfold apply_layer, batch_matmul.
    assert (E : length (odds l) = length (evens l)).
    { rewrite evens_len, odds_len.
      rewrite Nat.even_spec in H. destruct H as [k ->].
      rewrite Nat.div2_double, Nat.div2_succ_double. auto. }
    rewrite E, Nat.eqb_refl. f_equal. clear E. revert l H.
    apply (pair_ind (fun l => Nat.even (length l) = true ->
              zip_mul mul (odds l) (evens l) = pairs l)); auto.
    - simpl. discriminate.
    - intros a b r IH H. rewrite odds_cons, !evens_odds, odds_cons.
      cbn [zip_mul pairs]. f_equal. apply IH. exact H.
  Qed.

  Lemma zip_mul_app : forall a b c d, length a = length b ->
      zip_mul mul (a ++ c) (b ++ d) = zip_mul mul a b ++ zip_mul mul c d.
  Proof. induction a; destruct b; simpl; intros; try discriminate; auto. f_equal; auto. Qed.

  Lemma pairs_snoc : forall l x, Nat.even (length l) = true -> pairs (l ++ [x]) = pairs l ++ [x].
  Proof.
    apply (pair_ind (fun l => forall x, Nat.even (length l) = true -> pairs (l ++ [x]) = pairs l ++ [x])); auto.
    - simpl; discriminate.
    - intros a b r IH x H. cbn [pairs app]. f_equal. apply IH. exact H.
  Qed.
  Lemma evens_snoc : forall l (x : M), Nat.even (length l) = true -> evens (l ++ [x]) = evens l ++ [x].
  Proof.
    apply (pair_ind (fun l => forall x, Nat.even (length l) = true -> evens (l ++ [x]) = evens l ++ [x])); auto.
    - simpl; discriminate.
    - intros a b r IH x H. cbn [evens app]. f_equal. apply IH. exact H.
  Qed.
  Lemma odds_snoc : forall l (x : M), Nat.even (length l) = true -> odds (l ++ [x]) = odds l.
  Proof.
    apply (pair_ind (fun l => forall x : M, Nat.even (length l) = true -> odds (l ++ [x]) = odds l)); auto.
    - simpl; discriminate.
    - intros a b r IH x H. cbn [app]. rewrite !odds_cons, !evens_odds. f_equal. apply IH. exact H.
  Qed.

  Lemma odd_layer : forall l, Nat.even (length l) = false ->
      apply_layer mul LOdd (odds l) (evens l) = Ok (pairs l).
  Proof.
    intros l H. destruct l as [|a0 l0] using rev_ind; [discriminate|].
    rewrite app_length in H. simpl in H.
    assert (E : Nat.even (length l0) = true).
    { rewrite Nat.add_1_r, Nat.even_succ, <- Nat.negb_even in H.
      destruct (Nat.even (length l0)); auto; discriminate. }
    rewrite evens_snoc, odds_snoc, pairs_snoc by auto.
    cbn [apply_layer]. rewrite rev_app_distr. cbn [rev app].
    rewrite rev_involutive.
    pose proof (even_layer l0 E) as HL. cbn [apply_layer] in HL. rewrite HL. reflexivity.
  Qed.

  Lemma fold_ok : forall fuel l, length l <= fuel -> forall p, lprodo l = Some p ->
      tf_matmul_n mul l (folding_stack_aux fuel (length l)) = Ok p.
  Proof.
    induction fuel as [|f IH]; intros l Hl p Hp.
    - destruct l; simpl in Hl; try lia. discriminate.
    - cbn [folding_stack_aux]. destruct (Nat.ltb_spec 1 (length l)) as [H1|H1].
      + assert (HL : apply_layer mul (if Nat.even (length l) then LEven else LOdd) (odds l) (evens l)
                     = Ok (pairs l)).
        { destruct (Nat.even (length l)) eqn:E; [apply even_layer|apply odd_layer]; auto. }
        cbn [tf_matmul_n]. rewrite HL. cbn [rbind].
        rewrite <- pairs_length. apply IH.
        * rewrite pairs_length.
          destruct (length l) as [|[|n]]; try lia.
          change (S (Nat.div2 (S n)) <= f). pose proof (Nat.le_div2 n). lia.
        * rewrite pairs_prod. exact Hp.
      + destruct l as [|a [|b l]]; simpl in H1; try lia; simpl in *; congruence.
  Qed.

  Lemma evolve_lprod : forall {S G} (act : M -> S -> S) (look : G -> result M),
      (forall a b s, act a (act b s) = act (mul a b) s) ->
      forall seq us, lookups look seq = Ok us -> forall psi,
      evolve act look seq psi = Ok (match us with [] => psi | u :: r => act (lprod u r) psi end).
  Proof.
    intros S G act look Hact. induction seq as [|g seq IH]; simpl; intros us H psi.
    - inversion H. auto.
    - destruct (look g) as [u|e]; simpl in *; [|discriminate].
      destruct (lookups look seq) as [us'|e]; simpl in *; [|discriminate].
      inversion H; subst. rewrite (IH us' eq_refl). f_equal.
      destruct us' as [|u' r]; simpl; auto. rewrite Hact, lprod_mul. reflexivity.
  Qed.

  Lemma evolve_app : forall {S G} (act : M -> S -> S) (look : G -> result M) s1 s2 psi,
      evolve act look (s1 ++ s2) psi = rbind (evolve act look s1 psi) (evolve act look s2).
  Proof.
    induction s1; simpl; intros; auto. destruct (look a); simpl; auto.
  Qed.

  Lemma evolve_err : forall {S G} (act : M -> S -> S) (look : G -> result M) seq e psi,
      lookups look seq = Err e -> evolve act look seq psi = Err e.
  Proof.
    induction seq as [|g seq IH]; simpl; intros e psi H; [discriminate|].
    destruct (look g); simpl in *; [|congruence].
    destruct (lookups look seq); simpl in *; try discriminate. apply IH. congruence.
  Qed.
End P.

Section B.
  Lemma skipn_skipn' : forall {A} x y (l : list A), skipn x (skipn y l) = skipn (y + x) l.
  Proof.
    intros A x y. induction y as [|y IH]; intros [|a l]; cbn [skipn Nat.add]; auto.
    destruct x; auto.
  Qed.

  Lemma pslice_concat : forall {A} b (l : list A) n, 0 < b -> length l <= n * b ->
      List.concat (map (fun i => pslice (i * b) b l) (seq 0 n)) = l.
  Proof.
    intros A b l n Hb. revert l. induction n as [|n IH]; intros l Hl.
    - destruct l; simpl in *; auto; lia.
    - cbn [seq map List.concat]. unfold pslice at 1. cbn [Nat.mul skipn].
      rewrite <- seq_shift, map_map.
      transitivity (firstn b l ++ skipn b l); [|apply firstn_skipn]. f_equal.
      transitivity (List.concat (map (fun i => pslice (i * b) b (skipn b l)) (seq 0 n))); [|apply IH].
      + f_equal. apply map_ext. intro i. unfold pslice.
        rewrite skipn_skipn'. reflexivity.
      + rewrite skipn_length. simpl in Hl. lia.
  Qed.

  Lemma num_batches_cover : forall len b, 0 < b -> len <= num_batches len b * b.
  Proof.
    intros. unfold num_batches.
    pose proof (Nat.div_mod (len + b - 1) b ltac:(lia)) as E.
    pose proof (Nat.mod_upper_bound (len + b - 1) b ltac:(lia)). nia.
  Qed.

  Lemma nth_pslice : forall {A} a n (l : list A) t z, t < n -> nth t (pslice a n l) z = nth (a + t) l z.
  Proof.
    intros A a n l t z H. unfold pslice.
    assert (nth t (skipn a l) z = nth (a + t) l z) as <-.
    { clear. revert l. induction a as [|a IH]; intros [|x l]; cbn [skipn Nat.add]; auto.
      - destruct t; auto.
      - rewrite IH. reflexivity. }
    revert t H. generalize (skipn a l). induction n; intros l0 t H; try lia.
    destruct l0; destruct t; simpl; auto. apply IHn. lia.
  Qed.

  Lemma pslice_length : forall {A} a n (l : list A), length (pslice a n l) = Nat.min n (length l - a).
  Proof. intros. unfold pslice. rewrite firstn_length, skipn_length. auto. Qed.

  Lemma pslice_seq : forall a n len, pslice a n (seq 0 len) = seq a (Nat.min n (len - a)).
  Proof.
    intros. apply nth_ext with (d := 0) (d' := 0).
    - rewrite pslice_length, !seq_length. reflexivity.
    - intros t H. rewrite pslice_length, seq_length in H.
      rewrite nth_pslice by lia. rewrite !seq_nth by lia. reflexivity.
  Qed.

  Lemma pslice_map : forall {A B} (f : A -> B) a n l, pslice a n (map f l) = map f (pslice a n l).
  Proof. intros. unfold pslice. rewrite skipn_map, firstn_map. reflexivity. Qed.

  Lemma map_concat' : forall {A B} (f : A -> B) ls, map f (List.concat ls) = List.concat (map (map f) ls).
  Proof. intros. apply concat_map. Qed.
End B.
