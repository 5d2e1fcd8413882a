From Coq Require Import Reals Lra Lia FinFun.
From Coquelicot Require Import Complex.
From Verif Require Import Base Mat RSum MExp HilbertModel HilbertProofs HilbertProps PropModel PropProofs Prop2Props
  FoldModel FoldProps ExpModel ExpProps ChipModel Chip2Props FrameModel.
Local Open Scope R_scope.
Local Notation length := List.length.

(** ** C78: sorting the eigenvectors *)
(** Real diagonal matrix. *)
Definition rdiag (e : nat -> R) : mat := fun i j => if Nat.eqb i j then RtoC (e i) else RtoC 0.
(** The columns of [v] are an orthonormal basis of eigenvectors of [H] with the
    eigenvalues [e]: what eigh returns. *)
Definition eigenbasis (n : nat) (H : mat) (e : nat -> R) (v : mat) : Prop :=
  unitary n v /\ meq n n (mmul n H v) (mmul n v (rdiag e)).
(** [P] is the matrix of the permutation [s] of 0, ..., n-1. *)
Definition permutes (n : nat) (s : nat -> nat) : Prop :=
  (forall i, (i < n)%nat -> (s i < n)%nat) /\ (forall i j, (i < n)%nat -> (j < n)%nat -> s i = s j -> i = j).
Definition permutation_matrix (n : nat) (P : nat -> nat -> R) (s : nat -> nat) : Prop :=
  permutes n s /\ forall i j, (i < n)%nat -> (j < n)%nat -> P i j = if Nat.eqb j (s i) then 1 else 0.

Lemma v_sq_mod : forall v i j, v_sq v i j = Cmod (v i j) ^ 2.
Proof.
  intros v i j. unfold v_sq, Cmod. destruct (v i j) as [a b]. rewrite pow2_sqrt; [cbn; ring|].
  cbn. nra.
Qed.
Lemma v_sq_nonneg : forall v i j, 0 <= v_sq v i j.
Proof. intros. rewrite v_sq_mod. apply pow2_ge_0. Qed.
Lemma rltb_spec : forall a b, rltb a b = true <-> a < b.
Proof. intros a b. unfold rltb. destruct (Rlt_dec a b); split; intro H; try discriminate H; auto; contradiction. Qed.
Lemma rltb_false : forall a b, rltb a b = false <-> b <= a.
Proof. intros a b. unfold rltb. destruct (Rlt_dec a b); split; intro H; try discriminate H; auto; lra. Qed.

Lemma col_sum : forall n v j, unitary n v -> (j < n)%nat -> rs n (fun i => v_sq v i j) = 1.
Proof.
  intros n v j [H _] Hj. specialize (H j j Hj Hj). unfold mmul, madj, mid in H. rewrite Nat.eqb_refl in H.
  unfold v_sq. rewrite (rs_fst n (fun i => v i j * Cconj (v i j))%C).
  rewrite (csum_ext n _ (fun i => Cconj (v i j) * v i j)%C) by (intros; apply Cmult_comm). rewrite H. reflexivity.
Qed.
Lemma row_sum : forall n v i, unitary n v -> (i < n)%nat -> rs n (fun j => v_sq v i j) = 1.
Proof.
  intros n v i [_ H] Hi. specialize (H i i Hi Hi). unfold mmul, madj, mid in H. rewrite Nat.eqb_refl in H.
  unfold v_sq. rewrite (rs_fst n (fun j => v i j * Cconj (v i j))%C). rewrite H. reflexivity.
Qed.
Lemma one_dominant : forall n f i i', (forall k, (k < n)%nat -> 0 <= f k) -> rs n f = 1 -> (i < n)%nat -> (i' < n)%nat ->
  1 / 2 < f i -> 1 / 2 < f i' -> i = i'.
Proof.
  intros n f i i' Hf H1 Hi Hi' A B. destruct (Nat.eq_dec i i') as [|N]; auto. exfalso.
  pose (g := fun k => match k with 0%nat => i | _ => i' end).
  pose proof (rs_inj 2 n f g Hf) as X. cbn in X.
  assert (0 + f i + f i' <= rs n f).
  { apply X.
    - intros [|k] _; cbn; auto.
    - intros [|[|k]] [|[|k']] Hk Hk' E; cbn in E; try lia; congruence. }
  lra.
Qed.
Lemma vmax_gt : forall f k c, c < vmax f k <-> exists i, (i <= k)%nat /\ c < f i.
Proof.
  intros f k c. induction k as [|k IH]; cbn [vmax].
  - split; [exists 0%nat; auto|]. intros (i & Hi & H). replace i with 0%nat in H by lia. exact H.
  - split.
    + unfold Rmax. destruct (Rle_dec (vmax f k) (f (S k))) as [L|L]; intro H.
      * exists (S k). auto.
      * apply IH in H. destruct H as (i & Hi & H). exists i. split; [lia|auto].
    + intros (i & Hi & H). destruct (Nat.eq_dec i (S k)) as [->|N].
      * eapply Rlt_le_trans; [exact H|apply Rmax_r].
      * eapply Rlt_le_trans; [apply IH; exists i; split; [lia|exact H]|apply Rmax_l].
Qed.
Lemma vmin_gt : forall f k c, c < vmin f k <-> forall i, (i <= k)%nat -> c < f i.
Proof.
  intros f k c. induction k as [|k IH]; cbn [vmin].
  - split; [intros H i Hi; replace i with 0%nat by lia; exact H|]. intro H. apply H. lia.
  - split.
    + intros H i Hi. destruct (Nat.eq_dec i (S k)) as [->|N].
      * eapply Rlt_le_trans; [exact H|apply Rmin_r].
      * apply IH; [|lia]. eapply Rlt_le_trans; [exact H|apply Rmin_l].
    + intro H. apply Rmin_glb_lt; [apply IH; intros; apply H; lia|apply H; lia].
Qed.
(** The test succeeds exactly when every eigenvector has a component of more than one
    half. *)
Lemma dominant_test : forall n v, (0 < n)%nat ->
  all_dominant n v = true <-> forall j, (j < n)%nat -> exists i, (i < n)%nat /\ 1 / 2 < Cmod (v i j) ^ 2.
Proof.
  intros n v Hn. unfold all_dominant. rewrite rltb_spec, vmin_gt. split.
  - intros H j Hj. specialize (H j ltac:(lia)). apply vmax_gt in H. destruct H as (i & Hi & H). exists i.
    rewrite <- v_sq_mod. split; [lia|exact H].
  - intros H j Hj. apply vmax_gt. destruct (H j ltac:(lia)) as (i & Hi & B). exists i. rewrite v_sq_mod. split; [lia|exact B].
Qed.

Lemma inverse_perm : forall n s, permutes n s -> exists t, permutes n t /\ forall x, (x < n)%nat -> t (s x) = x /\ s (t x) = x.
Proof.
  intros n s [B I].
  destruct (bSurjective_bBijective B (proj1 (bInjective_bSurjective B) I)) as (t & Bt & E).
  exists t. split; [split; [exact Bt|]|exact E]. intros i j Hi Hj H.
  destruct (E i Hi) as [_ <-]. destruct (E j Hj) as [_ <-]. congruence.
Qed.
(** Choosing a component per eigenvector. *)
Lemma choose_below : forall n (Q : nat -> nat -> Prop), (forall j, (j < n)%nat -> exists i, (i < n)%nat /\ Q i j) ->
  exists f, forall j, (j < n)%nat -> (f j < n)%nat /\ Q (f j) j.
Proof.
  intros n Q. assert (G : forall m, (forall j, (j < m)%nat -> exists i, (i < n)%nat /\ Q i j) ->
    exists f, forall j, (j < m)%nat -> (f j < n)%nat /\ Q (f j) j).
  { induction m as [|m IH]; intro H; [exists (fun x => x); intros; lia|].
    destruct IH as (f & F); [intros j Hj; apply H; lia|]. destruct (H m ltac:(lia)) as (i & Hi).
    exists (fun j => if Nat.eqb j m then i else f j). intros j Hj. destruct (Nat.eqb_spec j m) as [->|N]; auto.
    apply F. lia. }
  apply G.
Qed.
Lemma dominant_permutation : forall n v, (0 < n)%nat -> unitary n v ->
  (forall j, (j < n)%nat -> exists i, (i < n)%nat /\ 1 / 2 < Cmod (v i j) ^ 2) ->
  exists s, permutation_matrix n (reorder_dominant v) s /\ forall i, (i < n)%nat -> 1 / 2 < v_sq v i (s i).
Proof.
  intros n v Hn U D. destruct (choose_below n _ D) as (f & F).
  assert (Pf : permutes n f).
  { split; [intros j Hj; apply F; auto|]. intros j j' Hj Hj' E. destruct (F j Hj) as [A B]. destruct (F j' Hj') as [_ B'].
    rewrite <- E in B'. rewrite <- v_sq_mod in B, B'.
    apply (one_dominant n (fun k => v_sq v (f j) k) j j'); auto; [intros; apply v_sq_nonneg|apply row_sum; auto]. }
  destruct (inverse_perm n f Pf) as (s & Ps & E). exists s.
  assert (Dm : forall i, (i < n)%nat -> 1 / 2 < v_sq v i (s i)).
  { intros i Hi. destruct Ps as [Bs _]. destruct (F (s i) (Bs i Hi)) as [_ B]. rewrite v_sq_mod.
    destruct (E i Hi) as [_ Ei]. rewrite Ei in B. exact B. }
  split; [split; [exact Ps|]|exact Dm]. intros i j Hi Hj. unfold reorder_dominant.
  destruct (Nat.eqb_spec j (s i)) as [->|N].
  - rewrite (proj2 (rltb_spec _ _) (Dm i Hi)). reflexivity.
  - destruct (rltb (1 / 2) (v_sq v i j)) eqn:R; auto. apply rltb_spec in R. exfalso. apply N.
    apply (one_dominant n (fun k => v_sq v i k) j (s i)); auto; [intros; apply v_sq_nonneg|apply row_sum; auto|apply Ps; auto].
Qed.

(** *** The fallback *)
Lemma argmax_spec : forall f k, (argmax rltb f k <= k)%nat /\ forall p, (p <= k)%nat -> f p <= f (argmax rltb f k).
Proof.
  intros f k. induction k as [|k [L M]]; cbn [argmax].
  - split; [lia|]. intros p Hp. replace p with 0%nat by lia. lra.
  - cbv zeta. destruct (rltb (f (argmax rltb f k)) (f (S k))) eqn:E.
    + apply rltb_spec in E. split; [lia|]. intros p Hp. destruct (Nat.eq_dec p (S k)) as [->|N]; [lra|].
      specialize (M p ltac:(lia)). lra.
    + apply rltb_false in E. split; [lia|]. intros p Hp. destruct (Nat.eq_dec p (S k)) as [->|N]; auto. apply M. lia.
Qed.
Lemma pick_spec : forall n vc, (0 < n)%nat ->
  (fst (pick rltb n vc) < n)%nat /\ (snd (pick rltb n vc) < n)%nat
  /\ forall i j, (i < n)%nat -> (j < n)%nat -> vc i j <= vc (fst (pick rltb n vc)) (snd (pick rltb n vc)).
Proof.
  intros n vc Hn. unfold pick. cbv zeta. cbn [fst snd].
  destruct (argmax_spec (fun p => vc (p / n)%nat (p mod n)%nat) (n * n - 1)) as [L M].
  set (p := argmax rltb (fun p => vc (p / n)%nat (p mod n)%nat) (n * n - 1)) in *.
  split; [|split].
  - apply Nat.div_lt_upper_bound; nia.
  - apply Nat.mod_upper_bound. lia.
  - intros i j Hi Hj. specialize (M (i * n + j)%nat ltac:(nia)). cbn in M.
    replace ((i * n + j) / n)%nat with i in M by (apply Nat.div_unique with j; lia).
    replace ((i * n + j) mod n)%nat with j in M by (apply Nat.mod_unique with i; lia). exact M.
Qed.
Lemma unused : forall n l, (length l < n)%nat -> exists x, (x < n)%nat /\ ~ In x l.
Proof.
  intros n l H. destruct (existsb (fun x => if in_dec Nat.eq_dec x l then false else true) (seq 0 n)) eqn:E.
  - apply existsb_exists in E. destruct E as (x & Hx & X). apply in_seq in Hx. exists x. split; [lia|].
    destruct (in_dec Nat.eq_dec x l); [discriminate X|auto].
  - exfalso. assert (I : incl (seq 0 n) l).
    { intros x Hx. destruct (in_dec Nat.eq_dec x l) as [|N]; auto. exfalso.
      assert (T : existsb (fun x => if in_dec Nat.eq_dec x l then false else true) (seq 0 n) = true).
      { apply existsb_exists. exists x. split; auto. destruct (in_dec Nat.eq_dec x l); tauto. }
      congruence. }
    apply NoDup_incl_length in I; [|apply seq_NoDup]. rewrite seq_length in I. lia.
Qed.
Definition good_picks (n : nat) (picks : list (nat * nat)) : Prop :=
  NoDup (map fst picks) /\ NoDup (map snd picks) /\ forall rc, In rc picks -> (fst rc < n)%nat /\ (snd rc < n)%nat.
Lemma greedy_good : forall n w, (forall i j, (i < n)%nat -> (j < n)%nat -> 0 < w i j) ->
  forall steps vc picks, (length picks + steps)%nat = n -> good_picks n picks ->
  (forall i j, (i < n)%nat -> (j < n)%nat -> (In i (map fst picks) \/ In j (map snd picks)) -> vc i j = 0) ->
  (forall i j, (i < n)%nat -> (j < n)%nat -> ~ In i (map fst picks) -> ~ In j (map snd picks) -> vc i j = w i j) ->
  length (greedy rltb 0 n steps vc picks) = n /\ good_picks n (greedy rltb 0 n steps vc picks).
Proof.
  intros n w Hw. induction steps as [|steps IH]; intros vc picks L G Z V; cbn [greedy]; [split; [lia|exact G]|].
  cbv zeta. destruct (pick_spec n vc ltac:(lia)) as (Br & Bc & M). set (rc := pick rltb n vc) in *. clearbody rc.
  destruct (unused n (map fst picks)) as (i & Hi & Ni); [rewrite map_length; lia|].
  destruct (unused n (map snd picks)) as (j & Hj & Nj); [rewrite map_length; lia|].
  assert (P : 0 < vc (fst rc) (snd rc)).
  { eapply Rlt_le_trans; [|apply (M i j Hi Hj)]. rewrite (V i j Hi Hj Ni Nj). auto. }
  assert (N1 : ~ In (fst rc) (map fst picks)) by (intro X; rewrite (Z _ _ Br Bc (or_introl X)) in P; lra).
  assert (N2 : ~ In (snd rc) (map snd picks)) by (intro X; rewrite (Z _ _ Br Bc (or_intror X)) in P; lra).
  destruct G as (G1 & G2 & G3). apply IH.
  - cbn. lia.
  - split; [cbn [map]; constructor; auto|split; [cbn [map]; constructor; auto|]]. intros x [<-|Hx]; auto.
  - intros a b Ha Hb X. unfold clear. destruct (Nat.eqb_spec a (fst rc)); [reflexivity|].
    destruct (Nat.eqb_spec b (snd rc)); [reflexivity|]. cbn [orb]. apply Z; auto. cbn [map In] in X. intuition congruence.
  - intros a b Ha Hb Na Nb. cbn [map In] in Na, Nb. unfold clear. destruct (Nat.eqb_spec a (fst rc)); [exfalso; apply Na; auto|].
    destruct (Nat.eqb_spec b (snd rc)); [exfalso; apply Nb; auto|]. cbn [orb]. apply V; auto.
Qed.
Lemma nodup_fst : forall (l : list (nat * nat)) a b c, NoDup (map fst l) -> In (a, b) l -> In (a, c) l -> b = c.
Proof.
  induction l as [|x l IH]; intros a b c N H H'; [destruct H|]. cbn [map] in N. inversion N as [|y m N1 N2]; subst.
  destruct H as [->|H]; destruct H' as [E|H'].
  - congruence.
  - exfalso. apply N1. apply in_map_iff. exists (a, c). auto.
  - exfalso. subst x. apply N1. apply in_map_iff. exists (a, b). auto.
  - eapply IH; eauto.
Qed.
Lemma nodup_snd : forall (l : list (nat * nat)) a b c, NoDup (map snd l) -> In (b, a) l -> In (c, a) l -> b = c.
Proof.
  induction l as [|x l IH]; intros a b c N H H'; [destruct H|]. cbn [map] in N. inversion N as [|y m N1 N2]; subst.
  destruct H as [->|H]; destruct H' as [E|H'].
  - congruence.
  - exfalso. apply N1. apply in_map_iff. exists (c, a). auto.
  - exfalso. subst x. apply N1. apply in_map_iff. exists (b, a). auto.
  - eapply IH; eauto.
Qed.
Lemma fallback_permutation : forall n v, (forall i j, (i < n)%nat -> (j < n)%nat -> v i j <> RtoC 0) ->
  exists s, permutation_matrix n (reorder_fallback n v) s.
Proof.
  intros n v H. unfold reorder_fallback. cbv zeta.
  assert (W : forall i j, (i < n)%nat -> (j < n)%nat -> 0 < v_sq v i j).
  { intros i j Hi Hj. rewrite v_sq_mod. apply pow_lt. apply Cmod_gt_0. auto. }
  destruct (greedy_good n (v_sq v) W n (v_sq v) []) as (L & G1 & G2 & G3); auto.
  { split; [constructor|split; [constructor|intros ? []]]. }
  { intros i j _ _ [[]|[]]. }
  set (picks := greedy rltb 0 n n (v_sq v) []) in *. clearbody picks.
  assert (C1 : forall i, (i < n)%nat -> exists j, In (i, j) picks).
  { intros i Hi. assert (I : incl (seq 0 n) (map fst picks)).
    { apply NoDup_length_incl; [exact G1|rewrite seq_length, map_length; lia|].
      intros x Hx. apply in_map_iff in Hx. destruct Hx as (rc & <- & Hrc). apply in_seq. destruct (G3 rc Hrc). lia. }
    assert (X : In i (map fst picks)) by (apply I, in_seq; lia).
    apply in_map_iff in X. destruct X as ([a b] & E & Hrc). exists b. cbn in E. subst a. exact Hrc. }
  destruct (choose_below n (fun j i => In (i, j) picks)) as (s & S1).
  { intros i Hi. destruct (C1 i Hi) as (j & Hj). exists j. split; [exact (proj2 (G3 _ Hj))|exact Hj]. }
  exists s. split; [split|].
  - intros i Hi. apply S1; auto.
  - intros i i' Hi Hi' E. destruct (S1 i Hi) as [_ A]. destruct (S1 i' Hi') as [_ B]. rewrite <- E in B. exact (nodup_snd _ _ _ _ G2 A B).
  - intros i j Hi Hj. destruct (S1 i Hi) as [_ A]. destruct (Nat.eqb_spec j (s i)) as [->|N].
    + replace (existsb _ picks) with true; [reflexivity|]. symmetry. apply existsb_exists. exists (i, s i). cbn. rewrite !Nat.eqb_refl. auto.
    + replace (existsb _ picks) with false; [reflexivity|]. symmetry. apply not_true_iff_false. intro X.
      apply existsb_exists in X. destruct X as ([a b] & Hx & X). cbn in X. apply andb_true_iff in X. destruct X as [X Y].
      apply Nat.eqb_eq in X, Y. subst a b. apply N. exact (nodup_fst _ _ _ _ G1 Hx A).
Qed.

(** *** The transformation *)
Lemma sgn_nonzero : forall x, x <> 0 -> sgn x * sgn x = 1 /\ 0 < sgn x * x.
Proof.
  intros x Hx. unfold sgn. destruct (rltb 0 x) eqn:E; [apply rltb_spec in E; lra|].
  apply rltb_false in E. rewrite (proj2 (rltb_spec x 0)) by lra. lra.
Qed.
Section Transform.
  Variable n : nat.
  Variable v : mat.
  Variable P : nat -> nat -> R.
  Variable s : nat -> nat.
  Hypothesis HP : permutation_matrix n P s.
  Hypothesis Hre : forall i, (i < n)%nat -> fst (v i (s i)) <> 0.
  Let Q : mat := mtrans (fun i j => RtoC (sgn (fst (v i j)) * P i j)).
  Let q (i : nat) : R := sgn (fst (v i (s i))).
  Lemma Q_entry : forall a i, (a < n)%nat -> (i < n)%nat -> Q a i = if Nat.eqb a (s i) then RtoC (q i) else RtoC 0.
  Proof.
    intros a i Ha Hi. unfold Q, mtrans. rewrite (proj2 HP i a Hi Ha). unfold q.
    destruct (Nat.eqb_spec a (s i)) as [->|]; f_equal; ring.
  Qed.
  Lemma q_sq : forall i, (i < n)%nat -> q i * q i = 1.
  Proof. intros i Hi. apply sgn_nonzero, Hre, Hi. Qed.
  Lemma QDQ : forall e, meq n n (mmul n (mmul n (madj Q) (rdiag e)) Q) (rdiag (fun i => e (s i))).
  Proof.
    intros e i j Hi Hj. destruct HP as ((Bs & Is) & _). unfold mmul at 1.
    rewrite (csum_single n (s j)); [|apply Bs; auto|].
    - rewrite (Q_entry (s j) j) by auto. rewrite Nat.eqb_refl. unfold mmul.
      rewrite (csum_single n (s j)); [|apply Bs; auto|].
      + unfold madj, rdiag. rewrite (Q_entry (s j) i) by auto. rewrite Nat.eqb_refl.
        destruct (Nat.eqb_spec i j) as [->|N].
        * rewrite Nat.eqb_refl, conj_R. pose proof (q_sq j Hj) as E. apply C_ext; cbn; [|ring].
          replace ((q j * e (s j) - 0 * 0) * q j - (q j * 0 + 0 * e (s j)) * 0) with (q j * q j * e (s j)) by ring. rewrite E. ring.
        * destruct (Nat.eqb_spec (s j) (s i)) as [E|_]; [exfalso; apply N; apply Is; auto|]. rewrite conj_R. apply C_ext; cbn; ring.
      + intros b Hb N. unfold rdiag. rewrite (proj2 (Nat.eqb_neq b (s j)) N). ring.
    - intros a Ha N. rewrite (Q_entry a j) by auto. rewrite (proj2 (Nat.eqb_neq a (s j)) N). ring.
  Qed.
  Lemma Q_unitary : unitary n Q.
  Proof.
    split.
    - pose proof (QDQ (fun _ => 1)) as X.
      assert (E : meq n n (rdiag (fun _ => 1)) mid) by (intros i j _ _; reflexivity).
      rewrite E, mmul_id_r in X. exact X.
    - destruct HP as (Ps & _). destruct (inverse_perm n s Ps) as (t & (Bt & It) & E).
      intros a b Ha Hb. unfold mmul. destruct (E a Ha) as [Ea Ea']. destruct (E b Hb) as [Eb Eb'].
      rewrite (csum_single n (t a)); [|apply Bt; auto|].
      + unfold madj. rewrite (Q_entry a (t a)), (Q_entry b (t a)) by auto. rewrite Ea', Nat.eqb_refl. unfold mid.
        destruct (Nat.eqb_spec a b) as [->|N].
        * rewrite Nat.eqb_refl, conj_R. pose proof (q_sq (t b) (Bt b Hb)) as Y. apply C_ext; cbn; [|ring]. rewrite <- Y. ring.
        * rewrite (proj2 (Nat.eqb_neq b a)) by auto. rewrite conj_R. ring.
      + intros i Hi N. rewrite (Q_entry a i) by auto. destruct (Nat.eqb_spec a (s i)) as [Y|_]; [|ring].
        exfalso. apply N. destruct (E i Hi) as [Ei _]. rewrite Y. auto.
  Qed.
  Lemma T_entry : forall a i, (a < n)%nat -> (i < n)%nat -> mmul n v Q a i = (RtoC (q i) * v a (s i))%C.
  Proof.
    intros a i Ha Hi. destruct HP as ((Bs & _) & _). unfold mmul. rewrite (csum_single n (s i)); [|apply Bs; auto|].
    - rewrite (Q_entry (s i) i) by auto. rewrite Nat.eqb_refl. ring.
    - intros b Hb N. rewrite (Q_entry b i) by auto. rewrite (proj2 (Nat.eqb_neq b (s i)) N). ring.
  Qed.
  Lemma T_props : forall H e, eigenbasis n H e v ->
    unitary n (mmul n v Q)
    /\ meq n n (mmul n (mmul n (madj (mmul n v Q)) H) (mmul n v Q)) (rdiag (fun i => e (s i)))
    /\ forall i, (i < n)%nat -> 0 < fst (mmul n v Q i i) /\ Cmod (mmul n v Q i i) = Cmod (v i (s i)).
  Proof.
    intros H e (U & E). split; [apply unitary_mmul; [exact U|exact Q_unitary]|]. split.
    - rewrite madj_mmul.
      rewrite <- (mmul_assoc n n n n (mmul n (madj Q) (madj v)) H (mmul n v Q)).
      rewrite (mmul_assoc n n n n H v Q), E.
      rewrite <- (mmul_assoc n n n n v (rdiag e) Q).
      rewrite (mmul_assoc n n n n (mmul n (madj Q) (madj v)) v (mmul n (rdiag e) Q)).
      rewrite <- (mmul_assoc n n n n (madj Q) (madj v) v). rewrite (proj1 U), mmul_id_r.
      rewrite (mmul_assoc n n n n (madj Q) (rdiag e) Q). apply QDQ.
    - intros i Hi. rewrite (T_entry i i Hi Hi). pose proof (sgn_nonzero _ (Hre i Hi)) as [A B]. fold (q i) in A, B. split.
      + cbn. rewrite Rmult_0_l, Rminus_0_r. exact B.
      + rewrite Cmod_mult, Cmod_R. replace (Rabs (q i)) with 1; [ring|]. symmetry.
        destruct (Rcase_abs (q i)); [rewrite Rabs_left by lra|rewrite Rabs_right by lra]; nra.
  Qed.
End Transform.

(** Every eigenvector has a dominant component: the reordering is a permutation that
    takes each energy to the bare state its eigenvector mostly consists of. *)
Theorem C78_permutation :
  forall n H e v reorder frame T, (0 < n)%nat -> eigenbasis n H e v ->
  (forall j, (j < n)%nat -> exists i, (i < n)%nat /\ 1 / 2 < Cmod (v i j) ^ 2) ->
  reorder_frame n e v true = (reorder, frame, T) ->
  exists s, permutation_matrix n reorder s
  /\ forall i, (i < n)%nat -> frame i = e (s i) /\ 1 / 2 < Cmod (v i (s i)) ^ 2.
Proof.
  intros n H e v reorder frame T Hn (U & _) D E. unfold reorder_frame in E.
  rewrite (proj2 (dominant_test n v Hn) D) in E. injection E as <- <- <-.
  destruct (dominant_permutation n v Hn U D) as (s & P & M). exists s. split; [exact P|]. intros i Hi.
  rewrite <- v_sq_mod. split; [|auto]. unfold rsumn. rewrite rs_csum. cbn.
  destruct P as ((B & _) & P). rewrite (rs_single n (s i)); [|auto|].
  - rewrite (P i (s i)) by auto. rewrite Nat.eqb_refl. ring.
  - intros j Hj N. rewrite (P i j) by auto. rewrite (proj2 (Nat.eqb_neq _ _) N). ring.
Qed.
Print Assumptions C78_permutation.
(** If moreover no dominant component is purely imaginary the columns of the
    transformation are the sorted eigenvectors: it is unitary, diagonalises the drift
    with the sorted energies, and its i-th column consists mainly, with positive real
    part, of the bare state i. *)
Theorem C78_transform :
  forall n H e v reorder frame T, (0 < n)%nat -> eigenbasis n H e v ->
  (forall j, (j < n)%nat -> exists i, (i < n)%nat /\ 1 / 2 < Cmod (v i j) ^ 2 /\ fst (v i j) <> 0) ->
  reorder_frame n e v true = (reorder, frame, T) ->
  unitary n T /\ meq n n (mmul n (mmul n (madj T) H) T) (rdiag frame)
  /\ forall i, (i < n)%nat -> 1 / 2 < Cmod (T i i) ^ 2 /\ 0 < fst (T i i).
Proof.
  intros n H e v reorder frame T Hn EB D E.
  assert (D' : forall j, (j < n)%nat -> exists i, (i < n)%nat /\ 1 / 2 < Cmod (v i j) ^ 2).
  { intros j Hj. destruct (D j Hj) as (i & A & B & _). eauto. }
  destruct (C78_permutation n H e v reorder frame T Hn EB D' E) as (s & P & F).
  assert (Re : forall i, (i < n)%nat -> fst (v i (s i)) <> 0).
  { intros i Hi. destruct (F i Hi) as [_ M]. destruct (D (s i)) as (i' & Hi' & M' & N'); [apply P; auto|].
    assert (i' = i) as ->; [|exact N'].
    rewrite <- v_sq_mod in M, M'. destruct EB as [U _]. destruct P as ((B & _) & _).
    apply (one_dominant n (fun k => v_sq v k (s i)) i' i); auto; [intros; apply v_sq_nonneg|apply col_sum; auto]. }
  destruct (T_props n v reorder s P Re H e EB) as (A & B & G).
  unfold reorder_frame in E. injection E as E1 E2 E3. rewrite E1 in E3. rewrite <- E3.
  split; [exact A|]. split.
  - rewrite B. intros i j Hi Hj. unfold rdiag. destruct (Nat.eqb i j); auto. f_equal. symmetry. apply F. exact Hi.
  - intros i Hi. destruct (G i Hi) as [G1 G2]. rewrite G2. split; [apply F; exact Hi|exact G1].
Qed.
Print Assumptions C78_transform.
(** Overly dressed states: the greedy fallback is still a permutation when no component
    of an eigenvector vanishes, and the transformation is unitary and diagonalises the
    drift with the sorted energies unless a chosen component is purely imaginary. *)
Theorem C78_overly_dressed :
  forall n H e v reorder frame T, (0 < n)%nat -> eigenbasis n H e v ->
  (exists j, (j < n)%nat /\ forall i, (i < n)%nat -> Cmod (v i j) ^ 2 <= 1 / 2) ->
  (forall i j, (i < n)%nat -> (j < n)%nat -> fst (v i j) <> 0) ->
  reorder_frame n e v true = (reorder, frame, T) ->
  (exists s, permutation_matrix n reorder s /\ forall i, (i < n)%nat -> frame i = e (s i))
  /\ unitary n T /\ meq n n (mmul n (mmul n (madj T) H) T) (rdiag frame).
Proof.
  intros n H e v reorder frame T Hn EB (j & Hj & O) Re E.
  assert (X : all_dominant n v = false).
  { apply not_true_iff_false. intro Y. destruct (proj1 (dominant_test n v Hn) Y j Hj) as (i & Hi & M).
    specialize (O i Hi). lra. }
  unfold reorder_frame in E. rewrite X in E. injection E as <- <- <-.
  destruct (fallback_permutation n v) as (s & P).
  { intros i k Hi Hk Z. apply (Re i k Hi Hk). rewrite Z. reflexivity. }
  assert (F : forall i, (i < n)%nat -> rsumn n (fun k => reorder_fallback n v i k * e k) = e (s i)).
  { intros i Hi. unfold rsumn. rewrite rs_csum. cbn [fst RtoC]. destruct P as ((B & _) & P).
    rewrite (rs_single n (s i)); [|auto|].
    - rewrite (P i (s i)) by auto. rewrite Nat.eqb_refl. ring.
    - intros k Hk N. rewrite (P i k) by auto. rewrite (proj2 (Nat.eqb_neq _ _) N). ring. }
  split; [exists s; split; [exact P|exact F]|].
  destruct (T_props n v (reorder_fallback n v) s P) with (H := H) (e := e) as (A & B & _); auto.
  { intros i Hi. apply Re; auto. apply P. auto. }
  split; [exact A|]. rewrite B. intros i k Hi Hk. unfold rdiag. destruct (Nat.eqb i k); auto. f_equal. symmetry. auto.
Qed.
Print Assumptions C78_overly_dressed.
(** Without sorting the frame is the one eigh returns. *)
Theorem C78_unordered :
  forall n H e v reorder frame T, eigenbasis n H e v -> reorder_frame n e v false = (reorder, frame, T) ->
  permutation_matrix n reorder (fun i => i) /\ unitary n T /\ meq n n (mmul n (mmul n (madj T) H) T) (rdiag frame).
Proof.
  intros n H e v reorder frame T (U & E) R. injection R as <- <- <-. split; [|split; [exact U|]].
  - split; [split; auto|]. intros i j _ _. rewrite Nat.eqb_sym. reflexivity.
  - rewrite <- (mmul_assoc n n n n (madj v) H v), E, (mmul_assoc n n n n (madj v) v (rdiag e)), (proj1 U), mmul_id_l. reflexivity.
Qed.
Print Assumptions C78_unordered.

(** A purely imaginary dominant component has sign 0: its column of the transformation
    vanishes, for any drift and any basis. *)
Theorem C78_imaginary_refuted :
  exists H e v, eigenbasis 2 H e v /\ hermitian 2 H /\ (forall j, (j < 2)%nat -> exists i, (i < 2)%nat /\ 1 / 2 < Cmod (v i j) ^ 2)
  /\ exists reorder frame T, reorder_frame 2 e v true = (reorder, frame, T)
  /\ ~ unitary 2 T /\ ~ meq 2 2 (mmul 2 (mmul 2 (madj T) H) T) (rdiag frame).
Proof.
  pose (e := fun i : nat => match i with O => 1 | _ => 2 end).
  pose (v := fun i j : nat => if Nat.eqb i j then (if Nat.eqb i 0 then Ci else RtoC 1) else RtoC 0).
  assert (EB : eigenbasis 2 (rdiag e) e v).
  { split; [split|]; intros i j Hi Hj; destruct i as [|[|i]]; destruct j as [|[|j]]; try lia; unfold mmul, madj, mid, rdiag, v, e; cbn;
      apply C_ext; cbn; ring. }
  assert (D : forall j, (j < 2)%nat -> exists i, (i < 2)%nat /\ 1 / 2 < Cmod (v i j) ^ 2).
  { intros j Hj. exists j. split; [exact Hj|]. rewrite <- v_sq_mod. destruct j as [|[|j]]; try lia; unfold v_sq, v; cbn; lra. }
  exists (rdiag e), e, v. split; [exact EB|]. split.
  { intros i j Hi Hj. unfold madj, rdiag. destruct (Nat.eqb_spec i j) as [->|N]; [rewrite Nat.eqb_refl|rewrite (proj2 (Nat.eqb_neq j i)) by auto]; apply conj_R. }
  split; [exact D|]. destruct (reorder_frame 2 e v true) as [[r f] T] eqn:E. exists r, f, T. split; [reflexivity|].
  assert (Z : forall a, T a 0%nat = RtoC 0).
  { intro a. unfold reorder_frame in E. injection E as _ _ <-. unfold mmul, mtrans. cbn [csum].
    assert (S0 : sgn (fst (v 0%nat 0%nat)) = 0).
    { unfold v, sgn. cbn. unfold rltb. destruct (Rlt_dec 0 0); [lra|]. reflexivity. }
    assert (S1 : sgn (fst (v 0%nat 1%nat)) = 0).
    { unfold v, sgn. cbn. unfold rltb. destruct (Rlt_dec 0 0); [lra|]. reflexivity. }
    rewrite S0, S1. apply C_ext; cbn; ring. }
  split.
  - intros [U _]. specialize (U 0 0 ltac:(lia) ltac:(lia))%nat. unfold mmul, madj in U. cbn [csum] in U. rewrite !Z in U.
    apply (f_equal fst) in U. cbn in U. lra.
  - intro U. specialize (U 0 0 ltac:(lia) ltac:(lia))%nat. unfold mmul at 1 in U. cbn [csum] in U. rewrite !Z in U.
    destruct (C78_permutation 2 _ e v r f T ltac:(lia) EB D E) as (s & P & F). destruct (F 0%nat ltac:(lia)) as [F0 _].
    unfold rdiag in U. cbn in U. rewrite F0 in U. apply (f_equal fst) in U. unfold e in U. cbn in U. destruct (s 0%nat); lra.
Qed.
Print Assumptions C78_imaginary_refuted.

Lemma argmax_map : forall A (ltA : A -> A -> bool) (g : A -> R), (forall x y, rltb (g x) (g y) = ltA x y) ->
  forall f h k, (forall p, (p <= k)%nat -> h p = g (f p)) -> argmax rltb h k = argmax ltA f k.
Proof.
  intros A ltA g Hg f h k. induction k as [|k IH]; intro H; [reflexivity|]. cbn [argmax]. cbv zeta.
  rewrite IH by (intros; apply H; lia).
  assert (L : (argmax ltA f k <= k)%nat).
  { clear. induction k as [|k IH]; cbn [argmax]; [lia|]. cbv zeta. destruct (ltA _ _); lia. }
  rewrite (H (argmax ltA f k)) by lia. rewrite (H (S k)) by lia. rewrite Hg. reflexivity.
Qed.
Lemma greedy_map : forall A (ltA : A -> A -> bool) (z : A) (g : A -> R), (forall x y, rltb (g x) (g y) = ltA x y) -> g z = 0 ->
  forall n, (0 < n)%nat -> forall steps vc wc picks, (forall i j, (i < n)%nat -> (j < n)%nat -> wc i j = g (vc i j)) ->
  greedy rltb 0 n steps wc picks = greedy ltA z n steps vc picks.
Proof.
  intros A ltA z g Hg Hz n Hn. induction steps as [|steps IH]; intros vc wc picks H; [reflexivity|]. cbn [greedy]. cbv zeta.
  assert (E : pick rltb n wc = pick ltA n vc).
  { unfold pick. cbv zeta. rewrite (argmax_map A ltA g Hg (fun p => vc (p / n)%nat (p mod n)%nat)); [reflexivity|].
    intros p Hp. apply H; [apply Nat.div_lt_upper_bound; nia|apply Nat.mod_upper_bound; lia]. }
  rewrite E. apply IH. intros i j Hi Hj. unfold clear. destruct (Nat.eqb i _ || Nat.eqb j _); auto.
Qed.
(** With vanishing components the fallback may pick the same position twice: one energy
    is lost and the transformation has a zero column. *)
Definition conference : list (list Z) := [[-1; -1; 0; 1]; [0; 1; 1; 1]; [-1; 0; 1; -1]; [-1; 1; -1; 0]]%Z.
(** Finding: Without dominant components the fallback may pick one position twice: the order is no permutation and the transformation is not unitary. *)
Theorem C78_fallback_refuted :
  exists H e v, eigenbasis 4 H e v /\ hermitian 4 H
  /\ exists reorder frame T, reorder_frame 4 e v true = (reorder, frame, T)
  /\ (forall s, ~ permutation_matrix 4 reorder s) /\ ~ unitary 4 T.
Proof.
  pose (w := fun i j : nat => nth j (nth i conference []) 0%Z).
  pose (r := / sqrt 3). assert (Hr : r * r = 1 / 3).
  { unfold r. rewrite <- Rinv_mult. rewrite sqrt_sqrt by lra. lra. }
  pose (v := fun i j : nat => RtoC (r * IZR (w i j))).
  assert (U : unitary 4 v).
  { split; intros i j Hi Hj; unfold mmul, madj, v, mid; cbn [csum]; rewrite !conj_R; apply C_ext;
      destruct i as [|[|[|[|i]]]]; try lia; destruct j as [|[|[|[|j]]]]; try lia; cbn;
      try ring; ring_simplify; replace (r ^ 2) with (1 / 3) by (rewrite <- Hr; ring); lra. }
  pose (e := fun i : nat => INR i).
  pose (H := mmul 4 (mmul 4 v (rdiag e)) (madj v)).
  exists H, e, v. split; [split; [exact U|]|].
  { unfold H. rewrite <- (mmul_assoc 4 4 4 4 (mmul 4 v (rdiag e)) (madj v) v), (proj1 U), mmul_id_r. reflexivity. }
  split.
  { unfold H. apply herm_sandwich. intros i j _ _. unfold madj, rdiag.
    destruct (Nat.eqb_spec i j) as [->|N]; [rewrite Nat.eqb_refl|rewrite (proj2 (Nat.eqb_neq j i)) by auto]; apply conj_R. }
  destruct (reorder_frame 4 e v true) as [[p f] T] eqn:E. exists p, f, T. split; [reflexivity|].
  assert (Vs : forall i j, (i < 4)%nat -> (j < 4)%nat -> v_sq v i j = IZR (w i j * w i j) / 3).
  { intros i j _ _. unfold v_sq, v. rewrite mult_IZR. generalize (IZR (w i j)). intro x. cbn.
    transitivity (r * r * (x * x)); [ring|]. rewrite Hr. field. }
  assert (N : all_dominant 4 v = false).
  { apply not_true_iff_false. intro X. destruct (proj1 (dominant_test 4 v ltac:(lia)) X 0%nat ltac:(lia)) as (i & Hi & M).
    rewrite <- v_sq_mod, Vs in M by lia. destruct i as [|[|[|[|i]]]]; try lia; cbn in M; lra. }
  assert (G : greedy rltb 0 4 4 (v_sq v) [] = [(0, 0); (2, 2); (1, 1); (0, 0)]%nat).
  { rewrite (greedy_map Z Z.ltb 0%Z (fun z => IZR z / 3)) with (vc := fun i j => (w i j * w i j)%Z).
    - vm_compute. reflexivity.
    - intros x y. destruct (Z.ltb_spec x y) as [L|L].
      + apply rltb_spec. apply IZR_lt in L. lra.
      + apply rltb_false. apply IZR_le in L. lra.
    - lra.
    - lia.
    - exact Vs. }
  unfold reorder_frame in E. rewrite N in E. injection E as E1 _ E3.
  assert (P3 : forall j, p 3%nat j = 0).
  { intro j. rewrite <- E1. unfold reorder_fallback. rewrite G. cbn. reflexivity. }
  split.
  - intros s ((B & _) & P). specialize (P 3%nat (s 3%nat) ltac:(lia) (B 3%nat ltac:(lia))). rewrite Nat.eqb_refl, P3 in P. lra.
  - intros [X _]. specialize (X 3 3 ltac:(lia) ltac:(lia))%nat.
    assert (Z : forall a, T a 3%nat = RtoC 0).
    { intro a. rewrite <- E3. unfold mmul, mtrans. rewrite E1. apply csum_0. intros j _. rewrite P3. apply C_ext; cbn; ring. }
    unfold mmul, madj in X. cbn [csum] in X. rewrite !Z in X. apply (f_equal fst) in X. cbn in X. lra.
Qed.
Print Assumptions C78_fallback_refuted.
(** A swapped basis: the energies 1 and 2 belong to the bare states 1 and 0. *)
Example C78_example :
  let v : mat := fun i j => if Nat.eqb (i + j) 1 then RtoC (if Nat.eqb i 0 then -1 else 1) else RtoC 0 in
  let e := fun i => match i with 0%nat => 1 | _ => 2 end in
  let H := rdiag (fun i => match i with 0%nat => 2 | _ => 1 end) in
  eigenbasis 2 H e v /\ (forall j, (j < 2)%nat -> exists i, (i < 2)%nat /\ 1 / 2 < Cmod (v i j) ^ 2 /\ fst (v i j) <> 0).
Proof.
  cbv zeta. split.
  - split; [split|]; intros i j Hi Hj; destruct i as [|[|i]]; destruct j as [|[|j]]; try lia; unfold mmul, madj, mid, rdiag; cbn;
      apply C_ext; cbn; ring.
  - intros j Hj. exists (1 - j)%nat. split; [lia|]. rewrite <- (v_sq_mod (fun i j => if Nat.eqb (i + j) 1 then RtoC (if Nat.eqb i 0 then -1 else 1) else RtoC 0)).
    destruct j as [|[|j]]; try lia; unfold v_sq; cbn; split; lra.
Qed.
