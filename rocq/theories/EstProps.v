(** Property C103: the counting estimators and the median. *)
From Coq Require Import Reals Lra Lia Permutation Sorted.
From Verif Require Import Base LearnModel LearnProps EstModel.
Local Open Scope list_scope.
Local Open Scope R_scope.
Local Notation length := List.length.

(** What the theorems need of TensorFlow's log-gamma function: at the integers it is the
    logarithm of the factorial. *)
Definition log_factorial (lgamma : R -> R) : Prop := forall k : nat, lgamma (INR k + 1) = ln (INR (fact k)).
(** relative frequencies of counts out of [n] shots *)
Definition freqs (n : nat) (ks : list nat) : list R := map (fun k => INR k / INR n) ks.
(** the probability of [k] hits in [n] shots of probability [p] *)
Definition binom_prob (n : nat) (p : R) (k : nat) : R := Binomial.C n k * p ^ k * (1 - p) ^ (n - k).
(** a product over a list *)
Definition prod_l (l : list R) : R := fold_right Rmult 1 l.
(** the probability of the counts [ks] in [n] shots with outcome probabilities [ps] *)
Definition multinom_prob (n : nat) (ps : list R) (ks : list nat) : R :=
  INR (fact n) / prod_l (map (fun k => INR (fact k)) ks) * prod_l (map (fun kp => snd kp ^ fst kp) (combine ks ps)).

Lemma fact_pos : forall k, 0 < INR (fact k).
Proof. intro k. apply lt_0_INR, lt_O_fact. Qed.
Lemma exp_mult : forall k x, exp (INR k * x) = exp x ^ k.
Proof.
  induction k as [|k IH]; intro x; [rewrite Rmult_0_l, exp_0; reflexivity|].
  rewrite S_INR, Rmult_plus_distr_r, Rmult_1_l, exp_plus, IH. cbn [pow]. ring.
Qed.
Lemma exp_kln : forall k p, 0 < p -> exp (INR k * ln p) = p ^ k.
Proof. intros k p Hp. rewrite exp_mult, exp_ln by exact Hp. reflexivity. Qed.

(** the logarithm of m! / k! m^(k - m) *)
Definition gterm (k m : nat) : R := ln (INR (fact m)) - ln (INR (fact k)) + (INR k - INR m) * ln (INR m).
Lemma ln_fact_S : forall k, ln (INR (fact (S k))) = ln (INR (S k)) + ln (INR (fact k)).
Proof.
  intro k. rewrite <- ln_mult; [|apply lt_0_INR; lia|apply fact_pos]. rewrite <- mult_INR. f_equal.
Qed.
Lemma gterm_above : forall m d, (0 < m)%nat -> INR d * ln (INR m) + ln (INR (fact m)) <= ln (INR (fact (m + d))) /\
  ((0 < d)%nat -> INR d * ln (INR m) + ln (INR (fact m)) < ln (INR (fact (m + d)))).
Proof.
  intros m d Hm. induction d as [|d [IH _]].
  - rewrite Nat.add_0_r. cbn [INR]. split; [lra|lia].
  - replace (m + S d)%nat with (S (m + d)) by lia. rewrite ln_fact_S, (S_INR d).
    assert (L : ln (INR m) < ln (INR (S (m + d)))) by (apply ln_increasing; [apply lt_0_INR; lia|apply lt_INR; lia]).
    split; [|intros _]; lra.
Qed.
Lemma gterm_below : forall k d m, (k + d <= m)%nat -> (0 < m)%nat -> ln (INR (fact (k + d))) <= ln (INR (fact k)) + INR d * ln (INR m).
Proof.
  intros k d m. induction d as [|d IH]; intros H Hm.
  - rewrite Nat.add_0_r. cbn [INR]. lra.
  - specialize (IH ltac:(lia) Hm). replace (k + S d)%nat with (S (k + d)) by lia. rewrite ln_fact_S, (S_INR d).
    assert (L : ln (INR (S (k + d))) <= ln (INR m)).
    { destruct (Nat.eq_dec (S (k + d)) m) as [->|N]; [lra|]. left. apply ln_increasing; [apply lt_0_INR; lia|apply lt_INR; lia]. }
    lra.
Qed.
Lemma gterm_neg : forall k m, (0 < m)%nat -> gterm k m <= 0 /\ (gterm k m = 0 -> (k <= m)%nat).
Proof.
  intros k m Hm. unfold gterm. destruct (le_lt_dec k m) as [L|L].
  - split; [|intros _; exact L]. pose proof (gterm_below k (m - k) m ltac:(lia) Hm) as G. replace (k + (m - k))%nat with m in G by lia.
    rewrite minus_INR in G by exact L. lra.
  - destruct (gterm_above m (k - m) Hm) as [G1 G2]. specialize (G2 ltac:(lia)). replace (m + (k - m))%nat with k in * by lia.
    rewrite minus_INR in * by lia. split; [lra|intro E; lra].
Qed.

Fixpoint nsum (l : list nat) : nat := match l with [] => 0%nat | k :: l' => (k + nsum l')%nat end.

Lemma freqs_back : forall n ks, (0 < n)%nat -> map (fun v => v * INR n) (freqs n ks) = map INR ks.
Proof.
  intros n ks Hn. unfold freqs. rewrite map_map. apply map_ext. intro k. field. apply not_0_INR. lia.
Qed.

(** difference of the two log-probabilities as a sum of [gterm] *)
Lemma multinom_diff : forall lgamma n ks ms, log_factorial lgamma -> (0 < n)%nat ->
  length ks = length ms -> nsum ks = n -> nsum ms = n -> Forall (fun m => (0 < m)%nat) ms ->
  multinom_log_prob lgamma (INR n) (freqs n ms) (map INR ks) - multinom_log_prob lgamma (INR n) (freqs n ms) (map INR ms)
  = rsum_l (map (fun km => gterm (fst km) (snd km)) (combine ks ms)).
Proof.
  intros lgamma n ks ms LG Hn L Sk Sm Pm. unfold multinom_log_prob.
  assert (A : forall ks ms, length ks = length ms -> Forall (fun m => (0 < m)%nat) ms ->
     - rsum_l (map (fun k => lgamma (k + 1)) (map INR ks)) + rsum_l (map (fun kp => fst kp * ln (snd kp)) (combine (map INR ks) (freqs n ms)))
     - (- rsum_l (map (fun k => lgamma (k + 1)) (map INR ms)) + rsum_l (map (fun kp => fst kp * ln (snd kp)) (combine (map INR ms) (freqs n ms))))
     = rsum_l (map (fun km => gterm (fst km) (snd km)) (combine ks ms)) - (INR (nsum ks) - INR (nsum ms)) * ln (INR n)).
  { clear ks ms L Sk Sm Pm. induction ks as [|k ks IH]; intros [|m ms] L P; cbn [length] in L; try discriminate.
    - cbn. ring.
    - inversion P as [|? ? P1 P2]; subst. specialize (IH ms ltac:(lia) P2). cbn [map combine freqs rsum_l fold_right nsum fst snd] in *.
      rewrite !plus_INR. fold (freqs n ms). fold (rsum_l (map (fun k => lgamma (k + 1)) (map INR ks))) in *.
      unfold rsum_l in *. rewrite !LG. rewrite (eq_refl : gterm k m = ln (INR (fact m)) - ln (INR (fact k)) + (INR k - INR m) * ln (INR m)).
      assert (E : ln (INR m / INR n) = ln (INR m) - ln (INR n)).
      { unfold Rdiv. rewrite ln_mult, ln_Rinv; [ring|apply lt_0_INR; lia|apply lt_0_INR; lia|apply Rinv_0_lt_compat, lt_0_INR; lia]. }
      rewrite E. fold (freqs n ms). unfold freqs in *. lra. }
  specialize (A ks ms L Pm). rewrite Sk, Sm in A. lra.
Qed.
Lemma gterms : forall ks ms, length ks = length ms -> Forall (fun m => (0 < m)%nat) ms ->
  rsum_l (map (fun km => gterm (fst km) (snd km)) (combine ks ms)) <= 0 /\
  (nsum ks = nsum ms -> rsum_l (map (fun km => gterm (fst km) (snd km)) (combine ks ms)) = 0 -> ks = ms).
Proof.
  intros ks ms L P.
  assert (A : forall ks ms, length ks = length ms -> Forall (fun m => (0 < m)%nat) ms ->
     rsum_l (map (fun km => gterm (fst km) (snd km)) (combine ks ms)) <= 0 /\
     (rsum_l (map (fun km => gterm (fst km) (snd km)) (combine ks ms)) = 0 -> (nsum ks <= nsum ms)%nat /\ (nsum ks = nsum ms -> ks = ms))).
  { clear. induction ks as [|k ks IH]; intros [|m ms] L P; cbn [length] in L; try discriminate.
    - cbn. split; [lra|]. intros _. split; [lia|reflexivity].
    - inversion P as [|? ? P1 P2]; subst. destruct (IH ms ltac:(lia) P2) as [A B]. destruct (gterm_neg k m P1) as [G1 G2].
      cbn [map combine rsum_l fold_right nsum fst snd] in *. unfold rsum_l in *. split; [lra|]. intro Z.
      destruct (B ltac:(lra)) as [B1 B2]. specialize (G2 ltac:(lra)). split; [lia|]. intro E. f_equal; [lia|apply B2; lia]. }
  destruct (A ks ms L P) as [A1 A2]. split; [exact A1|]. intros E Z. apply (A2 Z), E.
Qed.

(** ** The estimators on rows *)
Lemma zip_rows_some : forall (rows : list (nat * list nat * list nat)),
  Forall (fun r => length (snd (fst r)) = length (snd r)) rows ->
  zip_rows (map (fun r => freqs (fst (fst r)) (snd (fst r))) rows) (map (fun r => freqs (fst (fst r)) (snd r)) rows)
           (map (fun r => INR (fst (fst r))) rows)
  = Some (map (fun r => (freqs (fst (fst r)) (snd (fst r)), freqs (fst (fst r)) (snd r), INR (fst (fst r)))) rows).
Proof.
  induction rows as [|[[n ks] ms] rows IH]; intro H; [reflexivity|]. inversion H as [|? ? H1 H2]; subst. cbn [map zip_rows fst snd].
  unfold freqs at 1 2. rewrite !map_length. cbn [fst snd] in H1. rewrite H1, Nat.eqb_refl, (IH H2). reflexivity.
Qed.
Lemma mean_nonpos : forall {A} (f : A -> R) (l : list A), l <> [] -> (forall x, In x l -> f x <= 0) ->
  mean_l (map f l) <= 0 /\ (mean_l (map f l) = 0 -> forall x, In x l -> f x = 0).
Proof.
  intros A f l Hne H. unfold mean_l. rewrite map_length.
  assert (N : 0 < INR (length l)) by (apply lt_0_INR; destruct l; [congruence|cbn; lia]).
  assert (B : rsum_l (map f l) <= 0 /\ (rsum_l (map f l) = 0 -> forall x, In x l -> f x = 0)).
  { clear Hne N. induction l as [|a l IH]; [split; [cbn; lra|intros _ x []]|]. destruct IH as [I1 I2]; [intros x Hx; apply H; right; exact Hx|].
    pose proof (H a (or_introl eq_refl)) as Ha. cbn [map rsum_l fold_right]. fold (rsum_l (map f l)). split; [lra|].
    intros Z x [<-|Hx]; [lra|apply I2; [lra|exact Hx]]. }
  destruct B as [B1 B2]. split.
  - apply Rmult_le_reg_r with (INR (length l)); [exact N|]. unfold Rdiv. rewrite Rmult_assoc, Rinv_l, Rmult_1_r, Rmult_0_l by lra. exact B1.
  - intros Z. apply B2. apply Rmult_eq_reg_r with (/ INR (length l)); [|apply Rgt_not_eq, Rinv_0_lt_compat, N]. unfold Rdiv in Z. lra.
Qed.

(** a data set of counted outcomes: shots, measured counts and expected counts of each sequence *)
Definition counted (r : nat * list nat * list nat) : Prop :=
  let '(n, ks, ms) := r in
  (0 < n)%nat /\ length ks = length ms /\ nsum ks = n /\ nsum ms = n /\ Forall (fun m => (0 < m)%nat) ms.

(** The normalised multinomial estimator of measured counts against a simulation that expects whole
    counts is at least -3/2, and it is -3/2 exactly when the simulation reproduces the data. *)
Theorem C103_multinom_norm :
  forall lgamma rows stds, log_factorial lgamma -> rows <> [] -> Forall counted rows ->
  let ex := map (fun r => freqs (fst (fst r)) (snd (fst r))) rows in
  let sim := map (fun r => freqs (fst (fst r)) (snd r)) rows in
  exists v, neg_loglkh_multinom_norm lgamma ex sim stds (map (fun r => INR (fst (fst r))) rows) = Ok v /\
    - (3 / 2) <= v /\ (v = - (3 / 2) <-> ex = sim).
Proof.
  intros lgamma rows stds LG Hne HC ex sim. subst ex sim. unfold neg_loglkh_multinom_norm, mean_rows. rewrite zip_rows_some.
  2: { eapply Forall_impl; [|exact HC]. intros [[n ks] ms] H. cbn in *. tauto. }
  destruct rows as [|r0 rows0] eqn:ER; [congruence|]. rewrite <- ER in *. clear Hne.
  replace (map (fun r => (freqs (fst (fst r)) (snd (fst r)), freqs (fst (fst r)) (snd r), INR (fst (fst r)))) rows)
    with ((freqs (fst (fst r0)) (snd (fst r0)), freqs (fst (fst r0)) (snd r0), INR (fst (fst r0)))
          :: map (fun r => (freqs (fst (fst r)) (snd (fst r)), freqs (fst (fst r)) (snd r), INR (fst (fst r)))) rows0) by (rewrite ER; reflexivity).
  cbn iota.
  set (f := fun t : list R * list R * R => multinom_log_prob lgamma (snd t) (snd (fst t)) (map (fun v => v * snd t) (fst (fst t)))
              - multinom_log_prob lgamma (snd t) (snd (fst t)) (map (fun v => v * snd t) (snd (fst t)))).
  set (g := fun r : nat * list nat * list nat => f (freqs (fst (fst r)) (snd (fst r)), freqs (fst (fst r)) (snd r), INR (fst (fst r)))).
  assert (E : map f ((freqs (fst (fst r0)) (snd (fst r0)), freqs (fst (fst r0)) (snd r0), INR (fst (fst r0)))
          :: map (fun r => (freqs (fst (fst r)) (snd (fst r)), freqs (fst (fst r)) (snd r), INR (fst (fst r)))) rows0) = map g rows).
  { rewrite ER. cbn [map]. rewrite map_map. reflexivity. }
  rewrite E. clear E. cbn [rmap rbind]. eexists. split; [reflexivity|].
  assert (G : forall r, In r rows -> g r <= 0 /\ (g r = 0 -> snd (fst r) = snd r)).
  { intros [[n ks] ms] Hr. rewrite Forall_forall in HC. destruct (HC _ Hr) as (Hn & L & Sk & Sm & P). unfold g, f. cbn [fst snd].
    rewrite !freqs_back, multinom_diff by auto. destruct (gterms ks ms L P) as [A B]. split; [exact A|]. intro Z. apply B; [congruence|exact Z]. }
  destruct (mean_nonpos g rows) as [M1 M2]; [rewrite ER; discriminate|intros r Hr; apply G, Hr|].
  split; [lra|]. split.
  - intro Z. assert (Z' : mean_l (map g rows) = 0) by lra. apply map_ext_in. intros r Hr. f_equal. apply (G r Hr), (M2 Z' r Hr).
  - intro Z. assert (Z' : forall r, In r rows -> g r = 0).
    { intros r Hr. assert (E : freqs (fst (fst r)) (snd (fst r)) = freqs (fst (fst r)) (snd r)).
      { clear - Z Hr. induction rows as [|a rows IH]; [destruct Hr|]. cbn [map] in Z. injection Z as Z1 Z2. destruct Hr as [<-|Hr]; [exact Z1|auto]. }
      unfold g, f. cbn [fst snd]. rewrite E. ring. }
    rewrite (map_ext_in _ (fun _ => 0) _ Z'). unfold mean_l. assert (R0 : forall l : list (nat * list nat * list nat), rsum_l (map (fun _ => 0) l) = 0).
    { induction l as [|a l IH]; cbn [map rsum_l fold_right]; [reflexivity|]. fold (rsum_l (map (fun _ : nat * list nat * list nat => 0) l)). rewrite IH. ring. }
    rewrite R0. unfold Rdiv. rewrite Rmult_0_l. lra.
Qed.
Print Assumptions C103_multinom_norm.

(** Finding: the docstring promises probability 1 at the top of the distribution, that is an estimate
    of 0 for a perfect simulation; the estimate is -3/2, whatever the data and the log-gamma function. *)
Theorem C103_multinom_norm_offset_refuted :
  forall lgamma ex stds shots v, neg_loglkh_multinom_norm lgamma ex ex stds shots = Ok v -> v = - (3 / 2).
Proof.
  intros lgamma ex stds shots v H. unfold neg_loglkh_multinom_norm, mean_rows in H.
  assert (Z : forall ex shots l, zip_rows ex ex shots = Some l -> forall t, In t l -> snd (fst t) = fst (fst t)).
  { clear. induction ex as [|x ex IH]; intros [|n shots] l E t Ht; cbn [zip_rows] in E; try discriminate.
    - injection E as <-. destruct Ht.
    - rewrite Nat.eqb_refl in E. destruct (zip_rows ex ex shots) as [l'|] eqn:E'; [|discriminate]. injection E as <-.
      destruct Ht as [<-|Ht]; [reflexivity|eapply IH; eauto]. }
  destruct (zip_rows ex ex shots) as [[|t0 l]|] eqn:E; [discriminate| |discriminate].
  unfold rmap, rbind in H.
  match type of H with Ok ?a = Ok v => assert (Hv : v = a) by congruence end. rewrite Hv. clear H Hv. specialize (Z _ _ _ E).
  match goal with |- context[mean_l (map ?f (t0 :: l))] => rewrite (map_ext_in f (fun _ => 0) (t0 :: l)) end.
  2: { intros t Ht. rewrite (Z t Ht). ring. }
  unfold mean_l. assert (R0 : forall l : list (list R * list R * R), rsum_l (map (fun _ => 0) l) = 0).
  { induction l0 as [|a l0 IH]; cbn [map rsum_l fold_right]; [reflexivity|]. unfold rsum_l in IH. rewrite IH. ring. }
  rewrite R0. unfold Rdiv. rewrite Rmult_0_l. lra.
Qed.
Print Assumptions C103_multinom_norm_offset_refuted.

(** ** Binomial *)
Lemma zip3_rows : forall (rows : list (nat * nat * nat)) (a b c : nat * nat * nat -> R),
  zip3 (map a rows) (map b rows) (map c rows) = Some (map (fun r => (a r, b r, c r)) rows).
Proof. induction rows as [|r rows IH]; intros a b c; [reflexivity|]. cbn [map zip3]. rewrite IH. reflexivity. Qed.
Lemma mean_of_rows : forall f (rows : list (nat * nat * nat)) (a b c : nat * nat * nat -> R), rows <> [] ->
  mean_of f (map a rows) (map b rows) (map c rows) = Ok (mean_l (map (fun r => f (a r) (b r) (c r)) rows)).
Proof.
  intros f rows a b c Hne. unfold mean_of. rewrite zip3_rows. destruct rows as [|r rows]; [congruence|].
  cbn [map]. rewrite map_map. reflexivity.
Qed.

(** shots, measured hits and expected hits of each sequence *)
Definition hit_counts (r : nat * nat * nat) : Prop := let '(n, k, m) := r in (k <= n)%nat /\ (0 < m)%nat /\ (m < n)%nat.
Lemma binom_two : forall lgamma n p k, binom_log_prob lgamma n p k = multinom_log_prob lgamma n [p; 1 - p] [k; n - k].
Proof. intros. unfold binom_log_prob, multinom_log_prob, rsum_l. cbn. ring. Qed.

(** The normalised binomial estimator is not negative, and zero exactly for a perfect simulation. *)
Theorem C103_binom_norm :
  forall lgamma rows stds, log_factorial lgamma -> rows <> [] -> Forall hit_counts rows ->
  let ex := map (fun r => INR (snd (fst r)) / INR (fst (fst r))) rows in
  let sim := map (fun r => INR (snd r) / INR (fst (fst r))) rows in
  exists v, neg_loglkh_binom_norm lgamma ex sim stds (map (fun r => INR (fst (fst r))) rows) = Ok v /\
    0 <= v /\ (v = 0 <-> ex = sim).
Proof.
  intros lgamma rows stds LG Hne HC ex sim. subst ex sim. unfold neg_loglkh_binom_norm. rewrite mean_of_rows by exact Hne.
  cbn [rmap rbind]. eexists. split; [reflexivity|].
  match goal with |- context[mean_l (map ?h rows)] => set (g := h) end.
  assert (G : forall r, In r rows -> g r <= 0 /\ (g r = 0 <-> snd (fst r) = snd r)).
  { intros [[n k] m] Hr. rewrite Forall_forall in HC. destruct (HC _ Hr) as (Hk & Hm & Hn). unfold g. cbn [fst snd].
    assert (N0 : INR n <> 0) by (apply not_0_INR; lia).
    rewrite !binom_two.
    replace (INR k / INR n * INR n) with (INR k) by (field; exact N0). replace (INR m / INR n * INR n) with (INR m) by (field; exact N0).
    pose proof (multinom_diff lgamma n [k; n - k]%nat [m; n - m]%nat LG ltac:(lia) eq_refl) as D.
    cbn [nsum] in D. specialize (D ltac:(lia) ltac:(lia)). unfold freqs in D. cbn [map] in D.
    rewrite !minus_INR in D by lia. replace ((INR n - INR m) / INR n) with (1 - INR m / INR n) in D by (field; exact N0).
    assert (P : Forall (fun m0 => (0 < m0)%nat) [m; (n - m)%nat]) by (repeat constructor; lia).
    rewrite D by exact P. destruct (gterms [k; n - k]%nat [m; n - m]%nat eq_refl P) as [A B]. split; [exact A|]. split.
    - intro Z. cbn [nsum] in B. specialize (B ltac:(lia) Z). injection B as B _. exact B.
    - intros ->. cbn. unfold gterm. ring. }
  destruct (mean_nonpos g rows Hne) as [M1 M2]; [intros r Hr; apply G, Hr|].
  split; [lra|]. split.
  - intro Z. assert (Z' : mean_l (map g rows) = 0) by lra. apply map_ext_in. intros r Hr. do 2 f_equal. apply (G r Hr), (M2 Z' r Hr).
  - intro Z. assert (Z' : forall r, In r rows -> g r = 0).
    { intros r Hr. assert (E : INR (snd (fst r)) / INR (fst (fst r)) = INR (snd r) / INR (fst (fst r))).
      { clear - Z Hr. induction rows as [|a rows IH]; [destruct Hr|]. cbn [map] in Z. injection Z as Z1 Z2. destruct Hr as [<-|Hr]; [exact Z1|auto]. }
      unfold g. rewrite E. ring. }
    rewrite (map_ext_in _ (fun _ => 0) _ Z'). unfold mean_l.
    assert (R0 : forall l : list (nat * nat * nat), rsum_l (map (fun _ => 0) l) = 0).
    { induction l as [|a l IH]; cbn [map rsum_l fold_right]; [reflexivity|]. unfold rsum_l in IH. rewrite IH. ring. }
    rewrite R0. unfold Rdiv. rewrite Rmult_0_l. lra.
Qed.
Print Assumptions C103_binom_norm.

Lemma exp_mean : forall {A} (f : A -> R) (g : A -> R) (l : list A), l <> [] -> (forall x, In x l -> exp (f x) = g x) ->
  exp (INR (length l) * mean_l (map f l)) = prod_l (map g l).
Proof.
  intros A f g l Hne H. unfold mean_l. rewrite map_length.
  replace (INR (length l) * (rsum_l (map f l) / INR (length l))) with (rsum_l (map f l)).
  2: { field. apply not_0_INR. destruct l; [congruence|cbn; lia]. }
  clear Hne. induction l as [|a l IH]; cbn [map rsum_l prod_l fold_right]; [apply exp_0|].
  rewrite exp_plus, (H a) by (left; reflexivity). f_equal. apply IH. intros x Hx. apply H. right. exact Hx.
Qed.
Lemma exp_binom : forall lgamma n p k, log_factorial lgamma -> (k <= n)%nat -> 0 < p < 1 ->
  exp (binom_log_prob lgamma (INR n) p (INR k)) = binom_prob n p k.
Proof.
  intros lgamma n p k LG Hk Hp. unfold binom_log_prob, binom_prob, Binomial.C. rewrite <- minus_INR by exact Hk. rewrite !LG.
  rewrite !exp_plus. unfold Rminus at 1 2. rewrite !exp_plus, !exp_Ropp, !exp_ln by apply fact_pos.
  rewrite !exp_kln by lra. field. split; apply Rgt_not_eq, fact_pos.
Qed.

(** The binomial estimator is the negative logarithm of the geometric mean of the probabilities of the
    measured counts. *)
Theorem C103_binom_likelihood :
  forall lgamma (rows : list (nat * nat * R)) stds v, log_factorial lgamma ->
  Forall (fun r => (0 < fst (fst r))%nat /\ (snd (fst r) <= fst (fst r))%nat /\ 0 < snd r < 1) rows ->
  neg_loglkh_binom lgamma (map (fun r => INR (snd (fst r)) / INR (fst (fst r))) rows) (map snd rows) stds
                   (map (fun r => INR (fst (fst r))) rows) = Ok v ->
  exp (- (INR (length rows) * v)) = prod_l (map (fun r => binom_prob (fst (fst r)) (snd r) (snd (fst r))) rows).
Proof.
  intros lgamma rows stds v LG HC H. unfold neg_loglkh_binom, mean_of in H.
  assert (Z : forall (rows : list (nat * nat * R)) (a b c : nat * nat * R -> R),
     zip3 (map a rows) (map b rows) (map c rows) = Some (map (fun r => (a r, b r, c r)) rows)).
  { clear. induction rows as [|r rows IH]; intros a b c; [reflexivity|]. cbn [map zip3]. rewrite IH. reflexivity. }
  rewrite Z in H. destruct rows as [|r0 rows0] eqn:ER; [discriminate|]. rewrite <- ER in *.
  assert (Hne : rows <> []) by (rewrite ER; discriminate).
  replace (match map (fun r : nat * nat * R => (INR (snd (fst r)) / INR (fst (fst r)), snd r, INR (fst (fst r)))) rows with
           | [] => Err NaNResult
           | _ => Ok (mean_l (map (fun t : R * R * R => binom_log_prob lgamma (snd t) (snd (fst t)) (fst (fst t) * snd t))
              (map (fun r : nat * nat * R => (INR (snd (fst r)) / INR (fst (fst r)), snd r, INR (fst (fst r)))) rows))) end)
    with (Ok (mean_l (map (fun r => binom_log_prob lgamma (INR (fst (fst r))) (snd r) (INR (snd (fst r)) / INR (fst (fst r)) * INR (fst (fst r)))) rows))) in H.
  2: { rewrite ER. cbn [map]. rewrite map_map. reflexivity. }
  cbn [rmap rbind] in H. injection H as <-. rewrite Ropp_mult_distr_r, Ropp_involutive. apply exp_mean; [exact Hne|].
  intros [[n k] p] Hr. rewrite Forall_forall in HC. destruct (HC _ Hr) as (Hn & Hk & Hp). cbn [fst snd] in *.
  replace (INR k / INR n * INR n) with (INR k) by (field; apply not_0_INR; lia). apply exp_binom; auto.
Qed.
Print Assumptions C103_binom_likelihood.

Lemma exp_rsum_neg_lnfact : forall lgamma ks, log_factorial lgamma ->
  exp (rsum_l (map (fun k => lgamma (k + 1)) (map INR ks))) = prod_l (map (fun k => INR (fact k)) ks).
Proof.
  intros lgamma ks LG. induction ks as [|k ks IH]; cbn [map rsum_l prod_l fold_right]; [apply exp_0|].
  rewrite exp_plus, LG, exp_ln by apply fact_pos. f_equal. exact IH.
Qed.
Lemma exp_rsum_kln : forall ks ps, Forall (fun p => 0 < p) ps ->
  exp (rsum_l (map (fun kp => fst kp * ln (snd kp)) (combine (map INR ks) ps))) = prod_l (map (fun kp => snd kp ^ fst kp) (combine ks ps)).
Proof.
  induction ks as [|k ks IH]; intros [|p ps] H; cbn [map combine rsum_l prod_l fold_right]; try apply exp_0.
  inversion H as [|? ? H1 H2]; subst. cbn [fst snd]. rewrite exp_plus, exp_kln by exact H1. f_equal. apply IH, H2.
Qed.

(** The same for the multinomial estimator. *)
Theorem C103_multinom_likelihood :
  forall lgamma (rows : list (nat * list nat * list R)) stds v, log_factorial lgamma ->
  Forall (fun r => (0 < fst (fst r))%nat /\ Forall (fun p => 0 < p) (snd r)) rows ->
  neg_loglkh_multinom lgamma (map (fun r => freqs (fst (fst r)) (snd (fst r))) rows) (map snd rows) stds
                      (map (fun r => INR (fst (fst r))) rows) = Ok v ->
  exp (- (INR (length rows) * v)) = prod_l (map (fun r => multinom_prob (fst (fst r)) (snd r) (snd (fst r))) rows).
Proof.
  intros lgamma rows stds v LG HC H. unfold neg_loglkh_multinom, mean_rows in H.
  assert (Z : forall (rows : list (nat * list nat * list R)) l,
     zip_rows (map (fun r => freqs (fst (fst r)) (snd (fst r))) rows) (map snd rows) (map (fun r => INR (fst (fst r))) rows) = Some l ->
     l = map (fun r => (freqs (fst (fst r)) (snd (fst r)), snd r, INR (fst (fst r)))) rows).
  { clear. induction rows as [|r rows IH]; intros l E; cbn [map zip_rows] in E; [injection E as <-; reflexivity|].
    destruct (Nat.eqb _ _); [|discriminate].
    destruct (zip_rows (map (fun r0 => freqs (fst (fst r0)) (snd (fst r0))) rows) (map snd rows) (map (fun r0 => INR (fst (fst r0))) rows)) as [l'|] eqn:E'; [|discriminate].
    injection E as <-. cbn [map]. f_equal. apply IH. reflexivity. }
  destruct (zip_rows _ _ _) as [l|] eqn:E; [|discriminate]. specialize (Z _ _ E). subst l.
  destruct rows as [|r0 rows0] eqn:ER; [discriminate|]. rewrite <- ER in *.
  assert (Hne : rows <> []) by (rewrite ER; discriminate).
  replace (match map (fun r : nat * list nat * list R => (freqs (fst (fst r)) (snd (fst r)), snd r, INR (fst (fst r)))) rows with
           | [] => Err NaNResult
           | _ => Ok (mean_l (map (fun t : list R * list R * R => multinom_log_prob lgamma (snd t) (snd (fst t)) (map (fun v0 => v0 * snd t) (fst (fst t))))
              (map (fun r : nat * list nat * list R => (freqs (fst (fst r)) (snd (fst r)), snd r, INR (fst (fst r)))) rows))) end)
    with (Ok (mean_l (map (fun r => multinom_log_prob lgamma (INR (fst (fst r))) (snd r) (map (fun v0 => v0 * INR (fst (fst r))) (freqs (fst (fst r)) (snd (fst r))))) rows))) in H.
  2: { rewrite ER. cbn [map]. rewrite map_map. reflexivity. }
  cbn [rmap rbind] in H. injection H as <-. rewrite Ropp_mult_distr_r, Ropp_involutive. apply exp_mean; [exact Hne|].
  intros [[n ks] ps] Hr. rewrite Forall_forall in HC. destruct (HC _ Hr) as (Hn & Hp). cbn [fst snd] in *.
  rewrite freqs_back by exact Hn. unfold multinom_log_prob, multinom_prob. rewrite exp_plus. unfold Rminus. rewrite exp_plus, exp_Ropp.
  rewrite LG, exp_ln by apply fact_pos. rewrite exp_rsum_neg_lnfact, exp_rsum_kln by assumption. reflexivity.
Qed.
Print Assumptions C103_multinom_likelihood.

(** The likelihoods of all possible numbers of hits add up to one. *)
Theorem C103_binom_normalised :
  forall lgamma n p stds v, log_factorial lgamma -> (0 < n)%nat -> 0 < p < 1 ->
  (forall k, (k <= n)%nat -> neg_loglkh_binom lgamma [INR k / INR n] [p] stds [INR n] = Ok (v k)) ->
  sum_f_R0 (fun k => exp (- v k)) n = 1.
Proof.
  intros lgamma n p stds v LG Hn Hp H.
  assert (E : forall k, (k <= n)%nat -> exp (- v k) = Binomial.C n k * p ^ k * (1 - p) ^ (n - k)).
  { intros k Hk. pose proof (C103_binom_likelihood lgamma [(n, k, p)] stds (v k) LG) as L. cbn [map fst snd length] in L.
    specialize (L ltac:(repeat constructor; cbn; lia || lra) (H k Hk)). cbn in L. rewrite Rmult_1_l, Rmult_1_r in L. exact L. }
  rewrite (sum_eq _ _ _ E), <- binomial. replace (p + (1 - p)) with 1 by ring. apply pow1.
Qed.
Print Assumptions C103_binom_normalised.

(** ** The median *)
Lemma insert_perm : forall x l, Permutation (x :: l) (insert x l).
Proof.
  intros x l. induction l as [|y l IH]; cbn [insert]; [reflexivity|]. destruct (Rle_dec x y); [reflexivity|].
  rewrite perm_swap. constructor. exact IH.
Qed.
Lemma isort_perm : forall l, Permutation l (isort l).
Proof. induction l as [|x l IH]; [constructor|]. cbn [isort]. rewrite <- insert_perm. constructor. exact IH. Qed.
Lemma insert_sorted : forall x l, StronglySorted Rle l -> StronglySorted Rle (insert x l).
Proof.
  intros x l H. induction H as [|y l HS IH HF]; cbn [insert]; [repeat constructor|]. destruct (Rle_dec x y) as [L|L].
  - constructor; [constructor; assumption|]. constructor; [exact L|]. eapply Forall_impl; [|exact HF]. intros z Hz. cbn in *. lra.
  - constructor; [exact IH|]. apply Forall_forall. intros z Hz. apply (Permutation_in _ (Permutation_sym (insert_perm x l))) in Hz.
    destruct Hz as [<-|Hz]; [lra|]. rewrite Forall_forall in HF. apply HF, Hz.
Qed.
Lemma isort_sorted : forall l, StronglySorted Rle (isort l).
Proof. induction l as [|x l IH]; [constructor|]. apply insert_sorted, IH. Qed.
Lemma sorted_nth : forall l, StronglySorted Rle l -> forall i j, (i <= j)%nat -> (j < length l)%nat -> nth i l 0 <= nth j l 0.
Proof.
  intros l H. induction H as [|x l HS IH HF]; intros i j Hij Hj; cbn [length] in Hj; [lia|].
  destruct i as [|i], j as [|j]; cbn [nth]; [lra| |lia|apply IH; lia].
  rewrite Forall_forall in HF. apply HF, nth_In. lia.
Qed.
Definition at_most (r : R) (l : list R) : nat := length (filter (fun x => if Rle_dec x r then true else false) l).
Definition at_least (r : R) (l : list R) : nat := length (filter (fun x => if Rle_dec r x then true else false) l).
Lemma perm_filter : forall {A} (f : A -> bool) l l', Permutation l l' -> length (filter f l) = length (filter f l').
Proof.
  intros A f l l' H. induction H as [|x l l' H IH|x y l|l l' l'' H1 I1 H2 I2]; cbn [filter]; [reflexivity| | |congruence].
  - destruct (f x); cbn; congruence.
  - destruct (f x), (f y); reflexivity.
Qed.
Lemma filter_prefix : forall (f : R -> bool) l k, (k <= length l)%nat -> (forall i, (i < k)%nat -> f (nth i l 0) = true) -> (k <= length (filter f l))%nat.
Proof.
  intros f l. induction l as [|x l IH]; intros k Hk H; cbn [length] in Hk; [lia|]. destruct k as [|k]; [lia|].
  pose proof (H 0%nat ltac:(lia)) as H0. cbn [nth] in H0. cbn [filter]. rewrite H0. cbn [length]. apply le_n_S, IH; [lia|].
  intros i Hi. apply (H (S i)). lia.
Qed.
Lemma filter_suffix : forall (f : R -> bool) l k, (forall i, (k <= i)%nat -> (i < length l)%nat -> f (nth i l 0) = true) -> (length l - k <= length (filter f l))%nat.
Proof.
  intros f l. induction l as [|x l IH]; intros k H; cbn [length filter]; [lia|]. destruct k as [|k].
  - pose proof (H 0%nat ltac:(lia) ltac:(cbn; lia)) as H0. cbn [nth] in H0. rewrite H0. cbn [length].
    assert (G : (length l - 0 <= length (filter f l))%nat) by (apply IH; intros i _ Hi; apply (H (S i)); cbn; lia). lia.
  - assert (G : (length l - k <= length (filter f l))%nat) by (apply IH; intros i Hk Hi; apply (H (S i)); cbn; lia).
    destruct (f x); cbn [length]; lia.
Qed.
Lemma zip3_map : forall ex sim l, zip3 ex sim ex = Some l ->
  map (fun t => Rabs (fst (fst t) - snd (fst t))) l = map (fun p => Rabs (fst p - snd p)) (combine ex sim) /\ length l = length ex.
Proof.
  induction ex as [|x ex IH]; intros [|y sim] l E; cbn [zip3] in E; try discriminate; [injection E as <-; split; reflexivity|].
  destruct (zip3 ex sim ex) as [l'|] eqn:E'; [|discriminate]. injection E as <-. destruct (IH _ _ E') as [A B].
  cbn [map combine length fst snd]. rewrite A, B. split; reflexivity.
Qed.

(** [median_dist] is a median of the absolute differences: at least half of them are at most as large, and
    at least half of them are at least as large; it is the middle one for an odd number of values. *)
Theorem C103_median :
  forall ex sim stds shots r, median_dist ex sim stds shots = Ok r ->
  let d := map (fun p => Rabs (fst p - snd p)) (combine ex sim) in
  (length d <= 2 * at_most r d)%nat /\ (length d <= 2 * at_least r d)%nat /\ (Nat.Odd (length d) -> In r d).
Proof.
  intros ex sim stds shots r H d. unfold median_dist in H. destruct (zip3 ex sim ex) as [[|t l]|] eqn:E; [discriminate| |discriminate].
  match type of H with Ok ?a = Ok r => assert (Hr : r = a) by congruence end. destruct (zip3_map _ _ _ E) as [A _].
  rewrite A in Hr. fold d in Hr. rewrite Hr. clear H Hr r.
  assert (L : (0 < length d)%nat) by (unfold d; rewrite <- A, map_length; cbn; lia). clearbody d. clear A E t l.
  unfold percentile50. set (s := isort d). set (k := (length d - 1)%nat).
  pose proof (isort_perm d) as P. fold s in P. pose proof (Permutation_length P) as PL. pose proof (isort_sorted d) as SO. fold s in SO.
  pose proof (Nat.div_mod k 2 ltac:(lia)) as D1. pose proof (Nat.mod_upper_bound k 2 ltac:(lia)) as B1.
  pose proof (Nat.div_mod (k + 1) 2 ltac:(lia)) as D2. pose proof (Nat.mod_upper_bound (k + 1) 2 ltac:(lia)) as B2.
  set (i := (k / 2)%nat) in *. set (j := ((k + 1) / 2)%nat) in *.
  assert (Hij : (i <= j)%nat) by lia. assert (Hj : (j < length s)%nat) by lia.
  pose proof (sorted_nth s SO i j Hij Hj) as N. set (r := (nth i s 0 + nth j s 0) / 2).
  assert (R1 : nth i s 0 <= r) by (unfold r; lra). assert (R2 : r <= nth j s 0) by (unfold r; lra). split; [|split].
  - unfold at_most. rewrite (perm_filter _ _ _ P).
    pose proof (filter_prefix (fun x => if Rle_dec x r then true else false) s (S i) ltac:(lia)) as F.
    assert (F' : (S i <= length (filter (fun x => if Rle_dec x r then true else false) s))%nat).
    { apply F. intros a Ha. pose proof (sorted_nth s SO a i ltac:(lia) ltac:(lia)). destruct (Rle_dec (nth a s 0) r); [reflexivity|lra]. }
    lia.
  - unfold at_least. rewrite (perm_filter _ _ _ P).
    assert (F : (length s - j <= length (filter (fun x => if Rle_dec r x then true else false) s))%nat).
    { apply filter_suffix. intros a Ha Hl. pose proof (sorted_nth s SO j a ltac:(lia) Hl). destruct (Rle_dec r (nth a s 0)); [reflexivity|lra]. }
    lia.
  - intros [q Hq]. assert (EE : i = j) by lia. unfold r. rewrite <- EE. replace ((nth i s 0 + nth i s 0) / 2) with (nth i s 0) by field.
    apply (Permutation_in _ (Permutation_sym P)), nth_In. lia.
Qed.
Print Assumptions C103_median.

(** Finding: unlike the other distances, the median does not tell a perfect simulation from one that
    misses a minority of the points by any amount. *)
Theorem C103_median_ignores_outliers_refuted :
  forall x y, median_dist [0; 0; x] [0; 0; y] [] [] = Ok 0.
Proof.
  intros x y. unfold median_dist. cbn [zip3 map fst snd]. replace (0 - 0) with 0 by ring. rewrite Rabs_R0. unfold percentile50.
  cbn [length isort insert Nat.sub Nat.div Nat.add]. pose proof (Rabs_pos (x - y)) as Q. f_equal.
  destruct (Rle_dec 0 (Rabs (x - y))) as [L|L]; [|lra]. cbn [insert]. destruct (Rle_dec 0 0) as [L0|L0]; [|lra]. cbn. lra.
Qed.
Print Assumptions C103_median_ignores_outliers_refuted.

(** The hypotheses of [C103_multinom_norm] and [C103_binom_norm] are met by a log-gamma function that is
    right at the integers, with 3 sequences of different numbers of shots. *)
Example C103_example :
  (exists lgamma, log_factorial lgamma) /\
  Forall counted [(6, [1; 2; 3], [2; 2; 2]); (4, [0; 0; 4], [1; 1; 2]); (3, [1; 1; 1], [1; 1; 1])]%nat /\
  Forall hit_counts [(10, 10, 9); (4, 0, 1)]%nat.
Proof.
  split; [|split].
  - exists (fun x => ln (INR (fact (Z.to_nat (Int_part (x - 1)))))). intro k. do 3 f_equal.
    replace (INR k + 1 - 1) with (INR k) by ring. rewrite Int_part_INR. apply Nat2Z.id.
  - repeat constructor.
  - repeat constructor; lia.
Qed.
