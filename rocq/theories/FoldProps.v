(** Ordered products, batching and sequences: C21-C24, C26. *)
From Verif Require Import Base FoldModel FoldProofs.
Local Open Scope list_scope.
Local Notation length := List.length.

(** Specification: U_n ... U_2 U_1 (later factor on the left) as a relation,
    independent of any folding order. *)
Inductive TimeOrdered {M} (mul : M -> M -> M) : list M -> M -> Prop :=
| TO_one : forall u, TimeOrdered mul [u] u
| TO_snoc : forall us u p, TimeOrdered mul us p -> TimeOrdered mul (us ++ [u]) (mul u p).

(** U_1 U_2 ... U_n (later factor on the right). *)
Inductive ReverseOrdered {M} (mul : M -> M -> M) : list M -> M -> Prop :=
| RO_one : forall u, ReverseOrdered mul [u] u
| RO_snoc : forall us u p, ReverseOrdered mul us p -> ReverseOrdered mul (us ++ [u]) (mul p u).

Lemma lprod_time_ordered : forall M (mul : M -> M -> M) l a, TimeOrdered mul (a :: l) (lprod mul a l).
Proof.
  intros M mul l a. induction l as [|x l IH] using rev_ind.
  - constructor.
  - rewrite lprod_app. simpl. change (a :: l ++ [x]) with ((a :: l) ++ [x]). constructor; auto.
Qed.
Lemma rprod_rev_ordered : forall M (mul : M -> M -> M) l a, ReverseOrdered mul (a :: l) (rprod mul a l).
Proof.
  intros M mul l a. induction l as [|x l IH] using rev_ind.
  - constructor.
  - rewrite rprod_app. simpl. change (a :: l ++ [x]) with ((a :: l) ++ [x]). constructor; auto.
Qed.
Lemma time_ordered_unique : forall M (mul : M -> M -> M) l p q,
    TimeOrdered mul l p -> TimeOrdered mul l q -> p = q.
Proof.
  intros M mul l p q H. revert q. induction H as [u|us u p H IH]; intros q Hq.
  - inversion Hq as [u' E|us' u' p' H' E]; subst; auto.
    apply app_eq_unit in E. destruct E as [[-> E]|[_ E]]; [|discriminate].
    inversion H'. destruct us; discriminate.
  - inversion Hq as [u' E|us' u' p' H' E]; subst.
    + symmetry in E. apply app_eq_unit in E. destruct E as [[-> E]|[_ E]]; [|discriminate].
      inversion H. destruct us; discriminate.
    + apply app_inj_tail in E. destruct E as [-> ->]. f_equal. apply IH. auto.
Qed.

(** C21: the folded product over the stack computed for [n] slices is the
    time-ordered product of the [n] slice propagators, for every n >= 1. *)
Theorem C21_folded_product :
  forall (M : Type) (mul : M -> M -> M), (forall a b c, mul a (mul b c) = mul (mul a b) c) ->
  forall us, us <> [] ->
  exists p, tf_matmul_n mul us (folding_stack (length us)) = Ok p /\ TimeOrdered mul us p.
Proof.
  intros M mul Ha [|u us] Hne; [congruence|].
  exists (lprod mul u us). split.
  - apply (fold_ok mul Ha (length (u :: us)) (u :: us)); auto.
  - apply lprod_time_ordered.
Qed.
Print Assumptions C21_folded_product.

(** The stack is not self-correcting: if the simulation resolution and the
    generator disagree about the number of slices, the product silently misses
    slices.  (Words over nat stand for matrices.) *)
Theorem C21_stack_mismatch_refuted :
  ~ (forall (M : Type) (mul : M -> M -> M), (forall a b c, mul a (mul b c) = mul (mul a b) c) ->
     forall us n p, us <> [] -> 0 < n ->
     tf_matmul_n mul us (folding_stack n) = Ok p -> TimeOrdered mul us p).
Proof.
  intro H.
  specialize (H (list nat) (@app nat) (@app_assoc nat) [[1]; [2]; [3]] 2 [2; 1]
                ltac:(discriminate) ltac:(lia) eq_refl).
  pose proof (time_ordered_unique _ _ _ _ _ H (lprod_time_ordered _ (@app nat) [[2]; [3]] [1])) as E.
  discriminate.
Qed.
Print Assumptions C21_stack_mismatch_refuted.

Example C21_example :
  tf_matmul_n (@app nat) [[1]; [2]; [3]; [4]; [5]; [6]; [7]] (folding_stack 7)
  = Ok [7; 6; 5; 4; 3; 2; 1].
Proof. reflexivity. Qed.

(** C22 *)
Theorem C22_left_right_products :
  forall (M : Type) (mul : M -> M -> M), (forall a b c, mul a (mul b c) = mul (mul a b) c) ->
  forall us, us <> [] ->
  (exists p, tf_matmul_left mul us = Ok p /\ TimeOrdered mul us p
             /\ tf_matmul_n mul us (folding_stack (length us)) = Ok p)
  /\ (exists q, tf_matmul_right mul us = Ok q /\ ReverseOrdered mul us q).
Proof.
  intros M mul Ha [|u us] Hne; [congruence|]. split.
  - exists (lprod mul u us). split; [apply left_ok; auto|]. split; [apply lprod_time_ordered|].
    apply (fold_ok mul Ha (length (u :: us)) (u :: us)); auto.
  - exists (rprod mul u us). split; [|apply rprod_rev_ordered].
    unfold tf_matmul_right. rewrite fold_left_rprod. reflexivity.
Qed.
Print Assumptions C22_left_right_products.

Theorem C22_concatenation :
  forall (M : Type) (mul : M -> M -> M), (forall a b c, mul a (mul b c) = mul (mul a b) c) ->
  forall us vs p q,
  (tf_matmul_left mul us = Ok p -> tf_matmul_left mul vs = Ok q ->
     tf_matmul_left mul (us ++ vs) = Ok (mul q p))
  /\ (tf_matmul_right mul us = Ok p -> tf_matmul_right mul vs = Ok q ->
     tf_matmul_right mul (us ++ vs) = Ok (mul p q)).
Proof.
  intros M mul Ha us vs p q. split.
  - destruct us as [|u us]; [discriminate|]. destruct vs as [|v vs]; [discriminate|].
    cbn [app]. rewrite !left_ok by auto. intros [= <-] [= <-]. f_equal.
    rewrite lprod_app, lprod_cons; auto.
  - destruct us as [|u us]; [discriminate|]. destruct vs as [|v vs]; [discriminate|].
    unfold tf_matmul_right. cbn [app]. rewrite !fold_left_rprod. intros [= <-] [= <-]. f_equal.
    rewrite rprod_app. simpl. apply rprod_mul; auto.
Qed.
Print Assumptions C22_concatenation.

(** Empty products are refused. *)
Theorem C22_empty_product_refused :
  forall (M : Type) (mul : M -> M -> M),
  tf_matmul_left mul [] = Err ValueError /\ tf_matmul_right mul [] = Err ValueError.
Proof. split; reflexivity. Qed.
Print Assumptions C22_empty_product_refused.

Example C22_example :
  tf_matmul_left (@app nat) [[1]; [2]; [3]] = Ok [3; 2; 1]
  /\ tf_matmul_right (@app nat) [[1]; [2]; [3]] = Ok [1; 2; 3].
Proof. split; reflexivity. Qed.

(** C23: batching.  Specification: slice [t] of the result is the propagator of
    the Hamiltonian with the signal values at time [t], whatever the batch size. *)
Theorem C23_batching :
  forall (K H : Type) hadd hscale (hzero : H) expm lind_kernel lindbladian (z : K) h0 hks signals mi_dt b,
  0 < b ->
  (forall ch, In ch signals -> length ch = width signals) ->
  exists us, batch_propagate hadd hscale hzero expm lind_kernel lindbladian z h0 hks signals mi_dt b = Ok us
  /\ length us = width signals
  /\ forall t, t < width signals ->
     nth_error us t =
     Some (slice_prop hscale expm lind_kernel lindbladian mi_dt
             (slice_ham hadd hscale hzero h0 hks (map (fun ch => nth t ch z) signals))).
Proof.
  intros K H hadd hscale hzero expm lk lb z h0 hks signals mi_dt b Hb Hw.
  unfold batch_propagate. rewrite (proj2 (Nat.eqb_neq b 0)) by lia.
  eexists; split; [reflexivity|].
  assert (E : List.concat
      (map (fun i => propagate_vec hadd hscale hzero expm lk lb z h0 hks
                       (map (pslice (i * b) b) signals) mi_dt)
           (seq 0 (num_batches (width signals) b)))
     = map (fun t => slice_prop hscale expm lk lb mi_dt
                       (slice_ham hadd hscale hzero h0 hks (column z signals t)))
           (seq 0 (width signals))).
  { pose proof (pslice_concat b (seq 0 (width signals)) (num_batches (width signals) b) Hb) as PC.
    rewrite seq_length in PC. specialize (PC (num_batches_cover _ _ Hb)).
    symmetry. rewrite <- PC at 1. symmetry.
    rewrite concat_map, map_map. f_equal. apply map_ext. intro i.
    unfold propagate_vec.
    assert (W : width (map (pslice (i * b) b) signals) = Nat.min b (width signals - i * b)).
    { destruct signals as [|ch r]; simpl.
      - lia.
      - apply pslice_length. }
    rewrite W, pslice_seq.
    apply nth_ext with (d := hzero) (d' := hzero).
    - rewrite !map_length, !seq_length. reflexivity.
    - intros t Ht. rewrite map_length, seq_length in Ht.
      rewrite !(nth_indep _ hzero (slice_prop hscale expm lk lb mi_dt
                       (slice_ham hadd hscale hzero h0 hks (column z signals 0))))
        by (rewrite map_length, seq_length; auto).
      rewrite (map_nth (fun t => slice_prop hscale expm lk lb mi_dt
                       (slice_ham hadd hscale hzero h0 hks (column z signals t)))).
      rewrite (nth_indep _ _ (slice_prop hscale expm lk lb mi_dt
                       (slice_ham hadd hscale hzero h0 hks (column z (map (pslice (i * b) b) signals) 0))))
        by (rewrite map_length, seq_length; auto).
      rewrite (map_nth (fun t => slice_prop hscale expm lk lb mi_dt
                       (slice_ham hadd hscale hzero h0 hks (column z (map (pslice (i * b) b) signals) t)))).
      rewrite !seq_nth by auto. do 2 f_equal.
      unfold column. rewrite map_map. apply map_ext_in. intros ch Hch.
      apply nth_pslice. lia. }
  rewrite E. split.
  - rewrite map_length, seq_length. reflexivity.
  - intros t Ht. rewrite nth_error_map.
    rewrite (nth_error_nth' _ 0) by (rewrite seq_length; auto).
    rewrite seq_nth by auto. reflexivity.
Qed.
Print Assumptions C23_batching.

(** Hence two batch sizes give the same result. *)
Theorem C23_batch_size_irrelevant :
  forall (K H : Type) hadd hscale (hzero : H) expm lind_kernel lindbladian (z : K) h0 hks signals mi_dt b b',
  0 < b -> 0 < b' -> (forall ch, In ch signals -> length ch = width signals) ->
  batch_propagate hadd hscale hzero expm lind_kernel lindbladian z h0 hks signals mi_dt b
  = batch_propagate hadd hscale hzero expm lind_kernel lindbladian z h0 hks signals mi_dt b'.
Proof.
  intros K H hadd hscale hzero expm lk lb z h0 hks signals mi_dt b b' Hb Hb' Hw.
  destruct (C23_batching K H hadd hscale hzero expm lk lb z h0 hks signals mi_dt b Hb Hw) as (us & -> & L & N).
  destruct (C23_batching K H hadd hscale hzero expm lk lb z h0 hks signals mi_dt b' Hb' Hw) as (vs & -> & L' & N').
  f_equal. apply nth_ext with (d := hzero) (d' := hzero); [congruence|].
  intros t Ht. rewrite L in Ht.
  rewrite (nth_error_nth us t hzero (N t Ht)), (nth_error_nth vs t hzero (N' t Ht)).
  reflexivity.
Qed.
Print Assumptions C23_batch_size_irrelevant.

(** Time-dependent Hamiltonian without control signals. *)
Theorem C23_batching_hamiltonian :
  forall (K H : Type) (hscale : K -> H -> H) expm lind_kernel hs mi_dt b, 0 < b ->
  batch_propagate_h hscale expm lind_kernel false hs mi_dt b = Ok (map (fun h => expm (hscale mi_dt h)) hs).
Proof.
  intros. unfold batch_propagate_h. rewrite (proj2 (Nat.eqb_neq b 0)) by lia. f_equal.
  symmetry. rewrite <- (pslice_concat b hs (num_batches (length hs) b)) at 1; auto.
  - rewrite concat_map, map_map. reflexivity.
  - apply num_batches_cover; auto.
Qed.
Print Assumptions C23_batching_hamiltonian.

(** The open-system branch without control signals never works: a model with
    [controllability = False] and [lindbladian = True] cannot be propagated. *)
Theorem C23_lindblad_without_controls_refuted :
  forall (K H : Type) (hscale : K -> H -> H) expm lind_kernel hs mi_dt b, hs <> [] ->
  exists e, batch_propagate_h hscale expm lind_kernel true hs mi_dt b = Err e.
Proof.
  intros K H hscale expm lk [|h hs] mi_dt b Hn; [congruence|].
  unfold batch_propagate_h. destruct (Nat.eqb b 0); eexists; reflexivity.
Qed.
Print Assumptions C23_lindblad_without_controls_refuted.

Example C23_example :
  batch_propagate Nat.add Nat.mul 0 S S false 0 1 [10; 100] [[1;2;3;4;5]; [6;7;8;9;10]] 1 2
  = Ok [612; 722; 832; 942; 1052].
Proof. reflexivity. Qed.

(** C24.  [one] is the identity matrix of the dimension at hand. *)
(** Specification: the time-ordered product of a possibly empty list. *)
Definition TimeOrdered1 {M} (mul : M -> M -> M) (one : M) (us : list M) (p : M) : Prop :=
  (us = [] /\ p = one) \/ TimeOrdered mul us p.

Theorem C24_sequence_is_time_ordered_product :
  forall (M : Type) (mul : M -> M -> M) (one : M) (eye : M -> M),
  (forall a b c, mul a (mul b c) = mul (mul a b) c) -> (forall u, eye u = one) ->
  forall props seqs us,
  evaluate_sequences mul eye props seqs = Ok us ->
  Forall2 (fun s u => exists gs, Forall2 (fun k g => dget k props = Some g) s gs
                                 /\ TimeOrdered1 mul one gs u) seqs us.
Proof.
  intros M mul one eye Ha He props seqs. revert props.
  assert (L : forall props s gs, lookups (dlook props) s = Ok gs ->
              Forall2 (fun k g => @dget M k props = Some g) s gs).
  { intros props s. induction s as [|k s IH]; simpl; intros gs H.
    - inversion H. constructor.
    - unfold dlook in H at 1. destruct (dget k props) as [g|] eqn:E; simpl in H; [|discriminate].
      destruct (lookups (dlook props) s) as [gs'|]; simpl in H; [|discriminate].
      inversion H; subst. constructor; auto. }
  induction seqs as [|s seqs IH]; intros props us H.
  - destruct props; simpl in H; [discriminate|]. inversion H. constructor.
  - destruct props as [|[k0 u0] props]; [discriminate|].
    cbn [evaluate_sequences] in H.
    destruct (evaluate_sequence mul eye ((k0, u0) :: props) s) as [u|] eqn:E; [|discriminate].
    cbn [rbind] in H.
    destruct (evaluate_sequences mul eye ((k0, u0) :: props) seqs) as [us'|] eqn:E'; [|discriminate].
    cbn [rbind] in H. inversion H; subst. constructor; [|eapply IH; eauto].
    unfold evaluate_sequence in E. destruct s as [|k s].
    + inversion E; subst. exists []. split; [constructor|]. left. auto.
    + destruct (lookups (dlook ((k0, u0) :: props)) (k :: s)) as [gs|] eqn:EL; [|discriminate].
      cbn [rbind] in E. exists gs. split; [apply L; auto|]. right.
      destruct gs as [|g gs]; [discriminate|]. rewrite left_ok in E by auto. inversion E; subst.
      apply lprod_time_ordered.
Qed.
Print Assumptions C24_sequence_is_time_ordered_product.

(** Composition: the propagator of s1 ++ s2 is P(s2) P(s1), including empty
    parts. *)
Theorem C24_composition :
  forall (M : Type) (mul : M -> M -> M) (one : M) (eye : M -> M),
  (forall a b c, mul a (mul b c) = mul (mul a b) c) -> (forall u, eye u = one) ->
  (forall a, mul one a = a) -> (forall a, mul a one = a) ->
  forall props s1 s2 p q,
  evaluate_sequences mul eye props [s1; s2] = Ok [p; q] ->
  evaluate_sequences mul eye props [s1 ++ s2] = Ok [mul q p].
Proof.
  intros M mul one eye Ha He Hl Hr [|[k0 u0] props] s1 s2 p q H; [discriminate|].
  set (d := (k0, u0) :: props) in *.
  assert (App : forall (look : string -> result M) a b, lookups look (a ++ b) =
      rbind (lookups look a) (fun x => rbind (lookups look b) (fun y => Ok (x ++ y)))).
  { clear. intros look a b. induction a as [|k a IH]; simpl.
    - destruct (lookups look b); auto.
    - destruct (look k); simpl; auto. rewrite IH.
      destruct (lookups look a); simpl; auto. destruct (lookups look b); auto. }
  assert (E : evaluate_sequence mul eye d s1 = Ok p /\ evaluate_sequence mul eye d s2 = Ok q).
  { cbn [evaluate_sequences d] in H. fold d in H.
    destruct (evaluate_sequence mul eye d s1); [|discriminate].
    cbn [rbind] in H. destruct (evaluate_sequence mul eye d s2); [|discriminate].
    cbn [rbind] in H. inversion H; auto. }
  destruct E as [E1 E2].
  assert (E : evaluate_sequence mul eye d (s1 ++ s2) = Ok (mul q p)).
  { destruct s1 as [|k1 s1].
    { simpl in E1. inversion E1. rewrite He, Hr. exact E2. }
    destruct s2 as [|k2 s2].
    { simpl in E2. inversion E2. rewrite He, Hl, app_nil_r. exact E1. }
    unfold evaluate_sequence, d in E1, E2 |- *. fold d in E1, E2 |- *.
    change ((k1 :: s1) ++ k2 :: s2) with (k1 :: (s1 ++ k2 :: s2)).
    change (k1 :: (s1 ++ k2 :: s2)) with ((k1 :: s1) ++ (k2 :: s2)).
    rewrite App.
    destruct (lookups (dlook d) (k1 :: s1)) as [g1|]; [|discriminate].
    destruct (lookups (dlook d) (k2 :: s2)) as [g2|]; [|discriminate].
    cbn [rbind] in *. apply (proj1 (C22_concatenation M mul Ha g1 g2 p q)); auto. }
  cbn [evaluate_sequences d]. fold d. rewrite E. reflexivity.
Qed.
Print Assumptions C24_composition.

(** Unknown gates raise; known ones never do. *)
Theorem C24_unknown_gate_raises :
  forall (M : Type) (mul : M -> M -> M) (eye : M -> M) props seqs,
  props <> [] ->
  is_ok (evaluate_sequences mul eye props seqs) = true
  <-> (forall s k, In s seqs -> In k s -> dget k props <> None).
Proof.
  intros M mul eye props seqs Hp.
  assert (L : forall s, is_ok (lookups (dlook props) s) = true <-> forall k, In k s -> @dget M k props <> None).
  { induction s as [|k s IH]; simpl; [intuition|].
    unfold dlook at 1. destruct (dget k props) eqn:E; simpl.
    - destruct (lookups (dlook props) s) eqn:El; simpl.
      + split; auto. intros _ k' [->|Hk]; [congruence|]. apply IH; auto.
      + split; [discriminate|]. intro H. apply IH. intros; apply H; auto.
    - split; [discriminate|]. intro H. exfalso. apply (H k); auto. }
  assert (S : forall s, is_ok (evaluate_sequence mul eye props s) = true <-> forall k, In k s -> @dget M k props <> None).
  { intro s. rewrite <- L. unfold evaluate_sequence. destruct props as [|[k0 u0] r]; [congruence|].
    destruct s as [|k s]; [simpl; tauto|].
    destruct (lookups (dlook ((k0, u0) :: r)) (k :: s)) as [gs|] eqn:E; cbn [rbind]; [|simpl; tauto].
    assert (gs <> []).
    { intros ->. simpl in E. unfold rbind in E. destruct (dlook _ k); try discriminate.
      destruct (lookups _ s); discriminate. }
    unfold tf_matmul_left. destruct (rev gs) eqn:R; [|simpl; tauto].
    apply (f_equal (@rev M)) in R. rewrite rev_involutive in R. contradiction. }
  induction seqs as [|s seqs IH].
  - destruct props; [congruence|]. simpl. intuition.
  - assert (E : evaluate_sequences mul eye props (s :: seqs) =
               rbind (evaluate_sequence mul eye props s) (fun u =>
               rbind (evaluate_sequences mul eye props seqs) (fun us => Ok (u :: us)))).
    { destruct props; [congruence|reflexivity]. }
    rewrite E. pose proof (S s) as Ss.
    destruct (evaluate_sequence mul eye props s); cbn [rbind is_ok] in *.
    + destruct (evaluate_sequences mul eye props seqs); cbn [rbind is_ok] in *.
      * split; auto. intros _ s' k [->|Hs] Hk; [apply Ss; auto|apply (proj1 IH eq_refl s'); auto].
      * split; [discriminate|]. intro H. apply IH. intros; eapply H; simpl; eauto.
    + split; [discriminate|]. intro H. apply Ss. intros; eapply H; simpl; eauto.
Qed.
Print Assumptions C24_unknown_gate_raises.

(** An empty propagator table is refused even for empty sequences. *)
Theorem C24_empty_table_refused :
  forall (M : Type) (mul : M -> M -> M) (eye : M -> M) seqs,
  evaluate_sequences mul eye [] seqs = Err IndexError.
Proof. intros. destruct seqs; reflexivity. Qed.
Print Assumptions C24_empty_table_refused.

Example C24_example :
  let props := [("x", [1]); ("y", [2])]%string in
  evaluate_sequences (@app nat) (fun _ => []) props [["x"; "y"; "y"]; []; ["y"]]%string
  = Ok [[2; 2; 1]; []; [2]].
Proof. reflexivity. Qed.

(** C26: the loop that applies gate after gate to the state computes the
    time-ordered product applied to the initial state. *)
Theorem C26_state_evolution :
  forall (M S G : Type) (mul : M -> M -> M) (act : M -> S -> S),
  (forall a b c, mul a (mul b c) = mul (mul a b) c) ->
  (forall a b s, act a (act b s) = act (mul a b) s) ->
  forall (look : G -> result M) seq psi0 us,
  Forall2 (fun g u => look g = Ok u) seq us ->
  exists psi, evolve act look seq psi0 = Ok psi
  /\ ((us = [] /\ psi = psi0) \/ exists p, TimeOrdered mul us p /\ psi = act p psi0).
Proof.
  intros M S G mul act Ha Hact look seq psi0 us H.
  assert (L : lookups look seq = Ok us).
  { clear -H. induction H as [|g u seq us E H IH]; auto. simpl. rewrite E. simpl. rewrite IH. reflexivity. }
  eexists. split; [apply (evolve_lprod mul Ha act look Hact seq us L psi0)|].
  destruct us as [|u r]; [left; auto|]. right. exists (lprod mul u r). split; auto.
  apply lprod_time_ordered.
Qed.
Print Assumptions C26_state_evolution.

(** Splitting a sequence and continuing from the intermediate state. *)
Theorem C26_split_sequence :
  forall (M S G : Type) (act : M -> S -> S) (look : G -> result M) s1 s2 psi0 psi,
  evolve act look (s1 ++ s2) psi0 = Ok psi
  <-> exists mid, evolve act look s1 psi0 = Ok mid /\ evolve act look s2 mid = Ok psi.
Proof.
  intros. rewrite evolve_app. destruct (evolve act look s1 psi0) as [m|e]; simpl.
  - split; [intro H; exists m; auto|]. intros (x & [= <-] & H). auto.
  - split; [discriminate|]. intros (x & H & _). discriminate.
Qed.
Print Assumptions C26_split_sequence.

(** Every sequence starts from the initial state again: the populations of a
    list of sequences are those of the sequences taken one by one. *)
Theorem C26_sequences_independent :
  forall (M S P : Type) (act : M -> S -> S) (pop : S -> P) props psi0 seqs ps,
  evaluate_legacy act pop props psi0 seqs = Ok ps
  <-> Forall2 (fun s p => exists psi, evolve act (dlook props) s psi0 = Ok psi /\ p = pop psi) seqs ps.
Proof.
  intros M S P act pop props psi0. induction seqs as [|s seqs IH]; intros ps.
  - simpl. split; [intros [= <-]; constructor|]. intro H. inversion H. auto.
  - unfold evaluate_legacy. cbn. fold (evaluate_legacy act pop props psi0 seqs).
    destruct (evolve act (dlook props) s psi0) as [psi|e] eqn:E; cbn [rbind].
    + destruct (evaluate_legacy act pop props psi0 seqs) as [ps'|e] eqn:E'; cbn [rbind].
      * split.
        -- intros [= <-]. constructor; [eauto|]. apply IH. auto.
        -- intro H. inversion H as [|s' p s'' ps'' (psi' & Hp & ->) H']; subst.
           apply IH in H'. congruence.
      * split; [discriminate|]. intro H. inversion H as [|s' p s'' ps'' (psi' & Hp & ->) H']; subst.
        apply IH in H'. congruence.
    + split; [discriminate|]. intro H. inversion H as [|s' p s'' ps'' (psi' & Hp & ->) H']; subst.
      congruence.
Qed.
Print Assumptions C26_sequences_independent.

Example C26_example :
  let props := [("x", [1]); ("y", [2])]%string in
  evolve (@app nat) (dlook props) ["x"; "y"; "y"]%string [0] = Ok [2; 2; 1; 0].
Proof. reflexivity. Qed.
