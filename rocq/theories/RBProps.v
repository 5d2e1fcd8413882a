(** Property C105: randomised benchmarking. *)
From Coq Require Import Reals Lra Lia.
From Coquelicot Require Import Complex.
From Verif Require Import Base Mat MExp HilbertModel HilbertProofs RSum PropModel FoldModel GateModel GateProofs GateProps FidModel
  FrameModel FrameProps Prop2Props LearnModel LearnProps EnvModel QiskitModel QiskitProps OptModel OptProps DevProofs RBModel.
Local Open Scope list_scope.
Local Open Scope nat_scope.
Local Notation length := List.length.

(** ** Specification *)

(** A number drawn for every Clifford but the last, [num_seqs] times. *)
Definition good_draw (a : rb_args) (num_seqs : nat) : Prop :=
  forall k L, length (ra_draw a k L) = num_seqs
  /\ forall d, In d (ra_draw a k L) -> length d = L - 1 /\ forall c, In c d -> c < 24.
(** The probability to find the ground state again after the gates [us]. *)
Definition return_probability (N : nat) (lind : bool) (us : list mat) : R :=
  let z := Cmod (time_ordered N us 0 0) in if lind then z else (z ^ 2)%R.
(** One row of data: the return probabilities after random sequences of [L] Cliffords, with
    the propagators stored under "gate[target]". *)
Definition measured (a : rb_args) (L : Z) (row : list R) : Prop :=
  exists k seqs, single_length_RB (Z.to_nat L) 0 (ra_draw a k (Z.to_nat L)) = Ok seqs
  /\ Forall2 (fun s p => exists us,
        Forall2 (fun g u => dget (fst g ++ "[" ++ ra_target a ++ "]")%string (ra_props a) = Some u) s us
        /\ p = return_probability (ra_N a) (ra_lind a) us) seqs row.
(** The dimension is that of a system with at least one level. *)
Definition has_level (a : rb_args) : Prop := if ra_lind a then 0 < Nat.sqrt (ra_N a) else 0 < ra_N a.

(** ** The product of a sequence *)
Lemma left_product : forall n us U, tf_matmul_left (mmul n) us = Ok U -> meq n n U (time_ordered n us).
Proof.
  intros n us U H. unfold tf_matmul_left in H. destruct (rev us) as [|x r] eqn:E; [discriminate|].
  match type of H with Ok ?b = Ok _ => assert (Hv : U = b) by congruence end. subst U. clear H.
  apply (f_equal (@rev mat)) in E. rewrite rev_involutive in E. cbn [rev] in E. subst us.
  assert (G : forall l A, meq n n (fold_left (fun a x => mmul n a x) l A) (mmul n A (time_ordered n (rev l)))).
  { induction l as [|y l IH]; intros A; cbn [fold_left rev].
    - symmetry. apply mmul_id_r.
    - rewrite IH, time_ordered_app. cbn [time_ordered]. rewrite mmul_id_l. symmetry. apply mmul_assoc. }
  rewrite G, time_ordered_app. cbn [time_ordered]. rewrite mmul_id_l. reflexivity.
Qed.
Lemma eval_spec : forall N props seqs Us, evaluate_sequences (mmul N) (fun _ => mid) props seqs = Ok Us ->
  Forall2 (fun s U => exists us, Forall2 (fun g u => dget g props = Some u) s us /\ meq N N U (time_ordered N us)) seqs Us.
Proof.
  intros N props seqs. revert props.
  assert (L : forall (props : dict mat) s gs, lookups (dlook props) s = Ok gs -> Forall2 (fun k g => dget k props = Some g) s gs).
  { intros props s. induction s as [|k s IH]; simpl; intros gs H.
    - inversion H. constructor.
    - unfold dlook in H at 1. destruct (dget k props) as [g|] eqn:E; simpl in H; [|discriminate].
      destruct (lookups (dlook props) s) as [gs'|]; simpl in H; [|discriminate].
      inversion H; subst. constructor; auto. }
  induction seqs as [|s seqs IH]; intros props us H.
  - destruct props; simpl in H; [discriminate|]. inversion H. constructor.
  - destruct props as [|[k0 u0] props]; [discriminate|]. cbn [evaluate_sequences] in H.
    destruct (evaluate_sequence _ _ ((k0, u0) :: props) s) as [u|] eqn:E; [|discriminate]. cbn [rbind] in H.
    destruct (evaluate_sequences _ _ ((k0, u0) :: props) seqs) as [us'|] eqn:E'; [|discriminate].
    cbn [rbind] in H. match type of H with Ok ?b = Ok _ => assert (Hv : us = b) by congruence end. subst us.
    constructor; [|eapply IH; eauto]. unfold evaluate_sequence in E. destruct s as [|k s].
    + match type of E with Ok ?b = Ok _ => assert (Hv : u = b) by congruence end. subst u. exists []. split; [constructor|reflexivity].
    + destruct (lookups (dlook ((k0, u0) :: props)) (k :: s)) as [gs|] eqn:EL; [|discriminate].
      cbn [rbind] in E. exists gs. split; [apply L; exact EL|]. apply left_product. exact E.
Qed.

Lemma Forall2_map_l : forall {A B C} (f : A -> C) (P : C -> B -> Prop) l l', Forall2 P (map f l) l' <-> Forall2 (fun x y => P (f x) y) l l'.
Proof.
  intros A B C f P l. induction l as [|x l IH]; intros l'; cbn [map]; split; intro H; inversion H; subst; constructor; auto; apply IH; auto.
Qed.
Lemma Forall2_map_r : forall {A B C} (f : B -> C) (P : A -> C -> Prop) l l', Forall2 P l (map f l') <-> Forall2 (fun x y => P x (f y)) l l'.
Proof.
  intros A B C f P l l'. revert l. induction l' as [|x l' IH]; intros l; cbn [map]; split; intro H; inversion H; subst; constructor; auto; apply IH; auto.
Qed.
Lemma Forall2_imp : forall {A B} (P Q : A -> B -> Prop) l l', (forall x y, P x y -> Q x y) -> Forall2 P l l' -> Forall2 Q l l'.
Proof. intros A B P Q l l' H F. induction F; constructor; auto. Qed.

Lemma Forall2_len : forall {A B} (P : A -> B -> Prop) l l', Forall2 P l l' -> length l = length l'.
Proof. intros A B P l l' H. induction H; cbn; congruence. Qed.

(** ** The data *)
Lemma ground_population : forall a U us, has_level a -> meq (ra_N a) (ra_N a) U (time_ordered (ra_N a) us) ->
  nth 0 (fid_populations (ra_N a) (mmul (ra_N a) U (one_hot 0)) (ra_lind a)) 0%R = return_probability (ra_N a) (ra_lind a) us.
Proof.
  intros a U us H M. unfold has_level, fid_populations, return_probability in *.
  assert (P : 0 < ra_N a) by (destruct (ra_lind a); [destruct (ra_N a); [cbn in H; lia|lia]|exact H]).
  assert (E : mmul (ra_N a) U (one_hot 0) 0 0 = time_ordered (ra_N a) us 0 0) by (rewrite mmul_one_hot by exact P; apply M; exact P).
  set (psi := mmul (ra_N a) U (one_hot 0)) in *. set (T := time_ordered (ra_N a) us) in *. clearbody psi T. destruct (ra_lind a).
  - destruct (Nat.sqrt (ra_N a)) as [|m]; [lia|]. cbn [seq map nth Nat.mul Nat.add]. rewrite E. reflexivity.
  - destruct (ra_N a) as [|m]; [lia|]. cbn [seq map nth]. rewrite E. reflexivity.
Qed.
Lemma rows_measured : forall a lens k rows, has_level a -> rb_rows a k lens = Ok rows ->
  Forall2 (measured a) lens (map survival rows).
Proof.
  intros a lens. induction lens as [|L lens IH]; intros k rows HL H; cbn [rb_rows] in H.
  - match type of H with Ok ?b = Ok _ => assert (Hv : rows = b) by congruence end. subst rows. constructor.
  - destruct (rb_populations a k L) as [row|] eqn:E; [|discriminate]. cbn [rbind] in H.
    destruct (rb_rows a (S k) lens) as [rest|] eqn:E2; [|discriminate]. cbn [rbind] in H.
    match type of H with Ok ?b = Ok _ => assert (Hv : rows = b) by congruence end. subst rows. clear H. cbn [map]. constructor; [|eapply IH; eauto].
    unfold rb_populations in E. destruct (single_length_RB _ _ _) as [seqs|] eqn:Es; [|discriminate]. cbn [rbind] in E.
    destruct (evaluate_sequences _ _ _ _) as [Us|] eqn:Eu; [|discriminate]. cbn [rbind] in E.
    match type of E with Ok ?b = Ok _ => assert (Hv : row = b) by congruence end. subst row. clear E.
    exists k, seqs. split; [exact Es|]. apply eval_spec in Eu. unfold rb_names in Eu. apply Forall2_map_l in Eu.
    unfold survival. rewrite map_map. apply Forall2_map_r. eapply Forall2_imp; [|exact Eu]. cbv beta.
    intros s U (us & F & M). exists us. split; [apply Forall2_map_l in F; exact F|]. apply ground_population; assumption.
Qed.
Lemma start_measured : forall a mx s, has_level a -> rb_start a mx = Ok s -> Forall2 (measured a) (rb_lens s) (rb_surv s).
Proof.
  intros a mx s HL H. unfold rb_start in H. destruct (ra_props a) as [|p ps]; [discriminate|].
  destruct (rb_rows a 0 _) as [rows|] eqn:E; [|discriminate]. cbn [rbind] in H.
  match type of H with Ok ?b = Ok _ => assert (Hv : s = b) by congruence end. subst s. cbn [rb_lens rb_surv]. eapply rows_measured; eauto.
Qed.
Lemma fit_data : forall a fit fuel s v s', has_level a -> rb_fit a fit fuel s = Ok (v, s') ->
  Forall2 (measured a) (rb_lens s) (rb_surv s) ->
  fit s' = Ok v /\ Forall2 (measured a) (rb_lens s') (rb_surv s')
  /\ exists more, rb_lens s' = rb_lens s ++ more.
Proof.
  intros a fit fuel. induction fuel as [|fuel IH]; intros s v s' HL H D; cbn [rb_fit] in H; [discriminate|].
  destruct (fit s) as [x|e] eqn:E.
  - assert (x = v /\ s = s') as [-> ->] by (split; congruence). split; [exact E|]. split; [exact D|]. exists []. symmetry. apply app_nil_r.
  - destruct (rb_more a s) as [s1|] eqn:M; [|discriminate]. cbn [rbind] in H. unfold rb_more in M.
    destruct (rb_rows a (rb_count s) _) as [rows|] eqn:R1; [|discriminate]. cbn [rbind] in M.
    match type of M with Ok ?b = Ok _ => assert (Hv : s1 = b) by congruence end. subst s1. clear M.
    destruct (IH _ _ _ HL H) as (A & B & m & C).
    + cbn [rb_lens rb_surv]. apply Forall2_app; [exact D|]. eapply rows_measured; eauto.
    + split; [exact A|]. split; [exact B|]. cbn [rb_lens] in C. eexists. rewrite C, <- app_assoc. reflexivity.
Qed.

(** ** C105 *)

(** The average of a list. *)
Definition average_of (l : list R) (m : R) : Prop := (INR (length l) * m = fold_right Rplus 0 l)%R.
(** The standard error of the average: n^2 e^2 is the sum of the squared deviations. *)
Definition standard_error (l : list R) (e : R) : Prop :=
  (0 <= e)%R /\ forall m, average_of l m -> ((INR (length l) * e) ^ 2 = fold_right Rplus 0 (map (fun x => (x - m) ^ 2) l))%R.
Lemma std_error : forall l, 0 < length l -> standard_error l (std_l l / sqrt (INR (length l)))%R.
Proof.
  intros l H. assert (P : (0 < INR (length l))%R) by (apply lt_0_INR; exact H). pose proof (sqrt_lt_R0 _ P) as Ps.
  assert (P0 : (INR (length l) <> 0)%R) by lra.
  split; [unfold std_l; apply Rmult_le_pos; [apply sqrt_pos|left; apply Rinv_0_lt_compat; exact Ps]|].
  intros m A. assert (Em : m = mean_l l).
  { unfold average_of in A. unfold mean_l, rsum_l. rewrite <- A. field. exact P0. }
  subst m. unfold std_l. set (d := map _ l).
  assert (Hd : (0 <= fold_right Rplus 0 d)%R).
  { subst d. clear. generalize (mean_l l). intro m. induction l as [|x l IH]; cbn [map fold_right]; [lra|]. pose proof (pow2_ge_0 (x - m)). lra. }
  assert (Hm : (0 <= mean_l d)%R).
  { unfold mean_l. subst d. rewrite map_length. apply Rmult_le_pos; [exact Hd|left; apply Rinv_0_lt_compat; exact P]. }
  assert (Q1 : (sqrt (mean_l d) * sqrt (mean_l d) = mean_l d)%R) by (apply sqrt_sqrt; exact Hm).
  assert (Q2 : (sqrt (INR (length l)) * sqrt (INR (length l)) = INR (length l))%R) by (apply sqrt_sqrt; lra).
  assert (Q3 : (mean_l d = fold_right Rplus 0 d / INR (length l))%R) by (unfold mean_l, rsum_l; subst d; rewrite map_length; reflexivity).
  replace ((INR (length l) * (sqrt (mean_l d) / sqrt (INR (length l)))) ^ 2)%R
    with (INR (length l) * INR (length l) * (sqrt (mean_l d) * sqrt (mean_l d)) / (sqrt (INR (length l)) * sqrt (INR (length l))))%R by (field; lra).
  rewrite Q1, Q2, Q3. field. exact P0.
Qed.
Lemma measured_length : forall a ns L row, good_draw a ns -> 0 < ns -> measured a L row -> length row = ns.
Proof.
  intros a ns L row HD Hns (k & seqs & Hs & Hf). apply Forall2_len in Hf.
  destruct (HD k (Z.to_nat L)) as (Ld & Hd). destruct (Z.to_nat L) as [|L'].
  { destruct (ra_draw a k 0); [cbn in Ld; lia|discriminate Hs]. }
  destruct (C34_sequences_invert (S L') 0 (ra_draw a k (S L'))) as (sq & Es & Lq & _); [lia|exact Hd|].
  assert (sq = seqs) by congruence. subst sq. congruence.
Qed.
Lemma errs_standard : forall a ns lens surv, good_draw a ns -> 0 < ns -> Forall2 (measured a) lens surv ->
  Forall2 standard_error surv (row_errs surv).
Proof.
  intros a ns lens surv HD Hns D. unfold row_errs. apply Forall2_map_r.
  assert (Hh : surv <> [] -> length (hd [] surv) = ns).
  { intro N. destruct D as [|L row ls rs M D]; [congruence|]. cbn [hd]. eapply measured_length; eauto. }
  assert (Hl : Forall (fun row => length row = ns) surv).
  { clear Hh. induction D; constructor; [eapply measured_length; eauto|assumption]. }
  clear D. destruct surv as [|row0 surv]; [constructor|]. rewrite (Hh ltac:(discriminate)). clear Hh.
  induction Hl as [|row rs E Hl IH]; constructor; [|exact IH]. rewrite <- E. apply std_error. lia.
Qed.

(** What RB returns is computed from a decay rate r that curve_fit found for the averages
    over random sequences of each length, starting with the requested lengths: (1 - error)^4
    is the mean of 1 and r. *)
Theorem C105_estimate :
  forall a curve_fit fuel max_length v num_seqs, has_level a -> good_draw a num_seqs -> 0 < num_seqs ->
  (forall l m e r A B, curve_fit l m e = Ok (r, A, B) -> (0 <= r <= 1)%R) ->
  RB a curve_fit fuel max_length = Ok v ->
  exists lens surv means errs r A B,
    curve_fit lens means errs = Ok (r, A, B)
    /\ Forall2 (measured a) lens surv
    /\ Forall2 average_of surv means /\ Forall2 standard_error surv errs
    /\ (exists more, lens = rb_lengths (ra_log a) (ra_min a) max_length (ra_num a) ++ more)
    /\ ((1 - v) ^ 4 = (1 + r) / 2 /\ 0 <= v < 1)%R.
Proof.
  intros a curve_fit fuel mx v ns HL HD Hns Hr H. unfold RB in H.
  destruct (rb_start a mx) as [s0|] eqn:E0; [|discriminate]. cbn [rbind] in H.
  destruct (rb_fit _ _ _ _) as [[[[r A] B] s]|] eqn:E1; [|discriminate]. cbn [rbind fst] in H.
  assert (Hv : v = rb_epg r) by congruence. subst v.
  destruct (fit_data _ _ _ _ _ _ HL E1 (start_measured _ _ _ HL E0)) as (F & D & more & P).
  exists (rb_lens s), (rb_surv s), (row_means (rb_surv s)), (row_errs (rb_surv s)), r, A, B.
  split; [exact F|]. split; [exact D|]. split.
  { unfold row_means. apply Forall2_map_r. clear F P E1 E0.
    induction D as [|L row ls rs (k & seqs & Hs & Hf) D IH]; constructor; [|exact IH].
    unfold average_of, mean_l. fold (rsum_l row). apply Forall2_len in Hf.
    destruct (HD k (Z.to_nat L)) as (Ld & Hd). destruct (Z.to_nat L) as [|L'].
    { destruct (ra_draw a k 0); [cbn in Ld; lia|discriminate Hs]. }
    destruct (C34_sequences_invert (S L') 0 (ra_draw a k (S L'))) as (sq & Es & Lq & _); [lia|exact Hd|].
    assert (sq = seqs) by congruence. subst sq.
    assert (INR (length row) <> 0)%R by (apply not_0_INR; lia). field. assumption. }
  split; [eapply errs_standard; eauto|]. split.
  { exists more. rewrite P. f_equal. unfold rb_start in E0. destruct (ra_props a); [discriminate|].
    destruct (rb_rows a 0 _); [|discriminate]. cbn [rbind] in E0.
    match type of E0 with Ok ?b = Ok _ => assert (Hv : s0 = b) by congruence end. subst s0. reflexivity. }
  specialize (Hr _ _ _ _ _ _ F). unfold rb_epg, rb_epc.
  replace (1 - (1 - Rpower (1 - 1 / 2 * (1 - r)) (1 / 4)))%R with (Rpower (1 - 1 / 2 * (1 - r)) (1 / 4)) by ring.
  assert (Pos : (0 < 1 - 1 / 2 * (1 - r) <= 1)%R) by lra.
  set (x := (1 - 1 / 2 * (1 - r))%R) in *. split.
  - rewrite <- Rpower_pow by (apply exp_pos). rewrite Rpower_mult. replace (1 / 4 * INR 4)%R with 1%R by (cbn; lra).
    rewrite Rpower_1 by lra. unfold x. lra.
  - assert (0 < Rpower x (1/4))%R by apply exp_pos. assert (Rpower x (1/4) <= 1)%R; [|lra].
    apply Rle_trans with (Rpower 1 (1/4)); [apply Rle_Rpower_l; lra|].
    unfold Rpower. rewrite ln_1, Rmult_0_r, exp_0. lra.
Qed.
Print Assumptions C105_estimate.

(** The error per gate that belongs to a decay rate: none for a rate of one, and larger for
    a faster decay. *)
Theorem C105_error_of_rate :
  rb_epg 1 = 0%R
  /\ (forall r r', (0 <= r -> r < r' -> r' <= 1 -> rb_epg r' < rb_epg r)%R)
  /\ (forall r, (0 <= r <= 1 -> (1 - rb_epg r) ^ 4 = 1 - rb_epc r /\ rb_epc r <= 4 * rb_epg r)%R).
Proof.
  assert (Q : forall r, (0 <= r <= 1)%R -> ((1 - rb_epg r) ^ 4 = 1 - rb_epc r)%R /\ (0 < 1 - rb_epg r)%R).
  { intros r Hr. unfold rb_epg, rb_epc.
    replace (1 - (1 - Rpower (1 - 1 / 2 * (1 - r)) (1 / 4)))%R with (Rpower (1 - 1 / 2 * (1 - r)) (1 / 4)) by ring.
    split; [|apply exp_pos]. rewrite <- Rpower_pow by (apply exp_pos). rewrite Rpower_mult.
    replace (1 / 4 * INR 4)%R with 1%R by (cbn; lra). rewrite Rpower_1 by lra. reflexivity. }
  split; [|split].
  - unfold rb_epg, rb_epc. replace (1 - 1 / 2 * (1 - 1))%R with 1%R by lra. unfold Rpower. rewrite ln_1, Rmult_0_r, exp_0. lra.
  - intros r r' H0 H1 H2. unfold rb_epg, rb_epc.
    assert (Rpower (1 - 1 / 2 * (1 - r)) (1 / 4) < Rpower (1 - 1 / 2 * (1 - r')) (1 / 4))%R; [|lra].
    unfold Rpower. apply exp_increasing. apply Rmult_lt_compat_l; [lra|]. apply ln_increasing; lra.
  - intros r Hr. destruct (Q r Hr) as (A & B). split; [exact A|].
    assert (rb_epc r = 1 - (1 - rb_epg r) ^ 4)%R as -> by lra.
    set (y := (1 - rb_epg r)%R) in *. replace (rb_epg r) with (1 - y)%R by (unfold y; ring).
    (* 1 - y^4 <= 4 (1 - y) *)
    assert (0 <= (1 - y) ^ 2 * (y ^ 2 + 2 * y + 3))%R by (apply Rmult_le_pos; [apply pow2_ge_0|nra]).
    nra.
Qed.
Print Assumptions C105_error_of_rate.

(** The lengths: as many as asked for, the first and the last as requested, and all
    between them. *)
Theorem C105_lengths :
  forall a b num, a <= b -> 0 < num ->
  length (rb_lengths false a b num) = num
  /\ nth 0 (rb_lengths false a b num) 0%Z = Z.of_nat a
  /\ (1 < num -> nth (num - 1) (rb_lengths false a b num) 0%Z = Z.of_nat b)
  /\ (forall i, i < num -> (Z.of_nat a <= nth i (rb_lengths false a b num) 0 <= Z.of_nat b)%Z
        /\ (Rabs (IZR (nth i (rb_lengths false a b num) 0%Z) - (INR a + INR i * ((INR b - INR a) / INR (num - 1)))) <= 1 / 2)%R).
Proof.
  intros a b num Hab Hn. unfold rb_lengths, rb_lengths_lin.
  destruct (C58_linspace (INR a) (INR b) num) as (Len & Nth & First & Last).
  assert (E : forall i, i < num -> nth i (map np_round (linspace (INR a) (INR b) num)) 0%Z = np_round (nth i (linspace (INR a) (INR b) num) 0%R)).
  { intros i Hi. rewrite nth_indep with (d' := np_round 0%R) by (rewrite map_length, Len; exact Hi). apply map_nth. }
  assert (I : forall z, np_round (INR z) = Z.of_nat z).
  { intro z. pose proof (np_round_near (INR z)) as N. rewrite INR_IZR_INZ in *. rewrite <- minus_IZR in N.
    rewrite <- abs_IZR in N. assert (IZR (Z.abs (np_round (IZR (Z.of_nat z)) - Z.of_nat z)) < IZR 1)%R as L by lra. apply lt_IZR in L. lia. }
  assert (Mid : forall x, (INR a <= x <= INR b)%R -> (Z.of_nat a <= np_round x <= Z.of_nat b)%Z).
  { intros x Hx. pose proof (np_round_near x) as N. rewrite !INR_IZR_INZ in Hx.
    unfold np_round in *. destruct (base_Int_part (x + 1 / 2)) as [B1 B2].
    set (f := Int_part (x + 1 / 2)) in *.
    assert (L1 : (IZR (Z.of_nat a) < IZR f + 1)%R) by lra. rewrite <- plus_IZR in L1. apply lt_IZR in L1.
    assert (L2 : (IZR f < IZR (Z.of_nat b) + 1)%R) by lra. rewrite <- plus_IZR in L2. apply lt_IZR in L2.
    destruct (Req_EM_T (x + 1 / 2) (IZR f)) as [Q|Q]; [|lia].
    assert (L3 : (IZR (Z.of_nat a) < IZR f)%R) by lra. apply lt_IZR in L3. destruct (Z.even f); lia. }
  split; [rewrite map_length; exact Len|]. split; [rewrite E by exact Hn; rewrite First by exact Hn; apply I|].
  split; [intro; rewrite E by lia; rewrite Last by assumption; apply I|].
  intros i Hi. rewrite E by exact Hi. rewrite Nth by exact Hi. split; [|apply np_round_near].
  apply Mid. assert (Hd : (0 <= INR b - INR a)%R) by (apply le_INR in Hab; lra).
  destruct (Nat.eq_dec num 1) as [->|Hn1].
  { assert (i = 0) by lia. subst i. cbn [INR]. lra. }
  assert (P : (0 < INR (num - 1))%R) by (apply lt_0_INR; lia).
  assert (Hi2 : (INR i <= INR (num - 1))%R) by (apply le_INR; lia). pose proof (pos_INR i) as Pi.
  replace (INR i * ((INR b - INR a) / INR (num - 1)))%R with ((INR b - INR a) * (INR i / INR (num - 1)))%R by (field; lra).
  assert (Q : (0 <= INR i / INR (num - 1) <= 1)%R).
  { split; [apply Rmult_le_pos; [exact Pi|left; apply Rinv_0_lt_compat; exact P]|].
    apply Rmult_le_reg_r with (INR (num - 1)); [exact P|]. unfold Rdiv. rewrite Rmult_assoc, Rinv_l by lra. lra. }
  split; nra.
Qed.
Print Assumptions C105_lengths.

(** Logarithmic spacing: as many lengths as asked for, the first and the last as requested,
    all between them, and each the nearest integer to a term of the geometric progression
    from a to b. *)
Theorem C105_log_lengths :
  forall a b num, 0 < a <= b -> 0 < num ->
  length (rb_lengths true a b num) = num
  /\ nth 0 (rb_lengths true a b num) 0%Z = Z.of_nat a
  /\ (1 < num -> nth (num - 1) (rb_lengths true a b num) 0%Z = Z.of_nat b)
  /\ exists q, (1 <= q)%R /\ (1 < num -> (INR a * q ^ (num - 1) = INR b)%R)
     /\ forall i, i < num -> (Z.of_nat a <= nth i (rb_lengths true a b num) 0 <= Z.of_nat b)%Z
        /\ (Rabs (IZR (nth i (rb_lengths true a b num) 0%Z) - INR a * q ^ i) <= 1 / 2)%R.
Proof.
  intros a b num [Ha Hab] Hn. unfold rb_lengths, rb_lengths_log.
  set (la := (ln (INR a) / ln 10)%R). set (lb := (ln (INR b) / ln 10)%R).
  destruct (C58_linspace la lb num) as (Len & Nth & First & Last).
  assert (Pa : (0 < INR a)%R) by (apply lt_0_INR; exact Ha). assert (Pab : (INR a <= INR b)%R) by (apply le_INR; exact Hab).
  assert (L10 : (0 < ln 10)%R) by (rewrite <- ln_1; apply ln_increasing; lra).
  assert (Lab : (0 <= ln (INR b) - ln (INR a))%R).
  { destruct (Rle_lt_or_eq_dec _ _ Pab) as [Lt|<-]; [|lra]. pose proof (ln_increasing _ _ Pa Lt). lra. }
  set (f := fun e => np_round (Rpower 10 e)).
  assert (E : forall i, i < num -> nth i (map f (linspace la lb num)) 0%Z = f (nth i (linspace la lb num) 0%R)).
  { intros i Hi. rewrite nth_indep with (d' := f 0%R) by (rewrite map_length, Len; exact Hi). apply map_nth. }
  assert (I : forall z, np_round (INR z) = Z.of_nat z).
  { intro z. pose proof (np_round_near (INR z)) as N. rewrite INR_IZR_INZ in *. rewrite <- minus_IZR in N.
    rewrite <- abs_IZR in N. assert (IZR (Z.abs (np_round (IZR (Z.of_nat z)) - Z.of_nat z)) < IZR 1)%R as L by lra. apply lt_IZR in L. lia. }
  assert (Mid : forall x, (INR a <= x <= INR b)%R -> (Z.of_nat a <= np_round x <= Z.of_nat b)%Z).
  { intros x Hx. rewrite !INR_IZR_INZ in Hx.
    unfold np_round in *. destruct (base_Int_part (x + 1 / 2)) as [B1 B2].
    set (g := Int_part (x + 1 / 2)) in *.
    assert (L1 : (IZR (Z.of_nat a) < IZR g + 1)%R) by lra. rewrite <- plus_IZR in L1. apply lt_IZR in L1.
    assert (L2 : (IZR g < IZR (Z.of_nat b) + 1)%R) by lra. rewrite <- plus_IZR in L2. apply lt_IZR in L2.
    destruct (Req_EM_T (x + 1 / 2) (IZR g)) as [Q|Q]; [|lia].
    assert (L3 : (IZR (Z.of_nat a) < IZR g)%R) by lra. apply lt_IZR in L3. destruct (Z.even g); lia. }
  assert (Pw : forall n, (0 < INR n)%R -> Rpower 10 (ln (INR n) / ln 10) = INR n).
  { intros n Hp. unfold Rpower. replace (ln (INR n) / ln 10 * ln 10)%R with (ln (INR n)) by (field; lra). apply exp_ln. exact Hp. }
  split; [rewrite map_length; exact Len|]. split; [rewrite E by exact Hn; rewrite First by exact Hn; unfold f, la; rewrite Pw by exact Pa; apply I|].
  split; [intro; rewrite E by lia; rewrite Last by assumption; unfold f, lb; rewrite Pw by lra; apply I|].
  set (q := exp ((ln (INR b) - ln (INR a)) / INR (num - 1))).
  assert (Pq : (0 < q)%R) by apply exp_pos.
  assert (Qi : forall i, (q ^ i = exp (INR i * ((ln (INR b) - ln (INR a)) / INR (num - 1))))%R).
  { intro i. rewrite <- Rpower_pow by exact Pq. unfold Rpower, q. rewrite ln_exp. reflexivity. }
  assert (Q1 : num = 1 \/ (0 < INR (num - 1))%R) by (destruct (Nat.eq_dec num 1) as [->|Hx]; [left; reflexivity|right; apply lt_0_INR; lia]).
  assert (Qlast : 1 < num -> (INR a * q ^ (num - 1) = INR b)%R).
  { intro H1. destruct Q1 as [->|P]; [lia|]. rewrite Qi. replace (INR (num - 1) * ((ln (INR b) - ln (INR a)) / INR (num - 1)))%R with (ln (INR b) - ln (INR a))%R by (field; lra).
    unfold Rminus. rewrite exp_plus, exp_Ropp, !exp_ln by lra. field. lra. }
  destruct Q1 as [->|P].
  { exists 1%R. split; [lra|]. split; [lia|]. intros i Hi. assert (i = 0) by lia. subst i. rewrite E by exact Hi. rewrite First by exact Hi.
    unfold f, la. rewrite Pw by exact Pa. rewrite I. split; [lia|]. rewrite INR_IZR_INZ. cbn [pow]. rewrite Rmult_1_r, Rminus_diag_eq by reflexivity. rewrite Rabs_R0. lra. }
  assert (Hq : (1 <= q)%R).
  { rewrite <- exp_0. unfold q. assert (0 <= (ln (INR b) - ln (INR a)) / INR (num - 1))%R as Hx by (apply Rmult_le_pos; [exact Lab|left; apply Rinv_0_lt_compat; exact P]).
    destruct Hx as [Hx|<-]; [left; apply exp_increasing; exact Hx|right; reflexivity]. }
  exists q. split; [exact Hq|]. split; [exact Qlast|].
  intros i Hi. rewrite E by exact Hi. rewrite Nth by exact Hi. unfold f.
  assert (V : Rpower 10 (la + INR i * ((lb - la) / INR (num - 1))) = (INR a * q ^ i)%R).
  { unfold Rpower, la, lb. rewrite Qi.
    replace ((ln (INR a) / ln 10 + INR i * ((ln (INR b) / ln 10 - ln (INR a) / ln 10) / INR (num - 1))) * ln 10)%R
      with (ln (INR a) + INR i * ((ln (INR b) - ln (INR a)) / INR (num - 1)))%R by (field; split; lra).
    rewrite exp_plus, exp_ln by exact Pa. reflexivity. }
  rewrite V. split; [|apply np_round_near]. apply Mid.
  assert (Qu : (1 <= q ^ i)%R) by (apply pow_R1_Rle; exact Hq).
  assert (Qv : (q ^ i <= q ^ (num - 1))%R) by (apply Rle_pow; [exact Hq|lia]).
  assert (H1 : 1 < num) by (destruct (Nat.eq_dec num 1) as [->|]; [cbn in P; lra|lia]). specialize (Qlast H1).
  split; [|rewrite <- Qlast]; nra.
Qed.
Print Assumptions C105_log_lengths.

(** ** Unitary and perfect propagators *)
Definition unitary_gates (N : nat) (props : dict mat) : Prop := forall g U, dget g props = Some U -> unitary N U.
Lemma time_ordered_unitary : forall N us, Forall (unitary N) us -> unitary N (time_ordered N us).
Proof. intros N us H. induction H; cbn [time_ordered]; [apply unitary_id|]. apply unitary_mmul; assumption. Qed.
Lemma entry_le_1 : forall n U i j, unitary n U -> i < n -> j < n -> (0 <= Cmod (U i j) ^ 2 <= 1)%R.
Proof.
  intros n U i j HU Hi Hj. split; [apply pow2_ge_0|]. rewrite <- v_sq_mod. pose proof (col_sum n U j HU Hj) as C.
  rewrite <- C. apply (rs_member n (fun i => v_sq U i j) i); [|exact Hi]. intros. apply v_sq_nonneg.
Qed.
Lemma seq_sum : forall f n k, fold_right Rplus 0%R (map f (seq k n)) = rs n (fun i => f (k + i)).
Proof.
  intros f n. induction n as [|n IH]; intro k; [reflexivity|]. cbn [seq map fold_right]. rewrite IH, rs_head.
  replace (k + 0) with k by lia. f_equal. apply rs_ext. intros i _. f_equal. lia.
Qed.

(** With unitary propagators every sequence gives a probability distribution over the
    levels; there is one for each of the sequences of each length. *)
Theorem C105_populations :
  forall a num_seqs lens k rows, ra_lind a = false -> 0 < ra_N a -> 0 < num_seqs -> good_draw a num_seqs ->
  unitary_gates (ra_N a) (ra_props a) -> rb_rows a k lens = Ok rows ->
  length rows = length lens
  /\ forall row, In row rows -> length row = num_seqs
     /\ forall p, In p row -> length p = ra_N a /\ (forall x, In x p -> (0 <= x <= 1)%R) /\ fold_right Rplus 0%R p = 1%R.
Proof.
  intros a ns lens. induction lens as [|L lens IH]; intros k rows Hl HN Hns HD HU H; cbn [rb_rows] in H.
  - match type of H with Ok ?b = Ok _ => assert (Hv : rows = b) by congruence end. subst rows. split; [reflexivity|]. intros row [].
  - destruct (rb_populations a k L) as [row|] eqn:E; [|discriminate]. cbn [rbind] in H.
    destruct (rb_rows a (S k) lens) as [rest|] eqn:E2; [|discriminate]. cbn [rbind] in H.
    match type of H with Ok ?b = Ok _ => assert (Hv : rows = b) by congruence end. subst rows. clear H.
    destruct (IH _ _ Hl HN Hns HD HU E2) as (A & B). split; [cbn; congruence|]. intros r [<-|Hr]; [|apply B; exact Hr].
    unfold rb_populations in E. destruct (single_length_RB _ _ _) as [seqs|] eqn:Es; [|discriminate]. cbn [rbind] in E.
    destruct (evaluate_sequences _ _ _ _) as [Us|] eqn:Eu; [|discriminate]. cbn [rbind] in E.
    match type of E with Ok ?b = Ok _ => assert (Hv : row = b) by congruence end. subst row. clear E.
    apply eval_spec in Eu. unfold rb_names in Eu. apply Forall2_map_l in Eu.
    destruct (HD k (Z.to_nat L)) as (Ld & Hd). split.
    + rewrite map_length. rewrite <- (Forall2_len _ _ _ Eu). destruct (Z.to_nat L) as [|L'].
      { destruct (ra_draw a k 0); [cbn in Ld; lia|discriminate Es]. }
      destruct (C34_sequences_invert (S L') 0 (ra_draw a k (S L'))) as (sq & Es' & Lq & _); [lia|exact Hd|]. congruence.
    + intros p Hp. apply in_map_iff in Hp. destruct Hp as (U & <- & HUs).
      assert (X : exists us, Forall (unitary (ra_N a)) us /\ meq (ra_N a) (ra_N a) U (time_ordered (ra_N a) us)).
      { clear - Eu HUs HU. induction Eu as [|s V ss Vs (us & F & M) Eu IH']; [destruct HUs|]. destruct HUs as [<-|HUs]; [|apply IH'; exact HUs].
        exists us. split; [|exact M]. clear M Eu IH'. apply Forall2_map_l in F. induction F as [|g u s us Hg F IHF]; constructor; [|exact IHF].
        eapply HU. exact Hg. }
      destruct X as (us & F & M). apply time_ordered_unitary in F. rewrite Hl. unfold fid_populations.
      assert (V : forall i, i < ra_N a -> Cmod (mmul (ra_N a) U (one_hot 0) i 0) = Cmod (time_ordered (ra_N a) us i 0)).
      { intros i Hi. rewrite mmul_one_hot by exact HN. rewrite (M i 0) by assumption. reflexivity. }
      split; [rewrite map_length, seq_length; reflexivity|]. split.
      * intros x Hx. apply in_map_iff in Hx. destruct Hx as (i & <- & Hi). apply in_seq in Hi. rewrite V by lia.
        apply (entry_le_1 (ra_N a)); [exact F|lia|exact HN].
      * rewrite seq_sum. rewrite <- (col_sum (ra_N a) (time_ordered (ra_N a) us) 0 F HN). apply rs_ext. intros i Hi. cbn [Nat.add].
        rewrite v_sq_mod, V by exact Hi. reflexivity.
Qed.
Print Assumptions C105_populations.

(** The four gates that build the Cliffords, as ideal gates on qubit [t] of a register. *)
Definition ideal_gates (nq t : nat) (target : string) (props : dict mat) : Prop :=
  forall g, In g ["rx90p"; "rx90m"; "ry90p"; "ry90m"]%string ->
  dget (g ++ "[" ++ target ++ "]")%string props = Some (insert_mat_kron (repeat 2 nq) [t] (gate2 g)).
Lemma decomp_names : forall c g, In g (nth c cliffords_decomp []) -> In g ["rx90p"; "rx90m"; "ry90p"; "ry90m"]%string.
Proof.
  assert (K : forallb (fun l => forallb (fun g => existsb (String.eqb g) ["rx90p"; "rx90m"; "ry90p"; "ry90m"]%string) l) cliffords_decomp = true)
    by (vm_compute; reflexivity).
  intros c g H. destruct (Nat.lt_ge_cases c (length cliffords_decomp)) as [L|L]; [|rewrite nth_overflow in H by exact L; destruct H].
  rewrite forallb_forall in K. specialize (K _ (nth_In cliffords_decomp [] L)). rewrite forallb_forall in K. specialize (K _ H).
  apply existsb_exists in K. destruct K as (x & Hx & E). apply String.eqb_eq in E. subst x. exact Hx.
Qed.
Lemma perfect_sequences : forall nq t target props L choices seqs, t < nq -> ideal_gates nq t target props -> 1 <= L ->
  (forall d, In d choices -> length d = L - 1 /\ forall c, In c d -> c < 24) -> single_length_RB L 0 choices = Ok seqs ->
  length seqs = length choices
  /\ forall s, In s seqs -> (forall g, In g s -> In (fst g) ["rx90p"; "rx90m"; "ry90p"; "ry90m"]%string)
     /\ forall us, Forall2 (fun g u => dget (fst g ++ "[" ++ target ++ "]")%string props = Some u) s us ->
        peq (prod_dims (repeat 2 nq)) (time_ordered (prod_dims (repeat 2 nq)) us) mid.
Proof.
  intros nq t target props L choices seqs Ht HI HL HC Hs.
  destruct (C34_sequences_invert L 0 choices HL HC) as (sq & E & Len & A). assert (sq = seqs) by congruence. subst sq.
  split; [exact Len|]. intros s Is. apply (In_nth _ _ []) in Is as (k & Hk & <-). rewrite Len in Hk.
  destruct (A k Hk) as (_ & (i & _ & _ & Nm) & P). set (s := nth k seqs []) in *.
  assert (G : forall g, In g s -> In (fst g) ["rx90p"; "rx90m"; "ry90p"; "ry90m"]%string).
  { intros g Hg. apply (in_map fst) in Hg. rewrite Nm in Hg. apply in_flat_map in Hg. destruct Hg as (c & _ & Hc). eapply decomp_names, Hc. }
  split; [exact G|]. intros us F.
  assert (Q : us = map (fun g => insert_mat_kron (repeat 2 nq) [snd g] (gate2 (fst g))) (map (fun g => (fst g, t)) s)).
  { clear A Nm P. clearbody s. induction F as [|g u s us Hg F IH]; [reflexivity|]. cbn [map fst snd]. f_equal.
    - rewrite (HI (fst g)) in Hg by (apply G; left; reflexivity). congruence.
    - apply IH. intros. apply G. right. assumption. }
  rewrite Q. apply (invert_on_register nq t (map (fun g => (fst g, t)) s) Ht).
  - intros g Hg. apply in_map_iff in Hg. destruct Hg as (x & <- & _). reflexivity.
  - rewrite map_map. cbn [fst]. exact P.
Qed.
Lemma register_level : forall nq, 0 < prod_dims (repeat 2 nq).
Proof. induction nq; cbn [repeat prod_dims fold_right]; [lia|]. fold (prod_dims (repeat 2 nq)). lia. Qed.

(** With ideal gates, on a qubit of any register, every random sequence returns to the
    ground state: all measured points are 1, whatever Cliffords are drawn. *)
Theorem C105_perfect :
  forall a nq t num_seqs L row, t < nq -> ra_N a = prod_dims (repeat 2 nq) -> ra_lind a = false ->
  ideal_gates nq t (ra_target a) (ra_props a) -> good_draw a num_seqs -> 0 < num_seqs ->
  measured a L row -> row = repeat 1%R num_seqs.
Proof.
  intros a nq t ns L row Ht HN Hl HI HD Hns (k & seqs & Hs & F). destruct (HD k (Z.to_nat L)) as (Ld & Hd).
  destruct (Z.to_nat L) as [|L'] eqn:EL. { destruct (ra_draw a k 0); [cbn in Ld; lia|discriminate Hs]. }
  destruct (perfect_sequences nq t _ _ _ _ _ Ht HI (le_n_S 0 L' (Nat.le_0_l _)) Hd Hs) as (Len & A).
  rewrite <- Ld, <- Len. clear Len Hs. induction F as [|s p seqs row (us & Fu & Hp) F IH]; [reflexivity|]. cbn [length repeat]. f_equal.
  - destruct (A s (or_introl eq_refl)) as (_ & P). specialize (P us Fu). destruct P as (c & Hc & M). rewrite Hp, Hl. unfold return_probability.
    rewrite HN. rewrite (M 0 0) by apply register_level. unfold mscale, mid. rewrite Nat.eqb_refl, Cmult_1_r, Hc. ring.
  - apply IH. intros. apply A. right. assumption.
Qed.
Print Assumptions C105_perfect.

(** With the gates at hand and lengths of at least one the simulation of the lengths never
    raises. *)
Lemma rows_ok : forall a ns lens k, ra_props a <> [] -> good_draw a ns ->
  (forall g, In g ["rx90p"; "rx90m"; "ry90p"; "ry90m"]%string -> exists U, dget (g ++ "[" ++ ra_target a ++ "]")%string (ra_props a) = Some U) ->
  Forall (fun L => (1 <= L)%Z) lens -> exists rows, rb_rows a k lens = Ok rows.
Proof.
  intros a ns lens k HP HD HG. revert k. induction lens as [|L lens IH]; intros k H; [eexists; reflexivity|].
  inversion H as [|? ? HL H']; subst. destruct (IH (S k) H') as (rest & E). cbn [rb_rows].
  destruct (HD k (Z.to_nat L)) as (_ & Hd).
  destruct (C34_sequences_invert (Z.to_nat L) 0 (ra_draw a k (Z.to_nat L))) as (seqs & Es & Len & A); [lia|exact Hd|].
  unfold rb_populations. rewrite Es. cbn [rbind].
  assert (O : is_ok (evaluate_sequences (mmul (ra_N a)) (fun _ => mid) (ra_props a) (rb_names (ra_target a) seqs)) = true).
  { apply FoldProps.C24_unknown_gate_raises; [exact HP|]. intros s g Hs Hg. unfold rb_names in Hs. apply in_map_iff in Hs.
    destruct Hs as (s0 & <- & Hs). apply in_map_iff in Hg. destruct Hg as (g0 & <- & Hg).
    apply (In_nth _ _ []) in Hs as (j & Hj & <-). rewrite Len in Hj. destruct (A j Hj) as (_ & (i & _ & _ & Nm) & _).
    apply (in_map fst) in Hg. rewrite Nm in Hg. apply in_flat_map in Hg. destruct Hg as (c & _ & Hc). apply decomp_names in Hc.
    destruct (HG _ Hc) as (U & HU). unfold rb_gate. rewrite HU. discriminate. }
  destruct (evaluate_sequences _ _ _ _); [|discriminate O]. cbn [rbind]. rewrite E. cbn [rbind]. eexists. reflexivity.
Qed.

(** ** leakage_RB *)
(** The data of the leakage fit: the probabilities to be in one of the two lowest levels. *)
Definition measured_comp (a : rb_args) (L : Z) (row : list R) : Prop :=
  exists k seqs, single_length_RB (Z.to_nat L) 0 (ra_draw a k (Z.to_nat L)) = Ok seqs
  /\ Forall2 (fun s p => exists us,
        Forall2 (fun g u => dget (fst g ++ "[" ++ ra_target a ++ "]")%string (ra_props a) = Some u) s us
        /\ p = (Cmod (time_ordered (ra_N a) us 0%nat 0%nat) ^ 2 + Cmod (time_ordered (ra_N a) us 1%nat 0%nat) ^ 2)%R) seqs row.
Lemma rows_comp : forall a lens k rows, ra_lind a = false -> 1 < ra_N a -> rb_rows a k lens = Ok rows ->
  Forall2 (measured_comp a) lens (map comp_survival rows).
Proof.
  intros a lens. induction lens as [|L lens IH]; intros k rows Hl HN H; cbn [rb_rows] in H.
  - match type of H with Ok ?b = Ok _ => assert (Hv : rows = b) by congruence end. subst rows. constructor.
  - destruct (rb_populations a k L) as [row|] eqn:E; [|discriminate]. cbn [rbind] in H.
    destruct (rb_rows a (S k) lens) as [rest|] eqn:E2; [|discriminate]. cbn [rbind] in H.
    match type of H with Ok ?b = Ok _ => assert (Hv : rows = b) by congruence end. subst rows. clear H. cbn [map]. constructor; [|eapply IH; eauto].
    unfold rb_populations in E. destruct (single_length_RB _ _ _) as [seqs|] eqn:Es; [|discriminate]. cbn [rbind] in E.
    destruct (evaluate_sequences _ _ _ _) as [Us|] eqn:Eu; [|discriminate]. cbn [rbind] in E.
    match type of E with Ok ?b = Ok _ => assert (Hv : row = b) by congruence end. subst row. clear E.
    exists k, seqs. split; [exact Es|]. apply eval_spec in Eu. unfold rb_names in Eu. apply Forall2_map_l in Eu.
    unfold comp_survival. rewrite map_map. apply Forall2_map_r. eapply Forall2_imp; [|exact Eu]. cbv beta.
    intros s U (us & F & M). exists us. split; [apply Forall2_map_l in F; exact F|]. rewrite Hl. unfold fid_populations.
    assert (V : forall i, i < ra_N a -> nth i (map (fun n => (Cmod (mmul (ra_N a) U (one_hot 0) n 0%nat) ^ 2)%R) (seq 0 (ra_N a))) 0%R
                = (Cmod (time_ordered (ra_N a) us i 0%nat) ^ 2)%R).
    { intros i Hi. set (f := fun n => (Cmod (mmul (ra_N a) U (one_hot 0) n 0%nat) ^ 2)%R).
      rewrite nth_indep with (d' := f 0) by (rewrite map_length, seq_length; exact Hi). rewrite map_nth, seq_nth by exact Hi. cbn [Nat.add].
      unfold f. rewrite mmul_one_hot by lia. rewrite (M i 0) by lia. reflexivity. }
    rewrite !V by lia. reflexivity.
Qed.
Lemma fit_comp : forall a fit fuel s v s', rb_fit a fit fuel s = Ok (v, s') ->
  fit s' = Ok v /\ (exists (mo1 : list Z) (mo2 : list (list R)), rb_lens s' = rb_lens s ++ mo1 /\ rb_comp s' = rb_comp s ++ mo2 /\ length mo1 = length mo2)
  /\ (forall w, fit s = Ok w -> s' = s).
Proof.
  intros a fit fuel. induction fuel as [|fuel IH]; intros s v s' H; cbn [rb_fit] in H; [discriminate|].
  destruct (fit s) as [x|e] eqn:E.
  - assert (x = v /\ s = s') as [-> ->] by (split; congruence). split; [exact E|]. split; [|auto]. exists [], []. rewrite !app_nil_r. auto.
  - destruct (rb_more a s) as [s1|] eqn:M; [|discriminate]. cbn [rbind] in H. unfold rb_more in M.
    destruct (rb_rows a (rb_count s) _) as [rows|] eqn:R1; [|discriminate]. cbn [rbind] in M.
    match type of M with Ok ?b = Ok _ => assert (Hv : s1 = b) by congruence end. subst s1. clear M.
    destruct (IH _ _ _ H) as (A & (mo1 & mo2 & B1 & B2 & B3) & _). cbn [rb_lens rb_comp] in B1, B2. split; [exact A|].
    split; [|discriminate]. rewrite <- app_assoc in B1, B2. eexists _, _. split; [exact B1|]. split; [exact B2|].
    rewrite !app_length, map_length, B3. f_equal.
    clear - R1. revert R1. generalize (rb_count s). generalize (rb_lengths (ra_log a) (rb_max s + ra_min a) (rb_max s * 2) (ra_num a)).
    intros l n R1. revert n rows R1. induction l as [|z l IHl]; intros n rows R1; cbn [rb_rows] in R1.
    + match type of R1 with Ok ?b = Ok _ => assert (Hv : rows = b) by congruence end. subst rows. reflexivity.
    + destruct (rb_populations a n z); [|discriminate]. cbn [rbind] in R1. destruct (rb_rows a (S n) l) eqn:Q; [|discriminate]. cbn [rbind] in R1.
      match type of R1 with Ok ?b = Ok _ => assert (Hv : rows = b) by congruence end. subst rows. cbn. f_equal. eapply IHl, Q.
Qed.

(** Leakage and seepage are the two rates whose sum is one minus the decay rate of the
    computational population and whose ratio is that of its limits; the error combines the
    decay rate of the survival probability with the leakage.  The decay rate belongs to the
    averages of the populations of the two lowest levels for the requested lengths (see
    below for lengths that are added later). *)
Theorem C105_leakage :
  forall a fit_leak fit_surv fuel max_length res,
  ra_lind a = false -> 1 < ra_N a ->
  (forall l m e r A B, fit_leak l m e = Ok (r, A, B) -> (0 <= r <= 1 /\ 0 <= A <= 1)%R) ->
  (forall q b l m e r A B, fit_surv q b l m e = Ok (r, A, B) -> (0 <= r <= 1)%R) ->
  leakage_RB a fit_leak fit_surv fuel max_length = Ok res ->
  (lr_leakage res + lr_seepage res = 1 - lr_r_leak res
   /\ lr_A_leak res * lr_leakage res = (1 - lr_A_leak res) * lr_seepage res
   /\ 0 <= lr_leakage res <= 1 /\ 0 <= lr_seepage res <= 1
   /\ 2 * lr_epc res = (1 - lr_r res) + lr_leakage res /\ 0 <= lr_epc res <= 1)%R
  /\ (exists lens comp more_lens more, let all := comp ++ more in
       lens = rb_lengths (ra_log a) (ra_min a) max_length (ra_num a)
       /\ Forall2 (measured_comp a) lens comp
       /\ fit_leak (lens ++ more_lens) (row_means all) (row_errs all) = Ok (lr_r_leak res, lr_A_leak res, lr_B_leak res)
       /\ ((exists w, fit_leak lens (row_means comp) (row_errs comp) = Ok w) -> more_lens = [] /\ more = []))
  /\ (exists lens surv means errs, Forall2 (measured a) lens surv /\ means = row_means surv /\ errs = row_errs surv
       /\ fit_surv (lr_r_leak res) (lr_B_leak res) lens means errs = Ok (lr_r res, lr_A res, lr_C res)).
Proof.
  intros a fit_leak fit_surv fuel mx res Hl HN H1 H2 H. unfold leakage_RB in H.
  destruct (rb_start a mx) as [s0|] eqn:E0; [|discriminate]. cbn [rbind] in H.
  destruct (rb_fit _ _ _ s0) as [[[[rl Al] Bl] s1]|] eqn:E1; [|discriminate]. cbn [rbind fst snd] in H.
  destruct (rb_fit _ _ _ s1) as [[[[r A] C] s2]|] eqn:E2; [|discriminate]. cbn [rbind fst snd] in H.
  match type of H with Ok ?b = Ok _ => assert (Hv : res = b) by congruence end. subst res. clear H.
  cbn [lr_leakage lr_seepage lr_r_leak lr_A_leak lr_B_leak lr_epc lr_r lr_A lr_C].
  assert (HL : has_level a) by (unfold has_level; rewrite Hl; lia).
  pose proof (start_measured _ _ _ HL E0) as D0. destruct (fit_data _ _ _ _ _ _ HL E1 D0) as (_ & D1 & _).
  destruct (fit_data _ _ _ _ _ _ HL E2 D1) as (F2 & D2 & _).
  destruct (fit_comp _ _ _ _ _ _ E1) as (F1 & (mo1 & mo2 & G1 & G2 & G3) & G4).
  destruct (H1 _ _ _ _ _ _ F1) as (Q1 & Q2). pose proof (H2 _ _ _ _ _ _ _ _ F2) as Q3.
  split; [repeat split; try ring; try nra|]. split.
  - unfold rb_start in E0. destruct (ra_props a); [discriminate|]. destruct (rb_rows a 0 _) as [rows|] eqn:R0; [|discriminate]. cbn [rbind] in E0.
    match type of E0 with Ok ?b = Ok _ => assert (Hv : s0 = b) by congruence end. subst s0. cbn [rb_lens rb_comp] in *.
    eexists _, (map comp_survival rows), mo1, mo2. cbv zeta. split; [reflexivity|]. split; [eapply rows_comp; eauto|].
    rewrite G1, G2 in F1. split; [exact F1|]. intros (w & Hw). specialize (G4 w Hw). subst s1. cbn [rb_lens rb_comp] in G1, G2.
    split; [apply (app_inv_head (rb_lengths (ra_log a) (ra_min a) mx (ra_num a))); rewrite app_nil_r; congruence
           |apply (app_inv_head (map comp_survival rows)); rewrite app_nil_r; congruence].
  - eexists _, _, _, _. split; [exact D2|]. split; [reflexivity|]. split; [reflexivity|exact F2].
Qed.
Print Assumptions C105_leakage.

(** ** orbit_infid *)
Lemma orbit_mean : forall N Us v, orbit_infid N Us = Ok v ->
  (INR (length Us) * v = fold_right Rplus 0 (map (fun U => 1 - Cmod (mmul N U (one_hot 0) 0%nat 0%nat) ^ 2) Us))%R /\ Us <> [].
Proof.
  intros N Us v H. unfold orbit_infid in H. destruct Us as [|U Us]; [discriminate|].
  match type of H with Ok ?b = Ok _ => assert (Hv : v = b) by congruence end. split; [|discriminate]. rewrite Hv.
  assert (INR (length (U :: Us)) <> 0)%R by (apply not_0_INR; discriminate).
  match goal with |- (_ * (?s / _) = ?t)%R => replace s with t by reflexivity end. field. assumption.
Qed.
(** The figure of merit of ORBIT is the average of one minus the return probability: in
    [0, 1] for unitary propagators, and 0 for ideal gates and random sequences. *)
Theorem C105_orbit :
  forall N props seqs L choices v, 0 < N -> unitary_gates N props -> orbit N props seqs L choices = Ok v ->
  (0 <= v <= 1)%R
  /\ (forall nq t, t < nq -> N = prod_dims (repeat 2 nq) -> ideal_gates nq t "0" props -> seqs = [] ->
      (forall d, In d choices -> length d = L - 1 /\ forall c, In c d -> c < 24) -> v = 0%R).
Proof.
  intros N props seqs L choices v HN HU H. unfold orbit in H.
  destruct (match seqs with [] => _ | _ => _ end) as [ss|] eqn:E; [|discriminate]. cbn [rbind] in H.
  destruct (evaluate_sequences _ _ _ _) as [Us|] eqn:Eu; [|discriminate]. cbn [rbind] in H.
  apply eval_spec in Eu. apply orbit_mean in H as (Hm & Hne).
  assert (B : forall U, In U Us -> exists us, Forall (unitary N) us /\ meq N N U (time_ordered N us)).
  { intros U HIn. clear - Eu HIn HU. induction Eu as [|s V ss Vs (us & F & M) Eu IH']; [destruct HIn|]. destruct HIn as [<-|HIn]; [|apply IH'; exact HIn].
    exists us. split; [|exact M]. clear M Eu IH'. induction F as [|g u s us Hg F IHF]; constructor; [|exact IHF]. eapply HU. exact Hg. }
  assert (P : (0 < INR (length Us))%R) by (apply lt_0_INR; destruct Us; [congruence|cbn; lia]).
  split.
  - assert (G : (0 <= fold_right Rplus 0 (map (fun U => 1 - Cmod (mmul N U (one_hot 0) 0%nat 0%nat) ^ 2) Us) <= INR (length Us))%R).
    { clear Hm Hne P Eu. induction Us as [|U Us IH]; [cbn; lra|]. cbn [map fold_right]. cbn [length]. rewrite S_INR.
      destruct (B U (or_introl eq_refl)) as (us & F & M). apply time_ordered_unitary in F.
      rewrite mmul_one_hot by exact HN. rewrite (M 0 0) by assumption. pose proof (entry_le_1 N _ 0 0 F HN HN).
      assert (I' : (0 <= fold_right Rplus 0 (map (fun U => 1 - Cmod (mmul N U (one_hot 0) 0%nat 0%nat) ^ 2) Us) <= INR (length Us))%R)
        by (apply IH; intros; apply B; right; assumption). lra. }
    split; apply Rmult_le_reg_l with (INR (length Us)); try exact P; lra.
  - intros nq t Ht EN HI -> HC. unfold rmap in E. destruct (single_length_RB L 0 choices) as [sq|] eqn:Es; [|discriminate]. cbn [rbind] in E.
    assert (Hss : ss = rb_names "0" sq) by congruence. subst ss. unfold rb_names in Eu. apply Forall2_map_l in Eu.
    assert (HL : 1 <= L \/ choices = []).
    { destruct L; [|left; lia]. destruct choices; [right; reflexivity|discriminate Es]. }
    destruct HL as [HL| ->].
    2:{ assert (sq = []) by (destruct L; cbn in Es; congruence). subst sq. inversion Eu. subst Us. congruence. }
    destruct (perfect_sequences nq t _ _ _ _ _ Ht HI HL HC Es) as (_ & A).
    assert (Z : fold_right Rplus 0%R (map (fun U => 1 - Cmod (mmul N U (one_hot 0) 0%nat 0%nat) ^ 2)%R Us) = 0%R).
    { clear - Eu A HN EN. induction Eu as [|s U sq Us (us & F & M) Eu IH]; [reflexivity|]. cbn [map fold_right].
      rewrite IH by (intros; apply A; right; assumption). apply Forall2_map_l in F.
      destruct (A s (or_introl eq_refl)) as (_ & P). specialize (P us F). rewrite <- EN in P. destruct P as (c & Hc & M').
      rewrite mmul_one_hot by exact HN. rewrite (M 0 0), (M' 0 0) by assumption. unfold mscale, mid. rewrite Nat.eqb_refl, Cmult_1_r, Hc. ring. }
    rewrite Z in Hm. apply Rmult_integral in Hm. destruct Hm as [Hm|Hm]; [lra|exact Hm].
Qed.
Print Assumptions C105_orbit.

(** ** Findings *)
Lemma decomp_nonempty : forall c, c < 24 -> nth c cliffords_decomp [] <> [].
Proof.
  assert (K : forallb (fun l : list string => match l with [] => false | _ => true end) cliffords_decomp = true) by (vm_compute; reflexivity).
  intros c Hc. rewrite forallb_forall in K. specialize (K (nth c cliffords_decomp []) (nth_In cliffords_decomp [] Hc)).
  intro Z. rewrite Z in K. discriminate.
Qed.
(** Finding: RB passes its argument [padding], "" by default, where single_length_RB expects the qubit,
    so it looks for gates called "rx90p[]".  With propagators named like those of an
    Experiment ("rx90p[0]") it always raises KeyError. *)
Theorem C105_gate_names_refuted :
  forall a curve_fit fuel max_length num_seqs, ra_target a = ""%string -> ra_props a <> [] -> good_draw a num_seqs -> 0 < num_seqs ->
  (forall g, In g ["rx90p"; "rx90m"; "ry90p"; "ry90m"]%string -> dget (g ++ "[]")%string (ra_props a) = None) ->
  ra_log a = false -> 0 < ra_num a -> 1 <= ra_min a <= max_length ->
  RB a curve_fit fuel max_length = Err KeyError.
Proof.
  intros a cf fuel mx ns Ht HP HD Hns HG Hlog Hnum Hmin. unfold RB, rb_start. destruct (ra_props a) as [|p ps] eqn:Ep; [congruence|]. rewrite <- Ep in *.
  destruct (C105_lengths (ra_min a) mx (ra_num a) (proj2 Hmin) Hnum) as (Len & First & _). rewrite Hlog.
  destruct (rb_lengths false (ra_min a) mx (ra_num a)) as [|L lens]; [cbn in Len; lia|]. cbn [nth] in First. subst L.
  cbn [rb_rows]. unfold rb_populations. rewrite Nat2Z.id. destruct (HD 0 (ra_min a)) as (Ld & Hd).
  destruct (C34_sequences_invert (ra_min a) 0 (ra_draw a 0 (ra_min a))) as (seqs & Es & Lq & A); [lia|exact Hd|]. rewrite Es. cbn [rbind].
  assert (E : evaluate_sequences (mmul (ra_N a)) (fun _ => mid) (ra_props a) (rb_names (ra_target a) seqs) = Err KeyError).
  { destruct (A 0) as (_ & (i & Hi & _ & Nm) & _); [lia|]. destruct seqs as [|s seqs]; [cbn in Lq; lia|]. cbn [nth] in Nm.
    destruct s as [|g s].
    { exfalso. cbn [map] in Nm. rewrite flat_map_app in Nm. cbn [flat_map] in Nm. rewrite app_nil_r in Nm. symmetry in Nm. apply app_eq_nil in Nm as (_ & Nm).
      apply (decomp_nonempty (i - 1)); [lia|exact Nm]. }
    assert (Hg : In (fst g) ["rx90p"; "rx90m"; "ry90p"; "ry90m"]%string).
    { assert (In (fst g) (map fst (g :: s))) as I by (left; reflexivity). rewrite Nm in I. apply in_flat_map in I. destruct I as (c & _ & Hc). eapply decomp_names, Hc. }
    rewrite Ep in *. cbn [rb_names map]. destruct p as [k0 u0]. cbn [evaluate_sequences evaluate_sequence lookups].
    unfold dlook at 1. unfold rb_gate at 1. rewrite Ht. change ("[" ++ "" ++ "]")%string with "[]"%string. rewrite (HG _ Hg). reflexivity. }
  rewrite E. reflexivity.
Qed.
Print Assumptions C105_gate_names_refuted.

(** Finding: with one sequence per length all errors are zero.  If curve_fit refuses such
    data, RB never ends: it keeps doubling the lengths of the sequences. *)
Theorem C105_one_sequence_refuted :
  forall a curve_fit max_length, ra_props a <> [] -> good_draw a 1 -> ra_log a = false -> 0 < ra_num a -> 1 <= ra_min a <= max_length ->
  (forall g, In g ["rx90p"; "rx90m"; "ry90p"; "ry90m"]%string -> exists U, dget (g ++ "[" ++ ra_target a ++ "]")%string (ra_props a) = Some U) ->
  (forall l m e, Forall (fun x => x = 0%R) e -> exists x, curve_fit l m e = Err x) ->
  forall fuel, RB a curve_fit fuel max_length = Err OutOfFuel.
Proof.
  intros a cf mx HP HD Hlog Hnum Hmin HG Hfit fuel. unfold RB.
  assert (Pos : forall x y, 1 <= x <= y -> Forall (fun L => (1 <= L)%Z) (rb_lengths (ra_log a) x y (ra_num a))).
  { intros x y Hxy. rewrite Hlog. destruct (C105_lengths x y (ra_num a) (proj2 Hxy) Hnum) as (Len & _ & _ & A).
    apply Forall_forall. intros L HL. apply (In_nth _ _ 0%Z) in HL as (i & Hi & <-). rewrite Len in Hi. specialize (A i Hi). lia. }
  assert (One : forall rows k lens, rb_rows a k lens = Ok rows -> Forall (fun row => exists x, row = [x]) (map survival rows)).
  { intros rows k lens. revert rows k. induction lens as [|L lens IH]; intros rows k H; cbn [rb_rows] in H.
    - match type of H with Ok ?b = Ok _ => assert (Hv : rows = b) by congruence end. subst rows. constructor.
    - destruct (rb_populations a k L) as [row|] eqn:E; [|discriminate]. cbn [rbind] in H.
      destruct (rb_rows a (S k) lens) as [rest|] eqn:E2; [|discriminate]. cbn [rbind] in H.
      match type of H with Ok ?b = Ok _ => assert (Hv : rows = b) by congruence end. subst rows. clear H. cbn [map]. constructor; [|eapply IH; eauto].
      unfold rb_populations in E. destruct (HD k (Z.to_nat L)) as (Ld & Hd). destruct (Z.to_nat L) as [|L'].
      { destruct (ra_draw a k 0); [cbn in Ld; lia|discriminate E]. }
      destruct (C34_sequences_invert (S L') 0 (ra_draw a k (S L'))) as (seqs & Es & Lq & _); [lia|exact Hd|]. rewrite Es in E. cbn [rbind] in E.
      destruct (evaluate_sequences _ _ _ _) as [Us|] eqn:Eu; [|discriminate]. cbn [rbind] in E.
      match type of E with Ok ?b = Ok _ => assert (Hv : row = b) by congruence end. subst row. apply eval_spec, Forall2_len in Eu.
      unfold rb_names in Eu. rewrite map_length, Lq, Ld in Eu. destruct Us as [|U [|]]; try discriminate. cbn [map survival]. eexists. reflexivity. }
  assert (Zero : forall surv, Forall (fun row => exists x, row = [x]) surv -> Forall (fun x => x = 0%R) (row_errs surv)).
  { intros surv H. unfold row_errs. set (d := sqrt _). clearbody d. induction H as [|row surv (x & ->) H IH]; constructor; [|exact IH].
    unfold std_l, mean_l, rsum_l. cbn. replace ((x - (x + 0) / 1) * ((x - (x + 0) / 1) * 1) + 0)%R with 0%R by (field).
    replace (0 / 1)%R with 0%R by field. rewrite sqrt_0. unfold Rdiv. ring. }
  unfold rb_start. destruct (ra_props a) as [|p ps] eqn:Ep; [congruence|]. rewrite <- Ep in *.
  destruct (rows_ok a 1 _ 0 HP HD HG (Pos _ _ Hmin)) as (rows & R0). rewrite R0. cbn [rbind].
  match goal with |- rbind (rb_fit a ?f fuel ?s0) _ = _ => assert (G : forall n s, ra_min a <= rb_max s ->
     Forall (fun row => exists x, row = [x]) (rb_surv s) -> rb_fit a f n s = Err OutOfFuel) end.
  { induction n as [|n IH]; intros s Hs Hone; [reflexivity|]. cbn [rb_fit].
    destruct (Hfit (rb_lens s) (row_means (rb_surv s)) (row_errs (rb_surv s)) (Zero _ Hone)) as (x & ->). unfold rb_more.
    destruct (rows_ok a 1 (rb_lengths (ra_log a) (rb_max s + ra_min a) (rb_max s * 2) (ra_num a)) (rb_count s) HP HD HG) as (more & R1).
    { apply Pos. lia. }
    rewrite R1. cbn [rbind]. apply IH; cbn [rb_max rb_surv]; [lia|]. apply Forall_app. split; [exact Hone|]. eapply One, R1. }
  rewrite G; [reflexivity|cbn [rb_max]; lia|]. cbn [rb_surv]. eapply One, R0.
Qed.
Print Assumptions C105_one_sequence_refuted.

Definition flip : mat := fun i j => if Nat.eqb i j then RtoC 0 else RtoC 1.
Lemma flip_unitary : unitary 2 flip.
Proof.
  split; intros i j Hi Hj; destruct i as [|[|i]]; try lia; destruct j as [|[|j]]; try lia; cbn; apply C_ext; cbn; ring.
Qed.
(** A qubit whose gates about x in the negative direction do nothing and whose other gates
    flip it. *)
Definition faulty_props : dict mat := [("rx90p[0]", flip); ("rx90m[0]", mid); ("ry90p[0]", flip); ("ry90m[0]", flip)]%string.
Definition faulty : rb_args := {| ra_N := 2; ra_props := faulty_props; ra_lind := false; ra_target := "0"; ra_min := 1; ra_num := 1;
  ra_log := false; ra_draw := fun _ L => [repeat 0 (L - 1)] |}.
Lemma faulty_draw : good_draw faulty 1.
Proof.
  intros k L. split; [reflexivity|]. intros d [<-|[]]. split; [apply repeat_length|]. intros c Hc. apply repeat_spec in Hc. lia.
Qed.
Lemma faulty_unitary : unitary_gates 2 faulty_props.
Proof.
  intros g U H. apply dget_Some_in in H. cbn in H. repeat (destruct H as [H|H]; [injection H as _ <-; first [apply flip_unitary|apply unitary_id]|]). destruct H.
Qed.
Lemma identity_inverse : forall n, inverseC (repeat 1 n) = Some 1.
Proof.
  intro n. assert (P : peq 2 (seq_operation (repeat 1 n)) mid).
  { unfold seq_operation. assert (G : forall op, peq 2 op mid -> peq 2 (fold_left (fun o c => mmul 2 (clifford c) o) (repeat 1 n) op) mid); [|apply G, peq_refl].
    induction n as [|n IH]; intros op Hop; [exact Hop|]. cbn [repeat fold_left]. apply IH.
    eapply peq_trans; [apply peq_mul; [apply peq_sym, cliff_identity|exact Hop]|]. apply peq_meq, mmul_id_l. }
  unfold inverseC. cbn [seq find].
  assert (T : inverse_test (seq_operation (repeat 1 n)) 1 = true).
  { unfold inverse_test. rewrite (peq_trace 2 _ mid).
    - assert (E : Cmod (mtrace 2 mid) = 2%R).
      { unfold mtrace, mid. cbn [csum Nat.eqb]. rewrite Cplus_0_l. rewrite <- RtoC_plus, Cmod_R, Rabs_pos_eq; lra. }
      rewrite E. destruct (Rlt_dec _ _) as [|N]; [reflexivity|]. exfalso. apply N. rewrite Rminus_eq_0, Rabs_R0. lra.
    - eapply peq_trans; [apply peq_mul; [apply peq_sym, cliff_identity|exact P]|]. apply peq_meq, mmul_id_l. }
  rewrite T. reflexivity.
Qed.
Lemma one_length : forall x y, x <= y -> rb_lengths false x y 1 = [Z.of_nat x].
Proof.
  intros x y H. destruct (C105_lengths x y 1 H (le_n 1)) as (Len & First & _). destruct (rb_lengths false x y 1) as [|z [|]]; try discriminate.
  cbn in First. subst z. reflexivity.
Qed.
Lemma faulty_rows : forall L k, 1 <= L -> exists p, rb_rows faulty k [Z.of_nat L] = Ok [[p]] /\
  exists us, Forall2 (fun g u => dget (fst g ++ "[" ++ "0" ++ "]")%string faulty_props = Some u)
                     (flat_map (fun c => map (fun g => (g, 0)) (nth (c - 1) cliffords_decomp [])) (repeat 1 L)) us
  /\ nth 0 p 0%R = (Cmod (time_ordered 2 us 0%nat 0%nat) ^ 2)%R /\ nth 1 p 0%R = (Cmod (time_ordered 2 us 1%nat 0%nat) ^ 2)%R.
Proof.
  intros L k HL.
  assert (Hr : exists rows, rb_rows faulty k [Z.of_nat L] = Ok rows).
  { apply (rows_ok faulty 1); [discriminate|apply faulty_draw| |].
    - intros g Hg. cbn in Hg. repeat (destruct Hg as [<-|Hg]; [eexists; reflexivity|]). destruct Hg.
    - constructor; [lia|constructor]. }
  destruct Hr as (rows & E). pose proof E as E'. cbn [rb_rows] in E'. unfold rb_populations in E'. rewrite Nat2Z.id in E'.
  cbn [ra_draw faulty] in E'. destruct L as [|L]; [lia|]. replace (S L - 1) with L in E' by lia.
  assert (Es : single_length_RB (S L) 0 [repeat 0 L]
     = Ok [flat_map (fun c => map (fun g => (g, 0)) (nth (c - 1) cliffords_decomp [])) (repeat 1 (S L))]).
  { cbn [single_length_RB rb_all]. unfold rb_sequence. replace (map S (repeat 0 L)) with (repeat 1 L) by (clear; induction L; cbn; congruence). rewrite identity_inverse. cbn [rbind]. do 2 f_equal.
    f_equal. change [1] with (repeat 1 1). rewrite <- repeat_app. f_equal. lia. }
  rewrite Es in E'. set (sq0 := flat_map _ (repeat 1 (S L))) in *. clearbody sq0. clear Es. cbn [rbind] in E'. destruct (evaluate_sequences _ _ _ _) as [Us|] eqn:Eu; [|discriminate]. cbn [rbind] in E'.
  match type of E' with Ok ?b = Ok _ => assert (Hv : rows = b) by congruence end. subst rows. clear E'.
  apply eval_spec in Eu. unfold rb_names in Eu. apply Forall2_map_l in Eu. inversion Eu as [|s U sq Us' (us & F & M) Eu']; subst. inversion Eu'; subst.
  cbn [map ra_N ra_lind faulty] in *. eexists. split; [exact E|]. exists us. apply Forall2_map_l in F. split; [exact F|].
  unfold fid_populations. cbn [seq map nth]. rewrite !mmul_one_hot by lia. rewrite (M 0 0), (M 1 0) by lia. split; reflexivity.
Qed.

(** Finding: after a fit that failed, leakage_RB counts only the ground state as
    computational for the lengths it adds, so the fit no longer sees the population of the
    two lowest levels: a qubit without any leakage can get a leakage rate. *)
Theorem C105_retry_refuted :
  ~ (forall a fit_leak fit_surv fuel max_length res, ra_lind a = false -> ra_N a = 2 -> unitary_gates (ra_N a) (ra_props a) ->
     leakage_RB a fit_leak fit_surv fuel max_length = Ok res ->
     exists lens comp, Forall2 (measured_comp a) lens comp
       /\ fit_leak lens (row_means comp) (row_errs comp) = Ok (lr_r_leak res, lr_A_leak res, lr_B_leak res)).
Proof.
  intro H.
  pose (fl := fun (l : list Z) (m e : list R) => match m with [_; x] => Ok (x, 0, 0) | _ => Err ValueError end%R : result (R * R * R)).
  pose (fs := fun (q b : R) (l : list Z) (m e : list R) => Ok (1, 0, 0)%R : result (R * R * R)).
  destruct (faulty_rows 1 0 (le_n 1)) as (p & R1 & _).
  destruct (faulty_rows 3 1) as (p3 & R3 & us & F & P0 & _); [lia|].
  assert (Z : nth 0 p3 0%R = 0%R).
  { rewrite P0. cbn [repeat flat_map nth cliffords_decomp Nat.sub map app] in F.
    repeat match goal with F : Forall2 _ (_ :: _) _ |- _ => inversion F; clear F; subst | F : Forall2 _ [] _ |- _ => inversion F; clear F; subst end.
    repeat match goal with E : dget _ _ = Some ?u |- _ => cbn in E; injection E as <- end.
    replace (time_ordered 2 [flip; mid; flip; mid; flip; mid] 0 0) with (RtoC 0); [rewrite Cmod_0; ring|].
    unfold time_ordered, mmul, mid, flip. cbn [csum Nat.eqb]. apply C_ext; cbn; ring. }
  assert (E : exists res, leakage_RB faulty fl fs 2 2 = Ok res /\ lr_r_leak res = 0%R).
  { unfold leakage_RB, rb_start. change (ra_props faulty) with faulty_props. unfold faulty_props at 1.
    change (rb_lengths (ra_log faulty) (ra_min faulty) 2 (ra_num faulty)) with (rb_lengths false 1 2 1). rewrite one_length by lia.
    rewrite R1. cbn [rbind rb_fit]. unfold fl at 1. cbn [rb_comp map row_means].
    unfold rb_more. cbn [rb_max rb_count length].
    change (rb_lengths (ra_log faulty) (2 + ra_min faulty) (2 * 2) (ra_num faulty)) with (rb_lengths false 3 4 1). rewrite one_length by lia.
    rewrite R3. cbn [rbind].
    cbn [rb_comp map app row_means]. unfold fl at 1. cbn [rbind fst snd rb_fit].
    unfold fs at 1. cbn [rbind fst snd]. eexists. split; [reflexivity|]. cbn [lr_r_leak survival map]. rewrite Z. unfold mean_l, rsum_l. cbn. field. }
  destruct E as (res & E & Er).
  destruct (H faulty fl fs 2 2 res eq_refl eq_refl faulty_unitary E) as (lens & comp & M & Q).
  unfold fl in Q. destruct comp as [|r1 [|r2 [|r3 comp]]]; try discriminate Q. cbn [row_means map] in Q.
  assert (X : mean_l r2 = 0%R) by (rewrite <- Er; congruence).
  inversion M as [|L1 ? ls ? _ M']; subst. inversion M' as [|L2 ? ls' ? (k & seqs & Hs & Hf) M'']; subst.
  destruct (faulty_draw k (Z.to_nat L2)) as (Ld & Hd). destruct (Z.to_nat L2) as [|L'].
  { destruct (ra_draw faulty k 0); [cbn in Ld; lia|discriminate Hs]. }
  destruct (C34_sequences_invert (S L') 0 (ra_draw faulty k (S L'))) as (sq & Es & Lq & _); [lia|exact Hd|].
  assert (sq = seqs) by congruence. subst sq. rewrite Ld in Lq. destruct seqs as [|s [|]]; try discriminate.
  inversion Hf as [|? pz ? ? (vs & Fv & Pv) Hf']; subst. inversion Hf'; subst.
  assert (U : unitary 2 (time_ordered 2 vs)).
  { apply time_ordered_unitary. clear - Fv. induction Fv as [|g u s vs Hg Fv IH]; constructor; [|exact IH]. eapply faulty_unitary, Hg. }
  pose proof (col_sum 2 _ 0 U Nat.lt_0_2) as Cs. cbn [rs] in Cs. rewrite !v_sq_mod in Cs.
  unfold mean_l, rsum_l in X. cbn [fold_right length INR] in X. cbn [ra_N faulty] in X. lra.
Qed.
Print Assumptions C105_retry_refuted.

Example C105_example :
  let a := {| ra_N := 2; ra_props := [("rx90p[0]", insert_mat_kron [2] [0] (gate2 "rx90p")); ("rx90m[0]", insert_mat_kron [2] [0] (gate2 "rx90m"));
                                      ("ry90p[0]", insert_mat_kron [2] [0] (gate2 "ry90p")); ("ry90m[0]", insert_mat_kron [2] [0] (gate2 "ry90m"))]%string;
              ra_lind := false; ra_target := "0"; ra_min := 2; ra_num := 3; ra_log := false;
              ra_draw := fun _ L => [repeat 7 (L - 1); repeat 11 (L - 1)] |} in
  has_level a /\ good_draw a 2 /\ ideal_gates 1 0 (ra_target a) (ra_props a)
  /\ exists v, RB a (fun _ _ _ => Ok (1, 1 / 2, 1 / 2)%R) 1 9 = Ok v /\ v = 0%R.
Proof.
  intro a.
  assert (D : good_draw a 2).
  { intros k L. split; [reflexivity|]. intros d Hd. cbn [ra_draw a] in Hd.
    destruct Hd as [<-|[<-|[]]]; (split; [apply repeat_length|]); intros c Hc; apply repeat_spec in Hc; lia. }
  assert (G : ideal_gates 1 0 (ra_target a) (ra_props a)).
  { intros g Hg. cbn in Hg. repeat (destruct Hg as [<-|Hg]; [reflexivity|]). destruct Hg. }
  split; [unfold has_level; cbn; lia|]. split; [exact D|]. split; [exact G|]. unfold RB, rb_start. cbn [ra_props a].
  destruct (rows_ok a 2 (rb_lengths (ra_log a) (ra_min a) 9 (ra_num a)) 0) as (rows & E).
  - discriminate.
  - exact D.
  - intros g Hg. eexists. apply G. exact Hg.
  - cbn [ra_log ra_min ra_num a]. destruct (C105_lengths 2 9 3) as (Len & _ & _ & A); [lia|lia|].
    apply Forall_forall. intros L HL. apply (In_nth _ _ 0%Z) in HL as (i & Hi & <-). rewrite Len in Hi. specialize (A i Hi). lia.
  - fold a. rewrite E. cbn [rbind rb_fit fst]. eexists. split; [reflexivity|]. apply C105_error_of_rate.
Qed.
