(** Property theorems about the robust optimiser (C83).

    Vocabulary: [base] is the store obtained by writing the current optimiser
    vector into the original store; [perturbed base ids v d] says that the store
    [d] is [base] except that the parameters [ids] hold the physical value [v]. *)
From Coq Require Import Reals Lra List.
From Verif Require Import Base QuantityModel QuantityProofs PMapModel PMapProofs RobustModel.
Import ListNotations.
Local Open Scope list_scope.
Local Notation length := List.length.

(** ** Specification vocabulary *)
Definition perturbed (base : dict quantity) (ids : list string) (v : list R)
           (d : dict quantity) : Prop :=
  keys d = keys base
  /\ (forall k, ~ In k ids -> dget k d = dget k base)
  /\ (forall k, In k ids -> exists q q', dget k base = Some q /\ dget k d = Some q'
        /\ numpy q' = v /\ get_limits q' = get_limits q /\ q_unit q' = q_unit q).

(** All noise instances in the order they are run. *)
Definition all_instances (nm : list (list (list R) * list parid))
  : list (list string * list R) :=
  List.concat (map (fun e => map (fun v => (map par_key (snd e), v)) (fst e)) nm).

(** ** Lemmas *)
Definition shape (q q' : quantity) : Prop :=
  with_value q [] = with_value q' [] /\ length (q_value q) = length (q_value q').

Lemma shape_refl q : shape q q. Proof. split; reflexivity. Qed.
Lemma shape_with q v : length v = length (q_value q) -> shape q (with_value q v).
Proof. intros H. split; [reflexivity|]. cbn. now symmetry. Qed.
Lemma shape_trans a b c : shape a b -> shape b c -> shape a c.
Proof. intros [A B] [C D]. split; congruence. Qed.
Lemma shape_sym a b : shape a b -> shape b a.
Proof. intros [A B]. split; congruence. Qed.
Lemma with_with q v w : with_value (with_value q v) w = with_value q w.
Proof. reflexivity. Qed.
Lemma shape_value q q' v : shape q q' -> with_value q v = with_value q' v.
Proof.
  intros [H _]. rewrite <- (with_with q [] v), <- (with_with q' [] v). now rewrite H.
Qed.
Lemma shape_scaled q q' x : shape q q' -> scaled_entry q x = scaled_entry q' x.
Proof. intros [H _]. unfold with_value in H. injection H as A B C D E. unfold scaled_entry. now rewrite A, B, C. Qed.
Lemma shape_wfq q q' : shape q q' -> wfq q -> wfq q'.
Proof.
  intros [H _]. unfold with_value in H. injection H as A B C D E. unfold wfq. now rewrite A, C.
Qed.

(** Option lifting of [shape]. *)
Definition oshape (a b : option quantity) : Prop :=
  match a, b with Some q, Some q' => shape q q' | None, None => True | _, _ => False end.
Definition dshape (d d' : dict quantity) : Prop :=
  keys d = keys d' /\ forall k, oshape (dget k d) (dget k d').

Lemma oshape_refl a : oshape a a.
Proof. destruct a; cbn; auto using shape_refl. Qed.
Lemma oshape_trans a b c : oshape a b -> oshape b c -> oshape a c.
Proof. destruct a, b, c; cbn; try tauto. apply shape_trans. Qed.
Lemma oshape_sym a b : oshape a b -> oshape b a.
Proof. destruct a, b; cbn; try tauto. apply shape_sym. Qed.
Lemma dshape_refl d : dshape d d.
Proof. split; [reflexivity|]. intros; apply oshape_refl. Qed.
Lemma dshape_trans a b c : dshape a b -> dshape b c -> dshape a c.
Proof. intros [A B] [C D]. split; [congruence|]. intros k. eapply oshape_trans; eauto. Qed.
Lemma dshape_sym a b : dshape a b -> dshape b a.
Proof. intros [A B]. split; [congruence|]. intros k. apply oshape_sym, B. Qed.
Lemma dshape_dset k q v d : dget k d = Some q -> length v = length (q_value q) ->
  dshape d (dset k (with_value q v) d).
Proof.
  intros H L. split.
  - symmetry. apply keys_dset_present. apply dget_in_keys. now exists q.
  - intros k'. destruct (String.eqb_spec k' k) as [->|N].
    + rewrite dget_dset_same, H. cbn. now apply shape_with.
    + rewrite dget_dset_other by assumption. apply oshape_refl.
Qed.
Lemma dshape_wfd d d' : dshape d d' -> wfd d -> wfd d'.
Proof.
  intros [_ S] W k q H. specialize (S k). rewrite H in S.
  destruct (dget k d) as [q0|] eqn:E; [|contradiction]. eapply shape_wfq; eauto.
Qed.

(** Setting a group: exactly its members get the value. *)
Lemma set_group_spec ids v : forall d d', wfd d -> set_group ids v false d = (d', None) ->
  dshape d d'
  /\ (forall k, ~ In k ids -> dget k d' = dget k d)
  /\ (forall k, In k ids -> exists q, dget k d = Some q
        /\ dget k d' = Some (with_value q (map (scaled_entry q) v))).
Proof.
  induction ids as [|k ids IH]; intros d d' W; cbn [set_group].
  - intros [= <-]. split; [apply dshape_refl|]. split; [reflexivity|]. intros k [].
  - destruct (set_one k v false d) as [d1 [e|]] eqn:E; [discriminate|]. intros H.
    apply set_one_None in E as (q & q' & Hq & Hs & ->).
    assert (Q : q' = with_value q (map (scaled_entry q) v) /\ length v = length (q_value q)).
    { unfold set_value in Hs. destruct (Nat.eqb_spec (length v) (length (q_value q))) as [L|]; [|discriminate Hs].
      unfold set_value_strict in Hs. destruct (Req_EM_T _ _); [discriminate Hs|].
      destruct (existsb _ _); [discriminate Hs|]. injection Hs as <-. now split. }
    destruct Q as [-> L].
    assert (D1 : dshape d (dset k (with_value q (map (scaled_entry q) v)) d)).
    { apply dshape_dset; [assumption|]. now rewrite map_length. }
    destruct (IH _ _ (dshape_wfd _ _ D1 W) H) as (A & B & C).
    split; [eapply dshape_trans; eauto|]. split.
    + intros k' N. rewrite B by (intros I; apply N; now right).
      apply dget_dset_other. intros ->. apply N. now left.
    + intros k' I. destruct (in_dec string_dec k' ids) as [I'|N'].
      * destruct (C k' I') as (q1 & Q1 & Q2).
        destruct (String.eqb_spec k' k) as [->|N].
        -- rewrite dget_dset_same in Q1. injection Q1 as <-. exists q. split; [assumption|].
           exact Q2.
        -- rewrite dget_dset_other in Q1 by assumption. exists q1. now split.
      * destruct I as [->|I]; [|contradiction]. exists q. split; [assumption|].
        rewrite B by assumption. apply dget_dset_same.
Qed.

(** One parameter group through [set_parameters]. *)
Definition same_setup (pm pm' : pmap) : Prop :=
  pm_model_ids pm' = pm_model_ids pm /\ pm_opt_map pm' = pm_opt_map pm
  /\ pm_update pm' = pm_update pm /\ pm_has_model pm' = pm_has_model pm.
Lemma same_setup_refl pm : same_setup pm pm. Proof. repeat split. Qed.
Lemma same_setup_trans a b c : same_setup a b -> same_setup b c -> same_setup a c.
Proof. intros (A&B&C&D) (A'&B'&C'&D'). repeat split; congruence. Qed.

Lemma set_parameters_single pm v ids pm' e :
  set_parameters pm [v] (Some [ids]) false = (pm', e) ->
  same_setup pm pm' /\ set_group (map par_key ids) v false (pm_pars pm) = (pm_pars pm', e).
Proof.
  unfold set_parameters. cbn [get_opt_map norm_map map length Nat.eqb negb set_groups].
  destruct (set_group (map par_key ids) v false (pm_pars pm)) as [d [x|]] eqn:E.
  - intros [= <- <-]. cbn. now split.
  - intros [= <- <-].
    destruct (existsb _ _ && pm_has_model pm); cbn; split; repeat split.
Qed.

(** The scaled setter: what it writes depends only on limits and sizes. *)
Lemma set_opt_value_shape v q q' q1 : shape q q' -> set_opt_value v q = Ok q1 ->
  set_opt_value v q' = Ok q1 /\ shape q q1.
Proof.
  intros S. unfold set_opt_value. destruct S as [S L]. rewrite <- L.
  destruct (Nat.eqb_spec (length v) (length (q_value q))) as [E|]; [|discriminate].
  intros [= <-]. split.
  - f_equal. symmetry. apply shape_value. now split.
  - apply shape_with. now rewrite map_length.
Qed.

Lemma set_opt_value_dshape v q q1 : set_opt_value v q = Ok q1 ->
  q1 = with_value q (map opt_fold v) /\ length (map opt_fold v) = length (q_value q).
Proof.
  unfold set_opt_value.
  destruct (Nat.eqb_spec (length v) (length (q_value q))) as [E|]; [|discriminate].
  intros [= <-]. rewrite map_length. now split.
Qed.

Lemma set_opt_group_spec ids v (S0 : list string) : forall d d' d2,
  set_opt_group ids v d = (d', None) ->
  dshape d d2 -> (forall k, In k S0 -> dget k d2 = dget k d) ->
  exists d2', set_opt_group ids v d2 = (d2', None) /\ dshape d d' /\ dshape d2 d2'
    /\ (forall k, ~ In k ids -> dget k d' = dget k d)
    /\ (forall k, ~ In k ids -> dget k d2' = dget k d2)
    /\ (forall k, In k ids \/ In k S0 -> dget k d2' = dget k d').
Proof.
  induction ids as [|k ids IH]; intros d d' d2; cbn [set_opt_group].
  - intros [= <-] S HS. exists d2. do 3 (split; [first [reflexivity | apply dshape_refl]|]).
    do 2 (split; [reflexivity|]). intros k [[]|I]. now apply HS.
  - destruct (dget k d) as [q|] eqn:Eq; [|discriminate].
    destruct (set_opt_value v q) as [q1|] eqn:E1; [|discriminate]. intros H D HS.
    pose proof (proj2 D k) as O. rewrite Eq in O.
    destruct (dget k d2) as [q2|] eqn:Eq2; [|contradiction]. cbn in O.
    destruct (set_opt_value_shape v q q2 q1 O E1) as [E2 Sh]. rewrite E2.
    destruct (set_opt_value_dshape _ _ _ E1) as [-> L1].
    pose proof (set_opt_value_dshape _ _ _ E2) as [X2 L2].
    assert (D1 : dshape d (dset k (with_value q (map opt_fold v)) d)) by now apply dshape_dset.
    assert (D2 : dshape d2 (dset k (with_value q (map opt_fold v)) d2)).
    { rewrite X2. now apply dshape_dset. }
    destruct (IH _ d' (dset k (with_value q (map opt_fold v)) d2) H) as (d2' & R & A & B & C1 & C2 & C3).
    { eapply dshape_trans; [apply dshape_sym; exact D1|].
      eapply dshape_trans; [exact D|exact D2]. }
    { intros k' I. destruct (String.eqb_spec k' k) as [->|N].
      - now rewrite !dget_dset_same.
      - rewrite !dget_dset_other by assumption. now apply HS. }
    exists d2'. split; [exact R|]. split; [eapply dshape_trans; eauto|].
    split; [eapply dshape_trans; eauto|]. split; [|split].
    + intros k' N. rewrite C1 by (intros I; apply N; now right).
      apply dget_dset_other. intros ->. apply N. now left.
    + intros k' N. rewrite C2 by (intros I; apply N; now right).
      apply dget_dset_other. intros ->. apply N. now left.
    + intros k' I. destruct (in_dec string_dec k' ids) as [I'|N']; [apply C3; now left|].
      destruct I as [[<-|I]|I]; [|contradiction|apply C3; now right].
      rewrite C1, C2 by assumption. now rewrite !dget_dset_same.
Qed.

Lemma set_opt_groups_spec m : forall vals (S0 : list string) d d' d2,
  set_opt_groups m vals d = (d', None) ->
  dshape d d2 -> (forall k, In k S0 -> dget k d2 = dget k d) ->
  exists d2', set_opt_groups m vals d2 = (d2', None) /\ dshape d d' /\ dshape d2 d2'
    /\ (forall k, ~ In k (List.concat m) -> dget k d' = dget k d)
    /\ (forall k, ~ In k (List.concat m) -> dget k d2' = dget k d2)
    /\ (forall k, In k (List.concat m) \/ In k S0 -> dget k d2' = dget k d').
Proof.
  induction m as [|ids m IH]; intros vals S0 d d' d2; cbn [set_opt_groups List.concat].
  - intros [= <-] S HS. exists d2. do 3 (split; [first [reflexivity | apply dshape_refl]|]).
    do 2 (split; [reflexivity|]). intros k [[]|I]. now apply HS.
  - unfold leader. destruct ids as [|k0 ids]; [discriminate|].
    destruct (dget k0 d) as [q|] eqn:Eq; [|discriminate]. cbv beta iota zeta.
    destruct (set_opt_group (k0 :: ids) (firstn (length (q_value q)) vals) d) as [d1 [e|]] eqn:E1;
      [discriminate|]. intros H D HS.
    pose proof (proj2 D k0) as O. rewrite Eq in O.
    destruct (dget k0 d2) as [q2|] eqn:Eq2; [|contradiction]. cbn in O.
    rewrite <- (proj2 O).
    destruct (set_opt_group_spec _ _ S0 _ _ _ E1 D HS) as (d21 & R & A & B & C1 & C2 & C3).
    rewrite R.
    destruct (IH (skipn (length (q_value q)) vals) ((k0 :: ids) ++ S0) d1 d' d21 H)
      as (d2' & R' & A' & B' & C1' & C2' & C3').
    { eapply dshape_trans; [apply dshape_sym; exact A|]. eapply dshape_trans; [exact D|exact B]. }
    { intros k I. apply C3. exact (in_app_or _ _ _ I). }
    exists d2'. split; [exact R'|]. split; [eapply dshape_trans; eauto|].
    split; [eapply dshape_trans; eauto|]. split; [|split].
    + intros k N. rewrite in_app_iff in N. rewrite C1', C1; tauto.
    + intros k N. rewrite in_app_iff in N. rewrite C2', C2; tauto.
    + intros k I. apply C3'. rewrite in_app_iff in *. tauto.
Qed.

Lemma set_scaled_inv pm cur pm' : set_parameters_scaled pm cur None = (pm', None) ->
  same_setup pm pm'
  /\ set_opt_groups (pm_opt_map pm) cur (pm_pars pm) = (pm_pars pm', None)
  /\ (pm_update pm = true -> pm_has_model pm = true).
Proof.
  unfold set_parameters_scaled, set_scaled_model, set_scaled_ctrls, get_opt_map.
  destruct (pm_update pm) eqn:U.
  - destruct (set_opt_groups _ _ _) as [d [e|]]; cbn; [discriminate|].
    destruct (pm_has_model pm) eqn:M; [|discriminate]. intros [= <-]. cbn. repeat split; auto.
  - destruct (set_opt_groups _ _ _) as [d [e|]]; cbn; [discriminate|].
    intros [= <-]. cbn. repeat split. discriminate.
Qed.

Lemma set_scaled_fwd pm cur d : set_opt_groups (pm_opt_map pm) cur (pm_pars pm) = (d, None) ->
  (pm_update pm = true -> pm_has_model pm = true) ->
  exists pm', set_parameters_scaled pm cur None = (pm', None) /\ pm_pars pm' = d.
Proof.
  intros H U. unfold set_parameters_scaled, set_scaled_model, set_scaled_ctrls, get_opt_map.
  rewrite H. destruct (pm_update pm).
  - rewrite (U eq_refl). eexists. split; reflexivity.
  - eexists. split; reflexivity.
Qed.

(** Two dictionaries with the same key order and the same entries are equal. *)
Lemma dict_ext {V} (d d' : dict V) : keys d = keys d' -> NoDup (keys d) ->
  (forall k, dget k d = dget k d') -> d = d'.
Proof.
  revert d'. induction d as [|[k v] d IH]; intros [|[k' v'] d'] K N H; try discriminate K; [reflexivity|].
  cbn in K. injection K as E0 K. cbn in N. inversion N as [|x0 l0 N1 N2]. subst x0 l0. subst k.
  pose proof (H k') as H0. cbn in H0. rewrite String.eqb_refl in H0. injection H0 as ->.
  f_equal. apply IH; [assumption|assumption|].
  intros z. pose proof (H z) as Hk. cbn in Hk.
  destruct (String.eqb_spec z k') as [Ez|]; [|exact Hk]. rewrite Ez.
  assert (Z : forall (e : dict V), ~ In k' (keys e) -> dget k' e = None).
  { intros e Ne. destruct (dget k' e) eqn:G; [|reflexivity]. exfalso. apply Ne.
    apply dget_in_keys. eauto. }
  assert (N3 : ~ In k' (keys d')) by (unfold keys; rewrite <- K; exact N1).
  now rewrite (Z d N1), (Z d' N3).
Qed.

Lemma restore_value q q1 : wfq q -> shape q q1 ->
  with_value q1 (map (scaled_entry q1) (numpy q)) = q.
Proof.
  intros W S. rewrite <- (shape_value q q1 _ S).
  replace (map (scaled_entry q1) (numpy q)) with (q_value q); [now destruct q|].
  unfold numpy, get_value. rewrite !map_map. symmetry.
  etransitivity; [|apply map_id]. apply map_ext. intros x.
  rewrite <- (shape_scaled q q1 _ S). destruct W. unfold scaled_entry. field. lra.
Qed.

Section Run.
  Variable fid : dict quantity -> nat -> result (R * list R).
  Variable pm : pmap.
  Variable cur : list R.
  Variable pmb : pmap.
  Variable n : nat.
  Hypothesis W : wfd (pm_pars pm).
  Hypothesis B : set_parameters_scaled pm cur None = (pmb, None).

  (** State between instances of the noise group [ids]: original outside the
      optimised parameters and the group. *)
  Definition during (ids : list string) (p : pmap) : Prop :=
    same_setup pm p /\ dshape (pm_pars pm) (pm_pars p)
    /\ (forall k, ~ In k (List.concat (pm_opt_map pm)) -> ~ In k ids ->
          dget k (pm_pars p) = dget k (pm_pars pm)).

  Lemma instance_step ids p v p' r :
    (forall k, In k (map par_key ids) -> ~ In k (List.concat (pm_opt_map pm))) ->
    during (map par_key ids) p ->
    noise_instance fid p cur v ids n = (p', Ok r) ->
    during (map par_key ids) p' /\ perturbed (pm_pars pmb) (map par_key ids) v (pm_pars p')
    /\ fid (pm_pars p') (n + 1) = Ok r
    /\ (forall k, In k (List.concat (pm_opt_map pm)) -> dget k (pm_pars p') = dget k (pm_pars pmb)).
  Proof.
    intros Dj (Su & Sh & Fr). unfold noise_instance.
    destruct (set_parameters p [v] (Some [ids]) false) as [p1 [e|]] eqn:E1; [discriminate|].
    apply set_parameters_single in E1 as [Su1 E1].
    destruct (set_group_spec _ _ _ _ (dshape_wfd _ _ Sh W) E1) as (Sh1 & F1 & G1).
    unfold robust_goal_run.
    destruct (set_parameters_scaled p1 cur None) as [p2 [e|]] eqn:E2; [discriminate|].
    intros [= <- Hr].
    apply set_scaled_inv in E2 as (Su2 & E2 & _).
    destruct (set_scaled_inv _ _ _ B) as (SuB & EB & _).
    assert (Om : pm_opt_map p1 = pm_opt_map pm).
    { destruct Su as (_ & a & _), Su1 as (_ & b & _). congruence. }
    rewrite Om in E2.
    destruct (set_opt_groups_spec _ _ [] _ _ (pm_pars p1) EB) as (d2 & R & A & A' & C1 & C2 & C3).
    { eapply dshape_trans; eauto. } { intros k []. }
    rewrite R in E2. injection E2 as E2. rewrite <- E2 in *.
    assert (Sh2 : dshape (pm_pars pm) d2).
    { eapply dshape_trans; [exact Sh|]. eapply dshape_trans; [exact Sh1|exact A']. }
    split; [|split; [|split]].
    - split; [eapply same_setup_trans; [exact Su|eapply same_setup_trans; eauto]|].
      split; [rewrite <- E2; exact Sh2|]. intros k N1 N2.
      rewrite <- E2, C2 by assumption. rewrite F1 by assumption. now apply Fr.
    - split; [|split].
      + transitivity (keys (pm_pars pm)); [symmetry; apply Sh2|apply A].
      + intros k N. destruct (in_dec string_dec k (List.concat (pm_opt_map pm))) as [I|NI].
        * apply C3. now left.
        * rewrite C2, C1 by assumption. rewrite F1 by assumption. now apply Fr.
      + intros k I. pose proof (Dj k I) as NI. destruct (G1 k I) as (q & Q1 & Q2).
        rewrite C2, C1 by assumption.
        pose proof (proj2 Sh k) as O. rewrite Q1 in O.
        destruct (dget k (pm_pars pm)) as [q0|] eqn:Q0; [|contradiction]. cbn in O.
        exists q0, (with_value q (map (scaled_entry q) v)).
        split; [reflexivity|]. split; [exact Q2|].
        assert (Wq : wfq q) by (eapply shape_wfq; [exact O|eapply W; eauto]).
        split; [now apply numpy_with_scaled|].
        destruct O as [O _]. unfold with_value in O. injection O as a b c d e.
        unfold get_limits; cbn. now rewrite a, b, c, d.
    - exact Hr.
    - intros k I. apply C3. now left.
  Qed.

  Lemma instances_step ids vals : forall p p' rs,
    (forall k, In k (map par_key ids) -> ~ In k (List.concat (pm_opt_map pm))) ->
    during (map par_key ids) p ->
    instances fid p cur vals ids n = (p', Ok rs) ->
    during (map par_key ids) p'
    /\ Forall2 (fun v r => exists d, perturbed (pm_pars pmb) (map par_key ids) v d
                 /\ fid d (n + 1) = Ok r) vals rs
    /\ ((vals = [] /\ p' = p) \/
        forall k, In k (List.concat (pm_opt_map pm)) -> dget k (pm_pars p') = dget k (pm_pars pmb)).
  Proof.
    induction vals as [|v vals IH]; intros p p' rs Dj D; cbn [instances].
    - intros [= <- <-]. split; [assumption|]. split; [constructor|]. now left.
    - destruct (noise_instance fid p cur v ids n) as [p1 [g|e]] eqn:E; [|discriminate].
      destruct (instance_step _ _ _ _ _ Dj D E) as (D1 & P1 & F1 & O1).
      destruct (instances fid p1 cur vals ids n) as [p2 [gs|e]] eqn:E2; [|discriminate].
      intros [= <- <-]. destruct (IH _ _ _ Dj D1 E2) as (D2 & P2 & O2).
      split; [assumption|]. split.
      + constructor; [|assumption]. now exists (pm_pars p1).
      + right. destruct O2 as [[-> ->]|O2]; assumption.
  Qed.

  (** Members of one noise group hold the same physical value. *)
  Definition group_equal (ids : list parid) : Prop :=
    forall k k' q q', In k (map par_key ids) -> In k' (map par_key ids) ->
      dget k (pm_pars pm) = Some q -> dget k' (pm_pars pm) = Some q' -> numpy q = numpy q'.

  Lemma loop_step nm : forall p p' rs,
    (forall e k, In e nm -> In k (map par_key (snd e)) -> ~ In k (List.concat (pm_opt_map pm))) ->
    (forall e, In e nm -> group_equal (snd e)) ->
    during [] p ->
    noise_loop fid p cur nm n = (p', Ok rs) ->
    during [] p'
    /\ Forall2 (fun iv r => exists d, perturbed (pm_pars pmb) (fst iv) (snd iv) d
                 /\ fid d (n + 1) = Ok r) (all_instances nm) rs
    /\ (rs = [] /\ (forall k, In k (List.concat (pm_opt_map pm)) -> dget k (pm_pars p') = dget k (pm_pars p))
        \/ forall k, In k (List.concat (pm_opt_map pm)) -> dget k (pm_pars p') = dget k (pm_pars pmb)).
  Proof.
    induction nm as [|[vals ids] nm IH]; intros p p' rs Dj Eq D; cbn [noise_loop].
    - intros [= <- <-]. split; [assumption|]. split; [constructor|]. left. now split.
    - destruct (get_parameters p (Some [ids])) as [qs|] eqn:G; [|discriminate].
      cbv beta zeta.
      destruct (instances fid p cur vals ids n) as [p1 [gs|]] eqn:E1; [|discriminate].
      destruct (set_parameters p1 (map numpy qs) (Some [ids]) false) as [p2 [e|]] eqn:E2; [discriminate|].
      destruct (noise_loop fid p2 cur nm n) as [p3 [gs'|]] eqn:E3; [|discriminate].
      intros [= <- <-].
      assert (Dj1 : forall k, In k (map par_key ids) -> ~ In k (List.concat (pm_opt_map pm))).
      { intros k I. apply (Dj (vals, ids)); [now left|assumption]. }
      assert (D' : during (map par_key ids) p).
      { destruct D as (a & b & c). split; [assumption|]. split; [assumption|].
        intros k N _. apply c; [assumption|]. intros []. }
      destruct (instances_step _ _ _ _ _ Dj1 D' E1) as (D1 & P1 & O1).
      (* the saved value *)
      unfold get_parameters in G. cbn [get_opt_map norm_map map mapM] in G.
      unfold leader in G. destruct ids as [|i0 ids]; [discriminate G|]. cbn [map] in G.
      destruct (dget (par_key i0) (pm_pars p)) as [q0|] eqn:Q0; [|discriminate G].
      cbn in G. injection G as <-. cbn [map] in E2.
      apply set_parameters_single in E2 as [Su2 E2].
      assert (In0 : In (par_key i0) (map par_key (i0 :: ids))) by now left.
      assert (Q0' : dget (par_key i0) (pm_pars pm) = Some q0).
      { rewrite <- Q0. symmetry. apply D; [now apply Dj1|]. intros []. }
      destruct D1 as (Su1 & Sh1 & F1).
      destruct (set_group_spec _ _ _ _ (dshape_wfd _ _ Sh1 W) E2) as (Sh2 & F2 & G2).
      assert (D2 : during [] p2).
      { split; [eapply same_setup_trans; eauto|]. split; [eapply dshape_trans; eauto|].
        intros k N _. destruct (in_dec string_dec k (map par_key (i0 :: ids))) as [I|NI].
        - destruct (G2 k I) as (q1 & Q1 & Q2). rewrite Q2.
          pose proof (proj2 Sh1 k) as O. rewrite Q1 in O.
          destruct (dget k (pm_pars pm)) as [q|] eqn:Q; [|contradiction]. cbn in O.
          rewrite (Eq (vals, i0 :: ids) (or_introl eq_refl) (par_key i0) k q0 q In0 I Q0' Q).
          rewrite restore_value; [reflexivity|eapply W; eauto|exact O].
        - rewrite F2 by assumption. now apply F1. }
      assert (Op : forall k, In k (List.concat (pm_opt_map pm)) ->
                     dget k (pm_pars p2) = dget k (pm_pars p1)).
      { intros k I. apply F2. intros I'. now apply (Dj1 k I'). }
      destruct (IH p2 p3 gs') as (D3 & P3 & O3).
      { intros e k I. apply Dj. now right. }
      { intros e I. apply Eq. now right. }
      { assumption. } { assumption. }
      split; [assumption|]. split.
      + unfold all_instances. cbn [map List.concat fst snd]. apply Forall2_app; [|exact P3].
        clear -P1. induction P1; cbn [map]; constructor; auto.
      + destruct O3 as [[-> O3]|O3]; [|now right]. destruct O1 as [[-> ->]|O1].
        * left. inversion P1; subst. split; [reflexivity|]. intros k I.
          rewrite O3, Op; [reflexivity|assumption|assumption].
        * right. intros k I. rewrite O3, Op by assumption. now apply O1.
  Qed.
End Run.

Lemma fold_INR (xs : list R) : xs <> [] ->
  (mean_of xs * INR (length xs) = fold_right Rplus 0 xs)%R.
Proof.
  intros H. unfold mean_of. destruct xs as [|x xs]; [congruence|].
  assert (0 < INR (length (x :: xs)))%R by (apply lt_0_INR; cbn; lia). field. lra.
Qed.

Lemma fold_nonneg (xs : list R) : Forall (fun x => 0 <= x)%R xs -> (0 <= fold_right Rplus 0 xs)%R.
Proof. induction 1; cbn; lra. Qed.

(** ** C83.  Averages and restores: every instance is evaluated on the store that
    holds the optimiser vector and that one noise value, with all other
    parameters as the caller left them; the returned goal and gradient are the
    means; afterwards the store is the caller's with the optimiser vector
    written, so that each noise parameter is back to its value. *)
Theorem C83_averages_and_restores :
  forall fid pm cur pmb nm n pm' st goal grad,
  wfd (pm_pars pm) -> NoDup (keys (pm_pars pm)) ->
  set_parameters_scaled pm cur None = (pmb, None) ->
  (forall e k, In e nm -> In k (map par_key (snd e)) -> ~ In k (List.concat (pm_opt_map pm))) ->
  (forall e, In e nm -> group_equal pm (snd e)) ->
  goal_run_with_grad fid pm cur nm n = (pm', Ok (st, (goal, grad))) ->
  exists rs : list (R * list R),
    Forall2 (fun iv r => exists d, perturbed (pm_pars pmb) (fst iv) (snd iv) d
                                   /\ fid d (n + 1) = Ok r) (all_instances nm) rs
    /\ rs <> []
    /\ (goal * INR (length rs) = fold_right Rplus 0 (map fst rs))%R
    /\ length grad = length cur
    /\ (forall i, i < length cur ->
          (nth i grad 0 * INR (length rs) = fold_right Rplus 0 (map (fun r => nth i (snd r) 0) rs))%R)
    /\ st_goals st = map fst rs /\ st_goal st = goal
    /\ (0 <= st_goal_std st)%R
    /\ (st_goal_std st * st_goal_std st * INR (length rs)
        = fold_right Rplus 0 (map (fun r => (fst r - goal) * (fst r - goal)) rs))%R
    /\ pm_pars pm' = pm_pars pmb.
Proof.
  intros fid pm cur pmb nm n pm' st goal grad W Nd B Dj Eq H.
  unfold goal_run_with_grad in H.
  destruct (noise_loop fid pm cur nm n) as [p [[|r0 rs0]|e]] eqn:L; try discriminate H.
  remember (r0 :: rs0) as rs eqn:Ers.
  assert (Ne : rs <> []) by (rewrite Ers; discriminate). clear Ers r0 rs0.
  cbv beta zeta in H. injection H as <- <- <- <-.
  assert (D0 : during pm [] pm).
  { split; [apply same_setup_refl|]. split; [apply dshape_refl|]. reflexivity. }
  destruct (loop_step fid pm cur pmb n W B nm pm p rs Dj Eq D0 L) as (D & P & O).
  exists rs. split; [exact P|]. split; [exact Ne|].
  assert (Nm : forall (f : R * list R -> R), map f rs <> []).
  { intros f Hf. apply Ne. now destruct rs. }
  split; [rewrite <- (map_length fst rs); now apply fold_INR|].
  split; [unfold mean_vec; now rewrite map_length, seq_length|].
  split.
  { intros i Hi. unfold mean_vec.
    rewrite (nth_indep _ 0%R (mean_of (map (fun g => nth 0 g 0%R) (map snd rs))))
      by (rewrite map_length, seq_length; exact Hi).
    rewrite (map_nth (fun i => mean_of (map (fun g => nth i g 0%R) (map snd rs)))).
    rewrite seq_nth by exact Hi. cbn [plus]. rewrite map_map.
    rewrite <- (map_length (fun r => nth i (snd r) 0%R) rs). now apply fold_INR. }
  split; [reflexivity|]. split; [reflexivity|]. cbn [st_goal_std].
  split; [apply sqrt_pos|]. split.
  { unfold std_of. rewrite map_map.
    assert (Nn : (0 <= mean_of (map (fun r => (fst r - mean_of (map fst rs)) * (fst r - mean_of (map fst rs))) rs))%R).
    { unfold mean_of at 1. apply Rmult_le_pos.
      - apply fold_nonneg. apply Forall_forall. intros x I. apply in_map_iff in I as (r & <- & _).
        apply Rle_0_sqr.
      - left. apply Rinv_0_lt_compat, lt_0_INR. rewrite map_length. destruct rs; [congruence|cbn; lia]. }
    rewrite sqrt_sqrt by exact Nn.
    rewrite <- (map_length (fun r => ((fst r - mean_of (map fst rs)) * (fst r - mean_of (map fst rs)))%R) rs).
    now apply fold_INR. }
  destruct (set_scaled_inv _ _ _ B) as (SuB & EB & _).
  destruct (set_opt_groups_spec _ _ [] _ _ (pm_pars pm) EB (dshape_refl _)) as (d2 & _ & A & _ & C1 & _ & _).
  { reflexivity. }
  destruct D as (_ & Sh & F).
  apply dict_ext.
  - transitivity (keys (pm_pars pm)); [symmetry; apply Sh|apply A].
  - rewrite <- (proj1 Sh). exact Nd.
  - intros k. destruct (in_dec string_dec k (List.concat (pm_opt_map pm))) as [I|NI].
    + destruct O as [[O _]|O]; [contradiction|]. now apply O.
    + rewrite C1 by assumption. apply F; [assumption|]. intros [].
Qed.
Print Assumptions C83_averages_and_restores.

(** The run succeeds when each noise value fits its parameters. *)
Lemma shape_limits q q' : shape q q' -> get_limits q' = get_limits q.
Proof.
  intros [H _]. unfold with_value in H. injection H as A B C D E. unfold get_limits. now rewrite A, B, C.
Qed.
Lemma shape_fits q q' v : shape q q' -> fits q v -> fits q' v.
Proof.
  intros S. unfold fits. rewrite (shape_limits _ _ S), !numpy_length, (proj2 S). auto.
Qed.

Lemma set_group_ok ids v : forall d, wfd d ->
  (forall k, In k ids -> exists q, dget k d = Some q /\ fits q v) ->
  exists d', set_group ids v false d = (d', None).
Proof.
  induction ids as [|k ids IH]; intros d W H; cbn [set_group]; [now exists d|].
  destruct (H k (or_introl eq_refl)) as (q & Q & F).
  destruct (proj1 (set_value_fits v q (W _ _ Q)) F) as (q' & Hs).
  unfold set_one. rewrite Q, Hs.
  assert (E : set_group [k] v false d = (dset k q' d, None)).
  { cbn [set_group]. unfold set_one. now rewrite Q, Hs. }
  destruct (set_group_spec _ _ _ _ W E) as (Sh & _ & _).
  apply IH; [eapply dshape_wfd; eauto|].
  intros k' I. destruct (H k' (or_intror I)) as (q2 & Q2 & F2).
  pose proof (proj2 Sh k') as O. rewrite Q2 in O.
  destruct (dget k' (dset k q' d)) as [q3|] eqn:Q3; [|contradiction].
  exists q3. split; [reflexivity|]. eapply shape_fits; eauto.
Qed.

Lemma set_single_fwd p v ids d : set_group (map par_key ids) v false (pm_pars p) = (d, None) ->
  exists p', set_parameters p [v] (Some [ids]) false = (p', None).
Proof.
  intros H. unfold set_parameters.
  cbn [get_opt_map norm_map map length Nat.eqb negb set_groups]. rewrite H. eexists. reflexivity.
Qed.

Lemma in_tol_fits q : wfq q -> in_tol q -> fits q (numpy q).
Proof.
  intros [P S] T. split; [reflexivity|]. unfold numpy, get_value. rewrite map_map.
  apply Forall_forall. intros x I. apply in_map_iff in I as (t & <- & I).
  unfold in_tol in T. rewrite Forall_forall in T. specialize (T t I).
  cbn [get_limits fst snd].
  replace ((q_scale q + q_offset q) / q_pref q - q_offset q / q_pref q)%R with (q_scale q / q_pref q)%R
    by (field; lra).
  assert (0 < q_scale q / q_pref q)%R by (apply Rdiv_lt_0_compat; lra).
  set (s := (q_scale q / q_pref q)%R) in *.
  replace ((q_scale q * (t + 1) / 2 + q_offset q) / q_pref q)%R
    with (s * (t + 1) / 2 + q_offset q / q_pref q)%R by (unfold s; field; lra).
  replace ((q_scale q + q_offset q) / q_pref q)%R with (s + q_offset q / q_pref q)%R by (unfold s; field; lra).
  split; nra.
Qed.

Section Succeeds.
  Variable fid : dict quantity -> nat -> result (R * list R).
  Variable pm : pmap.
  Variable cur : list R.
  Variable pmb : pmap.
  Variable n : nat.
  Hypothesis W : wfd (pm_pars pm).
  Hypothesis T : told (pm_pars pm).
  Hypothesis B : set_parameters_scaled pm cur None = (pmb, None).
  Hypothesis F : forall d m, exists r, fid d m = Ok r.

  Lemma instance_ok ids p v :
    (forall k, In k (map par_key ids) -> exists q, dget k (pm_pars pm) = Some q /\ fits q v) ->
    during pm (map par_key ids) p ->
    exists p' r, noise_instance fid p cur v ids n = (p', Ok r).
  Proof.
    intros Fi (Su & Sh & Fr).
    destruct (set_group_ok (map par_key ids) v (pm_pars p) (dshape_wfd _ _ Sh W)) as (d & E).
    { intros k I. destruct (Fi k I) as (q & Q & Fq). pose proof (proj2 Sh k) as O. rewrite Q in O.
      destruct (dget k (pm_pars p)) as [q'|]; [|contradiction]. exists q'. split; [reflexivity|].
      eapply shape_fits; eauto. }
    destruct (set_single_fwd _ _ _ _ E) as (p1 & E1). unfold noise_instance. rewrite E1.
    apply set_parameters_single in E1 as [Su1 E1].
    destruct (set_group_spec _ _ _ _ (dshape_wfd _ _ Sh W) E1) as (Sh1 & _ & _).
    destruct (set_scaled_inv _ _ _ B) as (SuB & EB & U).
    destruct (set_opt_groups_spec _ _ [] _ _ (pm_pars p1) EB) as (d2 & R & _).
    { eapply dshape_trans; [exact Sh|exact Sh1]. } { intros k []. }
    destruct Su as (a1 & a2 & a3 & a4), Su1 as (b1 & b2 & b3 & b4).
    destruct (set_scaled_fwd p1 cur d2) as (p2 & E2 & _).
    { rewrite b2, a2. exact R. } { rewrite b3, a3, b4, a4. exact U. }
    unfold robust_goal_run. rewrite E2. destruct (F (pm_pars p2) (n + 1)) as (r & ->). eauto.
  Qed.

  Lemma instances_ok ids vals : forall p,
    (forall k, In k (map par_key ids) -> ~ In k (List.concat (pm_opt_map pm))) ->
    (forall k, In k (map par_key ids) -> exists q, dget k (pm_pars pm) = Some q
       /\ forall v, In v vals -> fits q v) ->
    during pm (map par_key ids) p ->
    exists p' rs, instances fid p cur vals ids n = (p', Ok rs).
  Proof.
    induction vals as [|v vals IH]; intros p Dj Fi D; cbn [instances]; [eauto|].
    destruct (instance_ok ids p v) as (p1 & r & E); [|assumption|].
    { intros k I. destruct (Fi k I) as (q & Q & Fq). exists q. split; [assumption|]. apply Fq. now left. }
    rewrite E. destruct (instance_step fid pm cur pmb n W B _ _ _ _ _ Dj D E) as (D1 & _).
    destruct (IH p1 Dj) as (p2 & rs & ->); [|assumption|eauto].
    intros k I. destruct (Fi k I) as (q & Q & Fq). exists q. split; [assumption|]. intros w Iw.
    apply Fq. now right.
  Qed.

  Lemma loop_ok nm : forall p,
    (forall e k, In e nm -> In k (map par_key (snd e)) -> ~ In k (List.concat (pm_opt_map pm))) ->
    (forall e, In e nm -> snd e <> [] /\ group_equal pm (snd e)) ->
    (forall e k, In e nm -> In k (map par_key (snd e)) ->
       exists q, dget k (pm_pars pm) = Some q /\ forall v, In v (fst e) -> fits q v) ->
    during pm [] p ->
    exists p' rs, noise_loop fid p cur nm n = (p', Ok rs).
  Proof.
    induction nm as [|[vals ids] nm IH]; intros p Dj Eq Fi D; [cbn; eauto|].
    assert (Dj1 : forall k, In k (map par_key ids) -> ~ In k (List.concat (pm_opt_map pm))).
    { intros k I. apply (Dj (vals, ids)); [now left|assumption]. }
    destruct (Eq (vals, ids) (or_introl eq_refl)) as [Ne Ge]. cbn [snd] in *.
    destruct ids as [|j0 ids]; [congruence|].
    assert (I0 : In (par_key j0) (map par_key (j0 :: ids))) by now left.
    destruct (Fi (vals, j0 :: ids) (par_key j0) (or_introl eq_refl) I0) as (q0 & Q0 & _).
    assert (D' : during pm (map par_key (j0 :: ids)) p).
    { destruct D as (a & b & c). split; [assumption|]. split; [assumption|].
      intros k N _. apply c; [assumption|]. intros []. }
    assert (Qp : dget (par_key j0) (pm_pars p) = Some q0).
    { rewrite <- Q0. apply D; [now apply Dj1|]. intros []. }
    assert (G : get_parameters p (Some [j0 :: ids]) = Ok [q0]).
    { unfold get_parameters. cbn [get_opt_map norm_map map mapM]. unfold leader. now rewrite Qp. }
    destruct (instances_ok (j0 :: ids) vals p Dj1) as (p1 & rs & E1).
    { intros k I. apply (Fi (vals, j0 :: ids) k (or_introl eq_refl) I). } { exact D'. }
    destruct (instances_step fid pm cur pmb n W B _ _ _ _ _ Dj1 D' E1) as (D1 & _ & _).
    destruct (set_group_ok (map par_key (j0 :: ids)) (numpy q0) (pm_pars p1)) as (d & E2).
    { eapply dshape_wfd; [apply D1|exact W]. }
    { intros k I. destruct (Fi (vals, j0 :: ids) k (or_introl eq_refl) I) as (q & Q & _).
      pose proof (proj2 (proj1 (proj2 D1)) k) as O. rewrite Q in O.
      destruct (dget k (pm_pars p1)) as [q1|]; [|contradiction]. exists q1. split; [reflexivity|].
      rewrite (Ge (par_key j0) k q0 q I0 I Q0 Q). eapply shape_fits; [exact O|].
      apply in_tol_fits; [eapply W; eauto|eapply T; eauto]. }
    destruct (set_single_fwd _ _ _ _ E2) as (p2 & E3).
    assert (D2 : during pm [] p2).
    { assert (L : noise_loop fid p cur [(vals, j0 :: ids)] n = (p2, Ok (rs ++ []))).
      { cbn [noise_loop]. rewrite G. cbn [map]. rewrite E1, E3. reflexivity. }
      eapply (loop_step fid pm cur pmb n W B [(vals, j0 :: ids)] p p2 _); [| |exact D|exact L].
      - intros e k [<-|[]] I. now apply Dj1.
      - intros e [<-|[]]. exact Ge. }
    destruct (IH p2) as (p3 & rs' & E4).
    { intros e k I. apply Dj. now right. } { intros e I. apply Eq. now right. }
    { intros e k I. apply Fi. now right. } { exact D2. }
    cbn [noise_loop]. rewrite G. cbn [map]. rewrite E1, E3, E4. eauto.
  Qed.
End Succeeds.

Theorem C83_succeeds : forall fid pm cur pmb nm n,
  wfd (pm_pars pm) -> told (pm_pars pm) ->
  set_parameters_scaled pm cur None = (pmb, None) ->
  (forall d m, exists r, fid d m = Ok r) ->
  (forall e k, In e nm -> In k (map par_key (snd e)) -> ~ In k (List.concat (pm_opt_map pm))) ->
  (forall e, In e nm -> snd e <> [] /\ group_equal pm (snd e)) ->
  (forall e k, In e nm -> In k (map par_key (snd e)) ->
     exists q, dget k (pm_pars pm) = Some q /\ forall v, In v (fst e) -> fits q v) ->
  all_instances nm <> [] ->
  exists pm' r, goal_run_with_grad fid pm cur nm n = (pm', Ok r).
Proof.
  intros fid pm cur pmb nm n W T B F Dj Eq Fi Ne.
  assert (D0 : during pm [] pm).
  { split; [apply same_setup_refl|]. split; [apply dshape_refl|]. reflexivity. }
  destruct (loop_ok fid pm cur pmb n W T B F nm pm Dj Eq Fi D0) as (p' & rs & L).
  unfold goal_run_with_grad. rewrite L.
  destruct (loop_step fid pm cur pmb n W B nm pm p' rs Dj (fun e I => proj2 (Eq e I)) D0 L) as (_ & P & _).
  destruct rs as [|r rs]; [inversion P; congruence|]. eauto.
Qed.
Print Assumptions C83_succeeds.

(** Finding: when an instance raises (here a noise value outside the limits, the
    second of the list), nothing restores the parameter: it keeps the previous
    noise value. *)
Theorem C83_failure_not_restored_refuted : forall fid pm cur pmb nm n k q v1 v2 r,
  wfd (pm_pars pm) ->
  set_parameters_scaled pm cur None = (pmb, None) ->
  (forall d m, fid d m = Ok r) ->
  dget (par_key k) (pm_pars pm) = Some q -> ~ In (par_key k) (List.concat (pm_opt_map pm)) ->
  fits q v1 -> ~ fits q v2 -> numpy q <> v1 ->
  exists pm' e q', goal_run_with_grad fid pm cur (([v1; v2], [k]) :: nm) n = (pm', Err e)
    /\ dget (par_key k) (pm_pars pm') = Some q' /\ numpy q' = v1 /\ numpy q' <> numpy q.
Proof.
  intros fid pm cur pmb nm n k q v1 v2 r W B F Q Nk F1 F2 Nv.
  assert (D0 : during pm (map par_key [k]) pm).
  { split; [apply same_setup_refl|]. split; [apply dshape_refl|]. reflexivity. }
  assert (Dj : forall k', In k' (map par_key [k]) -> ~ In k' (List.concat (pm_opt_map pm))).
  { intros k' [<-|[]]. exact Nk. }
  destruct (instance_ok fid pm cur pmb n W B (fun d m => ex_intro _ r (F d m)) [k] pm v1)
    as (p1 & r1 & E1); [|exact D0|].
  { intros k' [<-|[]]. now exists q. }
  destruct (instance_step fid pm cur pmb n W B [k] pm v1 p1 r1 Dj D0 E1) as (D1 & P1 & _ & _).
  destruct (proj2 (proj2 P1) (par_key k) (or_introl eq_refl)) as (qb & q1 & Qb & Q1 & V1 & _ & _).
  assert (E2 : exists e, noise_instance fid p1 cur v2 [k] n = (p1, Err e)).
  { unfold noise_instance.
    destruct (set_parameters p1 [v2] (Some [[k]]) false) as [p2 e] eqn:E.
    unfold set_parameters in E. cbn [get_opt_map norm_map map length Nat.eqb negb set_groups set_group] in E.
    unfold set_one in E. rewrite Q1 in E.
    destruct (set_value v2 false q1) as [q2|e2] eqn:S2.
    - exfalso. apply F2. pose proof (proj2 (proj1 (proj2 D1)) (par_key k)) as O. rewrite Q, Q1 in O. cbn in O.
      eapply shape_fits; [apply shape_sym; exact O|]. apply set_value_fits; [eapply shape_wfq; [exact O|eapply W; eauto]|].
      now exists q2.
    - assert (Z : with_pars p1 (pm_pars p1) = p1) by now destruct p1.
      destruct e2; injection E as <- <-; rewrite Z; eauto. }
  destruct E2 as (e & E2).
  exists p1, e, q1. split; [|split; [exact Q1|split; [exact V1|congruence]]].
  unfold goal_run_with_grad. cbn [noise_loop].
  replace (get_parameters pm (Some [[k]])) with (Ok [q]).
  2: { unfold get_parameters. cbn [get_opt_map norm_map map mapM]. unfold leader. now rewrite Q. }
  cbn [instances]. rewrite E1, E2. reflexivity.
Qed.
Print Assumptions C83_failure_not_restored_refuted.

(** Finding: a noise parameter that is also optimised is overwritten by the
    optimiser vector before each evaluation, so every instance sees the store
    without noise. *)
Theorem C83_optimised_noise_refuted : forall fid pm cur pmb ids vals n pm' rs,
  wfd (pm_pars pm) -> NoDup (keys (pm_pars pm)) ->
  set_parameters_scaled pm cur None = (pmb, None) ->
  (forall k, In k (map par_key ids) -> In k (List.concat (pm_opt_map pm))) ->
  instances fid pm cur vals ids n = (pm', Ok rs) ->
  Forall (fun r => fid (pm_pars pmb) (n + 1) = Ok r) rs.
Proof.
  intros fid pm cur pmb ids vals n pm' rs W Nd B Sub.
  assert (G : forall p, same_setup pm p -> dshape (pm_pars pm) (pm_pars p) ->
    (forall k, ~ In k (List.concat (pm_opt_map pm)) -> dget k (pm_pars p) = dget k (pm_pars pm)) ->
    instances fid p cur vals ids n = (pm', Ok rs) ->
    Forall (fun r => fid (pm_pars pmb) (n + 1) = Ok r) rs).
  2: { intros H. apply (G pm); [apply same_setup_refl|apply dshape_refl|reflexivity|exact H]. }
  revert pm' rs. induction vals as [|v vals IH]; intros pm' rs p Su Sh Fr; cbn [instances].
  - intros [= <- <-]. constructor.
  - destruct (noise_instance fid p cur v ids n) as [p1 [g|e]] eqn:E; [|discriminate].
    destruct (instances fid p1 cur vals ids n) as [p2 [gs|e]] eqn:E2; [|discriminate].
    intros [= <- <-].
    unfold noise_instance in E.
    destruct (set_parameters p [v] (Some [ids]) false) as [pa [e|]] eqn:E1; [discriminate|].
    apply set_parameters_single in E1 as [Su1 E1].
    destruct (set_group_spec _ _ _ _ (dshape_wfd _ _ Sh W) E1) as (Sh1 & F1 & _).
    unfold robust_goal_run in E.
    destruct (set_parameters_scaled pa cur None) as [pb [e|]] eqn:E3; [discriminate|].
    injection E as E Hr. subst pb.
    apply set_scaled_inv in E3 as (Su2 & E3 & _).
    destruct (set_scaled_inv _ _ _ B) as (SuB & EB & _).
    assert (Om : pm_opt_map pa = pm_opt_map pm).
    { destruct Su as (_ & a & _), Su1 as (_ & b & _). congruence. }
    rewrite Om in E3.
    destruct (set_opt_groups_spec _ _ [] _ _ (pm_pars pa) EB) as (d2 & R & A & A' & C1 & C2 & C3).
    { eapply dshape_trans; eauto. } { intros k []. }
    rewrite R in E3. injection E3 as E3.
    assert (Sh2 : dshape (pm_pars pm) (pm_pars p1)).
    { rewrite <- E3. eapply dshape_trans; [exact Sh|]. eapply dshape_trans; [exact Sh1|exact A']. }
    assert (Fr2 : forall k, ~ In k (List.concat (pm_opt_map pm)) -> dget k (pm_pars p1) = dget k (pm_pars pm)).
    { intros k N. rewrite <- E3, C2, F1; [now apply Fr| |assumption]. intros I. apply N, Sub, I. }
    assert (Eqd : pm_pars p1 = pm_pars pmb).
    { apply dict_ext.
      - transitivity (keys (pm_pars pm)); [symmetry; apply Sh2|apply A].
      - rewrite <- (proj1 Sh2). exact Nd.
      - intros k. destruct (in_dec string_dec k (List.concat (pm_opt_map pm))) as [I|N].
        + rewrite <- E3. apply C3. now left.
        + rewrite C1 by assumption. now apply Fr2. }
    constructor; [rewrite <- Eqd; exact Hr|].
    eapply IH; [|exact Sh2|exact Fr2|exact E2].
    eapply same_setup_trans; [exact Su|]. eapply same_setup_trans; [exact Su1|exact Su2].
Qed.
Print Assumptions C83_optimised_noise_refuted.

(** Finding: only the value of the first member of a noise group is saved, and it
    is written back to every member. *)
Theorem C83_group_overwritten_refuted : forall fid pm cur pmb ids k0 k q0 q vals n pm' r,
  wfd (pm_pars pm) ->
  set_parameters_scaled pm cur None = (pmb, None) ->
  (forall j, In j (map par_key (k0 :: ids)) -> ~ In j (List.concat (pm_opt_map pm))) ->
  In k ids ->
  dget (par_key k0) (pm_pars pm) = Some q0 -> dget (par_key k) (pm_pars pm) = Some q ->
  numpy q <> numpy q0 ->
  goal_run_with_grad fid pm cur [(vals, k0 :: ids)] n = (pm', Ok r) ->
  exists q', dget (par_key k) (pm_pars pm') = Some q' /\ numpy q' = numpy q0
             /\ numpy q' <> numpy q.
Proof.
  intros fid pm cur pmb ids k0 k q0 q vals n pm' r W B Dj Ik Q0 Q Nq H.
  unfold goal_run_with_grad in H.
  destruct (noise_loop fid pm cur [(vals, k0 :: ids)] n) as [p rs] eqn:L.
  assert (Hp : p = pm' /\ exists l, rs = Ok l).
  { destruct rs as [[|r0 l]|e]; [discriminate H| |discriminate H]. injection H as -> _. eauto. }
  destruct Hp as [-> (l & ->)]. cbn [noise_loop] in L.
  replace (get_parameters pm (Some [k0 :: ids])) with (Ok [q0]) in L.
  2: { unfold get_parameters. cbn [get_opt_map norm_map map mapM]. unfold leader. now rewrite Q0. }
  cbn [map] in L. destruct (instances fid pm cur vals (k0 :: ids) n) as [p1 [gs|e]] eqn:E1; [|discriminate L].
  destruct (set_parameters p1 [numpy q0] (Some [k0 :: ids]) false) as [p2 [e|]] eqn:E2; [discriminate L|].
  injection L as <- _.
  assert (D0 : during pm (map par_key (k0 :: ids)) pm).
  { split; [apply same_setup_refl|]. split; [apply dshape_refl|]. reflexivity. }
  destruct (instances_step fid pm cur pmb n W B _ _ _ _ _ Dj D0 E1) as (D1 & _ & _).
  apply set_parameters_single in E2 as [_ E2].
  pose proof (dshape_wfd _ _ (proj1 (proj2 D1)) W) as W1.
  destruct (set_group_spec _ _ _ _ W1 E2) as (_ & _ & G).
  destruct (G (par_key k)) as (q1 & Q1 & Q2).
  { right. now apply in_map. }
  eexists. split; [exact Q2|].
  rewrite numpy_with_scaled by (eapply W1; eauto). split; [reflexivity|congruence].
Qed.
Print Assumptions C83_group_overwritten_refuted.

(** A noise map with two parameters, three instances, meets the hypotheses. *)
Definition ex_noise : list (list (list R) * list parid) :=
  [([[(1/2)%R]; [(3/2)%R]], [PStr "m"]); ([[1%R]], [PTup ["x"; "y"]])]%string.
Definition ex_rpm : pmap :=
  mkPM [("a", mkQ 1 0 2 [0%R] "V" "a"); ("m", mkQ 1 0 2 [0%R] "V" "m");
        ("x-y", mkQ 1 0 4 [(1/4)%R] "V" "x")]%string
       ["m"%string] [["a"]]%string false true 0.

Example C83_example :
  exists pm' r, goal_run_with_grad (fun d m => Ok (INR m, [INR (length d)])) ex_rpm [(1/3)%R] ex_noise 4
                = (pm', Ok r).
Proof.
  eapply (C83_succeeds _ ex_rpm [(1/3)%R] _ ex_noise 4).
  - intros k q. cbn. repeat (destruct (String.eqb _ _); [intros [= <-]; split; cbn; lra|]). discriminate.
  - intros k q. pose proof tol_pos. cbn.
    repeat (destruct (String.eqb _ _); [intros [= <-]; unfold in_tol; cbn; repeat constructor; lra|]).
    discriminate.
  - reflexivity.
  - eauto.
  - intros e k [<-|[<-|[]]]; cbn; intros [<-|[]] [E|[]]; discriminate E.
  - intros e [<-|[<-|[]]]; (split; [discriminate|]); intros k k' q q'; cbn;
      intros [<-|[]] [<-|[]] Hq Hq'; rewrite Hq in Hq'; now injection Hq' as <-.
  - pose proof tol_pos. intros e k [<-|[<-|[]]]; cbn [snd fst map par_key]; intros [<-|[]]; eexists;
      (split; [reflexivity|]); intros v; cbn [In]; intros Hv;
      repeat destruct Hv as [<-|Hv]; try contradiction; (split; [reflexivity|]);
      unfold get_limits; cbn; repeat constructor; lra.
  - discriminate.
Qed.
