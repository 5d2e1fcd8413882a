(** Property C104: the goal function of model learning. *)
From Coq Require Import Reals Lra Lia Permutation.
From Verif Require Import Base QuantityModel QuantityProofs PMapModel PMapProofs LearnModel LearnProps EstModel EstProps
  RobustProps LearnRunModel.
Local Open Scope list_scope.
Local Notation length := List.length.

(** ** Two maps that differ only in the values of some parameters *)
Definition oagree (P : Prop) (a b : option quantity) : Prop :=
  match a, b with
  | Some q, Some q' => shape q q' /\ (~ P -> q = q')
  | None, None => True
  | _, _ => False
  end.
Definition agree (P : string -> Prop) (d d' : dict quantity) : Prop :=
  keys d = keys d' /\ forall k, oagree (P k) (dget k d) (dget k d').

Lemma agree_weaken : forall (P Q : string -> Prop) d d', (forall k, P k -> Q k) -> agree P d d' -> agree Q d d'.
Proof.
  intros P Q d d' H [K A]. split; [exact K|]. intro k. specialize (A k). unfold oagree in *.
  destruct (dget k d), (dget k d'); try exact A. destruct A as [A1 A2]. split; [exact A1|]. intro N. apply A2. intro HP. apply N, H, HP.
Qed.
Lemma agree_none : forall d d', NoDup (keys d) -> agree (fun _ => False) d d' -> d = d'.
Proof.
  intros d d' N [K A]. apply dict_ext; [exact K|exact N|]. intro k. specialize (A k). unfold oagree in A.
  destruct (dget k d), (dget k d'); try contradiction; [|reflexivity]. f_equal. apply A. tauto.
Qed.
Lemma agree_refl : forall d, agree (fun _ => False) d d.
Proof. intro d. split; [reflexivity|]. intro k. unfold oagree. destruct (dget k d); [|exact I]. split; [apply shape_refl|reflexivity]. Qed.
Lemma agree_set : forall P d d' k q q' r, agree P d d' -> dget k d = Some q -> dget k d' = Some q' -> 
  agree (fun j => P j /\ j <> k) (dset k r d) (dset k r d').
Proof.
  intros P d d' k q q' r [K A] E E'. split.
  - rewrite !keys_dset_present; [exact K|eapply dget_in_keys; eauto|eapply dget_in_keys; eauto].
  - intro j. destruct (String.eqb_spec j k) as [->|N].
    + rewrite !dget_dset_same. cbn. split; [apply shape_refl|reflexivity].
    + rewrite !dget_dset_other by exact N. specialize (A j). unfold oagree in *. destruct (dget j d), (dget j d'); try exact A.
      destruct A as [A1 A2]. split; [exact A1|]. intro HN. apply A2. intro HP. apply HN. split; [exact HP|exact N].
Qed.
Lemma shape_set_value : forall q q' v, shape q q' -> set_value v false q = set_value v false q'.
Proof.
  intros q q' v S. unfold set_value, set_value_strict. destruct S as [S1 S2]. rewrite S2.
  destruct (Nat.eqb _ _); [|reflexivity].
  assert (E : map (scaled_entry q) v = map (scaled_entry q') v) by (apply map_ext; intro; apply shape_scaled; split; assumption).
  assert (E2 : q_scale q = q_scale q') by (pose proof S1 as S3; unfold with_value in S3; injection S3; congruence).
  rewrite E, E2. destruct (Req_EM_T _ _); [reflexivity|]. destruct (existsb _ _); [reflexivity|]. f_equal. apply shape_value. split; assumption.
Qed.
Lemma shape_set_opt : forall q q' v, shape q q' -> set_opt_value v q = set_opt_value v q'.
Proof.
  intros q q' v S. unfold set_opt_value. destruct S as [S1 S2]. rewrite S2. destruct (Nat.eqb _ _); [|reflexivity]. f_equal.
  apply shape_value. split; assumption.
Qed.

Definition lock (Q : string -> Prop) (r r' : dict quantity * option exn) : Prop :=
  snd r = snd r' /\ (snd r = None -> agree Q (fst r) (fst r')).

Lemma lock_one : forall P d d' k v, agree P d d' -> lock (fun j => P j /\ j <> k) (set_one k v false d) (set_one k v false d').
Proof.
  intros P d d' k v A. pose proof (proj2 A k) as O. unfold set_one. destruct (dget k d) as [q|] eqn:E, (dget k d') as [q'|] eqn:E'; cbn in O; try contradiction.
  - destruct O as [S _]. rewrite (shape_set_value q q' v S). destruct (set_value v false q') as [r|e].
    + split; [reflexivity|]. intros _. eapply agree_set; eauto.
    + destruct e; split; try reflexivity; discriminate.
  - split; [reflexivity|discriminate].
Qed.
Lemma lock_group : forall ids v P d d', agree P d d' -> lock (fun j => P j /\ ~ In j ids) (set_group ids v false d) (set_group ids v false d').
Proof.
  induction ids as [|k ids IH]; intros v P d d' A; cbn [set_group].
  - split; [reflexivity|]. intros _. eapply agree_weaken; [|exact A]. intros j Hj. split; [exact Hj|intros []].
  - destruct (lock_one P d d' k v A) as [L1 L2]. destruct (set_one k v false d) as [d1 [e|]], (set_one k v false d') as [d1' [e'|]]; cbn [fst snd] in L1; try discriminate.
    + split; [exact L1|discriminate].
    + specialize (L2 eq_refl). destruct (IH v _ _ _ L2) as [L3 L4]. split; [exact L3|]. intro H. eapply agree_weaken; [|apply L4, H].
      intros j [[H1 H2] H3]. split; [exact H1|]. intros [->|H4]; [apply H2; reflexivity|apply H3, H4].
Qed.
Lemma lock_groups : forall m vals P d d', agree P d d' -> length vals = length m ->
  lock (fun j => P j /\ ~ In j (List.concat m)) (set_groups m vals false d) (set_groups m vals false d').
Proof.
  induction m as [|ids m IH]; intros vals P d d' A L; destruct vals as [|v vals]; cbn [length] in L; try discriminate; cbn [set_groups List.concat].
  - split; [reflexivity|]. intros _. eapply agree_weaken; [|exact A]. intros j Hj. split; [exact Hj|intros []].
  - destruct (lock_group ids v P d d' A) as [L1 L2]. destruct (set_group ids v false d) as [d1 [e|]], (set_group ids v false d') as [d1' [e'|]]; cbn [fst snd] in L1; try discriminate.
    + split; [exact L1|discriminate].
    + specialize (L2 eq_refl). destruct (IH vals _ _ _ L2 ltac:(lia)) as [L3 L4]. split; [exact L3|]. intro H. eapply agree_weaken; [|apply L4, H].
      intros j [[H1 H2] H3]. split; [exact H1|]. rewrite in_app_iff. tauto.
Qed.
Lemma lock_opt_group : forall ids v P d d', agree P d d' -> lock (fun j => P j /\ ~ In j ids) (set_opt_group ids v d) (set_opt_group ids v d').
Proof.
  induction ids as [|k ids IH]; intros v P d d' A; cbn [set_opt_group].
  - split; [reflexivity|]. intros _. eapply agree_weaken; [|exact A]. intros j Hj. split; [exact Hj|intros []].
  - pose proof (proj2 A k) as O. destruct (dget k d) as [q|] eqn:E, (dget k d') as [q'|] eqn:E'; cbn in O; try contradiction; [|split; [reflexivity|discriminate]].
    destruct O as [S _]. rewrite (shape_set_opt q q' v S). destruct (set_opt_value v q') as [r|e]; [|split; [reflexivity|discriminate]].
    pose proof (agree_set P d d' k q q' r A E E') as A2. destruct (IH v _ _ _ A2) as [L3 L4]. split; [exact L3|]. intro H. eapply agree_weaken; [|apply L4, H].
    intros j [[H1 H2] H3]. split; [exact H1|]. intros [->|H4]; [apply H2; reflexivity|apply H3, H4].
Qed.
Lemma lock_opt_groups : forall m vals P d d', agree P d d' ->
  lock (fun j => P j /\ ~ In j (List.concat m)) (set_opt_groups m vals d) (set_opt_groups m vals d').
Proof.
  induction m as [|ids m IH]; intros vals P d d' A; cbn [set_opt_groups List.concat].
  - split; [reflexivity|]. intros _. eapply agree_weaken; [|exact A]. intros j Hj. split; [exact Hj|intros []].
  - unfold leader. destruct ids as [|k ids]; [split; [reflexivity|discriminate]|].
    pose proof (proj2 A k) as O. destruct (dget k d) as [q|] eqn:E, (dget k d') as [q'|] eqn:E'; cbn in O; try contradiction; [|split; [reflexivity|discriminate]].
    destruct O as [[_ SL] _]. cbv beta zeta iota. rewrite <- SL.
    destruct (lock_opt_group (k :: ids) (firstn (length (q_value q)) vals) P d d' A) as [L1 L2].
    destruct (set_opt_group (k :: ids) (firstn (length (q_value q)) vals) d) as [d1 [e|]], (set_opt_group (k :: ids) (firstn (length (q_value q)) vals) d') as [d1' [e'|]]; cbn [fst snd] in L1; try discriminate.
    + split; [exact L1|discriminate].
    + specialize (L2 eq_refl). destruct (IH (skipn (length (q_value q)) vals) _ _ _ L2) as [L3 L4]. split; [exact L3|]. intro H. eapply agree_weaken; [|apply L4, H].
      intros j [[H1 H2] H3]. split; [exact H1|]. rewrite in_app_iff. tauto.
Qed.

(** The same setup, parameters that differ only in the values of those in [P]. *)
Definition pm_agree (P : string -> Prop) (pm pm' : pmap) : Prop :=
  pm_model_ids pm = pm_model_ids pm' /\ pm_opt_map pm = pm_opt_map pm' /\ pm_update pm = pm_update pm' /\
  pm_has_model pm = pm_has_model pm' /\ agree P (pm_pars pm) (pm_pars pm').
Definition pm_lock (Q : string -> Prop) (pm pm' : pmap) (r r' : pmap * option exn) : Prop :=
  snd r = snd r' /\ (snd r = None -> pm_agree Q (fst r) (fst r') /\
    (pm_refreshes (fst r) - pm_refreshes pm = pm_refreshes (fst r') - pm_refreshes pm')%nat /\
    (pm_refreshes pm <= pm_refreshes (fst r))%nat /\ (pm_refreshes pm' <= pm_refreshes (fst r'))%nat).

Lemma lock_scaled : forall P pm pm' x, pm_agree P pm pm' ->
  pm_lock (fun j => P j /\ ~ In j (List.concat (pm_opt_map pm))) pm pm' (set_parameters_scaled pm x None) (set_parameters_scaled pm' x None).
Proof.
  intros P pm pm' x (M1 & M2 & M3 & M4 & A). unfold set_parameters_scaled, set_scaled_model, set_scaled_ctrls. cbn [get_opt_map]. rewrite <- M3, <- M2, <- M4.
  destruct (lock_opt_groups (pm_opt_map pm) x P _ _ A) as [L1 L2].
  destruct (set_opt_groups (pm_opt_map pm) x (pm_pars pm)) as [d [e|]], (set_opt_groups (pm_opt_map pm) x (pm_pars pm')) as [d' [e'|]];
    cbn [fst snd] in L1; try discriminate.
  - destruct (pm_update pm); (split; [exact L1|discriminate]).
  - specialize (L2 eq_refl). cbn [fst snd] in L2. destruct (pm_update pm) eqn:HU; [destruct (pm_has_model pm) eqn:HM|]; cbn [fst snd].
    + split; [reflexivity|]. intros _. cbn [fst snd refresh with_pars pm_refreshes pm_pars pm_model_ids pm_opt_map pm_update pm_has_model]. split; [|lia]. refine (conj _ (conj _ (conj _ (conj _ L2)))); cbn; congruence.
    + split; [reflexivity|discriminate].
    + split; [reflexivity|]. intros _. cbn [fst snd refresh with_pars pm_refreshes pm_pars pm_model_ids pm_opt_map pm_update pm_has_model]. split; [|lia]. refine (conj _ (conj _ (conj _ (conj _ L2)))); cbn; congruence.
Qed.
Lemma lock_set : forall P pm pm' vals om, pm_agree P pm pm' ->
  pm_lock (fun j => P j /\ ~ In j (List.concat (get_opt_map pm om))) pm pm' (set_parameters pm vals om false) (set_parameters pm' vals om false).
Proof.
  intros P pm pm' vals om (M1 & M2 & M3 & M4 & A). unfold set_parameters.
  assert (E : get_opt_map pm' om = get_opt_map pm om) by (unfold get_opt_map; destruct om; [reflexivity|congruence]).
  rewrite E, <- M1, <- M4. destruct (Nat.eqb_spec (length vals) (length (get_opt_map pm om))) as [L|L]; [cbn [negb]|split; [reflexivity|discriminate]].
  destruct (lock_groups (get_opt_map pm om) vals P _ _ A L) as [L1 L2].
  destruct (set_groups (get_opt_map pm om) vals false (pm_pars pm)) as [d [e|]], (set_groups (get_opt_map pm om) vals false (pm_pars pm')) as [d' [e'|]];
    cbn [fst snd] in L1; try discriminate.
  - split; [exact L1|discriminate].
  - specialize (L2 eq_refl). cbn [fst snd] in L2. split; [reflexivity|]. intros _. cbn [fst snd].
    destruct (existsb _ _ && _); cbn [fst snd refresh with_pars pm_refreshes pm_pars pm_model_ids pm_opt_map pm_update pm_has_model]; (split; [|lia]); refine (conj _ (conj _ (conj _ (conj _ L2)))); cbn; congruence.
Qed.

(** ** What the setters change *)
Lemma agree_trans : forall P Q a b c, agree P a b -> agree Q b c -> agree (fun k => P k \/ Q k) a c.
Proof.
  intros P Q a b c [K1 A1] [K2 A2]. split; [congruence|]. intro k. specialize (A1 k). specialize (A2 k). unfold oagree in *.
  destruct (dget k a), (dget k b), (dget k c); try contradiction; try exact I. destruct A1 as [S1 E1], A2 as [S2 E2].
  split; [eapply shape_trans; eauto|]. intro N. rewrite E1, E2 by tauto. reflexivity.
Qed.
Lemma agree_sym : forall P a b, agree P a b -> agree P b a.
Proof.
  intros P a b [K A]. split; [congruence|]. intro k. specialize (A k). unfold oagree in *. destruct (dget k a), (dget k b); try exact A.
  destruct A as [S E]. split; [apply shape_sym, S|]. intro N. symmetry. apply E, N.
Qed.
Lemma agree_dset : forall d k q q', dget k d = Some q -> shape q q' -> agree (fun j => j = k) d (dset k q' d).
Proof.
  intros d k q q' E S. split.
  - symmetry. apply keys_dset_present. eapply dget_in_keys; eauto.
  - intro j. destruct (String.eqb_spec j k) as [->|N].
    + rewrite dget_dset_same, E. cbn. split; [exact S|]. intro C. destruct (C eq_refl).
    + rewrite dget_dset_other by exact N. unfold oagree. destruct (dget j d); [|exact I]. split; [apply shape_refl|reflexivity].
Qed.
Lemma strict_shape : forall v q q', set_value v false q = Ok q' -> shape q q'.
Proof.
  intros v q q' H. unfold set_value in H. destruct (Nat.eqb_spec (length v) (length (q_value q))) as [L|]; [|discriminate H].
  unfold set_value_strict in H. destruct (Req_EM_T _ _); [discriminate H|]. destruct (existsb _ _); [discriminate H|]. injection H as <-.
  apply shape_with. rewrite map_length. exact L.
Qed.
Lemma group_frame : forall ids v d d', set_group ids v false d = (d', None) -> agree (fun k => In k ids) d d'.
Proof.
  induction ids as [|k ids IH]; intros v d d' H; cbn [set_group] in H.
  - injection H as <-. eapply agree_weaken; [|apply agree_refl]. intros j [].
  - destruct (set_one k v false d) as [d1 [e|]] eqn:E; [discriminate|]. apply set_one_None in E as (q & q' & Hq & Hs & ->).
    apply IH in H. pose proof (agree_trans _ _ _ _ _ (agree_dset d k q q' Hq (strict_shape _ _ _ Hs)) H) as A.
    eapply agree_weaken; [|exact A]. intros j [->|Hj]; [left; reflexivity|right; exact Hj].
Qed.
Lemma groups_frame : forall m vals d d', set_groups m vals false d = (d', None) -> agree (fun k => In k (List.concat m)) d d'.
Proof.
  induction m as [|ids m IH]; intros vals d d' H; cbn [set_groups] in H.
  - injection H as <-. eapply agree_weaken; [|apply agree_refl]. intros j [].
  - destruct vals as [|v vals]; [discriminate|]. destruct (set_group ids v false d) as [d1 [e|]] eqn:E; [discriminate|].
    apply group_frame in E. apply IH in H. eapply agree_weaken; [|exact (agree_trans _ _ _ _ _ E H)].
    intros j Hj. cbn [List.concat]. rewrite in_app_iff. exact Hj.
Qed.
Definition in_map (m : optmap) (k : string) : Prop := In k (List.concat m).
Lemma set_frame : forall pm vals om pm', set_parameters pm vals om false = (pm', None) -> pm_agree (in_map (get_opt_map pm om)) pm pm'.
Proof.
  intros pm vals om pm' H. unfold set_parameters in H. destruct (negb _); [discriminate|].
  destruct (set_groups (get_opt_map pm om) vals false (pm_pars pm)) as [d [e|]] eqn:E; [discriminate|]. injection H as <-. apply groups_frame in E.
  destruct (existsb _ _ && _); (refine (conj _ (conj _ (conj _ (conj _ _)))); [reflexivity..|exact E]).
Qed.
Lemma scaled_frame : forall pm x pm', set_parameters_scaled pm x None = (pm', None) -> pm_agree (in_map (pm_opt_map pm)) pm pm'.
Proof.
  intros pm x pm' H. apply set_scaled_inv in H as ((M1 & M2 & M3 & M4) & E & _).
  refine (conj _ (conj _ (conj _ (conj _ _)))); try congruence.
  destruct (set_opt_groups_spec _ _ [] _ _ (pm_pars pm) E (dshape_refl _)) as (d2 & R & [K S] & _ & F & _); [intros k []|].
  split; [exact K|]. intro k. specialize (S k). unfold oshape in S. unfold oagree. specialize (F k).
  destruct (dget k (pm_pars pm)) as [q|], (dget k (pm_pars pm')) as [q'|]; try exact S; try contradiction.
  split; [exact S|]. intro N. specialize (F N). congruence.
Qed.
Lemma pm_agree_trans : forall P Q a b c, pm_agree P a b -> pm_agree Q b c -> pm_agree (fun k => P k \/ Q k) a c.
Proof.
  intros P Q a b c (A1 & A2 & A3 & A4 & A5) (B1 & B2 & B3 & B4 & B5). refine (conj _ (conj _ (conj _ (conj _ _)))); try congruence.
  eapply agree_trans; eauto.
Qed.
Lemma pm_agree_sym : forall P a b, pm_agree P a b -> pm_agree P b a.
Proof.
  intros P a b (A1 & A2 & A3 & A4 & A5). refine (conj _ (conj _ (conj _ (conj _ _)))); try congruence. apply agree_sym, A5.
Qed.
Lemma pm_agree_weaken : forall (P Q : string -> Prop) a b, (forall k, P k -> Q k) -> pm_agree P a b -> pm_agree Q a b.
Proof.
  intros P Q a b H (A1 & A2 & A3 & A4 & A5). refine (conj _ (conj _ (conj _ (conj _ _)))); try congruence. eapply agree_weaken; eauto.
Qed.
Lemma pm_agree_refresh : forall P a b, pm_agree P a b -> pm_agree P (refresh a) (refresh b).
Proof. intros P a b H. exact H. Qed.

(** ** Lockstep of two runs *)
Lemma model_part_eq : forall P ids (d d' : dict quantity), NoDup (keys d) -> agree P d d' -> (forall k, In k (keys d) -> smem k ids = true -> ~ P k) ->
  filter (fun kv => smem (fst kv) ids) d = filter (fun kv => smem (fst kv) ids) d'.
Proof.
  intros P ids d. induction d as [|[k q] d IH]; intros d' N A H; destruct d' as [|[k' q'] d'];
    pose proof (proj1 A) as K; cbn in K; try discriminate; [reflexivity|]. injection K as EK EK'. subst k'.
  cbn in N. inversion N as [|? ? N1 N2]; subst. cbn [filter fst].
  assert (T : filter (fun kv => smem (fst kv) ids) d = filter (fun kv => smem (fst kv) ids) d').
  { apply IH; [exact N2| |intros j Hj; apply H; right; exact Hj]. split; [exact EK'|]. intro j. pose proof (proj2 A j) as Aj. cbn in Aj.
    destruct (String.eqb_spec j k) as [EJ|]; [|exact Aj]. rewrite EJ. clear Aj EJ j.
    assert (Z : forall e : dict quantity, ~ In k (keys e) -> dget k e = None).
    { intros e Ne. destruct (dget k e) eqn:G; [|reflexivity]. exfalso. apply Ne. apply dget_in_keys. eauto. }
    rewrite (Z d N1), (Z d'); [exact I|]. unfold keys. rewrite <- EK'. exact N1. }
  rewrite T. destruct (smem k ids) eqn:S; [|reflexivity]. f_equal. f_equal. pose proof (proj2 A k) as Ak. cbn in Ak. rewrite String.eqb_refl in Ak.
  apply Ak. apply H; [left; reflexivity|exact S].
Qed.

Definition rrel {A} (Q : A -> A -> Prop) (r r' : result A) : Prop :=
  match r, r' with Ok a, Ok b => Q a b | Err e, Err e' => e = e' | _, _ => False end.
Lemma rrel_bind : forall {A B} (Q : A -> A -> Prop) (Q' : B -> B -> Prop) r r' f f',
  rrel Q r r' -> (forall a a', Q a a' -> rrel Q' (f a) (f' a')) -> rrel Q' (rbind r f) (rbind r' f').
Proof. intros A B Q Q' r r' f f' H HF. destruct r, r'; cbn in H; try contradiction; [apply HF, H|exact H]. Qed.
Lemma rrel_refl : forall {A} (r : result A), rrel eq r r.
Proof. intros A [a|e]; reflexivity. Qed.

(** two states of a run: the same settings, parameters that differ in the values of those in [P] *)
Definition alike (P : string -> Prop) (s s' : lstate) : Prop :=
  pm_agree P (ls_pm s) (ls_pm s') /\ ls_inverse s = ls_inverse s' /\ NoDup (keys (pm_pars (ls_pm s))).

Section Lock.
  Variable sampling : list dataset -> nat -> result (list nat).
  Variable simulate : dict quantity -> dict quantity -> list (list string) -> list (list nat) -> result (list (list R)).
  Variable lgamma : R -> R.

  Lemma lock_assign : forall P Q s s' r r', alike P s s' -> pm_lock Q (ls_pm s) (ls_pm s') r r' ->
    (snd r = None -> keys (pm_pars (fst r)) = keys (pm_pars (ls_pm s))) ->
    rrel (fun a a' => alike Q a a' /\ ls_pm a = fst r /\ ls_pm a' = fst r' /\
       Nat.eqb (pm_refreshes (fst r)) (pm_refreshes (ls_pm s)) = Nat.eqb (pm_refreshes (fst r')) (pm_refreshes (ls_pm s')) /\
       ls_model a = (if Nat.eqb (pm_refreshes (fst r)) (pm_refreshes (ls_pm s)) then ls_model s else model_part (fst r)) /\
       ls_model a' = (if Nat.eqb (pm_refreshes (fst r)) (pm_refreshes (ls_pm s)) then ls_model s' else model_part (fst r')))
      (assign_pm s r) (assign_pm s' r').
  Proof.
    intros P Q s s' [pm [e|]] [pm' [e'|]] (A1 & A2 & A3) [L1 L2] K; cbn [fst snd] in *; try discriminate; cbn [assign_pm rrel].
    - congruence.
    - destruct (L2 eq_refl) as (L3 & L4 & L5 & L6). cbn [ls_pm ls_model ls_inverse].
      assert (E : Nat.eqb (pm_refreshes pm) (pm_refreshes (ls_pm s)) = Nat.eqb (pm_refreshes pm') (pm_refreshes (ls_pm s'))).
      { destruct (Nat.eqb_spec (pm_refreshes pm) (pm_refreshes (ls_pm s))), (Nat.eqb_spec (pm_refreshes pm') (pm_refreshes (ls_pm s'))); try reflexivity; lia. }
      rewrite <- E. repeat split; auto; try apply L3. cbn [ls_pm]. rewrite (K eq_refl). exact A3.
  Qed.

  Lemma lock_sim : forall P l s s' x om m target, alike P s s' ->
    (forall k, P k -> in_map (pm_opt_map (ls_pm s)) k \/ in_map (norm_map om) k) ->
    rrel (fun a a' => alike (fun _ => False) (fst a) (fst a') /\ snd a = snd a' /\ pm_opt_map (ls_pm (fst a)) = pm_opt_map (ls_pm s))
      (one_par_sim_vals simulate l s x om m target) (one_par_sim_vals simulate l s' x om m target).
  Proof.
    intros P l s s' x om m target A HP. unfold one_par_sim_vals.
    set (P1 := fun j => P j /\ ~ In j (List.concat (pm_opt_map (ls_pm s)))).
    apply (rrel_bind (fun a a' => alike P1 a a' /\ pm_opt_map (ls_pm a) = pm_opt_map (ls_pm s))).
    { destruct (le_scaling l).
      - pose proof (lock_scaled P (ls_pm s) (ls_pm s') x (proj1 A)) as L.
        assert (K : snd (set_parameters_scaled (ls_pm s) x None) = None -> pm_agree (in_map (pm_opt_map (ls_pm s))) (ls_pm s) (fst (set_parameters_scaled (ls_pm s) x None))).
        { intro E. destruct (set_parameters_scaled (ls_pm s) x None) as [p e] eqn:EE. cbn [fst snd] in *. subst e. eapply scaled_frame; eauto. }
        pose proof (lock_assign P P1 s s' _ _ A L) as LA.
        assert (KK : snd (set_parameters_scaled (ls_pm s) x None) = None -> keys (pm_pars (fst (set_parameters_scaled (ls_pm s) x None))) = keys (pm_pars (ls_pm s))).
        { intro E. destruct (K E) as (_ & _ & _ & _ & [K5 _]). symmetry. exact K5. }
        specialize (LA KK). destruct (set_parameters_scaled (ls_pm s) x None) as [p [e|]], (set_parameters_scaled (ls_pm s') x None) as [p' [e'|]]; cbn [assign_pm rrel] in *; try contradiction; [exact LA|].
        split; [apply LA|]. cbn [ls_pm]. cbn [fst snd] in K. destruct (K eq_refl) as (_ & K2 & _). congruence.
      - pose proof (lock_set P (ls_pm s) (ls_pm s') (map (fun v => [v]) x) None (proj1 A)) as L. cbn [get_opt_map] in L.
        assert (K : snd (set_parameters (ls_pm s) (map (fun v => [v]) x) None false) = None -> pm_agree (in_map (pm_opt_map (ls_pm s))) (ls_pm s) (fst (set_parameters (ls_pm s) (map (fun v => [v]) x) None false))).
        { intro E. destruct (set_parameters (ls_pm s) (map (fun v => [v]) x) None false) as [p e] eqn:EE. cbn [fst snd] in *. subst e. eapply (set_frame _ _ None); eauto. }
        pose proof (lock_assign P P1 s s' _ _ A L) as LA.
        assert (KK : snd (set_parameters (ls_pm s) (map (fun v => [v]) x) None false) = None -> keys (pm_pars (fst (set_parameters (ls_pm s) (map (fun v => [v]) x) None false))) = keys (pm_pars (ls_pm s))).
        { intro E. destruct (K E) as (_ & _ & _ & _ & [K5 _]). symmetry. exact K5. }
        specialize (LA KK). destruct (set_parameters (ls_pm s) (map (fun v => [v]) x) None false) as [p [e|]], (set_parameters (ls_pm s') (map (fun v => [v]) x) None false) as [p' [e'|]]; cbn [assign_pm rrel] in *; try contradiction; [exact LA|].
        split; [apply LA|]. cbn [ls_pm]. cbn [fst snd] in K. destruct (K eq_refl) as (_ & K2 & _). congruence. }
    intros s1 s1' [A1 O1].
    apply (rrel_bind (fun a a' => alike P1 a a' /\ pm_opt_map (ls_pm a) = pm_opt_map (ls_pm s) /\ pm_has_model (ls_pm a) = true /\
                                  ls_model a = model_part (ls_pm a) /\ ls_model a' = model_part (ls_pm a'))).
    { unfold update_model. destruct A1 as (B1 & B2 & B3). pose proof B1 as (_ & _ & _ & B4 & _). rewrite <- B4. destruct (pm_has_model (ls_pm s1)) eqn:HM; [|reflexivity].
      cbn. repeat split; auto; apply B1. }
    intros s2 s2' (A2 & O2 & HM & M2 & M2').
    pose proof (lock_set P1 (ls_pm s2) (ls_pm s2') (ds_params m) (Some om) (proj1 A2)) as L. cbn [get_opt_map] in L.
    set (P2 := fun j => P1 j /\ ~ In j (List.concat (norm_map om))) in *.
    assert (E2 : forall j, P2 j -> False).
    { intros j [[H1 H2] H3]. destruct (HP j H1); [apply H2|apply H3]; assumption. }
    assert (K : snd (set_parameters (ls_pm s2) (ds_params m) (Some om) false) = None -> pm_agree (in_map (norm_map om)) (ls_pm s2) (fst (set_parameters (ls_pm s2) (ds_params m) (Some om) false))).
    { intro E. destruct (set_parameters (ls_pm s2) (ds_params m) (Some om) false) as [p e] eqn:EE. cbn [fst snd] in *. subst e. exact (set_frame _ _ (Some om) _ EE). }
    assert (KK : snd (set_parameters (ls_pm s2) (ds_params m) (Some om) false) = None -> keys (pm_pars (fst (set_parameters (ls_pm s2) (ds_params m) (Some om) false))) = keys (pm_pars (ls_pm s2))).
    { intro E. destruct (K E) as (_ & _ & _ & _ & [K5 _]). symmetry. exact K5. }
    pose proof (lock_assign P1 P2 s2 s2' _ _ A2 L KK) as LA.
    eapply (rrel_bind (fun a a' => alike P2 a a' /\ pm_opt_map (ls_pm a) = pm_opt_map (ls_pm s) /\ ls_model a = ls_model a' /\ pm_pars (ls_pm a) = pm_pars (ls_pm a'))).
    { destruct (set_parameters (ls_pm s2) (ds_params m) (Some om) false) as [p [e|]] eqn:EP, (set_parameters (ls_pm s2') (ds_params m) (Some om) false) as [p' [e'|]] eqn:EP'; cbn [assign_pm rrel] in LA |- *; try contradiction; [exact LA|].
      destruct LA as (B1 & _ & _ & B4 & _ & _). cbn [fst snd ls_pm ls_model] in *.
      assert (EQ : pm_pars p = pm_pars p').
      { destruct B1 as ((_ & _ & _ & _ & B1) & _ & B3). apply agree_none; [exact B3|]. eapply agree_weaken; [|exact B1]. exact E2. }
      split; [exact B1|]. split; [destruct (K eq_refl) as (_ & K2 & _); congruence|]. split; [|exact EQ]. rewrite <- B4.
      destruct (Nat.eqb_spec (pm_refreshes p) (pm_refreshes (ls_pm s2))) as [ER|ER].
      - rewrite M2, M2'. unfold model_part. destruct A2 as ((I1 & _ & _ & _ & I5) & _ & I3). rewrite <- I1.
        apply (model_part_eq P1); [exact I3|exact I5|]. intros k Hk Hs HPk.
        assert (G : in_map (norm_map om) k).
        { destruct HPk as [HPk HN]. destruct (HP k HPk) as [C|C]; [|exact C]. contradiction. }
        unfold set_parameters in EP. cbn [get_opt_map] in EP. destruct (negb _); [discriminate|].
        destruct (set_groups (norm_map om) (ds_params m) false (pm_pars (ls_pm s2))) as [d [e|]]; [discriminate|]. injection EP as <-.
        assert (X : existsb (fun k => smem k (pm_model_ids (ls_pm s2))) (List.concat (norm_map om)) = true).
        { apply existsb_exists. exists k. split; [exact G|exact Hs]. }
        rewrite X, HM in ER. cbn in ER. lia.
      - unfold model_part. rewrite EQ. destruct B1 as ((I1 & _) & _). cbn [ls_pm] in I1. rewrite I1. reflexivity. }
    intros s3 s3' (A3 & O3 & M3 & P3). destruct (dget target (le_labels l)) as [labels|]; [|reflexivity].
    rewrite <- M3, <- P3. destruct (simulate _ _ _ labels) as [v|e]; cbn; [|reflexivity].
    split; [|split; [reflexivity|exact O3]]. destruct A3 as (C1 & C2 & C3). split; [|split; assumption]. eapply pm_agree_weaken; [exact E2|exact C1].
  Qed.

  Definition acc_rel (P : string -> Prop) (om : optmap) (a a' : lstate * list R * list R) : Prop :=
    alike P (fst (fst a)) (fst (fst a')) /\ snd (fst a) = snd (fst a') /\ snd a = snd a' /\ pm_opt_map (ls_pm (fst (fst a))) = om.
  Lemma alike_weaken : forall (P Q : string -> Prop) s s', (forall k, P k -> Q k) -> alike P s s' -> alike Q s s'.
  Proof. intros P Q s s' H (A & B & C). split; [eapply pm_agree_weaken; eauto|split; assumption]. Qed.
  Lemma lock_point : forall P om l x target d i a a', acc_rel P om a a' -> (forall k, P k -> in_map om k \/ in_map (norm_map (ld_map d)) k) ->
    rrel (acc_rel P om) (one_point simulate lgamma l x target d i a) (one_point simulate lgamma l x target d i a').
  Proof.
    intros P om l x target d i [[s g] w] [[s' g'] w'] (A & B & C & D) HP. cbn [fst snd] in *. subst g' w'. unfold one_point.
    destruct (nth_error (ld_sets d) i) as [m|]; [|reflexivity].
    eapply rrel_bind; [apply (lock_sim P l s s' x (ld_map d) m target A); rewrite D; exact HP|].
    intros [s1 v1] [s1' v1'] (E1 & E2 & E3). cbn [fst snd] in *. subst v1'.
    eapply rrel_bind; [apply rrel_refl|]. intros gg ? <-. cbn. split; [|split; [reflexivity|split; [reflexivity|cbn [fst snd]; congruence]]].
    eapply alike_weaken; [|exact E1]. intros k [].
  Qed.
  Lemma lock_points : forall P om l x target d is a a', acc_rel P om a a' -> (forall k, P k -> in_map om k \/ in_map (norm_map (ld_map d)) k) ->
    rrel (acc_rel P om) (all_points simulate lgamma l x target d is a) (all_points simulate lgamma l x target d is a').
  Proof.
    intros P om l x target d is. induction is as [|i is IH]; intros a a' A HP; cbn [all_points]; [exact A|].
    eapply rrel_bind; [apply lock_point; eauto|]. intros b b' HB. apply IH; assumption.
  Qed.
  Lemma lock_targets : forall P om l x data a a', acc_rel P om a a' ->
    (forall t d k, In (t, d) data -> P k -> in_map om k \/ in_map (norm_map (ld_map d)) k) ->
    rrel (acc_rel P om) (all_targets (fun _ => sampling) simulate lgamma l x data a) (all_targets (fun _ => sampling) simulate lgamma l x data a').
  Proof.
    intros P om l x data. induction data as [|[t d] data IH]; intros a a' A HP; cbn [all_targets]; [exact A|].
    destruct (dget t (le_batch l)) as [b|]; [|reflexivity]. destruct a as [[s g] w], a' as [[s' g'] w'].
    destruct A as (A & B & C & D). cbn [fst snd] in *. subst g' w'.
    eapply (rrel_bind (fun si si' => acc_rel P om (fst si, g, w) (fst si', g, w) /\ snd si = snd si')).
    { unfold select. destruct A as (A1 & A2 & A3). rewrite <- A2. destruct (sampling (ld_sets d) b) as [is|e]; cbn; [|reflexivity].
      split; [|reflexivity]. split; [|auto]. split; [exact A1|]. split; [reflexivity|exact A3]. }
    intros [s1 is] [s1' is'] [E1 E2]. cbn [fst snd] in *. subst is'.
    eapply rrel_bind; [apply lock_points; [exact E1|intros k; apply (HP t d k); left; reflexivity]|].
    intros c c' HC. apply IH; [exact HC|]. intros t' d' k Hin. apply (HP t' d' k). right. exact Hin.
  Qed.
  Lemma lock_goal : forall P l s s' x, alike P s s' ->
    (forall t d k, In (t, d) (le_data l) -> P k -> in_map (pm_opt_map (ls_pm s)) k \/ in_map (norm_map (ld_map d)) k) ->
    rrel (fun a a' => snd a = snd a' /\ alike P (fst a) (fst a'))
      (goal_run (fun _ => sampling) simulate lgamma l s x) (goal_run (fun _ => sampling) simulate lgamma l s' x).
  Proof.
    intros P l s s' x A HP. unfold goal_run.
    eapply rrel_bind; [apply (lock_targets P (pm_opt_map (ls_pm s))); [split; [exact A|auto]|exact HP]|].
    intros [[s1 g] w] [[s1' g'] w'] (E1 & E2 & E3 & E4). cbn [fst snd] in *. subst g' w'.
    destruct (Req_EM_T (rsum_l w) 0); [reflexivity|].
    assert (GP : rrel (fun _ _ => True) (get_parameters (ls_pm s1) None) (get_parameters (ls_pm s1') None)).
    { destruct E1 as ((_ & F2 & _ & _ & F5) & _). unfold get_parameters. cbn [get_opt_map]. rewrite <- F2. clear -F5.
      induction (pm_opt_map (ls_pm s1)) as [|ids m IH]; cbn [mapM]; [exact I|].
      eapply (rrel_bind (fun _ _ => True)); [|intros; eapply rrel_bind; [exact IH|]; intros; exact I].
      unfold leader. destruct ids as [|k ids]; [reflexivity|]. pose proof (proj2 F5 k) as O.
      destruct (dget k (pm_pars (ls_pm s1))), (dget k (pm_pars (ls_pm s1'))); cbn in O; try contradiction; [exact I|reflexivity]. }
    eapply rrel_bind; [exact GP|]. intros qs qs' _. cbn. split; [reflexivity|]. destruct E1 as (F1 & F2 & F3). split; [exact F1|split; assumption].
  Qed.
End Lock.

(** The goal is a function of the candidate parameters and the data: two parameter maps that differ only in
    the values of parameters that every data set overwrites (through the optimisation map or its own map)
    give the same goal, or the same exception. *)
Theorem C104_history_free :
  forall sampling simulate lgamma l s s' x (P : string -> Prop), alike P s s' ->
  (forall t d k, In (t, d) (le_data l) -> P k -> in_map (pm_opt_map (ls_pm s)) k \/ in_map (norm_map (ld_map d)) k) ->
  let run := goal_run (fun _ => sampling) simulate lgamma l in
  rmap snd (run s x) = rmap snd (run s' x).
Proof.
  intros sampling simulate lgamma l s s' x P A HP run. pose proof (lock_goal sampling simulate lgamma P l s s' x A HP) as L.
  fold run in L. destruct (run s x) as [[s1 g]|e], (run s' x) as [[s1' g']|e']; cbn in *; try contradiction; [destruct L as [-> _]; reflexivity|congruence].
Qed.
Print Assumptions C104_history_free.

(** ** What one simulation sees *)
Lemma assign_inv : forall s r s', assign_pm s r = Ok s' -> snd r = None /\ ls_pm s' = fst r /\ ls_inverse s' = ls_inverse s /\ ls_eval s' = ls_eval s /\
  ls_model s' = (if Nat.eqb (pm_refreshes (fst r)) (pm_refreshes (ls_pm s)) then ls_model s else model_part (fst r)).
Proof. intros s [pm [e|]] s' H; cbn in H; [discriminate|]. injection H as <-. cbn. auto. Qed.

Lemma sim_spec : forall simulate l s x om m target s' vals, NoDup (keys (pm_pars (ls_pm s))) ->
  one_par_sim_vals simulate l s x om m target = Ok (s', vals) ->
  exists pm1 labels,
    (if le_scaling l then set_parameters_scaled (ls_pm s) x None = (pm1, None)
     else set_parameters (ls_pm s) (map (fun v => [v]) x) None false = (pm1, None)) /\
    set_parameters (refresh pm1) (ds_params m) (Some om) false = (ls_pm s', None) /\
    dget target (le_labels l) = Some labels /\
    simulate (ls_model s') (pm_pars (ls_pm s')) (firstn (le_seqs_pp l) (ds_seqs m)) labels = Ok vals /\
    ls_model s' = model_part (ls_pm s') /\ ls_inverse s' = ls_inverse s /\ ls_eval s' = ls_eval s /\
    pm_agree (in_map (pm_opt_map (ls_pm s))) (ls_pm s) pm1 /\ pm_agree (in_map (norm_map om)) (refresh pm1) (ls_pm s').
Proof.
  intros simulate l s x om m target s' vals ND H. unfold one_par_sim_vals in H.
  assert (S1 : exists s1, (if le_scaling l then assign_pm s (set_parameters_scaled (ls_pm s) x None)
           else assign_pm s (set_parameters (ls_pm s) (map (fun v => [v]) x) None false)) = Ok s1).
  { destruct (if le_scaling l then _ else _) as [s1|]; [eauto|discriminate H]. }
  destruct S1 as [s1 E1]. rewrite E1 in H. cbn [rbind] in H.
  assert (F1 : exists pm1, ls_pm s1 = pm1 /\ ls_inverse s1 = ls_inverse s /\ ls_eval s1 = ls_eval s /\
     (if le_scaling l then set_parameters_scaled (ls_pm s) x None = (pm1, None)
      else set_parameters (ls_pm s) (map (fun v => [v]) x) None false = (pm1, None))).
  { destruct (le_scaling l).
    - apply assign_inv in E1 as (A & B & C & C' & _). destruct (set_parameters_scaled (ls_pm s) x None) as [p e]. cbn in *. subst e. exists p. auto.
    - apply assign_inv in E1 as (A & B & C & C' & _). destruct (set_parameters (ls_pm s) (map (fun v => [v]) x) None false) as [p e]. cbn in *. subst e. exists p. auto. }
  destruct F1 as (pm1 & P1 & I1 & I1' & SET). exists pm1.
  assert (FR : pm_agree (in_map (pm_opt_map (ls_pm s))) (ls_pm s) pm1).
  { destruct (le_scaling l); [eapply scaled_frame; eauto|exact (set_frame _ _ None _ SET)]. }
  unfold update_model in H. rewrite P1 in H. destruct (pm_has_model pm1) eqn:HM; [|discriminate H]. cbn [rbind ls_pm] in H.
  match type of H with rbind (assign_pm ?s2 ?r) _ = _ => destruct (assign_pm s2 r) as [s3|] eqn:E3; [|discriminate H] end.
  cbn [rbind] in H. apply assign_inv in E3 as (A3 & B3 & C3 & C3' & D3). cbn [ls_pm ls_inverse ls_eval ls_model] in *.
  destruct (set_parameters (refresh pm1) (ds_params m) (Some om) false) as [pm3 e3] eqn:E3. cbn [fst snd] in *. subst e3 pm3.
  destruct (dget target (le_labels l)) as [labels|]; [|discriminate H]. exists labels.
  destruct (simulate (ls_model s3) (pm_pars (ls_pm s3)) (firstn (le_seqs_pp l) (ds_seqs m)) labels) as [v|] eqn:ES; [|discriminate H].
  cbn [rbind] in H. injection H as <- <-.
  assert (FG : pm_agree (in_map (norm_map om)) (refresh pm1) (ls_pm s3)) by exact (set_frame _ _ (Some om) _ E3).
  split; [exact SET|]. split; [reflexivity|]. split; [reflexivity|]. split; [exact ES|]. split; [|split; [congruence|split; [congruence|split; [exact FR|exact FG]]]].
  rewrite D3. destruct (Nat.eqb_spec (pm_refreshes (ls_pm s3)) (pm_refreshes (refresh pm1))) as [ER|ER]; [|reflexivity].
  unfold model_part. destruct FG as (G1 & _ & _ & _ & G5). cbn [refresh pm_model_ids pm_pars] in G1, G5. rewrite <- G1.
  apply (model_part_eq (in_map (norm_map om))); [destruct FR as (_ & _ & _ & _ & [K _]); rewrite <- K; exact ND|exact G5|].
  intros k _ Hs HG. unfold set_parameters in E3. cbn [get_opt_map] in E3. destruct (negb _); [discriminate|].
  destruct (set_groups (norm_map om) (ds_params m) false (pm_pars (refresh pm1))) as [d [e|]]; [discriminate|].
  assert (X : existsb (fun k => smem k (pm_model_ids (refresh pm1))) (List.concat (norm_map om)) = true).
  { apply existsb_exists. exists k. split; [exact HG|exact Hs]. }
  rewrite X in E3. cbn [refresh pm_has_model] in E3. rewrite HM in E3. cbn [andb] in E3. match type of E3 with (?a, _) = (?b, _) => assert (EQ : b = a) by congruence end. rewrite EQ in ER. cbn in ER. lia.
Qed.

Lemma agree_wfd : forall P d d', agree P d d' -> wfd d -> wfd d'.
Proof.
  intros P d d' [_ A] W k q H. specialize (A k). rewrite H in A. unfold oagree in A. destruct (dget k d) as [q0|] eqn:E; [|contradiction].
  eapply shape_wfq; [apply A|eapply W; eauto].
Qed.
Lemma agree_slices : forall P d d' m xs, agree P d d' -> slices d m xs -> slices d' m xs.
Proof.
  intros P d d' m xs [_ A] H. eapply Forall2_impl; [|exact H]. intros g x [Hn Hg]. split; [exact Hn|]. intros k Hk.
  destruct (Hg k Hk) as (q & Hq & L). specialize (A k). rewrite Hq in A. unfold oagree in A. destruct (dget k d') as [q'|]; [|contradiction].
  exists q'. split; [reflexivity|]. rewrite numpy_length in *. destruct A as [[_ A] _]. congruence.
Qed.

(** The parameters [pars] of a simulation carry the candidate [xs] and the control parameters of the data set [m]. *)
Definition carries (opt : optmap) (xs : list (list R)) (om : optmap) (m : dataset) (pars : dict quantity) : Prop :=
  (forall g v k, In (g, v) (combine om (ds_params m)) -> In k g -> exists q, dget k pars = Some q /\ numpy q = v) /\
  (forall g y k, In (g, y) (combine opt xs) -> In k g -> ~ In k (List.concat om) ->
     exists q, dget k pars = Some q /\ Forall2 is_fold y (get_opt_value q)).

(** Each simulation runs with the candidate values in the optimisation map, the data set's own values in the
    data file's map (which wins where the two overlap), every other parameter as it was, and matrices of the model
    that belong to exactly these parameters. *)
Theorem C104_simulated_at :
  forall simulate l s xs om m target s' vals,
  let pars := pm_pars (ls_pm s) in let opt := pm_opt_map (ls_pm s) in let pars' := pm_pars (ls_pm s') in
  le_scaling l = true -> NoDup (keys pars) -> wfd pars -> NoDup (List.concat opt) -> slices pars opt xs ->
  NoDup (List.concat (norm_map om)) -> Forall (fun g => g <> []) (norm_map om) ->
  one_par_sim_vals simulate l s (List.concat xs) om m target = Ok (s', vals) ->
  (exists labels, dget target (le_labels l) = Some labels /\
     simulate (filter (fun kv => smem (fst kv) (pm_model_ids (ls_pm s))) pars') pars' (firstn (le_seqs_pp l) (ds_seqs m)) labels = Ok vals) /\
  carries opt xs (norm_map om) m pars' /\
  (forall k, ~ In k (List.concat opt) -> ~ In k (List.concat (norm_map om)) -> dget k pars' = dget k pars).
Proof.
  intros simulate l s xs om m target s' vals pars opt pars' SC ND W N1 SL N2 NE H. subst pars opt pars'.
  destruct (sim_spec _ _ _ _ _ _ _ _ _ ND H) as (pm1 & labels & SET & SETG & HL & HS & HM & _ & _ & FR & FG). rewrite SC in SET.
  pose proof FR as (R1 & R2 & R3 & R4 & R5). pose proof FG as (G1 & G2 & G3 & G4 & G5). cbn [refresh pm_model_ids pm_pars pm_opt_map] in G1, G2, G5.
  split; [|split; [split|]].
  - exists labels. split; [exact HL|]. rewrite <- HS, HM. unfold model_part. rewrite R1, G1. reflexivity.
  - assert (W1 : wfd (pm_pars (refresh pm1))) by exact (agree_wfd _ _ _ R5 W).
    destruct (set_parameters_readback (refresh pm1) (ds_params m) (Some om) false (ls_pm s') W1 N2 NE SETG) as [_ RB].
    exact RB.
  - intros g y k Hg Hk Hn. destruct (set_scaled_inv _ _ _ SET) as (_ & EO & HU).
    destruct (set_scaled_ctrls_ok (ls_pm s) None xs W N1 SL) as (pmc & EC & _ & HC & _).
    unfold set_scaled_ctrls in EC. cbn [get_opt_map] in EC. rewrite EO in EC. injection EC as EC.
    destruct (HC g y k Hg Hk) as (q & q' & Hq & Hq' & Eq'). rewrite <- EC in Hq'. cbn [with_pars pm_pars] in Hq'.
    exists q'. split.
    + pose proof (proj2 G5 k) as O. rewrite Hq' in O. unfold oagree in O. destruct (dget k (pm_pars (ls_pm s'))) as [q2|]; [|contradiction].
      f_equal. symmetry. apply O. exact Hn.
    + rewrite Eq'. unfold get_opt_value. cbn [with_value q_value]. apply opt_fold_Forall2.
  - intros k K1 K2. pose proof (proj2 R5 k) as O1. pose proof (proj2 G5 k) as O2. unfold oagree, in_map in *.
    destruct (dget k (pm_pars (ls_pm s))) as [q0|], (dget k (pm_pars pm1)) as [q1|], (dget k (pm_pars (ls_pm s'))) as [q2|]; try contradiction; [|reflexivity].
    f_equal. destruct O1 as [_ O1], O2 as [_ O2]. rewrite O1, O2 by assumption. reflexivity.
Qed.
Print Assumptions C104_simulated_at.

(** ** The goal *)
Definition selection (sampling : list dataset -> nat -> result (list nat)) (l : learner) (inv : bool) (td : string * ldata) (is : list nat) : Prop :=
  exists b ind, dget (fst td) (le_batch l) = Some b /\ sampling (ld_sets (snd td)) b = Ok ind /\
    is = select_from_data ind (length (ld_sets (snd td))) inv.

(** a data point of a run: the data file, the index, the data set and its goal *)
Record point : Type := mkP { p_file : string * ldata; p_index : nat; p_set : dataset; p_goal : R }.
(** number of sequences, three times as much for the target "all" *)
Definition p_weight (l : learner) (p : point) : R :=
  let n := INR (length (firstn (le_seqs_pp l) (ds_seqs (p_set p)))) in
  if String.eqb (fst (p_file p)) "all" then (3 * n)%R else n.
(** the goal of a point compares the data with a simulation at the candidate [xs] *)
Definition evaluated simulate lgamma (l : learner) (ids : list string) (opt : optmap) (xs : list (list R)) (p : point) : Prop :=
  let m := p_set p in let pp := le_seqs_pp l in let target := fst (p_file p) in
  nth_error (ld_sets (snd (p_file p))) (p_index p) = Some m /\
  exists pars labels vals,
    carries opt xs (norm_map (ld_map (snd (p_file p)))) m pars /\
    dget target (le_labels l) = Some labels /\
    simulate (filter (fun kv => smem (fst kv) ids) pars) pars (firstn pp (ds_seqs m)) labels = Ok vals /\
    (if String.eqb target "all"
     then neg_loglkh_multinom_norm lgamma (firstn pp (ds_results m)) vals (firstn pp (ds_stds m)) (firstn pp (ds_shots m))
     else g_LL_prime (List.concat (firstn pp (ds_results m))) (List.concat vals) (List.concat (firstn pp (ds_stds m)))
                     (spread vals (firstn pp (ds_shots m)))) = Ok (p_goal p).

Section Goal.
  Variable sampling : list dataset -> nat -> result (list nat).
  Variable simulate : dict quantity -> dict quantity -> list (list string) -> list (list nat) -> result (list (list R)).
  Variable lgamma : R -> R.
  Variable l : learner.
  Variable s0 : lstate.
  Variable xs : list (list R).
  Hypothesis SC : le_scaling l = true.
  Hypothesis ND : NoDup (keys (pm_pars (ls_pm s0))).
  Hypothesis W : wfd (pm_pars (ls_pm s0)).
  Hypothesis N1 : NoDup (List.concat (pm_opt_map (ls_pm s0))).
  Hypothesis SL : slices (pm_pars (ls_pm s0)) (pm_opt_map (ls_pm s0)) xs.
  Notation ids := (pm_model_ids (ls_pm s0)).
  Notation opt := (pm_opt_map (ls_pm s0)).

  Definition from_start (s : lstate) : Prop := pm_agree (fun _ => True) (ls_pm s0) (ls_pm s) /\ ls_inverse s = ls_inverse s0 /\ ls_eval s = ls_eval s0.

  Lemma goal_point : forall target d i s goals weights s' goals' weights', from_start s ->
    NoDup (List.concat (norm_map (ld_map d))) -> Forall (fun g => g <> []) (norm_map (ld_map d)) ->
    one_point simulate lgamma l (List.concat xs) target d i (s, goals, weights) = Ok (s', goals', weights') ->
    from_start s' /\ exists p, p_file p = (target, d) /\ p_index p = i /\ evaluated simulate lgamma l ids opt xs p /\
      goals' = goals ++ [p_goal p] /\ weights' = weights ++ [p_weight l p].
  Proof.
    intros target d i s goals weights s' goals' weights' [FS [FI FE]] N2 NE H. unfold one_point in H.
    destruct (nth_error (ld_sets d) i) as [m|] eqn:EN; [|discriminate H].
    destruct (one_par_sim_vals simulate l s (List.concat xs) (ld_map d) m target) as [[s1 vals]|] eqn:ES; [|discriminate H]. cbn [rbind fst snd] in H.
    destruct (one_goal lgamma target _ vals _ _) as [g|] eqn:EG; [|discriminate H]. cbn [rbind] in H. injection H as <- <- <-.
    pose proof FS as (F1 & F2 & F3 & F4 & F5).
    assert (NDs : NoDup (keys (pm_pars (ls_pm s)))) by (rewrite <- (proj1 F5); exact ND).
    destruct (sim_spec _ _ _ _ _ _ _ _ _ NDs ES) as (pm1 & labels & _ & _ & _ & _ & _ & I1 & I2 & A1 & A2).
    split.
    - split; [|split; congruence]. eapply pm_agree_weaken; [|exact (pm_agree_trans _ _ _ _ _ FS (pm_agree_trans _ _ _ _ _ A1 A2))]. intros k _. exact I.
    - rewrite F2 in SL, N1. pose proof (C104_simulated_at simulate l s xs (ld_map d) m target s1 vals) as T. cbn zeta in T.
      destruct (T SC NDs (agree_wfd _ _ _ F5 W) N1 (agree_slices _ _ _ _ _ F5 SL) N2 NE ES) as ((lab & L1 & L2) & CA & _).
      exists (mkP (target, d) i m g). cbn [p_file p_index p_goal]. split; [reflexivity|]. split; [reflexivity|].
      split; [|split; [reflexivity|]].
      + unfold evaluated. cbn [p_file p_index p_set p_goal fst snd]. split; [exact EN|]. exists (pm_pars (ls_pm s1)), lab, vals.
        rewrite F1, F2. split; [exact CA|]. split; [exact L1|]. split; [exact L2|exact EG].
      + f_equal. f_equal. unfold p_weight, num_seqs. cbn [p_file p_set fst snd]. destruct (String.eqb target "all"); [|reflexivity].
        rewrite mult_INR. cbn [INR]. ring.
  Qed.
  Lemma goal_points : forall target d is s goals weights s' goals' weights', from_start s ->
    NoDup (List.concat (norm_map (ld_map d))) -> Forall (fun g => g <> []) (norm_map (ld_map d)) ->
    all_points simulate lgamma l (List.concat xs) target d is (s, goals, weights) = Ok (s', goals', weights') ->
    from_start s' /\ exists ps, map p_file ps = map (fun _ => (target, d)) is /\ map p_index ps = is /\ Forall (evaluated simulate lgamma l ids opt xs) ps /\
      goals' = goals ++ map p_goal ps /\ weights' = weights ++ map (p_weight l) ps.
  Proof.
    intros target d is. induction is as [|i is IH]; intros s goals weights s' goals' weights' FS N2 NE H; cbn [all_points] in H.
    - injection H as <- <- <-. split; [exact FS|]. exists []. rewrite !app_nil_r. repeat split. constructor.
    - destruct (one_point simulate lgamma l (List.concat xs) target d i (s, goals, weights)) as [[[s1 g1] w1]|] eqn:E1; [|discriminate H].
      cbn [rbind] in H. destruct (goal_point _ _ _ _ _ _ _ _ _ FS N2 NE E1) as (FS1 & p & P1 & P2 & P3 & P4 & P5).
      destruct (IH _ _ _ _ _ _ FS1 N2 NE H) as (FS2 & ps & Q1 & Q2 & Q3 & Q4 & Q5). split; [exact FS2|]. exists (p :: ps).
      cbn [map]. rewrite P1, P2, Q1, Q2. repeat split; [constructor; assumption| |].
      + rewrite Q4, P4, <- app_assoc. reflexivity.
      + rewrite Q5, P5, <- app_assoc. reflexivity.
  Qed.
  Lemma goal_targets : forall data s goals weights s' goals' weights', from_start s ->
    (forall t d, In (t, d) data -> NoDup (List.concat (norm_map (ld_map d))) /\ Forall (fun g => g <> []) (norm_map (ld_map d))) ->
    all_targets (fun _ => sampling) simulate lgamma l (List.concat xs) data (s, goals, weights) = Ok (s', goals', weights') ->
    from_start s' /\ exists iss ps, Forall2 (selection sampling l (ls_inverse s0)) data iss /\
      map (fun p => (p_file p, p_index p)) ps = List.concat (map (fun fi => map (pair (fst fi)) (snd fi)) (combine data iss)) /\
      Forall (evaluated simulate lgamma l ids opt xs) ps /\
      goals' = goals ++ map p_goal ps /\ weights' = weights ++ map (p_weight l) ps.
  Proof.
    induction data as [|[t d] data IH]; intros s goals weights s' goals' weights' FS HD H; cbn [all_targets] in H.
    - injection H as <- <- <-. split; [exact FS|]. exists [], []. rewrite !app_nil_r. repeat split; constructor.
    - destruct (dget t (le_batch l)) as [b|] eqn:EB; [|discriminate H]. unfold select in H.
      destruct (sampling (ld_sets d) b) as [ind|] eqn:EI; [|discriminate H]. cbn [rbind fst snd] in H.
      match type of H with rbind (all_points _ _ _ _ _ _ ?is0 (?s10, _, _)) _ = _ => set (is := is0) in H; set (s1 := s10) in H end.
      assert (FS1 : from_start s1) by exact FS.
      destruct (all_points simulate lgamma l (List.concat xs) t d is (s1, goals, weights)) as [[[s2 g2] w2]|] eqn:E1; [|discriminate H].
      cbn [rbind] in H. destruct (HD t d (or_introl eq_refl)) as [N2 NE].
      destruct (goal_points _ _ _ _ _ _ _ _ _ FS1 N2 NE E1) as (FS2 & ps & Q1 & Q2 & Q3 & Q4 & Q5).
      destruct (IH _ _ _ _ _ _ FS2 (fun t' d' Hin => HD t' d' (or_intror Hin)) H) as (FS3 & iss & ps' & R1 & R2 & R3 & R4 & R5).
      split; [exact FS3|]. exists (is :: iss), (ps ++ ps'). split; [|split; [|split; [|split]]].
      + constructor; [|exact R1]. exists b, ind. cbn [fst snd]. repeat split; auto. subst is. destruct FS as [_ [-> _]]. reflexivity.
      + rewrite map_app. cbn [combine map List.concat fst snd]. rewrite R2. f_equal. clear -Q1 Q2. revert Q1 Q2. generalize is as js. clear is.
        induction ps as [|p ps IHp]; intros [|j js] A B; cbn in *; try discriminate; [reflexivity|]. injection A as A1 A2. injection B as B1 B2.
        rewrite A1, B1. f_equal. apply IHp; assumption.
      + apply Forall_app. split; assumption.
      + rewrite R4, Q4, map_app, app_assoc. reflexivity.
      + rewrite R5, Q5, map_app, app_assoc. reflexivity.
  Qed.
End Goal.

(** The goal is the mean, weighted by the number of sequences, of the goals of the selected data points of
    every file, in order; each goal compares the data with a simulation at the candidate parameters. *)
Theorem C104_goal :
  forall sampling simulate lgamma l s xs s' g,
  let pars := pm_pars (ls_pm s) in let opt := pm_opt_map (ls_pm s) in
  le_scaling l = true -> NoDup (keys pars) -> wfd pars -> NoDup (List.concat opt) -> slices pars opt xs ->
  (forall t d, In (t, d) (le_data l) -> NoDup (List.concat (norm_map (ld_map d))) /\ Forall (fun g => g <> []) (norm_map (ld_map d))) ->
  goal_run (fun _ => sampling) simulate lgamma l s (List.concat xs) = Ok (s', g) ->
  exists iss ps, Forall2 (selection sampling l (ls_inverse s)) (le_data l) iss /\
    map (fun p => (p_file p, p_index p)) ps = List.concat (map (fun fi => map (pair (fst fi)) (snd fi)) (combine (le_data l) iss)) /\
    Forall (evaluated simulate lgamma l (pm_model_ids (ls_pm s)) opt xs) ps /\
    (rsum_l (map (p_weight l) ps) * g = rsum_l (map (fun p => p_weight l p * p_goal p) ps))%R /\ rsum_l (map (p_weight l) ps) <> 0%R /\
    ls_goal s' = Some g /\ ls_eval s' = (ls_eval s + 1)%Z.
Proof.
  intros sampling simulate lgamma l s xs s' g pars opt SC ND W N1 SL HD H. unfold goal_run in H.
  destruct (all_targets (fun _ => sampling) simulate lgamma l (List.concat xs) (le_data l) (s, [], [])) as [[[s1 gs] ws]|] eqn:E; [|discriminate H].
  assert (FS : from_start s s) by (split; [|split; reflexivity]; eapply pm_agree_weaken; [|repeat split; apply agree_refl]; intros k []).
  destruct (goal_targets sampling simulate lgamma l s xs SC ND W N1 SL _ _ _ _ _ _ _ FS HD E) as (FS1 & iss & ps & A1 & A2 & A3 & A4 & A5).
  cbn [rbind] in H. destruct (Req_EM_T (rsum_l ws) 0) as [Z|Z]; [discriminate H|].
  destruct (get_parameters (ls_pm s1) None) as [qs|]; [|discriminate H]. cbn [rbind] in H. injection H as <- <-. cbn [ls_goal ls_eval app] in *.
  exists iss, ps. split; [exact A1|]. split; [exact A2|]. split; [exact A3|]. subst gs ws. split; [|split; [exact Z|split; [reflexivity|]]].
  - unfold g_LL_prime_combined. set (w := rsum_l (map (p_weight l) ps)) in *.
    replace (wsum (map (p_weight l) ps) (map p_goal ps)) with (rsum_l (map (fun p => p_weight l p * p_goal p)%R ps)); [field; exact Z|].
    clear. induction ps as [|p ps IH]; [reflexivity|]. cbn [map wsum rsum_l fold_right]. rewrite <- IH. reflexivity.
  - destruct FS1 as [_ [_ ->]]. reflexivity.
Qed.
Print Assumptions C104_goal.

(** ** Repeated evaluations *)
Lemma frame_run : forall (P : string -> Prop) sampling simulate lgamma l s x s' g, NoDup (keys (pm_pars (ls_pm s))) ->
  (forall k, in_map (pm_opt_map (ls_pm s)) k -> P k) -> (forall t d k, In (t, d) (le_data l) -> in_map (norm_map (ld_map d)) k -> P k) ->
  goal_run sampling simulate lgamma l s x = Ok (s', g) -> alike P s s'.
Proof.
  intros P sampling simulate lgamma l s x s' g ND HO HD H. unfold goal_run in H.
  assert (SELF : alike P s s) by (split; [eapply pm_agree_weaken; [|repeat split; apply agree_refl]; intros k []|auto]).
  assert (PT : forall t d i s1 gs ws r, In (t, d) (le_data l) -> alike P s s1 -> one_point simulate lgamma l x t d i (s1, gs, ws) = Ok r -> alike P s (fst (fst r))).
  { intros t d i s1 gs ws r Hin (A1 & A2 & A3) E. unfold one_point in E. destruct (nth_error _ _) as [m|]; [|discriminate E].
    destruct (one_par_sim_vals simulate l s1 x (ld_map d) m t) as [[s2 v]|] eqn:ES; [|discriminate E]. cbn [rbind fst snd] in E.
    destruct (one_goal _ _ _ _ _ _); [|discriminate E]. cbn [rbind] in E. injection E as <-. cbn [fst].
    pose proof A1 as (F1 & F2 & F3 & F4 & F5).
    assert (N1 : NoDup (keys (pm_pars (ls_pm s1)))) by (rewrite <- (proj1 F5); exact ND).
    destruct (sim_spec _ _ _ _ _ _ _ _ _ N1 ES) as (pm1 & labels & _ & _ & _ & _ & _ & I1 & _ & B1 & B2).
    split; [|split; [congruence|exact A3]]. eapply pm_agree_weaken; [|exact (pm_agree_trans _ _ _ _ _ A1 (pm_agree_trans _ _ _ _ _ B1 B2))].
    intros k [K|[K|K]]; [exact K|apply HO; rewrite F2; exact K|exact (HD t d k Hin K)]. }
  assert (PS : forall t d is s1 gs ws r, In (t, d) (le_data l) -> alike P s s1 -> all_points simulate lgamma l x t d is (s1, gs, ws) = Ok r -> alike P s (fst (fst r))).
  { intros t d is. induction is as [|i is IH]; intros s1 gs ws r Hin A E; cbn [all_points] in E; [injection E as <-; exact A|].
    destruct (one_point simulate lgamma l x t d i (s1, gs, ws)) as [[[s2 g2] w2]|] eqn:E1; [|discriminate E]. cbn [rbind] in E.
    exact (IH _ _ _ _ Hin (PT _ _ _ _ _ _ _ Hin A E1) E). }
  assert (TS : forall data s1 gs ws r, (forall td, In td data -> In td (le_data l)) -> alike P s s1 ->
     all_targets sampling simulate lgamma l x data (s1, gs, ws) = Ok r -> alike P s (fst (fst r))).
  { induction data as [|[t d] data IH]; intros s1 gs ws r Hin A E; cbn [all_targets] in E; [injection E as <-; exact A|].
    destruct (dget t (le_batch l)) as [b|]; [|discriminate E]. unfold select in E.
    destruct (sampling (ls_draws s1) (ld_sets d) b) as [ind|]; [|discriminate E]. cbn [rbind fst snd] in E.
    match type of E with rbind ?e _ = _ => destruct e as [[[s2 g2] w2]|] eqn:E1; [|discriminate E] end. cbn [rbind] in E.
    refine (IH _ _ _ _ (fun td K => Hin td (or_intror K)) _ E).
    refine (PS _ _ _ _ _ _ _ (Hin _ (or_introl eq_refl)) _ E1). exact A. }
  destruct (all_targets sampling simulate lgamma l x (le_data l) (s, [], [])) as [[[s1 gs] ws]|] eqn:E; [|discriminate H].
  pose proof (TS _ _ _ _ _ (fun td K => K) SELF E) as A. cbn [rbind fst] in *. destruct (Req_EM_T (rsum_l ws) 0); [discriminate H|].
  destruct (get_parameters (ls_pm s1) None); [|discriminate H]. cbn [rbind] in H. injection H as <- <-. exact A.
Qed.

(** any number of successful evaluations *)
Inductive evaluations (run : lstate -> list R -> result (lstate * R)) : lstate -> lstate -> Prop :=
| ev_done : forall s, evaluations run s s
| ev_more : forall s x s1 g s2, run s x = Ok (s1, g) -> evaluations run s1 s2 -> evaluations run s s2.

Lemma alike_trans : forall P a b c, alike P a b -> alike P b c -> alike P a c.
Proof.
  intros P a b c (A1 & A2 & A3) (B1 & B2 & B3). split; [|split; [congruence|exact A3]].
  eapply pm_agree_weaken; [|exact (pm_agree_trans _ _ _ _ _ A1 B1)]. intros k [K|K]; exact K.
Qed.

(** When every data file sets the same control parameters, the goal at [x] does not depend on which candidates were
    evaluated before. *)
Theorem C104_repeatable :
  forall sampling simulate lgamma l s s1 x,
  let run := goal_run (fun _ => sampling) simulate lgamma l in
  NoDup (keys (pm_pars (ls_pm s))) ->
  (forall t d t' d' k, In (t, d) (le_data l) -> In (t', d') (le_data l) -> In k (List.concat (norm_map (ld_map d))) ->
     In k (List.concat (pm_opt_map (ls_pm s))) \/ In k (List.concat (norm_map (ld_map d')))) ->
  evaluations run s s1 -> rmap snd (run s1 x) = rmap snd (run s x).
Proof.
  intros sampling simulate lgamma l s s1 x run ND HC EV.
  set (P := fun k => in_map (pm_opt_map (ls_pm s)) k \/ exists t d, In (t, d) (le_data l) /\ in_map (norm_map (ld_map d)) k).
  assert (A : alike P s s1).
  { assert (Q : forall a b, evaluations run a b -> alike P s a -> alike P s b).
    { intros a b EV'. induction EV' as [a|a y a1 g b E EV' IH]; intro A; [exact A|]. apply IH.
      apply (alike_trans P s a a1 A). pose proof A as ((F1 & F2 & F3 & F4 & F5) & _ & _).
      eapply frame_run; [rewrite <- (proj1 F5); exact ND| | |exact E].
      - intros k K. left. rewrite F2. exact K.
      - intros t d k K1 K2. right. eauto. }
    apply (Q s s1 EV). split; [eapply pm_agree_weaken; [|repeat split; apply agree_refl]; intros k []|auto]. }
  symmetry. apply (C104_history_free sampling simulate lgamma l s s1 x P A). intros t d k Hin [K|(t' & d' & K1 & K2)]; [left; exact K|].
  exact (HC t' d' t d k K1 Hin K2).
Qed.
Print Assumptions C104_repeatable.

Lemma scaled_slices : forall d m xs0 qs, slices d m xs0 -> mapM (fun ids => rbind (leader d ids) (fun kq => Ok (snd kq))) m = Ok qs ->
  slices d m (map get_opt_value qs).
Proof.
  intros d m xs0 qs H. revert qs. induction H as [|g x0 m xs0 [Hn Hg] H IH]; intros qs E; cbn [mapM] in E; [injection E as <-; constructor|].
  destruct g as [|k g]; [congruence|]. cbn [leader] in E. destruct (Hg k (or_introl eq_refl)) as (q & Hq & L). rewrite Hq in E. cbn [rbind snd] in E.
  destruct (mapM _ m) as [qs'|] eqn:EM; [|discriminate E]. cbn [rbind] in E. injection E as <-. cbn [map]. constructor; [|apply IH; reflexivity].
  split; [discriminate|]. intros j Hj. destruct (Hg j Hj) as (qj & Hqj & Lj). exists qj. split; [exact Hqj|].
  unfold get_opt_value. rewrite numpy_length in *. congruence.
Qed.

Lemma run_evaluations : forall sampling simulate lgamma l fuel a s s1,
  run_algorithm sampling simulate lgamma fuel l a s = Ok s1 -> evaluations (goal_run sampling simulate lgamma l) s s1.
Proof.
  intros sampling simulate lgamma l. induction fuel as [|fuel IH]; intros a s s1 H; cbn [run_algorithm] in H; [discriminate|].
  destruct a as [|x next]; [injection H as <-; constructor|].
  destruct (goal_run sampling simulate lgamma l s x) as [[s' g]|] eqn:E; [|discriminate H]. cbn [rbind fst snd] in H. econstructor; [exact E|exact (IH _ _ _ H)].
Qed.

(** After the optimisation, [learn_model] evaluates the goal once on exactly the data sets the optimisation did not
    use, at the parameters the map then holds. *)
Theorem C104_validation :
  forall sampling simulate lgamma fuel l a s xs0 s2 v,
  let pars := pm_pars (ls_pm s) in let opt := pm_opt_map (ls_pm s) in
  le_scaling l = true -> NoDup (keys pars) -> wfd pars -> NoDup (List.concat opt) -> slices pars opt xs0 ->
  (forall t d, In (t, d) (le_data l) -> NoDup (List.concat (norm_map (ld_map d))) /\ Forall (fun g => g <> []) (norm_map (ld_map d))) ->
  (forall sets n ind, sampling sets n = Ok ind -> NoDup ind /\ forall i, In i ind -> i < length sets) ->
  learn_model (fun _ => sampling) simulate lgamma fuel l a s = Ok (s2, v) ->
  exists s1 xs iss ps,
    evaluations (goal_run (fun _ => sampling) simulate lgamma l) s s1 /\
    get_parameters_scaled (ls_pm s1) None = Ok (List.concat xs) /\
    Forall2 (fun td is => exists b ind, dget (fst td) (le_batch l) = Some b /\ sampling (ld_sets (snd td)) b = Ok ind /\
               Permutation (ind ++ is) (seq 0 (length (ld_sets (snd td))))) (le_data l) iss /\
    map (fun p => (p_file p, p_index p)) ps = List.concat (map (fun fi => map (pair (fst fi)) (snd fi)) (combine (le_data l) iss)) /\
    Forall (evaluated simulate lgamma l (pm_model_ids (ls_pm s)) opt xs) ps /\
    (rsum_l (map (p_weight l) ps) * v = rsum_l (map (fun p => p_weight l p * p_goal p) ps))%R /\ rsum_l (map (p_weight l) ps) <> 0%R /\
    ls_goal s2 = Some v /\ ls_eval s2 = 0%Z.
Proof.
  intros sampling simulate lgamma fuel l a s xs0 s2 v pars opt SC ND W N1 SL HD HS H. unfold learn_model in H.
  destruct (get_parameters_scaled (ls_pm s) None) as [x0|]; [|discriminate H]. cbn [rbind] in H.
  destruct (run_algorithm (fun _ => sampling) simulate lgamma fuel l (a x0) s) as [s1|] eqn:ER; [|discriminate H]. cbn [rbind] in H.
  apply run_evaluations in ER. unfold confirm in H.
  destruct (get_parameters_scaled (ls_pm s1) None) as [xb|] eqn:EB; [|discriminate H]. cbn [rbind] in H.
  assert (A : pm_agree (fun _ => True) (ls_pm s) (ls_pm s1)).
  { assert (Q : forall b c, evaluations (goal_run (fun _ => sampling) simulate lgamma l) b c -> alike (fun _ => True) s b -> alike (fun _ => True) s c).
    { intros b c EV'. induction EV' as [b|b y b1 g c E EV' IH]; intro A; [exact A|]. apply IH.
      apply (alike_trans _ s b b1 A). pose proof A as ((F1 & F2 & F3 & F4 & F5) & _ & _).
      eapply frame_run; [rewrite <- (proj1 F5); exact ND|auto|auto|exact E]. }
    apply (Q s s1 ER). split; [eapply pm_agree_weaken; [|repeat split; apply agree_refl]; intros k []|auto]. }
  pose proof A as (F1 & F2 & F3 & F4 & F5).
  assert (NDs : NoDup (keys (pm_pars (ls_pm s1)))) by (rewrite <- (proj1 F5); exact ND).
  subst opt pars. rewrite F2 in N1, SL.
  assert (EX : exists xs, xb = List.concat xs /\ slices (pm_pars (ls_pm s1)) (pm_opt_map (ls_pm s1)) xs).
  { unfold get_parameters_scaled, get_parameters in EB. cbn [get_opt_map] in EB.
    destruct (mapM _ (pm_opt_map (ls_pm s1))) as [qs|] eqn:EM; [|discriminate EB]. cbn [rbind] in EB.
    exists (map get_opt_value qs). split; [congruence|]. eapply scaled_slices; [eapply agree_slices; [exact F5|exact SL]|exact EM]. }
  destruct EX as (xs & -> & SL').
  match type of H with goal_run _ _ _ _ ?s3 _ = _ => pose proof (C104_goal sampling simulate lgamma l s3 xs s2 v) as G end. cbn [ls_pm ls_inverse ls_eval] in G. cbn zeta in G.
  destruct (G SC NDs (agree_wfd _ _ _ F5 W) N1 SL' HD H) as (iss & ps & G1 & G2 & G3 & G4 & G5 & G6 & G7).
  exists s1, xs, iss, ps. split; [exact ER|]. split; [exact EB|]. split.
  - eapply Forall2_impl; [|exact G1]. intros [t d] is (b & ind & B1 & B2 & B3). exists b, ind. cbn [fst snd] in *. split; [exact B1|]. split; [exact B2|].
    destruct (HS _ _ _ B2) as [HN HB]. destruct (C54_partition ind (length (ld_sets d)) HN HB) as [PP _]. subst is. exact PP.
  - split; [exact G2|]. rewrite F1, F2. split; [exact G3|]. split; [exact G4|]. split; [exact G5|]. split; [exact G6|exact G7].
Qed.
Print Assumptions C104_validation.

Lemma zip3_diag : forall (f : R -> R -> R -> R) c l n z, (forall x k, f x x k = c) -> zip3 l l n = Some z ->
  map (fun t => f (fst (fst t)) (snd (fst t)) (snd t)) z = repeat c (length z).
Proof.
  intros f c l. induction l as [|x l IH]; intros [|k n] z Hf E; cbn in E; try discriminate; [injection E as <-; reflexivity|].
  destruct (zip3 l l n) as [z'|] eqn:EZ; [|discriminate E]. injection E as <-. cbn. rewrite Hf. f_equal. exact (IH n z' Hf EZ).
Qed.
Lemma g_perfect : forall l st n v, g_LL_prime l l st n = Ok v -> v = (- (1 / 2))%R.
Proof.
  intros l st n v H. unfold g_LL_prime, mean_of in H. destruct (zip3 l l n) as [z|] eqn:EZ; [|discriminate H].
  destruct z as [|t0 z0] eqn:Ez; [discriminate H|]. rewrite <- Ez in *.
  assert (H' : v = mean_l (map (fun t => ((fst (fst t) - snd (fst t)) ^ 2 / sim_std (snd (fst t)) (snd t) ^ 2 - 1) / 2) z)%R) by congruence.
  rewrite H'. rewrite (zip3_diag (fun x y k => ((x - y) ^ 2 / sim_std y k ^ 2 - 1) / 2)%R (- (1 / 2))%R l n z); [| |exact EZ].
  - unfold mean_l. rewrite repeat_length. assert (K : forall m, rsum_l (repeat (- (1 / 2))%R m) = (- (1 / 2) * INR m)%R).
    { induction m as [|m IHm]; [cbn; lra|]. cbn [repeat rsum_l fold_right]. unfold rsum_l in IHm. rewrite IHm, S_INR. lra. }
    rewrite K. rewrite Ez. cbn [length]. pose proof (pos_INR (length z0)). rewrite S_INR. field. lra.
  - intros x k. unfold Rdiv. replace (x - x)%R with 0%R by ring. ring.
Qed.

(** A candidate whose simulation reproduces every selected data set gets the goal -1/2. *)
Theorem C104_perfect :
  forall sampling simulate lgamma l s xs s' g,
  let pars := pm_pars (ls_pm s) in let opt := pm_opt_map (ls_pm s) in
  le_scaling l = true -> NoDup (keys pars) -> wfd pars -> NoDup (List.concat opt) -> slices pars opt xs ->
  (forall t d, In (t, d) (le_data l) -> t <> "all"%string /\ NoDup (List.concat (norm_map (ld_map d))) /\ Forall (fun g => g <> []) (norm_map (ld_map d))) ->
  (forall t d m model ps labels vals, In (t, d) (le_data l) -> In m (ld_sets d) -> carries opt xs (norm_map (ld_map d)) m ps ->
     simulate model ps (firstn (le_seqs_pp l) (ds_seqs m)) labels = Ok vals -> vals = firstn (le_seqs_pp l) (ds_results m)) ->
  goal_run (fun _ => sampling) simulate lgamma l s (List.concat xs) = Ok (s', g) -> g = (- (1 / 2))%R.
Proof.
  intros sampling simulate lgamma l s xs s' g pars opt SC ND W N1 SL HD HP H.
  destruct (C104_goal sampling simulate lgamma l s xs s' g SC ND W N1 SL (fun t d K => proj2 (HD t d K)) H)
    as (iss & ps & G1 & G2 & G3 & G4 & G5 & _).
  assert (IN : forall p, In p ps -> In (p_file p) (le_data l)).
  { intros p Hp. assert (K : In (p_file p, p_index p) (map (fun p => (p_file p, p_index p)) ps)) by (apply in_map_iff; eauto).
    rewrite G2 in K. apply in_concat in K as (r & K1 & K2). apply in_map_iff in K1 as ([f is] & <- & K1). cbn [fst snd] in K2.
    apply in_map_iff in K2 as (i & E & _). apply in_combine_l in K1. congruence. }
  assert (GG : forall p, In p ps -> p_goal p = (- (1 / 2))%R).
  { intros p Hp. pose proof (IN p Hp) as HI. rewrite Forall_forall in G3. destruct (G3 p Hp) as (E1 & pr & lab & vals & E2 & E3 & E4 & E5).
    destruct (p_file p) as [t d] eqn:EF. cbn [fst snd] in *. destruct (HD t d HI) as [NA _]. destruct (String.eqb_spec t "all") as [->|_]; [congruence|].
    pose proof (HP t d (p_set p) _ pr lab vals HI (nth_error_In _ _ E1) E2 E4) as ->. exact (g_perfect _ _ _ _ E5). }
  assert (SUM : rsum_l (map (fun p => p_weight l p * p_goal p)%R ps) = (- (1 / 2) * rsum_l (map (p_weight l) ps))%R).
  { clear -GG. induction ps as [|p ps IH]; [cbn; lra|]. cbn [map rsum_l fold_right]. unfold rsum_l in IH. rewrite IH, (GG p (or_introl eq_refl)); [lra|].
    intros q Hq. apply GG. right. exact Hq. }
  rewrite SUM in G4. nra.
Qed.
Print Assumptions C104_perfect.

(** ** Concrete runs *)
Local Open Scope string_scope.
Local Open Scope R_scope.
Definition ex_v (a : R) : quantity := mkQ 1 0 2 [a] "V" "a".
Definition ex_p (m g h : R) (n : nat) : pmap := mkPM [("m", ex_v m); ("g", ex_v g); ("h", ex_v h)] ["m"] [["m"]] true true n.
Definition ex_s (m g h : R) (inv : bool) (s : lstate) : Prop := (exists n, ls_pm s = ex_p m g h n) /\ ls_inverse s = inv.
(** a simulation whose outcome is the product of the model parameter and the control parameter [h], as probabilities *)
Definition ex_val (d : dict quantity) (k : string) : R := match dget k d with Some q => hd 0 (q_value q) | None => 0 end.
Definition ex_num (d : dict quantity) (k : string) : R := match dget k d with Some q => hd 0 (numpy q) | None => 0 end.
Definition ex_prob (m h : R) : R := ((m + 1) / 2) * ((h + 1) / 2).
Definition ex_sim (model pars : dict quantity) (seqs : list (list string)) (labels : list (list nat)) : result (list (list R)) :=
  Ok (map (fun _ => [ex_prob (ex_val pars "m") (ex_num pars "h" - 1)]) seqs).
Definition ex_set (v : R) : dataset := {| ds_params := [[v]]; ds_seqs := [["rx90p[0]"]]; ds_results := [[1 / 4]]; ds_stds := [[1]]; ds_shots := [100] |}.
Definition ex_first (sets : list dataset) (n : nat) : result (list nat) := Ok (seq 0 (Nat.min n (length sets))).
Definition ex_g (y : R) : R := ((1 / 4 - y) ^ 2 / (sim_std y 100) ^ 2 - 1) / 2.

Lemma ex_set_value : forall b v, 0 <= v <= 2 -> set_value [v] false (ex_v b) = Ok (ex_v (v - 1)).
Proof.
  intros b v Hv. unfold set_value, ex_v. cbn [q_value List.length Nat.eqb]. unfold set_value_strict. cbn [q_scale map existsb].
  destruct (Req_EM_T 2 0); [lra|]. unfold scaled_entry. cbn [q_pref q_offset q_scale].
  replace (2 * (v * 1 - 0) / 2 - 1) with (v - 1) by lra.
  assert (E : entry_oob (v - 1) = false).
  { unfold entry_oob. apply andb_false_iff. left. destruct (Rlt_dec 1 (Rabs (v - 1))) as [K|K]; [|unfold Rltb; destruct (Rlt_dec _ _); [contradiction|reflexivity]].
    exfalso. assert (Rabs (v - 1) <= 1) by (apply Rabs_le; lra). lra. }
  rewrite E. reflexivity.
Qed.

Lemma ex_set_g : forall m g h n v, 0 <= v <= 2 -> set_parameters (ex_p m g h n) [[v]] (Some [[PStr "g"]]) false = (ex_p m (v - 1) h n, None).
Proof.
  intros m g h n v Hv. unfold set_parameters, ex_p. cbn -[set_value ex_v Rminus]. unfold set_one. cbn -[set_value ex_v Rminus].
  rewrite (ex_set_value g v Hv). reflexivity.
Qed.
Lemma ex_set_h : forall m g h n v, 0 <= v <= 2 -> set_parameters (ex_p m g h n) [[v]] (Some [[PStr "h"]]) false = (ex_p m g (v - 1) n, None).
Proof.
  intros m g h n v Hv. unfold set_parameters, ex_p. cbn -[set_value ex_v Rminus]. unfold set_one. cbn -[set_value ex_v Rminus].
  rewrite (ex_set_value h v Hv). reflexivity.
Qed.
Lemma ex_set_m : forall m g h n x, -1 <= x <= 1 -> set_parameters_scaled (ex_p m g h n) [x] None = (ex_p x g h (S n), None).
Proof. intros m g h n x Hx. unfold set_parameters_scaled, ex_p. cbn -[opt_fold]. rewrite opt_fold_id by exact Hx. reflexivity. Qed.

Definition ex_l (data : dict ldata) : learner :=
  {| le_data := data; le_batch := map (fun td => (fst td, 1%nat)) data; le_labels := map (fun td => (fst td, [[0%nat]])) data; le_seqs_pp := 5; le_scaling := true |}.
Lemma ex_goal : forall data target d i v m g h inv s x gs ws k,
  ex_s m g h inv s -> -1 <= x <= 1 -> 0 <= v <= 2 -> nth_error (ld_sets d) i = Some (ex_set v) -> target <> "all" -> In (target, d) data ->
  ((k = "g" /\ ld_map d = [[PStr "g"]]) \/ (k = "h" /\ ld_map d = [[PStr "h"]])) ->
  let h' := if String.eqb k "h" then v - 1 else h in let g' := if String.eqb k "g" then v - 1 else g in
  exists s', one_point ex_sim (fun x => x) (ex_l data) [x] target d i (s, gs, ws) = Ok (s', (gs ++ [ex_g (ex_prob x h')])%list, (ws ++ [1])%list) /\
    ex_s x g' h' inv s'.
Proof.
  intros data target d i v m g h inv s x gs ws k [[n Hn] Hi] Hx Hv Hd Ht Hin Hk h' g'.
  assert (LB : dget target (le_labels (ex_l data)) = Some [[0%nat]]).
  { cbn [ex_l le_labels]. clear -Hin. induction data as [|[t e] data IH]; [destruct Hin|]. cbn [map dget fst].
    destruct (String.eqb_spec t target) as [->|N]; cbn; [rewrite String.eqb_refl; reflexivity|].
    destruct Hin as [E|Hin]; [congruence|]. destruct (String.eqb_spec target t); [congruence|]. exact (IH Hin). }
  unfold one_point. rewrite Hd. unfold one_par_sim_vals. cbn [ex_l le_scaling le_seqs_pp]. rewrite Hn, ex_set_m by exact Hx.
  cbn [assign_pm fst snd rbind]. unfold update_model. cbn [ls_pm ex_p pm_has_model rbind]. 
  fold (ex_p x g h (S n)). change (refresh (ex_p x g h (S n))) with (ex_p x g h (S (S n))). cbn [ex_set ds_params].
  assert (ST : set_parameters (ex_p x g h (S (S n))) [[v]] (Some (ld_map d)) false = (ex_p x g' h' (S (S n)), None)).
  { destruct Hk as [[-> ->]|[-> ->]]; [apply ex_set_g|apply ex_set_h]; exact Hv. }
  rewrite ST. cbn [assign_pm fst snd rbind]. fold (ex_l data). change (le_labels _) with (le_labels (ex_l data)). rewrite LB.
  unfold ex_sim. cbn [rbind fst snd ls_pm ex_set ex_l le_seqs_pp firstn ds_seqs ds_results ds_stds ds_shots map].
  unfold one_goal. destruct (String.eqb_spec target "all") as [E|_]; [contradiction|].
  change (ex_val (pm_pars (ex_p x g' h' (S (S n)))) "m") with x. 
  assert (HH : ex_num (pm_pars (ex_p x g' h' (S (S n)))) "h" - 1 = h') by (cbn; lra). rewrite HH.
  unfold g_LL_prime, mean_of. cbn [List.concat app spread repeat length zip3 map fst snd rbind].
  assert (NS : num_seqs target [["rx90p[0]"]] = 1%nat).
  { unfold num_seqs. destruct (String.eqb_spec target "all") as [E|_]; [contradiction|]. reflexivity. }
  rewrite NS.
  match goal with |- context [mean_l ?l] => assert (GE : mean_l l = ex_g (ex_prob x h')) end.
  { unfold ex_g, mean_l. cbn [map rsum_l fold_right length INR]. rewrite Rplus_0_r. unfold Rdiv at 1. rewrite Rinv_1, Rmult_1_r. reflexivity. }
  rewrite GE. eexists. split; [reflexivity|].
  - split; [exists (S (S n)); reflexivity|exact Hi].
Qed.
Lemma ex_get : forall m g h n, get_parameters (ex_p m g h n) None = Ok [ex_v m].
Proof. reflexivity. Qed.
Lemma ex_prob_g : forall x, -1 <= x <= 1 -> ex_prob x 0 = (x + 1) / 4.
Proof. intros. unfold ex_prob. lra. Qed.

(** one data file with two data sets that set [h] *)
Definition ex_d1 : dict ldata := [("t", {| ld_sets := [ex_set 1; ex_set 1]; ld_map := [[PStr "h"]] |})].
Lemma ex_run1 : forall m g h inv s x, ex_s m g h inv s -> -1 <= x <= 1 ->
  exists s', goal_run (fun _ => ex_first) ex_sim (fun x => x) (ex_l ex_d1) s [x] = Ok (s', ex_g (ex_prob x 0)) /\ ex_s x g 0 inv s'.
Proof.
  intros m g h inv s x HS Hx. unfold goal_run.
  cbn [ex_l ex_d1 le_data all_targets]. fold ex_d1. fold (ex_l ex_d1). change (dget "t" (le_batch (ex_l ex_d1))) with (Some 1%nat). cbv beta iota.
  unfold select. unfold ex_first at 1. cbn [length ld_sets Nat.min seq rbind fst snd].
  set (d := {| ld_sets := [ex_set 1; ex_set 1]; ld_map := [[PStr "h"]] |}).
  match goal with |- context [all_points _ _ _ _ _ _ ?i (?s1, _, _)] => set (is := i); set (s1' := s1) end.
  assert (HS1 : ex_s m g h inv s1') by exact HS.
  assert (EI : exists i, is = [i] /\ nth_error (ld_sets d) i = Some (ex_set 1)).
  { subst is. destruct HS as [_ ->]. destruct inv; [exists 1%nat|exists 0%nat]; split; reflexivity. }
  destruct EI as (i & -> & EN). cbn [all_points].
  destruct (ex_goal ex_d1 "t" d i 1 m g h inv s1' x [] [] "h" HS1 Hx ltac:(lra) EN ltac:(discriminate) (or_introl eq_refl) (or_intror (conj eq_refl eq_refl)))
    as (s2 & E & S2). rewrite E. cbn [rbind String.eqb Ascii.eqb Bool.eqb app] in *. clear E.
  replace (1 - 1) with 0 in * by ring. destruct S2 as [[n2 P2] I2].
  destruct (Req_EM_T (rsum_l [1]) 0) as [Z|_]; [cbn in Z; lra|]. rewrite P2, ex_get. cbn [rbind map].
  assert (GE : g_LL_prime_combined [ex_g (ex_prob x 0)] [1] = ex_g (ex_prob x 0)).
  { unfold g_LL_prime_combined. cbn [wsum rsum_l fold_right]. rewrite !Rplus_0_r, Rmult_1_l. unfold Rdiv. rewrite Rinv_1, Rmult_1_r. reflexivity. }
  rewrite GE. eexists. split; [reflexivity|]. split; [exists n2; reflexivity|exact I2].
Qed.
Lemma ex_g_val : forall y, 0 < y < 1 -> ex_g y = ((1 / 4 - y) ^ 2 / (y * (1 - y) / 100) - 1) / 2.
Proof.
  intros y Hy. unfold ex_g, sim_std. rewrite <- Rsqr_pow2 with (x := sqrt _), Rsqr_sqrt; [reflexivity|]. apply Rmult_le_pos; [|lra]. nra.
Qed.
Lemma ex_g14 : ex_g (1 / 4) = - (1 / 2).
Proof. rewrite ex_g_val by lra. lra. Qed.
Lemma ex_g38 : ex_g (3 / 8) = 17 / 6.
Proof. rewrite ex_g_val by lra. lra. Qed.
Lemma ex_g12 : ex_g (1 / 2) = 12.
Proof. rewrite ex_g_val by lra. lra. Qed.
Definition ex_init (m g h : R) : lstate :=
  {| ls_pm := ex_p m g h 0; ls_model := []; ls_inverse := false; ls_eval := 0; ls_draws := 0; ls_params := []; ls_goal := None |}.
Definition validating (s : lstate) : lstate :=
  {| ls_pm := ls_pm s; ls_model := ls_model s; ls_inverse := true; ls_eval := ls_eval s; ls_draws := ls_draws s; ls_params := ls_params s; ls_goal := ls_goal s |}.

(** Finding: [learn_model] validates at the candidate that was evaluated last, not at the best one: [confirm]
    reads the current parameters of the map and nothing restores the best ones.  The control parameters keep the values of the last
    data set, and [inverse] stays set, so a second [learn_model] optimises on the validation data. *)
Theorem C104_validates_best_refuted :
  exists l s a s2 v,
    learn_model (fun _ => ex_first) ex_sim (fun x => x) 3 l a s = Ok (s2, v) /\
    (exists next, a [1 / 4] = Ask [0] next) /\
    rmap snd (goal_run (fun _ => ex_first) ex_sim (fun x => x) l s [0]) = Ok (- (1 / 2)) /\
    rmap snd (goal_run (fun _ => ex_first) ex_sim (fun x => x) l (validating s) [0]) = Ok (- (1 / 2)) /\
    - (1 / 2) < v /\ ls_inverse s = false /\ ls_inverse s2 = true /\
    dget "h" (pm_pars (ls_pm s2)) <> dget "h" (pm_pars (ls_pm s)).
Proof.
  exists (ex_l ex_d1), (ex_init (1 / 4) 0 (1 / 2)), (fun _ => Ask [0] (fun _ => Ask [1 / 2] (fun _ => Stop))).
  assert (S0 : ex_s (1 / 4) 0 (1 / 2) false (ex_init (1 / 4) 0 (1 / 2))) by (split; [exists 0%nat; reflexivity|reflexivity]).
  destruct (ex_run1 _ _ _ _ _ 0 S0 ltac:(lra)) as (s1 & E1 & S1).
  destruct (ex_run1 _ _ _ _ _ (1 / 2) S1 ltac:(lra)) as (s2 & E2 & S2).
  assert (S0' : ex_s (1 / 4) 0 (1 / 2) true (validating (ex_init (1 / 4) 0 (1 / 2)))) by (split; [exists 0%nat; reflexivity|reflexivity]).
  destruct (ex_run1 _ _ _ _ _ 0 S0' ltac:(lra)) as (s1' & E1' & S1').
  set (s3 := {| ls_pm := ls_pm s2; ls_model := ls_model s2; ls_inverse := true; ls_eval := (-1)%Z;
                ls_draws := ls_draws s2; ls_params := ls_params s2; ls_goal := ls_goal s2 |}).
  assert (S3 : ex_s (1 / 2) 0 0 true s3) by (split; [exact (proj1 S2)|reflexivity]).
  destruct (ex_run1 _ _ _ _ _ (1 / 2) S3 ltac:(lra)) as (s4 & E4 & S4).
  assert (P0 : ex_prob 0 0 = 1 / 4) by (unfold ex_prob; lra). assert (P1 : ex_prob (1 / 2) 0 = 3 / 8) by (unfold ex_prob; lra).
  exists s4, (ex_g (3 / 8)). rewrite P0, P1 in *. split; [|split; [|split; [|split; [|split; [|split; [|split]]]]]].
  - unfold learn_model. change (get_parameters_scaled (ls_pm (ex_init (1 / 4) 0 (1 / 2))) None) with (@Ok (list R) [1 / 4]). cbn [rbind].
    cbn [run_algorithm]. rewrite E1. cbn [rbind fst snd]. rewrite E2. cbn [rbind fst snd]. unfold confirm.
    destruct S2 as [[n2 N2] _]. assert (GS : get_parameters_scaled (ls_pm s2) None = Ok [1 / 2]) by (rewrite N2; reflexivity).
    rewrite GS. cbn [rbind]. exact E4.
  - eexists. reflexivity.
  - rewrite E1. unfold rmap. cbn. rewrite ex_g14. reflexivity.
  - rewrite E1'. unfold rmap. cbn. rewrite ex_g14. reflexivity.
  - rewrite ex_g38. lra.
  - reflexivity.
  - apply S4.
  - destruct S4 as [[n4 ->] _]. cbn. intros E. injection E. lra.
Qed.
Print Assumptions C104_validates_best_refuted.

(** Finding: when every data set is used for learning, the validation averages over nothing; the goal is 0/0. *)
Theorem C104_validation_without_data_refuted :
  exists l s, (forall x, -1 <= x <= 1 -> exists s', goal_run (fun _ => ex_first) ex_sim (fun x => x) l s [x] = Ok (s', ex_g (ex_prob x 0))) /\
    forall fuel a s2, (exists x0, run_algorithm (fun _ => ex_first) ex_sim (fun x => x) fuel l (a x0) s = Ok s2 /\ get_parameters_scaled (ls_pm s) None = Ok x0) ->
    (exists x, get_parameters_scaled (ls_pm s2) None = Ok x) ->
    learn_model (fun _ => ex_first) ex_sim (fun x => x) fuel l a s = Err NaNResult.
Proof.
  set (d := {| ld_sets := [ex_set 1]; ld_map := [[PStr "h"]] |}). set (data := [("t", d)]). exists (ex_l data), (ex_init 0 0 0). split.
  - intros x Hx. unfold goal_run. cbn [ex_l data le_data all_targets]. fold data. fold (ex_l data). change (dget "t" (le_batch (ex_l data))) with (Some 1%nat). cbv beta iota. unfold select.
    unfold ex_first at 1. cbn [length ld_sets d Nat.min seq rbind fst snd all_points ls_inverse ex_init select_from_data]. fold d.
    match goal with |- context [one_point _ _ _ _ _ _ _ (?s1, _, _)] => set (s1' := s1) end.
    assert (HS1 : ex_s 0 0 0 false s1') by (split; [exists 0%nat; reflexivity|reflexivity]).
    destruct (ex_goal data "t" d 0 1 0 0 0 false s1' x [] [] "h" HS1 Hx ltac:(lra) eq_refl ltac:(discriminate) (or_introl eq_refl) (or_intror (conj eq_refl eq_refl)))
      as (s2 & E & S2). rewrite E. cbn [rbind String.eqb Ascii.eqb Bool.eqb app] in *. clear E.
    replace (1 - 1) with 0 in * by ring. destruct S2 as [[n2 P2] I2].
    destruct (Req_EM_T (rsum_l [1]) 0) as [Z|_]; [cbn in Z; lra|]. rewrite P2, ex_get. cbn [rbind map].
    assert (GE : g_LL_prime_combined [ex_g (ex_prob x 0)] [1] = ex_g (ex_prob x 0)).
    { unfold g_LL_prime_combined. cbn [wsum rsum_l fold_right]. rewrite !Rplus_0_r, Rmult_1_l. unfold Rdiv. rewrite Rinv_1, Rmult_1_r. reflexivity. }
    rewrite GE. eexists. reflexivity.
  - intros fuel a s2 (x0 & E1 & E2) (x & E3). unfold learn_model. rewrite E2. cbn [rbind]. rewrite E1. cbn [rbind]. unfold confirm. rewrite E3. cbn [rbind].
    unfold goal_run. cbn. destruct (Req_EM_T 0 0) as [_|N]; [reflexivity|]. exfalso. apply N. reflexivity.
Qed.
Print Assumptions C104_validation_without_data_refuted.

(** Finding: when the data files set different control parameters, a data set is simulated with whatever value the
    other file left behind, and the goal depends on how many evaluations came before. *)
Theorem C104_different_maps_refuted :
  exists l s s1 g1 g2,
    goal_run (fun _ => ex_first) ex_sim (fun x => x) l s [0] = Ok (s1, g1) /\
    rmap snd (goal_run (fun _ => ex_first) ex_sim (fun x => x) l s1 [0]) = Ok g2 /\ g1 <> g2.
Proof.
  set (dt := {| ld_sets := [ex_set 1]; ld_map := [[PStr "g"]] |}). set (du := {| ld_sets := [ex_set 2]; ld_map := [[PStr "h"]] |}).
  set (data := [("t", dt); ("u", du)]).
  assert (RUN : forall m g h s, ex_s m g h false s -> exists s',
    goal_run (fun _ => ex_first) ex_sim (fun x => x) (ex_l data) s [0] = Ok (s', (1 * ex_g (ex_prob 0 h) + (1 * ex_g (ex_prob 0 1) + 0)) / (1 + (1 + 0))) /\ ex_s 0 0 1 false s').
  { intros m g h s HS. unfold goal_run. cbn [ex_l le_data data all_targets]. fold data. fold (ex_l data).
    change (dget "t" (le_batch (ex_l data))) with (Some 1%nat). cbv beta iota. unfold select at 1.
    unfold ex_first at 1. cbn [length ld_sets dt Nat.min seq rbind fst snd]. fold dt. pose proof (proj2 HS) as I0. rewrite I0. cbn [select_from_data all_points].
    match goal with |- context [one_point _ _ _ _ _ _ _ (?s1, _, _)] => set (s1' := s1) end.
    assert (HS1 : ex_s m g h false s1') by (split; [exact (proj1 HS)|reflexivity]).
    destruct (ex_goal data "t" dt 0 1 m g h false s1' 0 [] [] "g" HS1 ltac:(lra) ltac:(lra) eq_refl ltac:(discriminate) (or_introl eq_refl) (or_introl (conj eq_refl eq_refl)))
      as (s2 & E & S2). rewrite E. cbn [rbind String.eqb Ascii.eqb Bool.eqb app] in *. clear E.
    change (dget "u" (le_batch (ex_l data))) with (Some 1%nat). cbv beta iota. unfold select.
    unfold ex_first at 1. cbn [length ld_sets du Nat.min seq rbind fst snd]. fold du. pose proof (proj2 S2) as I2. rewrite I2. cbn [select_from_data all_points].
    match goal with |- context [one_point _ _ _ _ _ _ _ (?s1, _, _)] => set (s3 := s1) end.
    assert (HS3 : ex_s 0 (1 - 1) h false s3) by (split; [exact (proj1 S2)|reflexivity]).
    destruct (ex_goal data "u" du 0 2 0 (1 - 1) h false s3 0 [ex_g (ex_prob 0 h)] [1] "h" HS3 ltac:(lra) ltac:(lra) eq_refl ltac:(discriminate) (or_intror (or_introl eq_refl)) (or_intror (conj eq_refl eq_refl)))
      as (s4 & E & S4). rewrite E. cbn [rbind String.eqb Ascii.eqb Bool.eqb app] in *. clear E.
    replace (1 - 1) with 0 in * by ring. replace (2 - 1) with 1 in * by ring. destruct S4 as [[n4 P4] I4].
    destruct (Req_EM_T (rsum_l [1; 1]) 0) as [Z|_]; [cbn in Z; lra|]. rewrite P4, ex_get. cbn [rbind map].
    eexists. split; [reflexivity|]. split; [exists n4; reflexivity|exact I4]. }
  exists (ex_l data), (ex_init 0 0 0).
  destruct (RUN 0 0 0 (ex_init 0 0 0)) as (s1 & E1 & S1); [split; [exists 0%nat; reflexivity|reflexivity]|].
  destruct (RUN 0 0 1 s1 S1) as (s2 & E2 & _). exists s1. eexists. eexists. split; [exact E1|]. rewrite E2. split; [reflexivity|].
  assert (P0 : ex_prob 0 0 = 1 / 4) by (unfold ex_prob; lra). assert (P1 : ex_prob 0 1 = 1 / 2) by (unfold ex_prob; lra).
  rewrite P0, P1, ex_g14, ex_g12. replace (1 + (1 + 0)) with 2 by ring. cbn [snd]. intro K. lra.
Qed.
Print Assumptions C104_different_maps_refuted.

(** the hypotheses of the theorems above hold for [ex_d1] *)
Example C104_example :
  let l := ex_l ex_d1 in let s := ex_init (1 / 4) 0 (1 / 2) in let pars := pm_pars (ls_pm s) in let opt := pm_opt_map (ls_pm s) in
  le_scaling l = true /\ NoDup (keys pars) /\ wfd pars /\ NoDup (List.concat opt) /\ slices pars opt [[0]] /\
  (forall t d, In (t, d) (le_data l) -> t <> "all" /\ NoDup (List.concat (norm_map (ld_map d))) /\ Forall (fun g => g <> []) (norm_map (ld_map d))) /\
  (forall t d t' d' k, In (t, d) (le_data l) -> In (t', d') (le_data l) -> In k (List.concat (norm_map (ld_map d))) ->
     In k (List.concat opt) \/ In k (List.concat (norm_map (ld_map d')))) /\
  (forall sets n ind, ex_first sets n = Ok ind -> NoDup ind /\ forall i, In i ind -> (i < length sets)%nat) /\
  (forall t d m model ps labels vals, In (t, d) (le_data l) -> In m (ld_sets d) -> carries opt [[0]] (norm_map (ld_map d)) m ps ->
     ex_sim model ps (firstn (le_seqs_pp l) (ds_seqs m)) labels = Ok vals -> vals = firstn (le_seqs_pp l) (ds_results m)) /\
  exists s', goal_run (fun _ => ex_first) ex_sim (fun x => x) l s [0] = Ok (s', - (1 / 2)).
Proof.
  cbn zeta. split; [reflexivity|]. split; [repeat constructor; cbn; intuition discriminate|]. split.
  { intros k q. cbn. repeat (destruct (String.eqb _ _); [intros [= <-]; split; cbn; lra|]). discriminate. }
  split; [repeat constructor; cbn; intuition discriminate|]. split.
  { repeat constructor; try discriminate. intros k [<-|[]]. eexists. split; reflexivity. }
  split. { intros t d [[= <- <-]|[]]. split; [discriminate|]. split; repeat constructor; cbn; intuition discriminate. }
  split. { intros t d t' d' k [[= <- <-]|[]] [[= <- <-]|[]] K. right. exact K. }
  split. { intros sets n ind [= <-]. split; [apply seq_NoDup|]. intros i Hi. apply in_seq in Hi. lia. }
  split.
  { intros t d m model ps labels vals [[= <- <-]|[]] Hm [C1 C2] E. unfold ex_sim in E. injection E as <-.
    assert (m = ex_set 1) as -> by (destruct Hm as [<-|[<-|[]]]; reflexivity).
    destruct (C1 ["h"] [1] "h" (or_introl eq_refl) (or_introl eq_refl)) as (qh & Q1 & Q2).
    destruct (C2 ["m"] [0] "m" (or_introl eq_refl) (or_introl eq_refl)) as (qm & Q3 & Q4); [cbn; intuition discriminate|].
    assert (V : ex_val ps "m" = 0).
    { unfold ex_val. rewrite Q3. unfold get_opt_value in Q4. inversion Q4 as [|? y ? ? [Hy (k & HK)]]; subst. cbn [hd].
      assert (k = 0 \/ (k < 0 \/ k > 0))%Z as [-> | K] by lia; [destruct HK; lra|].
      assert (IZR k <= -1 \/ 1 <= IZR k) by (destruct K; [left; apply IZR_le; lia|right; apply IZR_le; lia]). destruct HK; lra. }
    assert (N : ex_num ps "h" = 1) by (unfold ex_num; rewrite Q1, Q2; reflexivity).
    cbn [ex_l le_seqs_pp ex_set ds_seqs ds_results firstn map]. rewrite V, N. unfold ex_prob. replace ((0 + 1) / 2 * ((1 - 1 + 1) / 2)) with (1 / 4) by lra. reflexivity. }
  destruct (ex_run1 (1 / 4) 0 (1 / 2) false (ex_init (1 / 4) 0 (1 / 2)) 0) as (s' & E & _); [split; [exists 0%nat; reflexivity|reflexivity]|lra|].
  exists s'. rewrite E. replace (ex_prob 0 0) with (1 / 4) by (unfold ex_prob; lra). rewrite ex_g14. reflexivity.
Qed.
