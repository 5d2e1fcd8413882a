(** Proofs about ParameterMap. *)
From Coq Require Import Reals Lra Permutation.
From Verif Require Import Base QuantityModel QuantityProofs PMapModel.
Local Open Scope list_scope.

(** ** Specification vocabulary *)

(** All assignments (identifier, value) requested by a map and a value vector. *)
Definition assignments (m : optmap) (vals : list (list R)) : list (string * list R) :=
  List.concat (map (fun gv => map (fun k => (k, snd gv)) (fst gv)) (combine m vals)).

(** Every quantity in the dictionary is well formed / within tolerance. *)
Definition wfd (d : dict quantity) : Prop := forall k q, dget k d = Some q -> wfq q.
Definition told (d : dict quantity) : Prop := forall k q, dget k d = Some q -> in_tol q.

(** A value fits a quantity: right size and inside the limits (with tolerance). *)
Definition fits (q : quantity) (v : list R) : Prop :=
  let lo := fst (get_limits q) in let hi := snd (get_limits q) in
  List.length v = List.length (numpy q) /\
  Forall (fun x => lo - tol * (hi - lo) / 2 <= x <= hi + tol * (hi - lo) / 2)%R v.

Lemma numpy_length q : List.length (numpy q) = List.length (q_value q).
Proof. unfold numpy, get_value. now rewrite !map_length. Qed.

Lemma set_value_ok_facts v ext q q' : wfq q -> set_value v ext q = Ok q' ->
  numpy q' = v /\ wfq q' /\ in_tol q' /\ q_unit q' = q_unit q
  /\ List.length (q_value q') = List.length (q_value q)
  /\ (fst (get_limits q') <= fst (get_limits q))%R
  /\ (snd (get_limits q) <= snd (get_limits q'))%R.
Proof.
  intros Hw. unfold set_value. destruct (Nat.eqb_spec (List.length v) (List.length (q_value q))) as [Hl|]; [|discriminate].
  destruct ext; intros E.
  - destruct v as [|x v]; [discriminate|].
    destruct (set_extend_spec q (x :: v) Hw) as [q2 [E2 [Hn [Hp [Hw2 [Hu [_ [H1 [H2 _]]]]]]]]]; [discriminate|].
    assert (q2 = q') by congruence. subst q2.
    destruct (extend_wf _ _ _ Hw E) as [_ [_ [_ [HL [_ [_ Ht]]]]]].
    repeat split; auto; try apply Hw2. now rewrite HL.
  - pose proof (strict_in_tol _ _ _ E) as Ht.
    destruct (strict_wf _ _ _ Hw E) as [Hw2 [Hu [_ [HL Hlim]]]].
    unfold set_value_strict in E. destruct (Req_EM_T (q_scale q) 0); [discriminate|].
    destruct (existsb entry_oob _); [discriminate|]. injection E as <-.
    rewrite numpy_with_scaled by assumption.
    repeat split; auto; try apply Hw2; try (rewrite HL; auto); rewrite Hlim; apply Rle_refl.
Qed.

Lemma set_value_fits v q : wfq q -> (fits q v <-> exists q', set_value v false q = Ok q').
Proof.
  intros Hw. unfold fits. rewrite numpy_length.
  split.
  - intros [Hl Hf].
    destruct (set_value v false q) as [q'|e] eqn:E; [now exists q'|exfalso].
    pose proof (set_value_raise_iff q v Hw Hl) as HI. cbn zeta in HI.
    cbn [q_exec] in HI. rewrite E in HI. cbn [of_result snd] in HI.
    assert (e = OOBError).
    { unfold set_value in E. rewrite Hl, Nat.eqb_refl in E. unfold set_value_strict in E.
      destruct (Req_EM_T (q_scale q) 0) as [E0|_]; [destruct Hw; lra|].
      destruct (existsb _ _); congruence. }
    subst e. destruct HI as [HI _]. specialize (HI eq_refl).
    apply Exists_exists in HI as [x [Hx Hb]]. rewrite Forall_forall in Hf.
    specialize (Hf x Hx). lra.
  - intros [q' E].
    assert (Hl : List.length v = List.length (q_value q)).
    { unfold set_value in E. destruct (Nat.eqb_spec (List.length v) (List.length (q_value q))); [assumption|discriminate]. }
    split; [assumption|]. apply Forall_forall. intros x Hx.
    pose proof (set_value_raise_iff q v Hw Hl) as [_ HI]. cbn zeta in HI.
    cbn [q_exec] in HI. rewrite E in HI. cbn [of_result snd] in HI.
    assert (Hn : ~ (x < fst (get_limits q) - tol * (snd (get_limits q) - fst (get_limits q)) / 2 \/
                snd (get_limits q) + tol * (snd (get_limits q) - fst (get_limits q)) / 2 < x)%R).
    { intros Hb. assert (HH : None = Some OOBError); [|discriminate].
      apply HI. apply Exists_exists. now exists x. }
    lra.
Qed.

(** ** The loop as a sequence of single assignments *)
Fixpoint set_seq (asg : list (string * list R)) (ext : bool) (d : dict quantity)
  : dict quantity * option exn :=
  match asg with
  | [] => (d, None)
  | (k, v) :: asg' =>
      match set_one k v ext d with
      | (d', None) => set_seq asg' ext d'
      | (d', Some e) => (d', Some e)
      end
  end.

Lemma set_seq_app a b ext d :
  set_seq (a ++ b) ext d =
  match set_seq a ext d with
  | (d', None) => set_seq b ext d'
  | r => r
  end.
Proof.
  revert d; induction a as [|[k v] a IH]; intros d; cbn; [reflexivity|].
  destruct (set_one k v ext d) as [d' [e|]]; auto.
Qed.

Lemma set_group_seq ids v ext d :
  set_group ids v ext d = set_seq (map (fun k => (k, v)) ids) ext d.
Proof.
  revert d; induction ids as [|k ids IH]; intros d; cbn; [reflexivity|].
  destruct (set_one k v ext d) as [d' [e|]]; auto.
Qed.

Lemma set_groups_seq m : forall vals ext d, List.length vals = List.length m ->
  set_groups m vals ext d = set_seq (assignments m vals) ext d.
Proof.
  induction m as [|ids m IH]; intros [|v vals] ext d Hl; try discriminate; [reflexivity|].
  unfold assignments in *. cbn. rewrite set_seq_app, <- set_group_seq.
  destruct (set_group ids v ext d) as [d' [e|]]; [reflexivity|].
  apply IH. now injection Hl.
Qed.

Lemma set_one_None k v ext d d' : set_one k v ext d = (d', None) ->
  exists q q', dget k d = Some q /\ set_value v ext q = Ok q' /\ d' = dset k q' d.
Proof.
  unfold set_one. destruct (dget k d) as [q|]; [|discriminate].
  destruct (set_value v ext q) as [q'|[]] eqn:E; intros HH; try discriminate.
  injection HH as <-. now exists q, q'.
Qed.

Lemma set_one_Some k v ext d d' e : set_one k v ext d = (d', Some e) -> d' = d.
Proof.
  unfold set_one. destruct (dget k d) as [q|]; [|now intros [= <- _]].
  destruct (set_value v ext q) as [q'|[]]; intros [= <- _]; auto.
Qed.

Lemma wfd_dset k q d : wfd d -> wfq q -> wfd (dset k q d).
Proof.
  intros Hd Hq k' q' H. destruct (String.eqb_spec k' k) as [->|Hn].
  - rewrite dget_dset_same in H. now injection H as <-.
  - rewrite dget_dset_other in H by assumption. eauto.
Qed.
Lemma told_dset k q d : told d -> in_tol q -> told (dset k q d).
Proof.
  intros Hd Hq k' q' H. destruct (String.eqb_spec k' k) as [->|Hn].
  - rewrite dget_dset_same in H. now injection H as <-.
  - rewrite dget_dset_other in H by assumption. eauto.
Qed.

(** Relation between the quantity before and after any successful update. *)
Definition grown (q q' : quantity) : Prop :=
  q_unit q' = q_unit q /\ List.length (numpy q') = List.length (numpy q)
  /\ (fst (get_limits q') <= fst (get_limits q))%R
  /\ (snd (get_limits q) <= snd (get_limits q'))%R.
Lemma grown_refl q : grown q q.
Proof. repeat split; auto; apply Rle_refl. Qed.
Lemma grown_trans a b c : grown a b -> grown b c -> grown a c.
Proof.
  intros [A [B [C D]]] [A' [B' [C' D']]].
  split; [congruence|]. split; [congruence|]. split; lra.
Qed.
Definition dgrown (d d' : dict quantity) : Prop :=
  keys d' = keys d /\
  forall k q, dget k d = Some q -> exists q', dget k d' = Some q' /\ grown q q'.
Lemma dgrown_refl d : dgrown d d.
Proof. split; [reflexivity|]. intros k q H; exists q; split; auto using grown_refl. Qed.
Lemma dgrown_trans a b c : dgrown a b -> dgrown b c -> dgrown a c.
Proof.
  intros [K1 H1] [K2 H2]. split; [congruence|]. intros k q H.
  destruct (H1 k q H) as [q1 [E1 G1]]. destruct (H2 k q1 E1) as [q2 [E2 G2]].
  exists q2. split; auto. eapply grown_trans; eauto.
Qed.
Lemma dgrown_dset k q q' d : dget k d = Some q -> grown q q' -> dgrown d (dset k q' d).
Proof.
  intros H G. split.
  - apply keys_dset_present. apply dget_in_keys. now exists q.
  - intros k2 q2 H2. destruct (String.eqb_spec k2 k) as [->|Hn].
    + exists q'. rewrite dget_dset_same. split; auto. congruence.
    + exists q2. rewrite dget_dset_other by assumption. split; auto using grown_refl.
Qed.

Lemma set_seq_inv asg ext : forall d d' e, wfd d -> told d ->
  set_seq asg ext d = (d', e) -> wfd d' /\ told d' /\ dgrown d d'.
Proof.
  induction asg as [|[k v] asg IH]; intros d d' e Hw Ht; cbn.
  - intros [= <- <-]. auto using dgrown_refl.
  - destruct (set_one k v ext d) as [d1 [e1|]] eqn:E1.
    + intros [= <- <-]. apply set_one_Some in E1. subst. auto using dgrown_refl.
    + apply set_one_None in E1 as [q [q' [Hg [Hs ->]]]]. intros E.
      destruct (set_value_ok_facts _ _ _ _ (Hw _ _ Hg) Hs) as [Hn [Hw' [Ht' [Hu [HL [H1 H2]]]]]].
      destruct (IH _ _ _ (wfd_dset k q' d Hw Hw') (told_dset k q' d Ht Ht') E) as [A [B C]].
      split; auto. split; auto. eapply dgrown_trans; [|exact C].
      eapply dgrown_dset; [exact Hg|]. repeat split; auto. now rewrite !numpy_length.
Qed.

Lemma set_seq_wfd asg ext : forall d d' e, wfd d ->
  set_seq asg ext d = (d', e) -> wfd d'.
Proof.
  induction asg as [|[k v] asg IH]; intros d d' e Hw; cbn.
  - intros [= <- <-]. auto.
  - destruct (set_one k v ext d) as [d1 [e1|]] eqn:E1.
    + intros [= <- <-]. apply set_one_Some in E1. now subst.
    + apply set_one_None in E1 as [q [q' [Hg [Hs ->]]]]. intros E.
      destruct (set_value_ok_facts _ _ _ _ (Hw _ _ Hg) Hs) as [_ [Hw' _]].
      eapply IH; [|exact E]. now apply wfd_dset.
Qed.

Lemma set_seq_frame asg ext : forall d d' e k, ~ In k (map fst asg) ->
  set_seq asg ext d = (d', e) -> dget k d' = dget k d.
Proof.
  induction asg as [|[k0 v] asg IH]; intros d d' e k Hn; cbn in *.
  - now intros [= <- <-].
  - destruct (set_one k0 v ext d) as [d1 [e1|]] eqn:E1.
    + intros [= <- <-]. apply set_one_Some in E1. now subst.
    + apply set_one_None in E1 as [q [q' [Hg [Hs ->]]]]. intros E.
      rewrite (IH _ _ _ _ (fun H => Hn (or_intror H)) E).
      apply dget_dset_other. intros ->. apply Hn. now left.
Qed.

Lemma set_seq_keys asg ext : forall d d' e,
  set_seq asg ext d = (d', e) -> keys d' = keys d.
Proof.
  induction asg as [|[k0 v] asg IH]; intros d d' e; cbn.
  - now intros [= <- <-].
  - destruct (set_one k0 v ext d) as [d1 [e1|]] eqn:E1.
    + intros [= <- <-]. apply set_one_Some in E1. now subst.
    + apply set_one_None in E1 as [q [q' [Hg [Hs ->]]]]. intros E.
      rewrite (IH _ _ _ E). apply keys_dset_present, dget_in_keys. now exists q.
Qed.

Lemma set_seq_ok asg ext : forall d d', wfd d -> NoDup (map fst asg) ->
  set_seq asg ext d = (d', None) ->
  forall k v, In (k, v) asg -> exists q', dget k d' = Some q' /\ numpy q' = v.
Proof.
  induction asg as [|[k0 v0] asg IH]; intros d d' Hw Hnd; cbn in *; [tauto|].
  apply NoDup_cons_iff in Hnd as [Hni Hnd].
  destruct (set_one k0 v0 ext d) as [d1 [e1|]] eqn:E1; [discriminate|].
  apply set_one_None in E1 as [q [q' [Hg [Hs ->]]]]. intros E.
  destruct (set_value_ok_facts _ _ _ _ (Hw _ _ Hg) Hs) as [Hn [Hw' _]].
  intros k v [[= <- <-]|Hin].
  - exists q'. split; [|assumption].
    rewrite (set_seq_frame _ _ _ _ _ _ Hni E). apply dget_dset_same.
  - exact (IH _ _ (wfd_dset k0 q' d Hw Hw') Hnd E k v Hin).
Qed.

Lemma set_seq_err asg ext : forall d d' e, set_seq asg ext d = (d', Some e) ->
  exists pre k v post, asg = pre ++ (k, v) :: post
    /\ set_seq pre ext d = (d', None) /\ set_one k v ext d' = (d', Some e).
Proof.
  induction asg as [|[k v] asg IH]; intros d d' e; cbn; [discriminate|].
  destruct (set_one k v ext d) as [d1 [e1|]] eqn:E1.
  - intros [= <- <-]. pose proof (set_one_Some _ _ _ _ _ _ E1) as ->.
    exists [], k, v, asg. auto.
  - intros E. destruct (IH _ _ _ E) as [pre [k' [v' [post [-> [H1 H2]]]]]].
    exists ((k, v) :: pre), k', v', post. cbn. now rewrite E1.
Qed.

(** Strict updates succeed exactly when every value fits. *)
Lemma set_seq_strict_ok asg : forall d, wfd d -> NoDup (map fst asg) ->
  (exists d', set_seq asg false d = (d', None)) <->
  (forall k v, In (k, v) asg -> exists q, dget k d = Some q /\ fits q v).
Proof.
  induction asg as [|[k0 v0] asg IH]; intros d Hw Hnd; cbn in *.
  - split; [tauto|]. intros _. now exists d.
  - apply NoDup_cons_iff in Hnd as [Hni Hnd]. split.
    + intros [d' E]. destruct (set_one k0 v0 false d) as [d1 [e1|]] eqn:E1; [discriminate|].
      apply set_one_None in E1 as [q [q' [Hg [Hs ->]]]].
      destruct (set_value_ok_facts _ _ _ _ (Hw _ _ Hg) Hs) as [_ [Hw' _]].
      intros k v [[= <- <-]|Hin].
      * exists q. split; auto. apply set_value_fits; eauto.
      * destruct (proj1 (IH _ (wfd_dset k0 q' d Hw Hw') Hnd) (ex_intro _ d' E) k v Hin) as [q2 [Hq2 Hf]].
        exists q2. split; auto. rewrite dget_dset_other in Hq2; [assumption|].
        intros ->. apply Hni. apply in_map_iff. now exists (k0, v).
    + intros H. destruct (H k0 v0 (or_introl eq_refl)) as [q [Hg Hf]].
      pose proof (Hw _ _ Hg) as Hwq. apply (set_value_fits _ _ Hwq) in Hf as [q' Hs].
      unfold set_one. rewrite Hg, Hs.
      destruct (set_value_ok_facts _ _ _ _ Hwq Hs) as [_ [Hw' _]].
      apply IH; auto using wfd_dset. intros k v Hin.
      destruct (H k v (or_intror Hin)) as [q2 [Hq2 Hf2]]. exists q2. split; auto.
      rewrite dget_dset_other; [assumption|]. intros ->. apply Hni.
      apply in_map_iff. now exists (k0, v).
Qed.

Lemma assignments_fst m : forall vals, List.length vals = List.length m ->
  map fst (assignments m vals) = List.concat m.
Proof.
  induction m as [|g m IH]; intros [|v vals] Hl; try discriminate; [reflexivity|].
  unfold assignments in *; cbn. rewrite map_app, map_map. cbn. rewrite map_id.
  f_equal. apply IH. now injection Hl.
Qed.

Lemma in_assignments m vals k v :
  In (k, v) (assignments m vals) <-> exists g, In (g, v) (combine m vals) /\ In k g.
Proof.
  unfold assignments. rewrite in_concat. split.
  - intros [l [Hl Hin]]. apply in_map_iff in Hl as [[g v'] [<- Hc]].
    apply in_map_iff in Hin as [k' [[= <- <-] Hk]]. now exists g.
  - intros [g [Hc Hk]]. exists (map (fun k => (k, v)) g). split.
    + apply in_map_iff. now exists (g, v).
    + apply in_map_iff. now exists k.
Qed.

(** ** set_parameters *)
Lemma set_parameters_inv pm vals om ext pm' e :
  set_parameters pm vals om ext = (pm', e) ->
  let m := get_opt_map pm om in
  (List.length vals <> List.length m /\ e = Some C3Error /\ pm' = pm) \/
  (List.length vals = List.length m /\
   exists d, set_seq (assignments m vals) ext (pm_pars pm) = (d, e) /\
     pm_pars pm' = d /\ pm_model_ids pm' = pm_model_ids pm
     /\ pm_opt_map pm' = pm_opt_map pm /\ pm_update pm' = pm_update pm
     /\ pm_has_model pm' = pm_has_model pm
     /\ pm_refreshes pm' = pm_refreshes pm +
          (match e with
           | Some _ => 0
           | None => if existsb (fun k => smem k (pm_model_ids pm)) (List.concat m)
                        && pm_has_model pm then 1 else 0
           end)).
Proof.
  unfold set_parameters. cbn zeta. set (m := get_opt_map pm om).
  destruct (Nat.eqb_spec (List.length vals) (List.length m)) as [Hl|Hl]; cbn.
  - rewrite set_groups_seq by assumption. intros E. right. split; auto.
    destruct (set_seq _ ext (pm_pars pm)) as [d [e1|]] eqn:Es.
    + injection E as <- <-. exists d. cbn. repeat split; auto.
    + injection E as <- <-. exists d. split; [reflexivity|].
      destruct (_ && _); cbn; repeat split; auto; rewrite Nat.add_comm; reflexivity.
  - intros [= <- <-]. left. auto.
Qed.

Lemma mapM_spec {A B} (f : A -> result B) l ys :
  mapM f l = Ok ys <-> Forall2 (fun x y => f x = Ok y) l ys.
Proof.
  revert ys; induction l as [|x l IH]; intros ys; cbn.
  - split; [intros [= <-]; constructor|intros H; inversion H; reflexivity].
  - destruct (f x) as [y|e] eqn:E; cbn.
    + destruct (mapM f l) as [ys'|e'] eqn:E'; cbn.
      * split.
        -- intros [= <-]. constructor; auto. now apply IH.
        -- intros H; inversion H as [|? y' ? ys'' Hy Hys]; subst.
           apply IH in Hys. congruence.
      * split; [discriminate|]. intros H; inversion H as [|? y' ? ys'' Hy Hys]; subst.
        apply IH in Hys. discriminate.
    + split; [discriminate|]. intros H; inversion H; congruence.
Qed.

Lemma get_parameters_values pm om vals :
  Forall (fun g => g <> []) (get_opt_map pm om) ->
  List.length vals = List.length (get_opt_map pm om) ->
  (forall k v, In (k, v) (assignments (get_opt_map pm om) vals) ->
     exists q, dget k (pm_pars pm) = Some q /\ numpy q = v) ->
  exists qs, get_parameters pm om = Ok qs /\ map numpy qs = vals.
Proof.
  unfold get_parameters. generalize (get_opt_map pm om) as m.
  induction m as [|g m IH] in vals |- *; intros Hne Hl H; destruct vals as [|v vals]; try discriminate.
  - now exists [].
  - inversion Hne as [|? ? Hg Hne']; subst. destruct g as [|k g]; [contradiction|].
    destruct (IH vals) as [qs [E1 E2]]; auto.
    { intros k' v' Hin. apply H. unfold assignments in *; cbn. right. apply in_or_app. now right. }
    destruct (H k v) as [q [Hq Hn]].
    { unfold assignments; cbn. now left. }
    exists (q :: qs). cbn. rewrite Hq. cbn. rewrite E1. cbn. split; [reflexivity|].
    now rewrite Hn, E2.
Qed.

Lemma set_parameters_readback pm vals om ext pm' :
  wfd (pm_pars pm) ->
  let m := get_opt_map pm om in
  NoDup (List.concat m) -> Forall (fun g => g <> []) m ->
  set_parameters pm vals om ext = (pm', None) ->
  (exists qs, get_parameters pm' om = Ok qs /\ map numpy qs = vals)
  /\ (forall g v k, In (g, v) (combine m vals) -> In k g ->
        exists q, dget k (pm_pars pm') = Some q /\ numpy q = v).
Proof.
  intros Hw m Hnd Hne E. apply set_parameters_inv in E. cbn zeta in E. fold m in E.
  destruct E as [[_ [E _]]|[Hl [d [Es [Hd [_ [Hom _]]]]]]]; [discriminate|].
  assert (HA : forall k v, In (k, v) (assignments m vals) ->
     exists q, dget k (pm_pars pm') = Some q /\ numpy q = v).
  { rewrite Hd. eapply set_seq_ok; eauto. now rewrite assignments_fst. }
  assert (Hm : get_opt_map pm' om = m) by (unfold m, get_opt_map; destruct om; congruence).
  split.
  - apply get_parameters_values; rewrite Hm; auto.
  - intros g v k Hc Hk. apply HA. apply in_assignments. now exists g.
Qed.

Lemma set_parameters_accepts pm vals om :
  wfd (pm_pars pm) ->
  let m := get_opt_map pm om in
  NoDup (List.concat m) ->
  (snd (set_parameters pm vals om false) = None <->
   List.length vals = List.length m /\
   forall g v k, In (g, v) (combine m vals) -> In k g ->
     exists q, dget k (pm_pars pm) = Some q /\ fits q v).
Proof.
  intros Hw m Hnd. destruct (set_parameters pm vals om false) as [pm' e] eqn:E. cbn [snd].
  apply set_parameters_inv in E. cbn zeta in E. fold m in E.
  destruct E as [[Hl [-> ->]]|[Hl [d [Es _]]]].
  - split; [discriminate|]. intros [HH _]. contradiction.
  - pose proof (set_seq_strict_ok (assignments m vals) (pm_pars pm) Hw) as HI.
    rewrite assignments_fst in HI by assumption. specialize (HI Hnd).
    split.
    + intros ->. split; auto. intros g v k Hc Hk.
      apply (proj1 HI (ex_intro _ d Es)). apply in_assignments. now exists g.
    + intros [_ H]. destruct (proj2 HI) as [d' Es'].
      { intros k v Hin. apply in_assignments in Hin as [g [Hc Hk]]. eauto. }
      congruence.
Qed.

Lemma set_parameters_frame pm vals om ext k :
  ~ In k (List.concat (get_opt_map pm om)) ->
  let pm' := fst (set_parameters pm vals om ext) in
  dget k (pm_pars pm') = dget k (pm_pars pm) /\ keys (pm_pars pm') = keys (pm_pars pm).
Proof.
  intros Hn. destruct (set_parameters pm vals om ext) as [pm' e] eqn:E. cbn [fst].
  apply set_parameters_inv in E. cbn zeta in E.
  destruct E as [[_ [_ ->]]|[Hl [d [Es [Hd _]]]]]; [auto|].
  rewrite Hd. split.
  - eapply set_seq_frame; [|exact Es]. now rewrite assignments_fst.
  - eapply set_seq_keys; exact Es.
Qed.

Lemma set_parameters_keys pm vals om ext :
  keys (pm_pars (fst (set_parameters pm vals om ext))) = keys (pm_pars pm).
Proof.
  destruct (set_parameters pm vals om ext) as [pm' e] eqn:E. cbn [fst].
  apply set_parameters_inv in E. cbn zeta in E.
  destruct E as [[_ [_ ->]]|[Hl [d [Es [Hd _]]]]]; [auto|].
  rewrite Hd. eapply set_seq_keys; exact Es.
Qed.

Lemma set_parameters_failure pm vals om ext pm' e :
  wfd (pm_pars pm) -> NoDup (List.concat (get_opt_map pm om)) ->
  set_parameters pm vals om ext = (pm', Some e) ->
  pm_refreshes pm' = pm_refreshes pm /\ pm_opt_map pm' = pm_opt_map pm
  /\ pm_update pm' = pm_update pm /\
  ((List.length vals <> List.length (get_opt_map pm om) /\ e = C3Error /\ pm' = pm) \/
   exists pre k v post,
     assignments (get_opt_map pm om) vals = pre ++ (k, v) :: post
     /\ (forall k' v', In (k', v') pre ->
          exists q, dget k' (pm_pars pm') = Some q /\ numpy q = v')
     /\ (forall k', ~ In k' (map fst pre) -> dget k' (pm_pars pm') = dget k' (pm_pars pm))
     /\ dget k (pm_pars pm') = dget k (pm_pars pm)
     /\ (ext = false -> e = MapOOBError -> exists q, dget k (pm_pars pm) = Some q
          /\ List.length v = List.length (numpy q) /\ ~ fits q v)).
Proof.
  intros Hw Hnd E. apply set_parameters_inv in E. cbn zeta in E.
  set (m := get_opt_map pm om) in *.
  destruct E as [[Hl [[= <-] ->]]|[Hl [d [Es [Hd [_ [Hom [Hu [_ Hr]]]]]]]]].
  - repeat split; auto.
  - rewrite Nat.add_0_r in Hr. repeat split; auto. right.
    destruct (set_seq_err _ _ _ _ _ Es) as [pre [k [v [post [Ha [Hp Ho]]]]]].
    pose proof Hnd as Hnd'. rewrite <- (assignments_fst m vals Hl), Ha in Hnd'.
    rewrite map_app in Hnd'. cbn in Hnd'.
    pose proof (NoDup_remove_2 _ _ _ Hnd') as Hk.
    assert (Hkp : ~ In k (map fst pre)) by (intros HH; apply Hk, in_or_app; now left).
    assert (Hfr : dget k d = dget k (pm_pars pm)) by (eapply set_seq_frame; eauto).
    exists pre, k, v, post. rewrite Hd. split; auto. split; [|split; [|split]].
    + eapply set_seq_ok; eauto. apply NoDup_remove_1 in Hnd'.
      clear -Hnd'. revert Hnd'. generalize (map fst pre) as a. intros a.
      induction a as [|x a IH]; intros H; [constructor|].
      cbn in H. apply NoDup_cons_iff in H as [H1 H2]. constructor; auto.
      intros HH. apply H1, in_or_app. now left.
    + intros k' Hn. eapply set_seq_frame; eauto.
    + exact Hfr.
    + intros -> ->. unfold set_one in Ho. rewrite Hfr in Ho.
      destruct (dget k (pm_pars pm)) as [q|] eqn:Hq; [|discriminate].
      exists q. split; [reflexivity|].
      destruct (set_value v false q) as [q'|e'] eqn:Es'; [discriminate|].
      assert (e' = OOBError).
      { revert Es'. unfold set_value, set_value_strict.
        destruct (Nat.eqb _ _); [|intros [= <-]; discriminate].
        destruct (Req_EM_T _ _); [intros [= <-]; discriminate|].
        destruct (existsb _ _); [now intros [= <-]|discriminate]. }
      subst e'. split.
      * unfold set_value in Es'. rewrite numpy_length.
        destruct (Nat.eqb_spec (List.length v) (List.length (q_value q))); [assumption|discriminate].
      * intros Hf. apply set_value_fits in Hf as [q' Hq']; [congruence|eauto].
Qed.

Lemma Forall2_impl {A B} (P Q : A -> B -> Prop) l l' :
  (forall a b, P a b -> Q a b) -> Forall2 P l l' -> Forall2 Q l l'.
Proof. intros H HF; induction HF; constructor; auto. Qed.

Lemma Forall2_length {A B} (P : A -> B -> Prop) l l' :
  Forall2 P l l' -> List.length l = List.length l'.
Proof. intros HF; induction HF; cbn; auto. Qed.

(** ** Optimizer vectors *)

(** [xs] cuts an optimizer vector into one slice per group of the map, every
    member of the group having the size of its slice. *)
Definition slices (d : dict quantity) (m : optmap) (xs : list (list R)) : Prop :=
  Forall2 (fun g x => g <> [] /\ forall k, In k g ->
             exists q, dget k d = Some q /\ List.length (numpy q) = List.length x) m xs.

Definition sized (d : dict quantity) (k : string) (n : nat) : Prop :=
  exists q, dget k d = Some q /\ List.length (q_value q) = n.

Definition opt_one (d : dict quantity) (kv : string * list R) : dict quantity :=
  match dget (fst kv) d with
  | Some q => dset (fst kv) (with_value q (map opt_fold (snd kv))) d
  | None => d
  end.
Definition apply_opt (asg : list (string * list R)) (d : dict quantity) : dict quantity :=
  fold_left opt_one asg d.

Lemma sized_opt_one d k0 v k n : sized d k0 (List.length v) -> sized d k n ->
  sized (opt_one d (k0, v)) k n.
Proof.
  intros [q0 [H0 L0]] [q [H L]]. unfold opt_one; cbn. rewrite H0.
  destruct (String.eqb_spec k k0) as [->|Hn].
  - exists (with_value q0 (map opt_fold v)). rewrite dget_dset_same. split; auto.
    cbn. rewrite map_length. assert (q = q0) by congruence. subst. congruence.
  - exists q. now rewrite dget_dset_other.
Qed.

Lemma set_opt_group_ok ids v : forall d,
  (forall k, In k ids -> sized d k (List.length v)) ->
  set_opt_group ids v d = (apply_opt (map (fun k => (k, v)) ids) d, None).
Proof.
  induction ids as [|k ids IH]; intros d H; cbn; [reflexivity|].
  destruct (H k (or_introl eq_refl)) as [q [Hq HL]]. rewrite Hq.
  unfold set_opt_value. rewrite HL, Nat.eqb_refl. rewrite IH.
  - unfold opt_one at 2. cbn. rewrite Hq. reflexivity.
  - intros k' Hk'. pose proof (sized_opt_one d k v k' (List.length v)
      (H k (or_introl eq_refl)) (H k' (or_intror Hk'))) as HH.
    unfold opt_one in HH. cbn in HH. now rewrite Hq in HH.
Qed.

Lemma sized_apply asg : forall d k n,
  (forall k' v', In (k', v') asg -> sized d k' (List.length v')) -> sized d k n ->
  sized (apply_opt asg d) k n.
Proof.
  induction asg as [|[k0 v0] asg IH]; intros d k n H Hs; cbn; [assumption|].
  apply IH.
  - intros k' v' Hin. apply sized_opt_one; apply H; [now left|now right].
  - apply sized_opt_one; auto. apply H. now left.
Qed.

Lemma apply_opt_app a b d : apply_opt (a ++ b) d = apply_opt b (apply_opt a d).
Proof. apply fold_left_app. Qed.

Lemma set_opt_groups_ok m : forall xs rest d,
  Forall2 (fun g x => g <> [] /\ forall k, In k g -> sized d k (List.length x)) m xs ->
  set_opt_groups m (List.concat xs ++ rest) d = (apply_opt (assignments m xs) d, None).
Proof.
  induction m as [|g m IH]; intros xs rest d HF; inversion HF as [|? x ? xs' [Hne Hg] HF']; subst; [reflexivity|].
  cbn [set_opt_groups]. destruct g as [|k g]; [contradiction|].
  destruct (Hg k (or_introl eq_refl)) as [q [Hq HL]]. cbn [leader]. rewrite Hq, HL.
  cbn [List.concat]. rewrite <- app_assoc.
  rewrite firstn_app, firstn_all, Nat.sub_diag, skipn_app, skipn_all, Nat.sub_diag.
  cbn [firstn skipn]. rewrite app_nil_r. cbn [app].
  rewrite set_opt_group_ok by assumption. rewrite IH.
  - unfold assignments. cbn [combine map List.concat fst snd]. now rewrite apply_opt_app.
  - eapply Forall2_impl; [|exact HF']. intros g' x' [Hn' Hs']. split; auto.
    intros k' Hk'. apply sized_apply; auto.
    intros k2 v2 Hin. apply in_map_iff in Hin as [k3 [[= <- <-] Hk3]]. auto.
Qed.

Lemma apply_opt_frame asg : forall d k, ~ In k (map fst asg) ->
  dget k (apply_opt asg d) = dget k d.
Proof.
  induction asg as [|[k0 v0] asg IH]; intros d k Hn; cbn in *; [reflexivity|].
  rewrite IH by tauto. unfold opt_one; cbn. destruct (dget k0 d); [|reflexivity].
  apply dget_dset_other. intros ->. tauto.
Qed.

Lemma apply_opt_get asg : forall d k v q, NoDup (map fst asg) -> In (k, v) asg ->
  dget k d = Some q -> dget k (apply_opt asg d) = Some (with_value q (map opt_fold v)).
Proof.
  induction asg as [|[k0 v0] asg IH]; intros d k v q Hnd Hin Hq; cbn in *; [tauto|].
  apply NoDup_cons_iff in Hnd as [Hni Hnd]. destruct Hin as [[= <- <-]|Hin].
  - rewrite apply_opt_frame by assumption. unfold opt_one; cbn. rewrite Hq.
    apply dget_dset_same.
  - apply IH; auto. unfold opt_one; cbn. destruct (dget k0 d); [|assumption].
    rewrite dget_dset_other; [assumption|]. intros ->. apply Hni.
    apply in_map_iff. now exists (k0, v).
Qed.

Lemma slices_sized d m xs : slices d m xs ->
  Forall2 (fun g x => g <> [] /\ forall k, In k g -> sized d k (List.length x)) m xs.
Proof.
  intros H. eapply Forall2_impl; [|exact H]. intros g x [Hn Hs]. split; auto.
  intros k Hk. destruct (Hs k Hk) as [q [Hq HL]]. exists q. now rewrite <- numpy_length.
Qed.

Lemma slices_in_combine d m xs g x k : slices d m xs -> In (g, x) (combine m xs) -> In k g ->
  exists q, dget k d = Some q /\ List.length (numpy q) = List.length x.
Proof.
  intros H. induction H as [|g0 x0 m xs [Hn Hs] HF IH]; cbn; [tauto|].
  intros [[= <- <-]|Hin] Hk; auto.
Qed.

Lemma set_scaled_ctrls_ok pm om xs :
  let m := get_opt_map pm om in
  wfd (pm_pars pm) -> NoDup (List.concat m) -> slices (pm_pars pm) m xs ->
  exists pm', set_scaled_ctrls pm (List.concat xs) om = (pm', None)
    /\ pm' = with_pars pm (pm_pars pm')
    /\ (forall g x k, In (g, x) (combine m xs) -> In k g ->
          exists q q', dget k (pm_pars pm) = Some q /\ dget k (pm_pars pm') = Some q'
            /\ q' = with_value q (map opt_fold x))
    /\ (forall k, ~ In k (List.concat m) -> dget k (pm_pars pm') = dget k (pm_pars pm)).
Proof.
  intros m Hw Hnd Hs. unfold set_scaled_ctrls. fold m.
  rewrite <- (app_nil_r (List.concat xs)).
  rewrite (set_opt_groups_ok m xs [] (pm_pars pm) (slices_sized _ _ _ Hs)).
  assert (HLen : List.length xs = List.length m) by (symmetry; eapply Forall2_length; exact Hs).
  eexists. split; [reflexivity|]. split; [reflexivity|]. cbn [with_pars pm_pars]. split.
  - intros g x k Hc Hk. destruct (slices_in_combine _ _ _ _ _ _ Hs Hc Hk) as [q [Hq _]].
    exists q. eexists. split; [exact Hq|]. split; [|reflexivity].
    apply apply_opt_get; auto.
    + now rewrite assignments_fst.
    + apply in_assignments. now exists g.
  - intros k Hn. apply apply_opt_frame. now rewrite assignments_fst.
Qed.

Lemma opt_fold_Forall2 x : Forall2 is_fold x (map opt_fold x).
Proof. induction x; cbn; constructor; auto using opt_fold_is_fold. Qed.

Lemma with_fold_facts q x : wfq q -> List.length (numpy q) = List.length x ->
  let q' := with_value q (map opt_fold x) in
  get_limits q' = get_limits q /\ Forall2 is_fold x (get_opt_value q')
  /\ Forall (fun y => fst (get_limits q) <= y <= snd (get_limits q))%R (numpy q')
  /\ wfq q' /\ in_tol q' /\ List.length (numpy q') = List.length (numpy q).
Proof.
  intros Hw HL. cbn zeta. rewrite numpy_length in HL.
  destruct (set_opt_value_spec q x Hw (eq_sym HL)) as [q' [E [A [B C]]]].
  cbn [q_exec] in E. unfold set_opt_value in E. rewrite HL, Nat.eqb_refl in E.
  cbn [of_result] in E. injection E as <-. repeat split; auto; try apply Hw.
  - unfold in_tol; cbn. apply Forall_map. apply Forall_forall. intros y _.
    pose proof (opt_fold_range y). pose proof tol_pos. lra.
  - rewrite !numpy_length. cbn. now rewrite map_length.
Qed.

Lemma get_scaled_concat pm om xs :
  let m := get_opt_map pm om in
  Forall2 (fun g x => exists k g' q, g = k :: g' /\ dget k (pm_pars pm) = Some q
             /\ get_opt_value q = x) m xs ->
  get_parameters_scaled pm om = Ok (List.concat xs).
Proof.
  cbn zeta. unfold get_parameters_scaled, get_parameters.
  generalize (get_opt_map pm om) as m. intros m HF.
  assert (HH : exists qs, mapM (fun ids => rbind (leader (pm_pars pm) ids) (fun kq => Ok (snd kq))) m = Ok qs
                /\ map get_opt_value qs = xs).
  { induction HF as [|g x m xs [k [g' [q [-> [Hq Hx]]]]] HF [qs [E1 E2]]].
    - now exists [].
    - exists (q :: qs). cbn. rewrite Hq. cbn. rewrite E1. cbn. split; [reflexivity|].
      now rewrite Hx, E2. }
  destruct HH as [qs [-> E]]. cbn. now rewrite E.
Qed.

Lemma Forall2_combine_in {A B} (P : A -> B -> Prop) l l' :
  List.length l = List.length l' ->
  (forall a b, In (a, b) (combine l l') -> P a b) -> Forall2 P l l'.
Proof.
  revert l'; induction l as [|a l IH]; intros [|b l'] HL H; try discriminate; constructor.
  - apply H. now left.
  - apply IH; [now injection HL|]. intros; apply H. now right.
Qed.
Lemma Forall2_in_combine {A B} (P : A -> B -> Prop) l l' :
  Forall2 P l l' -> forall a b, In (a, b) (combine l l') -> P a b.
Proof. intros HF; induction HF; cbn; [tauto|]. intros a b [[= <- <-]|H']; auto. Qed.

Lemma in_combine_map_r {A B C} (f : B -> C) (l : list A) l' a c :
  In (a, c) (combine l (map f l')) -> exists b, c = f b /\ In (a, b) (combine l l').
Proof.
  revert l'; induction l as [|x l IH]; intros [|y l']; cbn; try tauto.
  intros [[= <- <-]|H]; [exists y; auto|]. destruct (IH _ H) as [b [E HI]]. exists b; auto.
Qed.

Lemma scaled_vector_after pm om xs pm' :
  let m := get_opt_map pm om in
  slices (pm_pars pm) m xs -> get_opt_map pm' om = m ->
  (forall g x k, In (g, x) (combine m xs) -> In k g ->
      exists q q', dget k (pm_pars pm) = Some q /\ dget k (pm_pars pm') = Some q'
        /\ q' = with_value q (map opt_fold x)) ->
  get_parameters_scaled pm' om = Ok (map opt_fold (List.concat xs)).
Proof.
  cbn zeta. set (m := get_opt_map pm om). intros Hs Hm H.
  rewrite concat_map. apply get_scaled_concat. rewrite Hm.
  assert (HL : List.length m = List.length xs) by (eapply Forall2_length; exact Hs).
  apply Forall2_combine_in; [now rewrite map_length|].
  intros g y Hc. apply in_combine_map_r in Hc as [x [-> Hc]].
  pose proof (Forall2_in_combine _ _ _ Hs _ _ Hc) as [Hne _].
  destruct g as [|k g]; [contradiction|].
  destruct (H _ _ k Hc (or_introl eq_refl)) as [q [q' [_ [Hq' ->]]]].
  eexists k, g, _. split; [reflexivity|]. split; [exact Hq'|]. reflexivity.
Qed.

(** ** Index to name *)
Lemma key_from_index_spec pars m : forall (xs : list (list R)) curr i j k g,
  Forall2 (fun g x => exists k g' q, g = k :: g' /\ dget k pars = Some q
             /\ List.length (q_value q) = List.length x) m xs ->
  nth_error m i = Some (k :: g) -> j < List.length (nth i xs []) ->
  key_from_index pars m curr (curr + List.length (List.concat (firstn i xs)) + j) = Ok k.
Proof.
  induction m as [|g0 m IH]; intros xs curr i j k g HF Hi Hj; [destruct i; discriminate|].
  inversion HF as [|? x ? xs' [k0 [g' [q [-> [Hq HL]]]]] HF']; subst.
  cbn [key_from_index leader]. rewrite Hq. cbn [rbind].
  destruct i as [|i]; cbn [nth_error nth firstn List.concat List.length] in Hi, Hj |- *.
  - injection Hi as <- <-. rewrite HL.
    destruct (Nat.ltb_spec (curr + 0 + j) (curr + List.length x)); [reflexivity|lia].
  - rewrite HL. rewrite app_length.
    destruct (Nat.ltb_spec (curr + (List.length x + List.length (List.concat (firstn i xs'))) + j)
                           (curr + List.length x)); [lia|].
    replace (curr + (List.length x + List.length (List.concat (firstn i xs'))) + j)
      with (curr + List.length x + List.length (List.concat (firstn i xs')) + j) by lia.
    eapply IH; eauto.
Qed.

Lemma key_from_index_over pars m : forall (xs : list (list R)) curr idx,
  Forall2 (fun g x => exists k g' q, g = k :: g' /\ dget k pars = Some q
             /\ List.length (q_value q) = List.length x) m xs ->
  curr + List.length (List.concat xs) <= idx ->
  key_from_index pars m curr idx = Ok EmptyString.
Proof.
  induction m as [|g0 m IH]; intros xs curr idx HF Hi;
    inversion HF as [|? x ? xs' [k0 [g' [q [-> [Hq HL]]]]] HF']; subst; [reflexivity|].
  cbn [key_from_index leader]. rewrite Hq. cbn [rbind]. cbn in Hi. rewrite app_length in Hi.
  rewrite HL. destruct (Nat.ltb_spec idx (curr + List.length x)); [lia|].
  eapply IH; eauto. lia.
Qed.

(** ** Partition into optimised and fixed parameters *)
Lemma dget_ddel_same_nodup {V} k (d : dict V) : NoDup (keys d) -> dget k (ddel k d) = None.
Proof.
  intros Hnd. induction d as [|[k' v'] d IH]; cbn in *; [reflexivity|].
  apply NoDup_cons_iff in Hnd as [Hni Hnd].
  destruct (String.eqb_spec k k') as [->|Hn]; cbn.
  - now apply dget_None_notin.
  - destruct (String.eqb_spec k k'); [contradiction|auto].
Qed.

Lemma del_all_ok ks : forall d, NoDup (keys d) -> NoDup ks ->
  (forall k, In k ks -> In k (keys d)) ->
  exists d', del_all ks d = Ok d' /\ NoDup (keys d') /\
    forall k, (In k ks -> dget k d' = None) /\ (~ In k ks -> dget k d' = dget k d).
Proof.
  induction ks as [|k ks IH]; intros d Hd Hk H; cbn.
  - exists d. repeat split; auto. tauto.
  - apply NoDup_cons_iff in Hk as [Hni Hk].
    destruct (proj1 (dget_in_keys k d) (H k (or_introl eq_refl))) as [q Hq].
    unfold dmem. rewrite Hq.
    destruct (IH (ddel k d)) as [d' [E [Hnd Hs]]]; auto.
    + now apply keys_ddel_nodup.
    + intros k' Hk'. apply dget_in_keys. rewrite dget_ddel_other by (intros ->; contradiction).
      apply dget_in_keys. apply H. now right.
    + exists d'. split; [assumption|]. split; [assumption|]. intros k'. destruct (Hs k') as [S1 S2]. split.
      * intros [<-|Hin]; [|auto]. rewrite S2 by assumption. now apply dget_ddel_same_nodup.
      * intros Hn. rewrite S2 by tauto. apply dget_ddel_other. intros ->. tauto.
Qed.

Lemma del_all_err ks : forall d, NoDup (keys d) ->
  (~ NoDup ks \/ exists k, In k ks /\ ~ In k (keys d)) -> del_all ks d = Err KeyError.
Proof.
  induction ks as [|k ks IH]; intros d Hd H; cbn.
  - exfalso. destruct H as [H|[k [[] _]]]. apply H. constructor.
  - unfold dmem. destruct (dget k d) as [q|] eqn:Hq; [|reflexivity].
    apply IH; [now apply keys_ddel_nodup|].
    destruct H as [H|[k' [Hin Hn]]].
    + destruct (in_dec string_dec k ks) as [Hi|Hi].
      * right. exists k. split; auto. apply dget_None_notin. now apply dget_ddel_same_nodup.
      * left. intros HN. apply H. now constructor.
    + right. exists k'. destruct Hin as [->|Hin].
      * exfalso. apply Hn, dget_in_keys. now exists q.
      * split; auto. intros HH. apply Hn. apply dget_in_keys.
        apply dget_in_keys in HH as [v Hv]. destruct (String.eqb_spec k' k) as [->|Hne].
        -- rewrite dget_ddel_same_nodup in Hv by assumption. discriminate.
        -- exists v. now rewrite dget_ddel_other in Hv.
Qed.

(** ** Histories *)
Lemma apply_scaled_inv m : forall vals d d' e, wfd d -> told d ->
  set_opt_groups m vals d = (d', e) -> wfd d' /\ told d' /\ dgrown d d'.
Proof.
  assert (HG : forall ids v d d' e, wfd d -> told d ->
            set_opt_group ids v d = (d', e) -> wfd d' /\ told d' /\ dgrown d d').
  { induction ids as [|k ids IH]; intros v d d' e Hw Ht; cbn.
    - intros [= <- <-]. auto using dgrown_refl.
    - destruct (dget k d) as [q|] eqn:Hq; [|intros [= <- <-]; auto using dgrown_refl].
      unfold set_opt_value. destruct (Nat.eqb_spec (List.length v) (List.length (q_value q))) as [HL|];
        [|intros [= <- <-]; auto using dgrown_refl].
      intros E. destruct (with_fold_facts q v (Hw _ _ Hq)) as [A [B [C [D [F G]]]]].
      { now rewrite numpy_length. }
      destruct (IH v _ d' e (wfd_dset k _ d Hw D) (told_dset k _ d Ht F) E) as [X [Y Z]].
      split; auto. split; auto. eapply dgrown_trans; [|exact Z].
      eapply dgrown_dset; [exact Hq|]. split; [reflexivity|]. split; [exact G|].
      rewrite A. split; apply Rle_refl. }
  induction m as [|g m IH]; intros vals d d' e Hw Ht; cbn.
  - intros [= <- <-]. auto using dgrown_refl.
  - destruct (leader d g) as [[k q]|]; [|intros [= <- <-]; auto using dgrown_refl].
    destruct (set_opt_group g _ d) as [d1 [e1|]] eqn:E1.
    + intros [= <- <-]. eapply HG; eauto.
    + intros E. destruct (HG _ _ _ _ _ Hw Ht E1) as [A [B C]].
      destruct (IH _ _ _ _ A B E) as [A' [B' C']]. split; auto. split; auto.
      eapply dgrown_trans; eauto.
Qed.

Lemma pm_exec_inv pm o : wfd (pm_pars pm) -> told (pm_pars pm) ->
  let pm' := fst (pm_exec pm o) in
  wfd (pm_pars pm') /\ told (pm_pars pm') /\ dgrown (pm_pars pm) (pm_pars pm')
  /\ pm_model_ids pm' = pm_model_ids pm /\ pm_has_model pm' = pm_has_model pm.
Proof.
  intros Hw Ht. cbn zeta.
  assert (HS : forall v om ext, let pm' := fst (set_parameters pm v om ext) in
    wfd (pm_pars pm') /\ told (pm_pars pm') /\ dgrown (pm_pars pm) (pm_pars pm')
    /\ pm_model_ids pm' = pm_model_ids pm /\ pm_has_model pm' = pm_has_model pm).
  { intros v om ext. cbn zeta. destruct (set_parameters pm v om ext) as [pm' e] eqn:E. cbn [fst].
    apply set_parameters_inv in E. cbn zeta in E.
    destruct E as [[_ [_ ->]]|[Hl [d [Es [Hd [Hi [_ [_ [Hh _]]]]]]]]]; [auto using dgrown_refl|].
    destruct (set_seq_inv _ _ _ _ _ Hw Ht Es) as [A [B C]]. rewrite Hd. auto. }
  assert (HC : forall v om, let pm' := fst (set_scaled_ctrls pm v om) in
    wfd (pm_pars pm') /\ told (pm_pars pm') /\ dgrown (pm_pars pm) (pm_pars pm')
    /\ pm_model_ids pm' = pm_model_ids pm /\ pm_has_model pm' = pm_has_model pm).
  { intros v om. cbn zeta. unfold set_scaled_ctrls.
    destruct (set_opt_groups _ v (pm_pars pm)) as [d e] eqn:E. cbn.
    destruct (apply_scaled_inv _ _ _ _ _ Hw Ht E) as [A [B C]]. auto. }
  destruct o as [v om ext|v om|om|f ext]; cbn [pm_exec].
  - apply HS.
  - unfold set_parameters_scaled. destruct (pm_update pm); [|apply HC].
    unfold set_scaled_model. specialize (HC v None). cbn zeta in HC.
    destruct (set_scaled_ctrls pm v None) as [pm' [e|]]; cbn in *; [assumption|].
    destruct (pm_has_model pm); cbn; assumption.
  - unfold set_opt_map. destruct (forallb _ _); cbn; [|auto using dgrown_refl].
    destruct (check_limits _ _); cbn; auto using dgrown_refl.
  - unfold load_values. apply HS.
Qed.

Lemma pm_run_inv os : forall pm, wfd (pm_pars pm) -> told (pm_pars pm) ->
  let pm' := pm_run pm os in
  wfd (pm_pars pm') /\ told (pm_pars pm') /\ dgrown (pm_pars pm) (pm_pars pm')
  /\ pm_model_ids pm' = pm_model_ids pm /\ pm_has_model pm' = pm_has_model pm.
Proof.
  induction os as [|o os IH]; intros pm Hw Ht; cbn zeta; cbn [pm_run fold_left].
  - auto using dgrown_refl.
  - destruct (pm_exec_inv pm o Hw Ht) as [A [B [C [D E]]]].
    destruct (IH _ A B) as [A' [B' [C' [D' E']]]]. unfold pm_run in *.
    split; [assumption|]. split; [assumption|]. split; [eapply dgrown_trans; eauto|].
    split; congruence.
Qed.

(** ** Storing and loading a point *)
Definition coherent (pm : pmap) : Prop :=
  forall g k1 k2 q1 q2, In g (pm_opt_map pm) -> In k1 g -> In k2 g ->
    dget k1 (pm_pars pm) = Some q1 -> dget k2 (pm_pars pm) = Some q2 -> numpy q1 = numpy q2.

Lemma fits_grown q q' : wfq q -> in_tol q -> grown q q' -> fits q' (numpy q).
Proof.
  intros Hw Ht [_ [HL [H1 H2]]]. split; [now rewrite HL|].
  pose proof (in_tol_physical q Hw Ht) as HF. cbn zeta in HF.
  eapply Forall_impl; [|exact HF]. intros x Hx. cbn beta in Hx. pose proof tol_pos.
  pose proof (limits_lt q Hw). nra.
Qed.

Lemma norm_map_str m : norm_map (map (map PStr) m) = m.
Proof.
  unfold norm_map. rewrite map_map. rewrite <- (map_id m) at 2. apply map_ext.
  intros g. rewrite map_map. cbn. apply map_id.
Qed.

Lemma store_ok pm : 
  (forall k, In k (List.concat (pm_opt_map pm)) -> In k (keys (pm_pars pm))) ->
  Forall (fun g => g <> []) (pm_opt_map pm) ->
  exists f, store_values pm = Ok f /\ vf_opt_map f = pm_opt_map pm
    /\ Forall2 (fun g v => exists k g' q, g = k :: g' /\ dget k (pm_pars pm) = Some q /\ v = numpy q)
               (pm_opt_map pm) (vf_params f).
Proof.
  intros Hk Hne. unfold store_values, get_opt_units, get_parameters. cbn [get_opt_map].
  assert (HH : exists qs, mapM (fun ids => rbind (leader (pm_pars pm) ids) (fun kq => Ok (snd kq)))
                               (pm_opt_map pm) = Ok qs
     /\ Forall2 (fun g q => exists k g', g = k :: g' /\ dget k (pm_pars pm) = Some q) (pm_opt_map pm) qs).
  { induction (pm_opt_map pm) as [|g m IH].
    - now exists [].
    - inversion Hne as [|? ? Hg Hne']; subst. destruct g as [|k g]; [contradiction|].
      destruct IH as [qs [E1 E2]]; auto.
      { intros k' Hin. apply Hk. cbn. right. apply in_or_app. now right. }
      destruct (proj1 (dget_in_keys k (pm_pars pm)) (Hk k (or_introl eq_refl))) as [q Hq].
      exists (q :: qs). cbn. rewrite Hq. cbn. rewrite E1. cbn. split; [reflexivity|].
      constructor; eauto. }
  destruct HH as [qs [-> HF]]. cbn. eexists. split; [reflexivity|]. cbn. split; [reflexivity|].
  clear -HF. induction HF as [|g q m qs [k [g' [-> Hq]]] HF IH]; cbn; constructor; eauto 8.
Qed.

Lemma store_history_load pm os f :
  wfd (pm_pars pm) -> told (pm_pars pm) -> NoDup (List.concat (pm_opt_map pm)) ->
  coherent pm -> (forall k, In k (List.concat (pm_opt_map pm)) -> In k (keys (pm_pars pm))) ->
  Forall (fun g => g <> []) (pm_opt_map pm) ->
  store_values pm = Ok f ->
  exists pm', load_values (pm_run pm os) f false = (pm', None) /\
    forall k q, In k (List.concat (pm_opt_map pm)) -> dget k (pm_pars pm) = Some q ->
      exists q', dget k (pm_pars pm') = Some q' /\ numpy q' = numpy q.
Proof.
  intros Hw Ht Hnd Hco Hk Hne Hst.
  destruct (store_ok pm Hk Hne) as [f' [Ef [Hm HF]]]. assert (f' = f) by congruence. subst f'.
  destruct (pm_run_inv os pm Hw Ht) as [Hw' [Ht' [[Hkk Hg] _]]].
  set (pmr := pm_run pm os) in *.
  unfold load_values. rewrite Hm.
  set (om := Some (map (map PStr) (pm_opt_map pm))).
  assert (Hom : get_opt_map pmr om = pm_opt_map pm) by (cbn; apply norm_map_str).
  assert (HLen : List.length (vf_params f) = List.length (pm_opt_map pm))
    by (symmetry; eapply Forall2_length; exact HF).
  assert (Hacc : snd (set_parameters pmr (vf_params f) om false) = None).
  { apply set_parameters_accepts; auto; rewrite Hom; auto. split; auto.
    intros g v k Hc Hkg.
    pose proof (Forall2_in_combine _ _ _ HF _ _ Hc) as [k1 [g' [q1 [-> [Hq1 ->]]]]].
    assert (Hin : In k (List.concat (pm_opt_map pm))).
    { apply in_concat. exists (k1 :: g'). split; auto. eapply in_combine_l; eauto. }
    destruct (proj1 (dget_in_keys _ _) (Hk k Hin)) as [q Hq].
    assert (HE : numpy q1 = numpy q).
    { eapply Hco; [eapply in_combine_l; exact Hc|now left|exact Hkg| |]; eauto. }
    destruct (Hg k q Hq) as [q' [Hq' Gq]]. exists q'. split; auto. rewrite HE.
    apply fits_grown; eauto. }
  destruct (set_parameters pmr (vf_params f) om false) as [pm' e] eqn:E. cbn in Hacc. subst e.
  exists pm'. split; [reflexivity|]. intros k q Hin Hq.
  apply in_concat in Hin as [g [Hgin Hkg]].
  destruct (set_parameters_readback pmr (vf_params f) om false pm' Hw') as [_ HR]; auto;
    try (rewrite Hom; auto).
  assert (HC : exists v, In (g, v) (combine (pm_opt_map pm) (vf_params f))).
  { clear -Hgin HLen. revert HLen. generalize (vf_params f) as l.
    induction (pm_opt_map pm) as [|a m IH]; intros [|b l] HL; try discriminate; [destruct Hgin|].
    destruct Hgin as [->|Hgin]; [exists b; now left|].
    destruct (IH Hgin l) as [v Hv]; [now injection HL|]. exists v. now right. }
  destruct HC as [v Hc]. rewrite Hom in HR. destruct (HR g v k Hc Hkg) as [q' [Hq' Hn]].
  exists q'. split; auto. rewrite Hn.
  pose proof (Forall2_in_combine _ _ _ HF _ _ Hc) as [k1 [g' [q1 [-> [Hq1 ->]]]]].
  eapply Hco; [exact Hgin|now left|exact Hkg| |]; eauto.
Qed.
