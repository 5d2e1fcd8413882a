(** Property C108: what the compiled goal function of OptimalControl computes and remembers. *)
From Coq Require Import Reals Lra Lia.
From Verif Require Import Base QuantityModel QuantityProofs PMapModel PMapProofs OptModel OptProps TraceModel.
Local Open Scope list_scope.
Local Notation length := List.length.

(** ** Parameter maps that differ only in the optimised values *)

Lemma some_inj : forall {A} (x y : A), Some x = Some y -> x = y.
Proof. congruence. Qed.
(** Everything about a quantity but its value. *)
Definition frame_of (q : quantity) : quantity * nat := (with_value q [], length (q_value q)).
Definition same_rest (a b : pmap) : Prop :=
  pm_opt_map a = pm_opt_map b /\ pm_update a = pm_update b /\ pm_has_model a = pm_has_model b
  /\ (forall k, option_map frame_of (dget k (pm_pars a)) = option_map frame_of (dget k (pm_pars b)))
  /\ (forall k, ~ In k (List.concat (pm_opt_map a)) -> dget k (pm_pars a) = dget k (pm_pars b)).
(** Two maps with the same parameters, in the sense of every lookup. *)
Definition same_params (a b : pmap) : Prop :=
  pm_opt_map a = pm_opt_map b /\ forall k, dget k (pm_pars a) = dget k (pm_pars b).

Lemma rest_refl : forall a, same_rest a a.
Proof. intro a. repeat split. Qed.
Lemma rest_sym : forall a b, same_rest a b -> same_rest b a.
Proof. intros a b (A & B & C & D & E). repeat split; auto. intros k Hk. symmetry. apply E. rewrite A. exact Hk. Qed.
Lemma rest_trans : forall a b c, same_rest a b -> same_rest b c -> same_rest a c.
Proof.
  intros a b c (A & B & C & D & E) (A' & B' & C' & D' & E').
  split; [congruence|]. split; [congruence|]. split; [congruence|]. split.
  - intro k. rewrite D. apply D'.
  - intros k Hk. rewrite E by exact Hk. apply E'. rewrite <- A. exact Hk.
Qed.
Lemma frame_with : forall q q' v, frame_of q = frame_of q' -> with_value q v = with_value q' v.
Proof. intros q q' v E. destruct q, q'. unfold frame_of, with_value in *. cbn in *. injection E as -> -> -> -> -> _. reflexivity. Qed.
Lemma frame_shape : forall q q', frame_of q = frame_of q' -> shape_of q = shape_of q'.
Proof. intros q q' E. destruct q, q'. unfold frame_of, shape_of, with_value in *. cbn in *. injection E as -> -> -> _ _ ->. reflexivity. Qed.
Lemma rest_shapes : forall a b, same_rest a b -> same_shapes (pm_pars a) (pm_pars b).
Proof.
  intros a b (_ & _ & _ & D & _) k. specialize (D k). destruct (dget k (pm_pars a)), (dget k (pm_pars b)); cbn [option_map] in *; try discriminate; [|reflexivity].
  f_equal. apply frame_shape, some_inj, D.
Qed.
Lemma rest_slices : forall a b xs, same_rest a b -> slices (pm_pars a) (pm_opt_map a) xs -> slices (pm_pars b) (pm_opt_map b) xs.
Proof. intros a b xs R H. destruct R as (E & R). rewrite <- E. eapply shapes_slices; [|exact H]. apply rest_shapes. split; auto. Qed.

Lemma assigned_rest : forall a a' xs, slices (pm_pars a) (pm_opt_map a) xs -> assigned a a' xs -> same_rest a a'.
Proof.
  intros a a' xs Hs (Eo & Eu & Eh & A & B). assert (L : length (pm_opt_map a) = length xs) by (eapply Forall2_length; exact Hs).
  split; [auto|]. split; [auto|]. split; [auto|]. split.
  - intro k. destruct (in_dec string_dec k (List.concat (pm_opt_map a))) as [Hi|Hn]; [|rewrite (B k Hn); reflexivity].
    apply in_concat in Hi. destruct Hi as (g & Hg & Hk). destruct (in_combine_ex _ xs g L Hg) as (x & Hx).
    destruct (A g x k Hx Hk) as (q & Hq & ->). rewrite Hq. cbn [option_map]. f_equal.
    destruct (slices_in_combine _ _ _ _ _ _ Hs Hx Hk) as (q2 & Hq2 & Hl). assert (q2 = q) by congruence. subst q2. rewrite numpy_length in Hl.
    unfold frame_of. f_equal. cbn [with_value q_value]. rewrite map_length. exact Hl.
  - intros k Hk. symmetry. apply B, Hk.
Qed.
Lemma assigned_same : forall a b a' b' xs, same_rest a b -> slices (pm_pars a) (pm_opt_map a) xs ->
  assigned a a' xs -> assigned b b' xs -> same_params a' b'.
Proof.
  intros a b a' b' xs (Eo & _ & _ & D & E) Hs (Ea & _ & _ & A & B) (Eb & _ & _ & A' & B').
  assert (L : length (pm_opt_map a) = length xs) by (eapply Forall2_length; exact Hs).
  split; [congruence|]. intro k. destruct (in_dec string_dec k (List.concat (pm_opt_map a))) as [Hi|Hn].
  - apply in_concat in Hi. destruct Hi as (g & Hg & Hk). destruct (in_combine_ex _ xs g L Hg) as (x & Hx).
    destruct (A g x k Hx Hk) as (q & Hq & ->). rewrite Eo in Hx. destruct (A' g x k Hx Hk) as (q' & Hq' & ->). f_equal.
    apply frame_with. specialize (D k). rewrite Hq, Hq' in D. cbn [option_map] in D. apply some_inj, D.
  - rewrite (B k Hn), B' by (rewrite <- Eo; exact Hn). apply E, Hn.
Qed.
Lemma vector_length : forall d m xs ys, slices d m xs -> slices d m ys -> length (List.concat xs) = length (List.concat ys).
Proof.
  intros d m xs ys H. revert ys. induction H as [|g x m xs (Hne & Hg) _ IH]; intros ys H'; inversion H' as [|? y ? ys' (_ & Hg') H'']; subst; [reflexivity|].
  cbn [List.concat]. rewrite !app_length, (IH _ H''). f_equal. destruct g as [|k g]; [congruence|].
  destruct (Hg k (or_introl eq_refl)) as (q & E & L). destruct (Hg' k (or_introl eq_refl)) as (q' & E' & L'). congruence.
Qed.
Lemma params_get : forall a b, same_params a b -> get_parameters a None = get_parameters b None.
Proof.
  intros a b (E & D). unfold get_parameters. cbn [get_opt_map]. rewrite E. clear E. induction (pm_opt_map b) as [|g m IH]; [reflexivity|].
  cbn [mapM]. rewrite IH. destruct g as [|k g]; [reflexivity|]. cbn [leader]. rewrite D. reflexivity.
Qed.
(** What [fct_to_min] and the units read does not depend on the values. *)
Lemma rest_get : forall a b, same_rest a b ->
  match get_parameters a None, get_parameters b None with
  | Ok qs, Ok qs' => map (fun q => with_value q []) qs = map (fun q => with_value q []) qs'
  | Err e, Err e' => e = e'
  | _, _ => False
  end.
Proof.
  intros a b (E & _ & _ & D & _). unfold get_parameters. cbn [get_opt_map]. rewrite E. clear E. induction (pm_opt_map b) as [|g m IH]; [reflexivity|].
  cbn [mapM]. destruct g as [|k g]; cbn [leader rbind]; [reflexivity|]. specialize (D k).
  destruct (dget k (pm_pars a)) as [q|], (dget k (pm_pars b)) as [q'|]; cbn [option_map] in D; try discriminate; [|reflexivity].
  cbn [rbind snd]. destruct (mapM _ m) as [l|e] eqn:E1, (mapM (fun ids => rbind (leader (pm_pars b) ids) (fun kq => Ok (snd kq))) m) as [l'|e'] eqn:E2;
    cbn [rbind]; try exact IH. apply some_inj in D. apply (f_equal fst) in D. cbn [frame_of fst] in D. cbn [map]. congruence.
Qed.
Lemma rest_pars : forall qs qs' x, map (fun q => with_value q []) qs = map (fun q => with_value q []) qs' ->
  map (fun qy => [get_other_value (fst qy) (snd qy)]) (combine qs x) = map (fun qy => [get_other_value (fst qy) (snd qy)]) (combine qs' x).
Proof.
  induction qs as [|q qs IH]; intros [|q' qs'] x H; try discriminate; [reflexivity|]. destruct x as [|y x]; [reflexivity|].
  cbn [map] in H. injection H as P O S U Y H2. cbn [combine map fst snd]. rewrite (IH _ _ H2). f_equal. f_equal.
  unfold get_other_value. rewrite P, O, S. reflexivity.
Qed.
Lemma rest_units : forall a b, same_rest a b -> get_opt_units a = get_opt_units b.
Proof.
  intros a b R. pose proof (rest_get a b R) as H. unfold get_opt_units.
  destruct (get_parameters a None) as [qs|], (get_parameters b None) as [qs'|]; cbn [rbind]; try contradiction; [|congruence].
  f_equal. revert qs' H. induction qs as [|q qs IH]; intros [|q' qs'] H; try discriminate; [reflexivity|]. cbn [map] in *. injection H as P O S U Y H2.
  rewrite (IH _ H2), U. reflexivity.
Qed.
Lemma rest_status : forall a b ps, same_rest a b -> store_status a ps = store_status b ps.
Proof. intros a b ps R. unfold store_status. rewrite (rest_units a b R). destruct R as (E & _). rewrite E. reflexivity. Qed.

(** Loading a file of values. *)
Definition same_frames (d d' : dict quantity) : Prop := forall k, option_map frame_of (dget k d) = option_map frame_of (dget k d').
Lemma set_value_frame : forall v q q', frame_of q = frame_of q' -> set_value v false q = set_value v false q'
  /\ forall r, set_value v false q = Ok r -> frame_of r = frame_of q.
Proof.
  intros v q q' E. pose proof E as E0. destruct q as [p o s l u y], q' as [p' o' s' l' u' y']. unfold frame_of, with_value in E. cbn in E. injection E as -> -> -> -> -> EL.
  unfold set_value. cbn [q_value]. rewrite EL. destruct (Nat.eqb_spec (length v) (length l')) as [Hv|Hv]; [|split; [reflexivity|discriminate]].
  unfold set_value_strict. cbn [q_scale]. destruct (Req_EM_T s' 0); [split; [reflexivity|discriminate]|].
  change (scaled_entry (mkQ p' o' s' l u' y')) with (scaled_entry (mkQ p' o' s' l' u' y')).
  destruct (existsb entry_oob _); split; try reflexivity; try discriminate. intros r [= <-]. unfold frame_of, with_value. cbn. rewrite map_length. congruence.
Qed.
Lemma set_one_frames : forall k v d d', same_frames d d' ->
  let a := set_one k v false d in let b := set_one k v false d' in
  snd a = snd b /\ same_frames (fst a) (fst b)
  /\ (forall x, dget x d = dget x d' -> dget x (fst a) = dget x (fst b))
  /\ (snd a = None -> dget k (fst a) = dget k (fst b)).
Proof.
  intros k v d d' F. cbv zeta. unfold set_one. pose proof (F k) as Fk.
  destruct (dget k d) as [q|] eqn:E, (dget k d') as [q'|] eqn:E'; cbn [option_map] in Fk; try discriminate.
  - assert (Fq : frame_of q = frame_of q') by congruence. destruct (set_value_frame v q q' Fq) as (S1 & S2). rewrite <- S1.
    destruct (set_value v false q) as [r|e] eqn:Es.
    + cbn [fst snd]. split; [reflexivity|]. split; [|split].
      * intro x. destruct (String.eqb_spec x k) as [->|N]; [rewrite !dget_dset_same; reflexivity|]. rewrite !dget_dset_other by congruence. apply F.
      * intros x Hx. destruct (String.eqb_spec x k) as [->|N]; [rewrite !dget_dset_same; reflexivity|]. rewrite !dget_dset_other by congruence. exact Hx.
      * intros _. rewrite !dget_dset_same. reflexivity.
    + destruct e; cbn [fst snd]; repeat split; auto; discriminate.
  - cbn [fst snd]. repeat split; auto; discriminate.
Qed.
Lemma set_group_frames : forall ids v d d', same_frames d d' ->
  let a := set_group ids v false d in let b := set_group ids v false d' in
  snd a = snd b /\ same_frames (fst a) (fst b)
  /\ (forall x, dget x d = dget x d' -> dget x (fst a) = dget x (fst b))
  /\ (snd a = None -> forall k, In k ids -> dget k (fst a) = dget k (fst b)).
Proof.
  induction ids as [|k ids IH]; intros v d d' F; cbv zeta; cbn [set_group]; [cbn [fst snd]; repeat split; auto; intros _ k []|].
  destruct (set_one_frames k v d d' F) as (S1 & S2 & S3 & S4). cbv zeta in *.
  destruct (set_one k v false d) as [d1 [e|]], (set_one k v false d') as [d1' [e'|]]; cbn [fst snd] in *; try discriminate.
  - repeat split; auto. discriminate.
  - destruct (IH v d1 d1' S2) as (T1 & T2 & T3 & T4). cbv zeta in *. split; [exact T1|]. split; [exact T2|]. split; [auto|].
    intros N x [<-|Hx]; [apply T3, S4; reflexivity|apply (T4 N x Hx)].
Qed.
Lemma set_groups_frames : forall m vs d d', same_frames d d' ->
  let a := set_groups m vs false d in let b := set_groups m vs false d' in
  snd a = snd b /\ same_frames (fst a) (fst b)
  /\ (forall x, dget x d = dget x d' -> dget x (fst a) = dget x (fst b))
  /\ (snd a = None -> forall k, In k (List.concat m) -> dget k (fst a) = dget k (fst b)).
Proof.
  induction m as [|ids m IH]; intros vs d d' F; cbv zeta; cbn [set_groups].
  - cbn [fst snd]. split; [reflexivity|]. split; [exact F|]. split; [auto|]. intros _ k [].
  - destruct vs as [|v vs]; [cbn [fst snd]; repeat split; auto; discriminate|].
    destruct (set_group_frames ids v d d' F) as (S1 & S2 & S3 & S4). cbv zeta in *.
    destruct (set_group ids v false d) as [d1 [e|]], (set_group ids v false d') as [d1' [e'|]]; cbn [fst snd] in *; try discriminate.
    + repeat split; auto. discriminate.
    + destruct (IH vs d1 d1' S2) as (T1 & T2 & T3 & T4). cbv zeta in *. split; [exact T1|]. split; [exact T2|]. split; [auto|].
      intros N x Hx. cbn [List.concat] in Hx. apply in_app_or in Hx. destruct Hx as [Hx|Hx]; [apply T3, S4; auto|apply (T4 N x Hx)].
Qed.
Lemma load_same : forall a b f, same_rest a b -> vf_opt_map f = pm_opt_map a ->
  snd (load_values a f false) = snd (load_values b f false)
  /\ (snd (load_values a f false) = None -> same_params (fst (load_values a f false)) (fst (load_values b f false))).
Proof.
  intros a b f (Eo & Eu & Eh & D & E) Hf. unfold load_values, set_parameters. cbn [get_opt_map]. rewrite norm_map_str, Hf.
  destruct (negb _); [split; [reflexivity|discriminate]|].
  destruct (set_groups_frames (pm_opt_map a) (vf_params f) (pm_pars a) (pm_pars b) D) as (S1 & S2 & S3 & S4). cbv zeta in *.
  destruct (set_groups (pm_opt_map a) (vf_params f) false (pm_pars a)) as [d1 [e|]], (set_groups (pm_opt_map a) (vf_params f) false (pm_pars b)) as [d1' [e'|]];
    cbn [fst snd] in *; try discriminate; [split; [exact S1|discriminate]|].
  split; [reflexivity|]. intros _.
  assert (K : forall k, dget k d1 = dget k d1').
  { intro k. destruct (in_dec string_dec k (List.concat (pm_opt_map a))) as [Hi|Hn]; [apply S4; auto|apply S3, E, Hn]. }
  split.
  - destruct (_ && _), (_ && _); exact Eo.
  - intro k. destruct (_ && _), (_ && _); cbn [refresh with_pars pm_pars]; apply K.
Qed.

(** ** One compiled run *)
Definition fits (pm : pmap) (ev : oevent) : Prop :=
  match ev with ELookup _ => True | EFun x | EGrad x => good_vector pm x end.
(** Log entries with the same content, evaluated at the same parameters. *)
Definition same_entry (a b : entry) : Prop :=
  le_params a = le_params b /\ le_goal a = le_goal b /\ le_grad a = le_grad b /\ same_params (le_at a) (le_at b).
(** The goal is a function of the parameters. *)
Definition of_params {B} (f : pmap -> B) : Prop := forall a b, same_params a b -> f a = f b.

Definition osame (pm0 : pmap) (o st : ostate) : Prop :=
  (same_rest pm0 (o_pmap o) /\ same_rest pm0 (o_pmap st)) /\ (good (o_pmap o) /\ good (o_pmap st))
  /\ (o_grads o = o_grads st /\ o_best o = o_best st /\ o_best_params o = o_best_params st /\ o_file o = o_file st)
  /\ Forall2 same_entry (o_log o) (o_log st)
  /\ (forall f, o_file st = Some f -> vf_opt_map f = pm_opt_map pm0).
Lemma log_osame : forall pm0 o st e e', osame pm0 o st -> same_entry e e' ->
  snd (log_parameters o e) = snd (log_parameters st e') /\ osame pm0 (fst (log_parameters o e)) (fst (log_parameters st e'))
  /\ length (o_log (fst (log_parameters o e))) = match snd (log_parameters o e) with None => S (length (o_log o)) | Some _ => length (o_log o) end.
Proof.
  intros pm0 o st e e' ((R1 & R2) & (G1 & G2) & (Eg & Eb & Ep & Ef) & L & F) (P1 & P2 & P3 & P4).
  assert (SE : same_entry e e') by (repeat split; try assumption; apply P4).
  unfold log_parameters. rewrite <- P2, <- P1, <- Eb, <- Ep, <- Ef.
  assert (RS : store_status (o_pmap o) (le_params e) = store_status (o_pmap st) (le_params e)).
  { apply rest_status. eapply rest_trans; [apply rest_sym, R1|exact R2]. }
  rewrite <- RS. rewrite <- Ef in F.
  assert (LL : Forall2 same_entry (o_log o ++ [e]) (o_log st ++ [e'])) by (apply Forall2_app; [exact L|constructor; [exact SE|constructor]]).
  destruct (le_goal e) as [g|]; [destruct (Rltb g (o_best o))|].
  - destruct (store_status (o_pmap o) (le_params e)) as [f|x] eqn:Es; cbn [fst snd].
    + split; [reflexivity|]. split; [|cbn [o_log]; rewrite app_length; cbn; lia].
      split; [split; assumption|]. split; [split; assumption|]. split; [repeat split; assumption|]. split; [exact LL|].
      cbn [o_file]. intros f0 [= <-]. unfold store_status in Es. destruct (get_opt_units (o_pmap o)); [|discriminate]. cbn [rbind] in Es. injection Es as <-.
      cbn [vf_opt_map]. symmetry. apply R1.
    + split; [reflexivity|]. split; [|reflexivity]. split; [split; assumption|]. split; [split; assumption|]. split; [repeat split; assumption|].
      split; [exact L|]. rewrite <- Ef. exact F.
  - cbn [fst snd]. split; [reflexivity|]. split; [|cbn [o_log]; rewrite app_length; cbn; lia].
    split; [split; assumption|]. split; [split; assumption|]. split; [repeat split; assumption|]. split; [exact LL|]. exact F.
  - cbn [fst snd]. split; [reflexivity|]. split; [|cbn [o_log]; rewrite app_length; cbn; lia].
    split; [split; assumption|]. split; [split; assumption|]. split; [repeat split; assumption|]. split; [exact LL|]. exact F.
Qed.

Section Run.
Context {St : Type}.
Variable goalf : St -> nat -> pmap -> option R.
Variable gradf : St -> nat -> pmap -> list R -> list fl.
Variable show : list R -> string.
Hypothesis goal_ext : forall s n, of_params (goalf s n).
Hypothesis grad_ext : forall s n, of_params (gradf s n).

(** The cache is empty, or holds the graph of the first evaluation. *)
Definition cached (s : St) (pm0 : pmap) (t : tstate (St := St)) : Prop :=
  t_setup t = s
  /\ (t_graphs t = [] /\ t_eval t = 0%nat /\ t_nums t = []
      \/ t_eval t = 1%nat /\ exists xs g, slices (pm_pars pm0) (pm_opt_map pm0) xs /\ t_graphs t = [(length (List.concat xs), g)]
           /\ g_eval g = 1%nat /\ g_setup g = s /\ same_rest pm0 (g_pmap g) /\ good (g_pmap g)).
Definition numbered (t : tstate (St := St)) : Prop := t_nums t = repeat 1%nat (length (o_log (t_o t))).
Definition tsame (s : St) (pm0 : pmap) (t : tstate (St := St)) (st : ostate) : Prop :=
  osame pm0 (t_o t) st /\ cached s pm0 t /\ numbered t.

Lemma osame_pmaps : forall pm0 o st a b, osame pm0 o st -> same_rest pm0 a -> same_rest pm0 b -> good a -> good b ->
  osame pm0 (with_pmap o a) (with_pmap st b).
Proof. intros pm0 o st a b (_ & _ & E & L & F) Ra Rb Ga Gb. split; [split; assumption|]. split; [split; assumption|]. split; [exact E|]. split; [exact L|exact F]. Qed.

Lemma goal_call_same : forall s pm0 t st x, tsame s pm0 t st -> good_vector pm0 x ->
  exists t' g at_ pmE, goal_call goalf gradf t x = (t', Ok (g, at_, gradf s 1 at_ x))
    /\ goal_run (goalf s 1) (o_pmap st) x = (pmE, Ok g) /\ same_params at_ pmE
    /\ tsame s pm0 t' (with_pmap st pmE) /\ t_eval t' = 1%nat /\ o_grads (t_o t') = o_grads (t_o t)
    /\ (exists xs, x = List.concat xs /\ slices (pm_pars pm0) (pm_opt_map pm0) xs).
Proof.
  intros s pm0 t st x (O & (Es & C) & N) (xs & -> & Hs). pose proof O as ((R1 & R2) & (G1 & G2) & _).
  assert (Hst : slices (pm_pars (o_pmap st)) (pm_opt_map (o_pmap st)) xs) by (eapply rest_slices; eauto).
  destruct (scaled_assigned (o_pmap st) xs G2 Hst) as (pmE & EE & AE).
  assert (GE : good pmE) by (eapply assigned_good; eauto).
  assert (RE : same_rest pm0 pmE) by (eapply rest_trans; [exact R2|exact (assigned_rest _ _ _ Hst AE)]).
  assert (GR : goal_run (goalf s 1) (o_pmap st) (List.concat xs) = (pmE, Ok (goalf s 1%nat pmE))) by (unfold goal_run; rewrite EE; reflexivity).
  unfold goal_call. destruct C as [(Cg & Ce & Cn)|(Ce & ys & g & Hy & Cg & Cn & Cs & Cr & Cgood)].
  - rewrite Cg. cbn [find_graph]. assert (Ht : slices (pm_pars (o_pmap (t_o t))) (pm_opt_map (o_pmap (t_o t))) xs) by (eapply rest_slices; eauto).
    destruct (scaled_assigned (o_pmap (t_o t)) xs G1 Ht) as (pm1 & E1 & A1). rewrite E1, Ce, Es.
    assert (SP : same_params pm1 pmE).
    { eapply assigned_same; [|exact Ht|exact A1|exact AE]. eapply rest_trans; [apply rest_sym, R1|exact R2]. }
    eexists _, (goalf s 1%nat pm1), pm1, pmE. split; [reflexivity|]. rewrite (goal_ext s 1%nat _ _ SP).
    split; [exact GR|]. split; [exact SP|]. split; [|split; [reflexivity|split; [reflexivity|exists xs; auto]]].
    split; [|split].
    + cbn [t_o]. apply osame_pmaps; [exact O|eapply rest_trans; [exact R1|exact (assigned_rest _ _ _ Ht A1)]|exact RE|exact (assigned_good _ _ _ G1 Ht A1)|exact GE].
    + split; [reflexivity|]. right. split; [reflexivity|]. exists xs, (mkG 1 s (o_pmap (t_o t))). cbn. auto 10.
    + unfold numbered in *. cbn [t_nums t_o with_pmap o_log] in *. exact N.
  - rewrite Cg. cbn [find_graph]. rewrite (vector_length _ _ _ _ Hs Hy), Nat.eqb_refl.
    assert (Ht : slices (pm_pars (g_pmap g)) (pm_opt_map (g_pmap g)) xs) by (eapply rest_slices; eauto).
    destruct (scaled_assigned (g_pmap g) xs Cgood Ht) as (pm1 & E1 & A1). rewrite E1, Cn, Cs.
    assert (SP : same_params pm1 pmE).
    { eapply assigned_same; [|exact Ht|exact A1|exact AE]. eapply rest_trans; [apply rest_sym, Cr|exact R2]. }
    exists t, (goalf s 1%nat pm1), pm1, pmE. split; [reflexivity|]. rewrite (goal_ext s 1%nat _ _ SP).
    split; [exact GR|]. split; [exact SP|]. split; [|split; [exact Ce|split; [reflexivity|exists xs; auto]]].
    split; [|split; [|exact N]].
    + destruct O as (_ & _ & EO & LO & FO). split; [split; assumption|]. split; [split; assumption|]. split; [exact EO|]. split; [exact LO|exact FO].
    + split; [exact Es|]. right. split; [exact Ce|]. exists ys, g. auto 10.
Qed.
Lemma log_call_same : forall s pm0 t st e e', tsame s pm0 t st -> t_eval t = 1%nat -> same_entry e e' ->
  snd (log_call t e) = snd (log_parameters st e') /\ tsame s pm0 (fst (log_call t e)) (fst (log_parameters st e')).
Proof.
  intros s pm0 t st e e' (O & C & N) E1 SE. destruct (log_osame pm0 (t_o t) st e e' O SE) as (A & B & L). unfold log_call.
  destruct (log_parameters (t_o t) e) as [o [x|]] eqn:El; cbn [fst snd] in *; (split; [exact A|]); (split; [exact B|]).
  - split; [exact C|]. unfold numbered in *. cbn [with_o t_nums t_o]. rewrite L. exact N.
  - split; [|unfold numbered in *; cbn [t_nums t_o]; rewrite L, N, E1, <- repeat_cons; reflexivity].
    destruct C as (Cs & C). split; [exact Cs|]. destruct C as [(_ & C & _)|C]; [congruence|]. right. exact C.
Qed.
Lemma step_same : forall s pm0 t st ev, tsame s pm0 t st -> fits pm0 ev ->
  snd (t_step goalf gradf show t ev) = snd (ostep (goalf s 1%nat) (gradf s 1%nat) show st ev)
  /\ tsame s pm0 (fst (t_step goalf gradf show t ev)) (fst (ostep (goalf s 1%nat) (gradf s 1%nat) show st ev)).
Proof.
  intros s pm0 t st ev T Hf. pose proof T as (((R1 & R2) & (G1 & G2) & (Eg & _) & _ & _) & _ & _). destruct ev as [x|x|x]; cbn [t_step ostep fits] in *.
  - unfold t_fct_to_min, fct_to_min.
    assert (RR : same_rest (o_pmap (t_o t)) (o_pmap st)) by (eapply rest_trans; [apply rest_sym, R1|exact R2]).
    pose proof (rest_get _ _ RR) as Hg.
    destruct (get_parameters (o_pmap (t_o t)) None) as [qs|e1], (get_parameters (o_pmap st) None) as [qs'|e2]; try contradiction; [|subst e2; split; [reflexivity|exact T]].
    destruct (goal_call_same s pm0 t st x T Hf) as (t' & g & at_ & pmE & E1 & E2 & SP & T' & Ev & _). rewrite E1, E2.
    rewrite (rest_pars qs qs' x Hg). apply log_call_same; [exact T'|exact Ev|]. repeat split; apply SP.
  - unfold t_fct_to_min_autograd, fct_to_min_autograd.
    destruct (goal_call_same s pm0 t st x T Hf) as (t' & g & at_ & pmE & E1 & E2 & SP & T' & Ev & Eg' & xs & -> & Hs). rewrite E1, E2. cbv zeta.
    pose proof T' as (O' & C' & N'). pose proof O' as ((R1' & R2') & (G1' & G2') & Eo & Lo & Fo). cbn [with_pmap o_pmap] in R2', G2'.
    cbn [with_grads o_pmap]. rewrite (grad_ext s 1%nat _ _ SP).
    assert (H1 : slices (pm_pars (o_pmap (t_o t'))) (pm_opt_map (o_pmap (t_o t'))) xs) by (eapply rest_slices; eauto).
    assert (H2 : slices (pm_pars pmE) (pm_opt_map pmE) xs) by (eapply rest_slices; eauto).
    destruct (scaled_assigned _ xs G1' H1) as (p1 & F1 & A1). destruct (scaled_assigned _ xs G2' H2) as (p2 & F2 & A2). rewrite F1, F2.
    assert (S12 : same_params p1 p2).
    { eapply assigned_same; [|exact H1|exact A1|exact A2]. eapply rest_trans; [apply rest_sym, R1'|exact R2']. }
    assert (Rp1 : same_rest pm0 p1) by (eapply rest_trans; [exact R1'|exact (assigned_rest _ _ _ H1 A1)]).
    assert (Rp2 : same_rest pm0 p2) by (eapply rest_trans; [exact R2'|exact (assigned_rest _ _ _ H2 A2)]).
    assert (Gp1 : good p1) by exact (assigned_good _ _ _ G1' H1 A1). assert (Gp2 : good p2) by exact (assigned_good _ _ _ G2' H2 A2).
    assert (OO : osame pm0 (with_pmap (with_grads (t_o t') (dset (show (List.concat xs)) (gradf s 1%nat pmE (List.concat xs)) (o_grads (t_o t')))) p1)
                  (with_pmap (with_grads (with_pmap st pmE) (dset (show (List.concat xs)) (gradf s 1%nat pmE (List.concat xs)) (o_grads st))) p2)).
    { destruct Eo as (Eo1 & Eo2). cbn [with_pmap o_grads] in Eo1. split; [split; assumption|]. split; [split; assumption|].
      split; [split; [cbn [with_pmap with_grads o_grads]; rewrite Eo1; reflexivity|exact Eo2]|]. split; [exact Lo|exact Fo]. }
    rewrite (params_get _ _ S12). destruct (get_parameters p2 None) as [qs|e].
    + apply log_call_same; [|exact Ev|repeat split; apply SP]. split; [exact OO|]. split; [exact C'|exact N'].
    + cbn [fst snd]. split; [reflexivity|]. split; [exact OO|]. split; [exact C'|exact N'].
  - unfold lookup_gradient. rewrite Eg. destruct (dget (show x) (o_grads st)) as [g|]; cbn [fst snd]; (split; [reflexivity|]).
    + destruct T as (O & C & N). split; [|split; [exact C|exact N]]. destruct O as (O1 & O2 & (O3 & O4) & O5).
      split; [exact O1|]. split; [exact O2|]. split; [split; [reflexivity|exact O4]|exact O5].
    + destruct T as (O & C & N). split; [exact O|]. split; [exact C|exact N].
Qed.
Lemma run_same : forall s pm0 evs t st, tsame s pm0 t st -> Forall (fits pm0) evs ->
  snd (t_run goalf gradf show t evs) = snd (orun (goalf s 1%nat) (gradf s 1%nat) show st evs)
  /\ tsame s pm0 (fst (t_run goalf gradf show t evs)) (fst (orun (goalf s 1%nat) (gradf s 1%nat) show st evs)).
Proof.
  intros s pm0 evs. induction evs as [|ev evs IH]; intros t st T F; cbn [t_run orun]; [split; [reflexivity|exact T]|].
  inversion F as [|? ? F1 F2]; subst. destruct (step_same s pm0 t st ev T F1) as (A & B).
  destruct (t_step goalf gradf show t ev) as [t' [e|]], (ostep (goalf s 1%nat) (gradf s 1%nat) show st ev) as [st' [e'|]]; cbn [fst snd] in *; try discriminate.
  - split; [exact A|exact B].
  - apply IH; assumption.
Qed.
End Run.

(** One run of a new OptimalControl: with a goal that is a function of the parameters,
    the compiled goal function gives what the plain one gives when it is told that every
    evaluation is the first.  Same exceptions, same log, same gradients, same best point
    and file, and the same parameters at the end, whatever vectors of the right length the
    algorithm asks for.  The evaluation counter does not count: every entry of the log
    carries the number 1. *)
Theorem C108_compiled_run :
  forall (St : Type) goalf gradf show (s : St) pm evs,
  (forall s n, of_params (goalf s n)) -> (forall s n, of_params (gradf s n)) ->
  good pm -> Forall (fits pm) evs ->
  let compiled := t_optimize goalf gradf show (t_init s pm) evs in
  let plain := optimize_controls (goalf s 1%nat) (gradf s 1%nat) show (opt_init pm) evs in
  let t := t_o (fst compiled) in
  snd compiled = snd plain
  /\ Forall2 same_entry (o_log t) (o_log (fst plain))
  /\ o_grads t = o_grads (fst plain) /\ o_best t = o_best (fst plain)
  /\ o_best_params t = o_best_params (fst plain) /\ o_file t = o_file (fst plain)
  /\ (snd compiled = None -> same_params (o_pmap t) (o_pmap (fst plain)))
  /\ t_nums (fst compiled) = repeat 1%nat (length (o_log t)).
Proof.
  intros St goalf gradf show s pm evs HG HD G F. cbv zeta.
  assert (T0 : tsame s pm (log_setup (t_init s pm)) (opt_init pm)).
  { split; [|split; [split; [reflexivity|left; auto]|reflexivity]].
    split; [split; apply rest_refl|]. split; [split; exact G|]. split; [repeat split|]. split; [constructor|discriminate]. }
  destruct (run_same goalf gradf show HG HD s pm evs _ _ T0 F) as (A & O & C & N).
  unfold t_optimize, optimize_controls.
  destruct (t_run goalf gradf show (log_setup (t_init s pm)) evs) as [t1 [e|]], (orun (goalf s 1%nat) (gradf s 1%nat) show (opt_init pm) evs) as [st1 [e'|]];
    cbn [fst snd] in *; try discriminate; destruct O as ((R1 & R2) & _ & (Eg & Eb & Ep & Ef) & L & FO).
  - split; [exact A|]. repeat (split; [assumption|]). split; [discriminate|exact N].
  - rewrite Ef. destruct (o_file st1) as [f|] eqn:Hf.
    + assert (RR : same_rest (o_pmap (t_o t1)) (o_pmap st1)) by (eapply rest_trans; [apply rest_sym, R1|exact R2]).
      assert (Eom : vf_opt_map f = pm_opt_map (o_pmap (t_o t1))) by (rewrite (FO f eq_refl); apply R1).
      destruct (load_same _ _ f RR Eom) as (S1 & S2).
      destruct (load_values (o_pmap (t_o t1)) f false) as [p1 [x|]], (load_values (o_pmap st1) f false) as [p2 [x'|]]; cbn [fst snd] in *; try discriminate.
      * injection S1 as <-. destruct x; cbn [fst snd with_o with_pmap t_o o_log o_grads o_best o_best_params o_file o_pmap t_nums];
          (split; [reflexivity|]); (split; [exact L|]); (split; [exact Eg|]); (split; [exact Eb|]); (split; [exact Ep|]); (split; [congruence|]); (split; [discriminate|exact N]).
      * cbn [fst snd with_o with_pmap t_o o_log o_grads o_best o_best_params o_file o_pmap t_nums].
        split; [reflexivity|]. split; [exact L|]. split; [exact Eg|]. split; [exact Eb|]. split; [exact Ep|]. split; [congruence|]. split; [intros _; apply S2; reflexivity|exact N].
    + cbn [fst snd]. split; [reflexivity|]. split; [exact L|]. split; [exact Eg|]. split; [exact Eb|]. split; [exact Ep|]. split; [congruence|]. split; [discriminate|exact N].
Qed.
Print Assumptions C108_compiled_run.

(** Finding: once a run has evaluated the goal, the object keeps the graph.  Whatever is
    changed afterwards - another fidelity function, other values of the parameters that are
    not optimised, a different opt_map with as many entries - the goal of every vector of
    that length is still computed with the first setup and the first parameters, and the
    call changes nothing. *)
Theorem C108_changes_ignored_refuted :
  forall (St : Type) goalf gradf show (s : St) pm evs t1,
  (forall s n, of_params (goalf s n)) -> (forall s n, of_params (gradf s n)) ->
  good pm -> Forall (fits pm) evs ->
  t_run goalf gradf show (log_setup (t_init s pm)) evs = (t1, None) -> o_log (t_o t1) <> [] ->
  forall s' pm' x, good_vector pm x ->
  exists at_ first, set_parameters_scaled pm x None = (first, None) /\ same_params at_ first
    /\ goal_call goalf gradf (reconfigure t1 s' pm') x
       = (reconfigure t1 s' pm', Ok (goalf s 1%nat first, at_, gradf s 1%nat first x)).
Proof.
  intros St goalf gradf show s pm evs t1 HG HD G F H Hne s' pm' x (xs & -> & Hs).
  assert (T0 : tsame s pm (log_setup (t_init s pm)) (opt_init pm)).
  { split; [|split; [split; [reflexivity|left; auto]|reflexivity]].
    split; [split; apply rest_refl|]. split; [split; exact G|]. split; [repeat split|]. split; [constructor|discriminate]. }
  destruct (run_same goalf gradf show HG HD s pm evs _ _ T0 F) as (_ & _ & (Cs & C) & N). rewrite H in *. cbn [fst] in *.
  destruct C as [(_ & _ & Cn)|(Ce & ys & g & Hy & Cg & Cn & Cs' & Cr & Cgood)].
  { exfalso. apply Hne. unfold numbered in N. rewrite Cn in N. destruct (o_log (t_o t1)); [reflexivity|discriminate]. }
  destruct (scaled_assigned pm xs G Hs) as (pmE & EE & AE).
  assert (Ht : slices (pm_pars (g_pmap g)) (pm_opt_map (g_pmap g)) xs) by (eapply rest_slices; eauto).
  destruct (scaled_assigned (g_pmap g) xs Cgood Ht) as (pm1 & E1 & A1).
  assert (SP : same_params pm1 pmE) by (eapply assigned_same; [apply rest_sym, Cr|exact Ht|exact A1|exact AE]).
  exists pm1, pmE. split; [exact EE|]. split; [exact SP|].
  unfold goal_call. cbn [reconfigure t_graphs]. rewrite Cg. cbn [find_graph]. rewrite (vector_length _ _ _ _ Hs Hy), Nat.eqb_refl, E1, Cn, Cs'.
  rewrite (HG s 1%nat _ _ SP), (HD s 1%nat _ _ SP). reflexivity.
Qed.
Print Assumptions C108_changes_ignored_refuted.

(** A parameter b that is not optimised, and a goal that reads it. *)
Definition tr_pm : pmap := mkPM [("a"%string, o_q); ("b"%string, o_q)] [] [["a"%string]] false false 0.
Definition tr_goal (_ : unit) (_ : nat) (pm : pmap) : option R :=
  match dget "b" (pm_pars pm) with Some q => nth_error (q_value q) 0 | None => None end.
Lemma tr_good : good tr_pm.
Proof.
  split.
  - intros k q H. cbn in H. destruct (String.eqb k "a"), (String.eqb k "b"); try discriminate; injection H as <-; split; cbn; lra.
  - intros k q H. cbn in H. destruct (String.eqb k "a"), (String.eqb k "b"); try discriminate; injection H as <-; unfold in_tol; cbn; repeat constructor; pose proof tol_pos; lra.
  - repeat constructor. intros [].
  - constructor; [|constructor]. split; [discriminate|]. intros k [<-|[]]. exists o_q. split; [reflexivity|]. intros k' q' [<-|[]] E. cbn in E. injection E as <-. reflexivity.
  - left. reflexivity.
Qed.
Lemma tr_vector : good_vector tr_pm [0%R].
Proof. exists [[0%R]]. split; [reflexivity|]. repeat constructor; [discriminate|]. intros k [<-|[]]. exists o_q. split; reflexivity. Qed.

(** After a run, b is set from 0 to 1: the plain goal is now 1, the compiled one still 0. *)
Example C108_example :
  exists t1 at_, t_run tr_goal (fun _ _ _ _ => []) (fun _ => EmptyString) (log_setup (t_init tt tr_pm)) [EFun [0%R]] = (t1, None)
  /\ let pm' := with_pars tr_pm [("a"%string, o_q); ("b"%string, with_value o_q [1%R])] in
     snd (goal_run (tr_goal tt 2) pm' [0%R]) = Ok (Some 1%R)
  /\ snd (goal_call tr_goal (fun _ _ _ _ => []) (reconfigure t1 tt pm') [0%R]) = Ok (Some 0%R, at_, []).
Proof.
  assert (HG : forall (s : unit) n, of_params (tr_goal s n)) by (intros s n a b [_ E]; unfold tr_goal; rewrite E; reflexivity).
  assert (HD : forall (s : unit) (n : nat), of_params (fun (_ : pmap) (_ : list R) => @nil fl)) by (intros s n a b _; reflexivity).
  assert (E : exists t1, t_run tr_goal (fun _ _ _ _ => []) (fun _ => EmptyString) (log_setup (t_init tt tr_pm)) [EFun [0%R]] = (t1, None)
                /\ o_log (t_o t1) <> []).
  { cbn [t_run t_step]. unfold t_fct_to_min, goal_call. cbn -[opt_fold get_other_value sentinel Rltb]. unfold log_call, log_parameters. cbn -[opt_fold get_other_value sentinel Rltb].
    destruct (Rltb 0 sentinel); cbn -[opt_fold get_other_value sentinel]; eexists; (split; [reflexivity|discriminate]). }
  destruct E as (t1 & E & Hne).
  assert (F : Forall (fits tr_pm) [EFun [0%R]]) by (constructor; [exact tr_vector|constructor]).
  destruct (C108_changes_ignored_refuted unit tr_goal (fun _ _ _ _ => []) (fun _ => EmptyString) tt tr_pm _ t1 HG (fun s n => HD s n) tr_good F E Hne
     tt (with_pars tr_pm [("a"%string, o_q); ("b"%string, with_value o_q [1%R])]) [0%R] tr_vector) as (at_ & first & E1 & _ & E2).
  exists t1, at_. split; [exact E|]. cbv zeta. split; [reflexivity|]. rewrite E2. cbn [snd]. f_equal. f_equal. f_equal.
  assert (X : fst (set_parameters_scaled tr_pm [0%R] None) = first) by (rewrite E1; reflexivity). rewrite <- X. reflexivity.
Qed.

(** Finding: the best goal survives into the next run, the directory does not.  A second
    run of the same object that finds nothing strictly better ends with
    FileNotFoundError. *)
Theorem C108_second_run_refuted :
  forall (St : Type) goalf gradf show (t t2 : tstate (St := St)) evs,
  t_run goalf gradf show (log_setup t) evs = (t2, None) ->
  (forall e g, In e (o_log (t_o t2)) -> le_goal e = Some g -> (o_best (t_o t) <= g)%R) ->
  snd (t_optimize goalf gradf show t evs) = Some FileNotFound.
Proof.
  intros St goalf gradf show t t2 evs H Hb.
  set (b := o_best (t_o t)) in *.
  set (I := fun o : ostate => o_file o = None /\ o_best o = b \/ exists e g, In e (o_log o) /\ le_goal e = Some g /\ (g < b)%R).
  assert (IL : forall o e o' x, I o -> log_parameters o e = (o', x) -> I o').
  { intros o e o' x Hi E. unfold log_parameters in E.
    assert (App : forall o', o_log o' = o_log o ++ [e] -> (exists e g, In e (o_log o) /\ le_goal e = Some g /\ (g < b)%R) -> I o').
    { intros o'' El (e0 & g0 & A & B & C). right. exists e0, g0. rewrite El. split; [apply in_or_app; auto|auto]. }
    destruct (le_goal e) as [g|] eqn:Eg.
    - unfold Rltb in E. destruct (Rlt_dec g (o_best o)) as [Lt|Lt].
      + destruct (store_status (o_pmap o) (le_params e)); injection E as <- <-; [|exact Hi].
        destruct Hi as [[_ Hi]|Hi]; [|apply App; auto]. right. exists e, g. cbn [o_log]. split; [apply in_or_app; right; left; reflexivity|]. split; [exact Eg|]. rewrite <- Hi. exact Lt.
      + injection E as <- <-. destruct Hi as [[Hf Hi]|Hi]; [left; split; assumption|apply App; auto].
    - injection E as <- <-. destruct Hi as [[Hf Hi]|Hi]; [left; split; assumption|apply App; auto]. }
  assert (IC : forall (t0 : tstate (St := St)) e t' x, I (t_o t0) -> log_call t0 e = (t', x) -> I (t_o t')).
  { intros t0 e t' x Hi E. unfold log_call in E. destruct (log_parameters (t_o t0) e) as [o [y|]] eqn:El; injection E as <- <-; cbn [with_o t_o]; eapply IL; eauto. }
  assert (IG : forall (t0 : tstate (St := St)) x t' r, I (t_o t0) -> goal_call goalf gradf t0 x = (t', r) -> I (t_o t')).
  { intros t0 x t' r Hi E. unfold goal_call in E. destruct (find_graph (length x) (t_graphs t0)) as [g|].
    - destruct (set_parameters_scaled (g_pmap g) x None) as [p [e|]]; injection E as <- <-; exact Hi.
    - destruct (set_parameters_scaled (o_pmap (t_o t0)) x None) as [p [e|]]; injection E as <- <-; exact Hi. }
  assert (IS : forall ev (t0 : tstate (St := St)) t' x, I (t_o t0) -> t_step goalf gradf show t0 ev = (t', x) -> I (t_o t')).
  { intros ev t0 t' x Hi E. destruct ev as [v|v|v]; cbn [t_step] in E.
    - unfold t_fct_to_min in E. destruct (get_parameters (o_pmap (t_o t0)) None) as [qs|]; [|injection E as <- <-; exact Hi].
      destruct (goal_call goalf gradf t0 v) as [t'' [[[g a] r]|e]] eqn:Eg; [|injection E as <- <-; eapply IG; eauto]. eapply IC; [|exact E]. eapply IG; eauto.
    - unfold t_fct_to_min_autograd in E. destruct (goal_call goalf gradf t0 v) as [t'' [[[g a] r]|e]] eqn:Eg; [|injection E as <- <-; eapply IG; eauto].
      pose proof (IG _ _ _ _ Hi Eg) as Hi'. cbv zeta in E. destruct (set_parameters_scaled _ v None) as [p [e|]]; [injection E as <- <-; exact Hi'|].
      destruct (get_parameters p None) as [qs|]; [|injection E as <- <-; exact Hi']. eapply IC; [|exact E]. exact Hi'.
    - unfold lookup_gradient in E. destruct (dget (show v) (o_grads (t_o t0))); injection E as <- <-; exact Hi. }
  assert (IR : forall evs (t0 : tstate (St := St)) t' x, I (t_o t0) -> t_run goalf gradf show t0 evs = (t', x) -> I (t_o t')).
  { induction evs0 as [|ev evs0 IH]; intros t0 t' x Hi E; cbn [t_run] in E; [injection E as <- <-; exact Hi|].
    destruct (t_step goalf gradf show t0 ev) as [t'' [e|]] eqn:Es; [injection E as <- <-; eapply IS; eauto|]. eapply IH; [|exact E]. eapply IS; eauto. }
  unfold t_optimize. rewrite H. assert (I0 : I (t_o (log_setup t))) by (left; split; reflexivity).
  destruct (IR _ _ _ _ I0 H) as [[Hf _]|(e & g & A & B & C)]; [rewrite Hf; reflexivity|]. specialize (Hb e g A B). lra.
Qed.
Print Assumptions C108_second_run_refuted.

(** A first call that fails while it assigns its vector traces nothing: what had been
    assigned stays, the call is not counted, nothing is logged, and the next call starts
    from there. *)
Theorem C108_failed_first_call :
  forall {St : Type} (goalf : St -> nat -> pmap -> option R) gradf show t x pm' e,
  (forall g, ~ In (length x, g) (t_graphs t)) ->
  set_parameters_scaled (o_pmap (t_o t)) x None = (pm', Some e) ->
  exists t', t_fct_to_min_autograd goalf gradf show t x = (t', Some e)
  /\ o_pmap (t_o t') = pm' /\ t_graphs t' = t_graphs t /\ t_eval t' = t_eval t /\ t_setup t' = t_setup t
  /\ t_nums t' = t_nums t /\ o_log (t_o t') = o_log (t_o t) /\ o_best (t_o t') = o_best (t_o t) /\ o_grads (t_o t') = o_grads (t_o t).
Proof.
  intros St goalf gradf show t x pm' e HG HS.
  assert (F : forall gs : list (nat * @graph St), (forall g, ~ In (length x, g) gs) -> find_graph (length x) gs = None).
  { induction gs as [|[n g] gs IH]; intro H; [reflexivity|]. cbn [find_graph]. destruct (Nat.eqb_spec (length x) n) as [<-|_].
    - exfalso. apply (H g). left. reflexivity.
    - apply IH. intros g' Hg'. apply (H g'). right. exact Hg'. }
  unfold t_fct_to_min_autograd, goal_call. rewrite (F _ HG), HS. eexists. split; [reflexivity|]. repeat split.
Qed.
Print Assumptions C108_failed_first_call.
