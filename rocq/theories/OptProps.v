(** Properties C56 to C59: best point tracking, gradient lookup, scans, CMA-ES. *)
From Coq Require Import Reals Lra Lia.
From Verif Require Import Base QuantityModel QuantityProofs PMapModel PMapProofs OptModel.
Local Open Scope list_scope.
Local Open Scope nat_scope.
Local Notation length := List.length.

(** ** C56 *)

(** [e] is the first of the log entries with the smallest goal below the sentinel. *)
Definition first_best (log : list entry) (e : entry) : Prop :=
  exists l1 l2 g, log = l1 ++ e :: l2 /\ le_goal e = Some g /\ (g < sentinel)%R
    /\ (forall e' g', In e' l1 -> le_goal e' = Some g' -> (g < g')%R)
    /\ (forall e' g', In e' l2 -> le_goal e' = Some g' -> (g <= g')%R).

(** The file and the stored best values describe it, or there is none. *)
Definition tracked (st : ostate) : Prop :=
  match o_file st with
  | Some f => exists e, first_best (o_log st) e /\ vf_params f = le_params e
                /\ le_goal e = Some (o_best st) /\ o_best_params st = Some (le_params e)
  | None => o_best st = sentinel
            /\ forall e g, In e (o_log st) -> le_goal e = Some g -> (sentinel <= g)%R
  end.

Lemma tracked_ext : forall st pm gr, tracked st -> tracked (with_grads (with_pmap st pm) gr).
Proof. intros st pm gr H. exact H. Qed.
Lemma in_app_one : forall {A} (x e : A) l, In x (l ++ [e]) -> In x l \/ x = e.
Proof. intros A x e l H. apply in_app_or in H. destruct H as [H|[<-|[]]]; auto. Qed.
Lemma first_best_app : forall log e x g, first_best log e -> le_goal e = Some g ->
  (forall g', le_goal x = Some g' -> (g <= g')%R) -> first_best (log ++ [x]) e.
Proof.
  intros log e x g (l1 & l2 & g0 & -> & Hg & Hs & H1 & H2) Hg' Hx. assert (g0 = g) by congruence. subst g0.
  exists l1, (l2 ++ [x]), g. split; [rewrite <- app_assoc; reflexivity|]. repeat (split; [assumption|]).
  intros e' g' Hi He. apply in_app_one in Hi. destruct Hi as [Hi| ->]; eauto.
Qed.
Lemma log_tracked : forall st e st' x, tracked st -> log_parameters st e = (st', x) -> tracked st'.
Proof.
  intros st e st' x T H. unfold log_parameters in H. destruct (le_goal e) as [g|] eqn:Eg.
  - unfold Rltb in H. destruct (Rlt_dec g (o_best st)) as [L|L].
    + destruct (store_status (o_pmap st) (le_params e)) as [f|] eqn:Ef; injection H as <- <-; [|exact T].
      unfold store_status in Ef. destruct (get_opt_units (o_pmap st)); [|discriminate]. injection Ef as <-.
      unfold tracked in *. cbn [o_file o_log o_best o_best_params vf_params]. exists e.
      split; [|split; [reflexivity|split; [exact Eg|reflexivity]]].
      exists (o_log st), [], g. split; [reflexivity|]. split; [exact Eg|].
      destruct (o_file st) as [f0|].
      * destruct T as (e0 & (l1 & l2 & g0 & Hl & Hg0 & Hs & H1 & H2) & _ & Hb & _). assert (g0 = o_best st) by congruence. subst g0.
        split; [lra|]. split; [|intros ? ? []]. intros e' g' Hi He. rewrite Hl in Hi. apply in_app_or in Hi.
        destruct Hi as [Hi|[<-|Hi]]; [specialize (H1 _ _ Hi He); lra| |specialize (H2 _ _ Hi He); lra]. assert (g' = o_best st) by congruence. subst. exact L.
      * destruct T as [Hb Ha]. split; [lra|]. split; [|intros ? ? []]. intros e' g' Hi He. specialize (Ha _ _ Hi He). lra.
    + injection H as <- <-. unfold tracked in *. cbn [o_file o_log o_best o_best_params]. destruct (o_file st) as [f0|].
      * destruct T as (e0 & F & Hp & Hb & Hbp). exists e0. split; [|auto]. eapply first_best_app; eauto. intros g' Hg'. replace g' with g by congruence. lra.
      * destruct T as [Hb Ha]. split; [exact Hb|]. intros e' g' Hi He. apply in_app_one in Hi. destruct Hi as [Hi| ->]; [eauto|]. replace g' with g by congruence. lra.
  - injection H as <- <-. unfold tracked in *. cbn [o_file o_log o_best o_best_params]. destruct (o_file st) as [f0|].
    + destruct T as (e0 & F & Hp & Hb & Hbp). exists e0. split; [|auto]. eapply first_best_app; eauto. intros g' Hg'. congruence.
    + destruct T as [Hb Ha]. split; [exact Hb|]. intros e' g' Hi He. apply in_app_one in Hi. destruct Hi as [Hi| ->]; [eauto|congruence].
Qed.

Section Run.
Variable goalf : pmap -> option R.
Variable gradf : pmap -> list R -> list fl.
Variable show : list R -> string.
Notation run := (orun goalf gradf show).
Notation step := (ostep goalf gradf show).

Lemma step_tracked : forall st ev st' x, tracked st -> step st ev = (st', x) -> tracked st'.
Proof.
  intros st ev st' x T H. destruct ev as [v|v|v]; cbn [ostep] in H.
  - unfold fct_to_min in H. destruct (get_parameters (o_pmap st) None) as [qs|e]; [|injection H as <- <-; exact T].
    destruct (goal_run goalf (o_pmap st) v) as [pm' [g|e]]; [|injection H as <- <-; exact T].
    eapply log_tracked; [|exact H]. exact T.
  - unfold fct_to_min_autograd in H. destruct (goal_run goalf (o_pmap st) v) as [pm1 [g|e]]; [|injection H as <- <-; exact T].
    destruct (set_parameters_scaled pm1 v None) as [pm2 [e|]]; [injection H as <- <-; exact T|].
    destruct (get_parameters pm2 None) as [qs|e]; [|injection H as <- <-; exact T].
    eapply log_tracked; [|exact H]. exact T.
  - unfold lookup_gradient in H. destruct (dget (show v) (o_grads st)); injection H as <- <-; exact T.
Qed.
Lemma run_tracked : forall evs st st' x, tracked st -> run st evs = (st', x) -> tracked st'.
Proof.
  induction evs as [|ev evs IH]; intros st st' x T H; cbn [orun] in H; [injection H as <- <-; exact T|].
  destruct (step st ev) as [st1 [e|]] eqn:E; [injection H as <- <-|]; eauto using step_tracked.
Qed.
End Run.

Theorem C56_best_point :
  forall goalf gradf show pm evs st err,
  orun goalf gradf show (opt_init pm) evs = (st, err) ->
  match o_file st with
  | Some f => exists e, first_best (o_log st) e /\ vf_params f = le_params e
                /\ le_goal e = Some (o_best st) /\ o_best_params st = Some (le_params e)
  | None => o_best st = sentinel
            /\ forall e g, In e (o_log st) -> le_goal e = Some g -> (sentinel <= g)%R
  end.
Proof.
  intros goalf gradf show pm evs st err H. eapply (run_tracked goalf gradf show evs (opt_init pm) st err); [|exact H].
  split; [reflexivity|]. intros e g [].
Qed.
Print Assumptions C56_best_point.

(** The limits, units and sizes of the parameters (what no evaluation changes). *)
Definition shape_of (q : quantity) : R * R * R * nat := (q_pref q, q_offset q, q_scale q, length (q_value q)).
Definition same_shapes (d d' : dict quantity) : Prop := forall k, option_map shape_of (dget k d) = option_map shape_of (dget k d').

(** A parameter map to optimise: valid quantities, groups disjoint and of parameters
    of the same limits and size. *)
Record good (pm : pmap) : Prop := {
  g_wf : wfd (pm_pars pm); g_tol : told (pm_pars pm);
  g_nodup : NoDup (List.concat (pm_opt_map pm));
  g_group : Forall (fun g => g <> [] /\ forall k, In k g -> exists q, dget k (pm_pars pm) = Some q
              /\ forall k' q', In k' g -> dget k' (pm_pars pm) = Some q' -> shape_of q' = shape_of q) (pm_opt_map pm);
  g_upd : pm_update pm = false \/ pm_has_model pm = true
}.
(** A vector of the right length; for the version without gradient moreover within
    the limits and for scalar parameters only. *)
Definition good_vector (pm : pmap) (x : list R) : Prop := exists xs, x = List.concat xs /\ slices (pm_pars pm) (pm_opt_map pm) xs.
Definition good_event (pm : pmap) (ev : oevent) : Prop :=
  match ev with
  | ELookup _ => True
  | EGrad x => good_vector pm x
  | EFun x => slices (pm_pars pm) (pm_opt_map pm) (map (fun y => [y]) x) /\ Forall (fun y => -1 <= y <= 1)%R x
  end.

(** Effect of a scaled assignment. *)
Definition assigned (pm pm' : pmap) (xs : list (list R)) : Prop :=
  pm_opt_map pm' = pm_opt_map pm /\ pm_update pm' = pm_update pm /\ pm_has_model pm' = pm_has_model pm
  /\ (forall g x k, In (g, x) (combine (pm_opt_map pm) xs) -> In k g ->
        exists q, dget k (pm_pars pm) = Some q /\ dget k (pm_pars pm') = Some (with_value q (map opt_fold x)))
  /\ (forall k, ~ In k (List.concat (pm_opt_map pm)) -> dget k (pm_pars pm') = dget k (pm_pars pm)).

Lemma scaled_assigned : forall pm xs, good pm -> slices (pm_pars pm) (pm_opt_map pm) xs ->
  exists pm', set_parameters_scaled pm (List.concat xs) None = (pm', None) /\ assigned pm pm' xs.
Proof.
  intros pm xs G Hs. destruct (set_scaled_ctrls_ok pm None xs (g_wf _ G) (g_nodup _ G) Hs) as (pm1 & E & Ep & H1 & H2).
  assert (A1 : assigned pm pm1 xs).
  { rewrite Ep. split; [reflexivity|]. split; [reflexivity|]. split; [reflexivity|]. cbn [with_pars pm_pars]. split; [|exact H2].
    intros g x k Hg Hk. destruct (H1 g x k Hg Hk) as (q & q' & A & B & ->). exists q. auto. }
  unfold set_parameters_scaled. destruct (pm_update pm) eqn:Eu; [|exists pm1; auto].
  destruct (g_upd _ G) as [C|C]; [congruence|]. unfold set_scaled_model. rewrite E, C. exists (refresh pm1). split; [reflexivity|]. exact A1.
Qed.

Lemma in_combine_ex : forall {A B} (l : list A) (l' : list B) a, length l = length l' -> In a l -> exists b, In (a, b) (combine l l').
Proof.
  intros A B l. induction l as [|x l IH]; intros [|y l'] a H Hi; cbn in *; try discriminate; [destruct Hi|].
  destruct Hi as [<-|Hi]; [exists y; left; reflexivity|]. destruct (IH l' a ltac:(lia) Hi) as (b & Hb). exists b. right. exact Hb.
Qed.

Lemma assigned_shapes : forall pm pm' xs, slices (pm_pars pm) (pm_opt_map pm) xs -> assigned pm pm' xs ->
  same_shapes (pm_pars pm) (pm_pars pm').
Proof.
  intros pm pm' xs Hs (_ & _ & _ & A & B) k. destruct (in_dec string_dec k (List.concat (pm_opt_map pm))) as [Hi|Hn]; [|rewrite (B k Hn); reflexivity].
  apply in_concat in Hi. destruct Hi as (g & Hg & Hk).
  assert (L : length (pm_opt_map pm) = length xs) by (eapply Forall2_length; exact Hs).
  destruct (in_combine_ex (pm_opt_map pm) xs g L Hg) as (x & Hx). destruct (A g x k Hx Hk) as (q & Hq & ->). rewrite Hq. cbn [option_map].
  destruct (slices_in_combine _ _ _ _ _ _ Hs Hx Hk) as (q2 & Hq2 & Hl). assert (q2 = q) by congruence. subst q2. rewrite numpy_length in Hl.
  unfold shape_of. cbn [with_value q_pref q_offset q_scale q_value]. rewrite map_length, Hl. reflexivity.
Qed.
Lemma shapes_get : forall d d' k q, same_shapes d d' -> dget k d = Some q -> exists q', dget k d' = Some q' /\ shape_of q' = shape_of q.
Proof. intros d d' k q H E. specialize (H k). rewrite E in H. destruct (dget k d') as [q'|]; [|discriminate]. exists q'. split; [reflexivity|]. cbn [option_map] in H. congruence. Qed.
Lemma shapes_sym : forall d d', same_shapes d d' -> same_shapes d' d.
Proof. intros d d' H k. symmetry. apply H. Qed.
Lemma shapes_trans : forall a b c, same_shapes a b -> same_shapes b c -> same_shapes a c.
Proof. intros a b c H G k. rewrite H. apply G. Qed.
Lemma shapes_slices : forall d d' m xs, same_shapes d d' -> slices d m xs -> slices d' m xs.
Proof.
  intros d d' m xs S H. eapply Forall2_impl; [|exact H]. intros g x [Hn Hg]. split; [exact Hn|]. intros k Hk.
  destruct (Hg k Hk) as (q & Hq & Hl). destruct (shapes_get _ _ _ _ S Hq) as (q' & Hq' & E). exists q'. split; [exact Hq'|].
  rewrite numpy_length in *. unfold shape_of in E. injection E as _ _ _ E. lia.
Qed.
Lemma shape_wf : forall q q', shape_of q' = shape_of q -> wfq q -> wfq q'.
Proof. intros q q' E [A B]. unfold shape_of in E. injection E as E1 E2 E3 _. split; congruence. Qed.

Lemma assigned_good : forall pm pm' xs, good pm -> slices (pm_pars pm) (pm_opt_map pm) xs -> assigned pm pm' xs -> good pm'.
Proof.
  intros pm pm' xs G Hs A. pose proof (assigned_shapes pm pm' xs Hs A) as Sh. destruct A as (Eo & Eu & Eh & A & B).
  assert (L : length (pm_opt_map pm) = length xs) by (eapply Forall2_length; exact Hs).
  split; rewrite ?Eo, ?Eu, ?Eh.
  - intros k q Hq. destruct (shapes_get _ _ _ _ (shapes_sym _ _ Sh) Hq) as (q0 & Hq0 & E). eapply shape_wf; [symmetry; exact E|]. eapply (g_wf _ G), Hq0.
  - intros k q Hq. destruct (in_dec string_dec k (List.concat (pm_opt_map pm))) as [Hi|Hn].
    + apply in_concat in Hi. destruct Hi as (g & Hg & Hk). destruct (in_combine_ex _ xs g L Hg) as (x & Hx).
      destruct (A g x k Hx Hk) as (q0 & _ & E). rewrite Hq in E. injection E as ->. unfold in_tol. cbn [with_value q_value].
      apply Forall_map, Forall_forall. intros y _. pose proof (opt_fold_range y). pose proof tol_pos. lra.
    + rewrite (B k Hn) in Hq. eapply (g_tol _ G), Hq.
  - exact (g_nodup _ G).
  - eapply Forall_impl; [|exact (g_group _ G)]. intros g [Hn Hg]. split; [exact Hn|]. intros k Hk. destruct (Hg k Hk) as (q & Hq & Hall).
    destruct (shapes_get _ _ _ _ Sh Hq) as (q' & Hq' & E'). exists q'. split; [exact Hq'|]. intros k2 q2 Hk2 Hq2.
    destruct (shapes_get _ _ _ _ (shapes_sym _ _ Sh) Hq2) as (q3 & Hq3 & E3). rewrite <- E3, E'. eauto.
  - exact (g_upd _ G).
Qed.

(** The values read back, in terms of leaders. *)
Lemma get_parameters_leaders : forall pm, Forall (fun g => g <> [] /\ forall k, In k g -> exists q, dget k (pm_pars pm) = Some q) (pm_opt_map pm) ->
  exists qs, get_parameters pm None = Ok qs /\ Forall2 (fun g q => exists k g', g = k :: g' /\ dget k (pm_pars pm) = Some q) (pm_opt_map pm) qs.
Proof.
  intros pm H. unfold get_parameters. cbn [get_opt_map]. induction (pm_opt_map pm) as [|g m IH]; [exists []; split; [reflexivity|constructor]|].
  inversion H as [|? ? [Hn Hg] H']; subst. destruct (IH H') as (qs & E & F). destruct g as [|k g]; [congruence|].
  destruct (Hg k (or_introl eq_refl)) as (q & Hq). exists (q :: qs). cbn [mapM leader]. rewrite Hq. cbn [rbind snd]. rewrite E. split; [reflexivity|].
  constructor; eauto.
Qed.
Lemma good_groups : forall pm, good pm -> Forall (fun g => g <> [] /\ forall k, In k g -> exists q, dget k (pm_pars pm) = Some q) (pm_opt_map pm).
Proof. intros pm G. eapply Forall_impl; [|exact (g_group _ G)]. intros g [Hn Hg]. split; [exact Hn|]. intros k Hk. destruct (Hg k Hk) as (q & Hq & _). eauto. Qed.
Lemma Forall2_map_eq : forall {A B C} (f : A -> C) (g : B -> C) l l', Forall2 (fun a b => f a = g b) l l' -> map f l = map g l'.
Proof. intros A B C f g l l' H. induction H; cbn; congruence. Qed.

(** Physical values of a vector of scaled ones. *)
Definition physical (q : quantity) (x : list R) : list R := map (get_other_value q) x.
Lemma numpy_with : forall q v, numpy (with_value q v) = physical q v.
Proof. intros q v. unfold numpy, get_value, physical, get_other_value. cbn [with_value q_value q_scale q_offset q_pref]. rewrite map_map. reflexivity. Qed.
Lemma physical_shape : forall q q' x, shape_of q' = shape_of q -> physical q' x = physical q x.
Proof. intros q q' x E. unfold shape_of in E. injection E as E1 E2 E3 _. unfold physical, get_other_value. rewrite E1, E2, E3. reflexivity. Qed.

Lemma assigned_values : forall pm pm' xs, good pm -> slices (pm_pars pm) (pm_opt_map pm) xs -> assigned pm pm' xs ->
  exists qs, get_parameters pm' None = Ok qs
   /\ Forall2 (fun gx v => exists k g' q, fst gx = k :: g' /\ dget k (pm_pars pm) = Some q /\ v = physical q (map opt_fold (snd gx)))
              (combine (pm_opt_map pm) xs) (map numpy qs).
Proof.
  intros pm pm' xs G Hs A. pose proof (assigned_good pm pm' xs G Hs A) as G'. destruct A as (Eo & Eu & Eh & A & B).
  destruct (get_parameters_leaders pm' (good_groups _ G')) as (qs & Eq & F). exists qs. split; [exact Eq|]. rewrite Eo in F.
  assert (K : forall g x, In (g, x) (combine (pm_opt_map pm) xs) -> forall k, In k g ->
             exists q, dget k (pm_pars pm) = Some q /\ dget k (pm_pars pm') = Some (with_value q (map opt_fold x))) by (intros; eauto).
  clear -F K Hs. unfold slices in Hs. revert qs F. induction Hs as [|g x m xs _ _ IH]; intros qs F; inversion F as [|? q ? qs' (k & g' & -> & Hq) F']; subst; cbn [combine map]; constructor.
  - destruct (K (k :: g') x (or_introl eq_refl) k (or_introl eq_refl)) as (q0 & H0 & H1). exists k, g', q0. split; [reflexivity|]. split; [exact H0|].
    assert (E : q = with_value q0 (map opt_fold x)) by congruence. subst q. cbn [snd]. apply numpy_with.
  - apply IH; [|exact F']. intros g x' Hi. apply K. right. exact Hi.
Qed.

(** Reloading values that were reached by an assignment within equal limits. *)
Lemma reload : forall pm pm' pm2 xs vals f, good pm -> slices (pm_pars pm) (pm_opt_map pm) xs -> assigned pm pm' xs ->
  (exists qs, get_parameters pm' None = Ok qs /\ map numpy qs = vals) ->
  good pm2 -> pm_opt_map pm2 = pm_opt_map pm -> same_shapes (pm_pars pm) (pm_pars pm2) ->
  vf_opt_map f = pm_opt_map pm -> vf_params f = vals ->
  exists pm3, load_values pm2 f false = (pm3, None) /\ exists qs, get_parameters pm3 None = Ok qs /\ map numpy qs = vals.
Proof.
  intros pm pm' pm2 xs vals f G Hs A (qs & Eq & Ev) G2 Eo2 Sh Ef Efp. unfold load_values. rewrite Ef, Efp.
  destruct (assigned_values pm pm' xs G Hs A) as (qs' & Eq' & F). assert (qs' = qs) by congruence. subst qs'. rewrite Ev in F.
  set (om := Some (map (map PStr) (pm_opt_map pm))).
  assert (Hom : get_opt_map pm2 om = pm_opt_map pm) by (cbn; apply norm_map_str).
  assert (L : length (pm_opt_map pm) = length xs) by (eapply Forall2_length; exact Hs).
  assert (Lc : length vals = length (pm_opt_map pm)) by (rewrite <- (Forall2_length _ _ _ F), combine_length; lia).
  assert (V : forall g v, In (g, v) (combine (pm_opt_map pm) vals) -> exists x k g' q, In (g, x) (combine (pm_opt_map pm) xs)
            /\ g = k :: g' /\ dget k (pm_pars pm) = Some q /\ v = physical q (map opt_fold x)).
  { clear -F L. revert xs vals L F. induction (pm_opt_map pm) as [|g m IH]; intros [|x xs] vals L F g0 v Hi; cbn in L; try discriminate; [destruct Hi|].
    cbn [combine] in F. inversion F as [|? v0 ? vals' (k & g' & q & Hg & Hq & Hv) F']; subst. cbn [fst snd] in *. destruct Hi as [E|Hi].
    - injection E as <- <-. exists x, k, g', q. split; [left; reflexivity|]. auto.
    - destruct (IH xs vals' ltac:(lia) F' g0 v Hi) as (x' & k' & g2 & q' & Hi' & R1). exists x', k', g2, q'. split; [right; exact Hi'|exact R1]. }
  assert (Acc : snd (set_parameters pm2 vals om false) = None).
  { apply set_parameters_accepts; [exact (g_wf _ G2)|rewrite Hom; exact (g_nodup _ G)|]. rewrite Hom. split; [lia|].
    intros g v k Hc Hk. destruct (V g v Hc) as (x & k0 & g' & q0 & Hx & -> & Hq0 & ->).
    assert (HG : In (k0 :: g') (pm_opt_map pm)) by (eapply in_combine_l; exact Hc).
    pose proof (g_group _ G) as GG. rewrite Forall_forall in GG. destruct (GG _ HG) as [_ Hall].
    destruct (Hall k0 (or_introl eq_refl)) as (q0' & Hq0' & Heq). assert (q0' = q0) by congruence. subst q0'.
    destruct (Hall k Hk) as (q & Hq & _). pose proof (Heq k q Hk Hq) as E1.
    destruct (shapes_get _ _ _ _ Sh Hq) as (q2 & Hq2 & E2). exists q2. split; [exact Hq2|].
    assert (E3 : shape_of q2 = shape_of q0) by congruence. rewrite <- (physical_shape q0 q2 _ E3).
    destruct (slices_in_combine _ _ _ _ _ _ Hs Hx Hk) as (qq & Hqq & Hl). assert (qq = q) by congruence. subst qq.
    pose proof (g_wf _ G2 _ _ Hq2) as W2. destruct (with_fold_facts q2 x W2) as (C1 & _ & C3 & _ & _ & C6).
    { rewrite <- Hl, !numpy_length. unfold shape_of in E2. injection E2 as _ _ _ E2. exact E2. }
    rewrite numpy_with in C3, C6. split; [exact C6|].
    pose proof (limits_lt q2 W2). pose proof tol_pos. eapply Forall_impl; [|exact C3]. intros y Hy. cbn beta in Hy. nra. }
  destruct (set_parameters pm2 vals om false) as [pm3 e] eqn:Es. cbn [snd] in Acc. subst e. exists pm3. split; [reflexivity|].
  assert (NE : Forall (fun g => g <> []) (pm_opt_map pm)) by (eapply Forall_impl; [|exact (g_group _ G)]; intros g [Hn _]; exact Hn).
  destruct (set_parameters_readback pm2 vals om false pm3 (g_wf _ G2)) as [(qs3 & E3 & V3) _]; [rewrite Hom; exact (g_nodup _ G)|rewrite Hom; exact NE|exact Es|].
  exists qs3. split; [|exact V3]. apply set_parameters_inv in Es. cbn zeta in Es. destruct Es as [[_ [E _]]|[_ [d [_ [_ [_ [Ho _]]]]]]]; [discriminate|].
  unfold get_parameters in *. cbn [get_opt_map om] in *. rewrite norm_map_str in E3. rewrite Ho, Eo2. exact E3.
Qed.

Section After.
Variable goalf : pmap -> option R.
Variable gradf : pmap -> list R -> list fl.
Variable show : list R -> string.

(** Every log entry holds the physical values at which its goal was evaluated, and these
    were assigned by some vector. *)
Definition honest (pm0 : pmap) (e : entry) : Prop :=
  le_goal e = goalf (le_at e)
  /\ (exists qs, get_parameters (le_at e) None = Ok qs /\ map numpy qs = le_params e)
  /\ exists pm xs, good pm /\ pm_opt_map pm = pm_opt_map pm0 /\ same_shapes (pm_pars pm0) (pm_pars pm)
       /\ slices (pm_pars pm) (pm_opt_map pm) xs /\ assigned pm (le_at e) xs.
Record inv (pm0 : pmap) (st : ostate) : Prop := {
  i_good : good (o_pmap st); i_map : pm_opt_map (o_pmap st) = pm_opt_map pm0;
  i_shape : same_shapes (pm_pars pm0) (pm_pars (o_pmap st));
  i_log : Forall (honest pm0) (o_log st);
  i_file : forall f, o_file st = Some f -> vf_opt_map f = pm_opt_map pm0
}.

Lemma log_inv : forall pm0 st e st', inv pm0 st -> honest pm0 e -> log_parameters st e = (st', None) -> inv pm0 st'.
Proof.
  intros pm0 st e st' [I1 I2 I3 I4 I5] He H. unfold log_parameters in H.
  assert (HL : Forall (honest pm0) (o_log st ++ [e])) by (apply Forall_app; split; [exact I4|repeat constructor; apply He]).
  destruct (le_goal e) as [g|]; [destruct (Rltb g (o_best st))|].
  - destruct (store_status (o_pmap st) (le_params e)) as [f|] eqn:Ef; [|discriminate]. injection H as <-.
    split; cbn [o_pmap o_log o_file]; auto. intros f' E. injection E as <-. unfold store_status in Ef.
    destruct (get_opt_units (o_pmap st)); [|discriminate]. injection Ef as <-. exact I2.
  - injection H as <-. split; auto.
  - injection H as <-. split; auto.
Qed.

Lemma opt_fold_in : forall x, Forall (fun y => -1 <= y <= 1)%R x -> map opt_fold x = x.
Proof. intros x H. induction H as [|y l Hy H IH]; cbn [map]; [reflexivity|]. rewrite (opt_fold_id _ Hy), IH. reflexivity. Qed.

(** Assigning the same vector again changes nothing that is read. *)
Lemma assigned_again : forall pm pm1 pm2 xs, slices (pm_pars pm) (pm_opt_map pm) xs -> assigned pm pm1 xs -> assigned pm1 pm2 xs ->
  get_parameters pm2 None = get_parameters pm1 None.
Proof.
  intros pm pm1 pm2 xs Hs (Eo & _ & _ & A & B) (Eo' & _ & _ & A' & B'). unfold get_parameters. cbn [get_opt_map]. rewrite Eo'.
  assert (L : length (pm_opt_map pm) = length xs) by (eapply Forall2_length; exact Hs).
  assert (D : forall k, dget k (pm_pars pm2) = dget k (pm_pars pm1)).
  { intro k. destruct (in_dec string_dec k (List.concat (pm_opt_map pm1))) as [Hi|Hn]; [|exact (B' k Hn)].
    apply in_concat in Hi. destruct Hi as (g & Hg & Hk). rewrite Eo in Hg. destruct (in_combine_ex _ xs g L Hg) as (x & Hx).
    destruct (A g x k Hx Hk) as (q & _ & Hq). rewrite <- Eo in Hx. destruct (A' g x k Hx Hk) as (q' & Hq' & ->).
    assert (E : q' = with_value q (map opt_fold x)) by congruence. subst q'. rewrite Hq. reflexivity. }
  clear -D. induction (pm_opt_map pm1) as [|g m IH]; [reflexivity|]. cbn [mapM]. rewrite IH. destruct g as [|k g]; [reflexivity|]. cbn [leader]. rewrite D. reflexivity.
Qed.

Lemma step_inv : forall pm0 st ev st', inv pm0 st -> good_event pm0 ev -> ostep goalf gradf show st ev = (st', None) -> inv pm0 st'.
Proof.
  intros pm0 st ev st' I He H. pose proof I as [I1 I2 I3 I4 I5]. destruct ev as [x|x|x]; cbn [ostep good_event] in *.
  - destruct He as [Hs Hr]. unfold fct_to_min in H. destruct (get_parameters (o_pmap st) None) as [qs|e] eqn:Eg; [|discriminate].
    assert (Hs' : slices (pm_pars (o_pmap st)) (pm_opt_map (o_pmap st)) (map (fun y => [y]) x)) by (rewrite I2; eapply shapes_slices; eauto).
    destruct (scaled_assigned (o_pmap st) _ I1 Hs') as (pm1 & E1 & A1).
    assert (Ec : List.concat (map (fun y => [y]) x) = x) by (clear; induction x; cbn; congruence). rewrite Ec in E1.
    unfold goal_run in H. rewrite E1 in H. pose proof (assigned_good _ _ _ I1 Hs' A1) as G1.
    pose proof (assigned_shapes _ _ _ Hs' A1) as S1.
    eapply log_inv; [| |exact H].
    + split; cbn [with_pmap o_pmap o_log o_file]; auto; [destruct A1 as (-> & _); exact I2|eapply shapes_trans; eauto].
    + split; [reflexivity|]. cbn [le_at le_params]. split.
      * destruct (assigned_values _ _ _ I1 Hs' A1) as (qs1 & Eq1 & F1). exists qs1. split; [exact Eq1|].
        destruct (get_parameters_leaders (o_pmap st) (good_groups _ I1)) as (qs0 & Eq0 & F0). assert (qs0 = qs) by congruence. subst qs0.
        clear -F0 F1 Hr Hs'. unfold slices in Hs'. revert x qs Hr Hs' F0 F1. generalize (map numpy qs1) as vs. clear qs1.
        induction (pm_opt_map (o_pmap st)) as [|g m IH]; intros vs x qs Hr Hs' F0 F1.
        { inversion F0; subst. cbn [combine] in F1. inversion F1. reflexivity. }
        destruct x as [|y x]; cbn [map] in Hs'; inversion Hs' as [|? ? ? ? _ Hs2]; subst. inversion F0 as [|? q ? qs' (k & g' & -> & Hq) F0']; subst.
        cbn [map combine] in F1. inversion F1 as [|? v ? vs' (k1 & g1 & q1 & Ek & Hq1 & ->) F1']; subst. cbn [fst snd] in *. injection Ek as <- <-.
        assert (q1 = q) by congruence. subst q1. inversion Hr as [|? ? Hy Hr']; subst. cbn [combine map fst snd]. f_equal.
        -- cbn [map physical]. rewrite opt_fold_id by exact Hy. reflexivity.
        -- apply IH; auto.
      * exists (o_pmap st), (map (fun y => [y]) x). auto.
  - destruct He as (xs & -> & Hs). unfold fct_to_min_autograd in H.
    assert (Hs' : slices (pm_pars (o_pmap st)) (pm_opt_map (o_pmap st)) xs) by (rewrite I2; eapply shapes_slices; eauto).
    destruct (scaled_assigned (o_pmap st) _ I1 Hs') as (pm1 & E1 & A1).
    unfold goal_run in H. rewrite E1 in H. pose proof (assigned_good _ _ _ I1 Hs' A1) as G1.
    pose proof (assigned_shapes _ _ _ Hs' A1) as S1.
    assert (Hs1 : slices (pm_pars pm1) (pm_opt_map pm1) xs) by (destruct A1 as (-> & _); eapply shapes_slices; eauto).
    destruct (scaled_assigned pm1 _ G1 Hs1) as (pm2 & E2 & A2). rewrite E2 in H.
    pose proof (assigned_good _ _ _ G1 Hs1 A2) as G2. pose proof (assigned_shapes _ _ _ Hs1 A2) as S2.
    pose proof (assigned_again _ _ _ _ Hs' A1 A2) as Eag.
    destruct (get_parameters pm2 None) as [qs|e] eqn:Eg; [|discriminate].
    eapply log_inv; [| |exact H].
    + split; cbn [with_pmap with_grads o_pmap o_log o_file]; auto.
      * destruct A2 as (-> & _). destruct A1 as (-> & _). exact I2.
      * eapply shapes_trans; [exact I3|]. eapply shapes_trans; eauto.
    + split; [reflexivity|]. cbn [le_at le_params]. split; [exists qs; split; [symmetry; exact Eag|reflexivity]|].
      exists (o_pmap st), xs. auto.
  - unfold lookup_gradient in H. destruct (dget (show x) (o_grads st)); [|discriminate]. injection H as <-. split; assumption.
Qed.
Lemma run_inv : forall pm0 evs st st', inv pm0 st -> Forall (good_event pm0) evs -> orun goalf gradf show st evs = (st', None) -> inv pm0 st'.
Proof.
  intros pm0 evs. induction evs as [|ev evs IH]; intros st st' I He H; cbn [orun] in H; [injection H as <-; exact I|].
  inversion He as [|? ? H1 H2]; subst. destruct (ostep goalf gradf show st ev) as [st1 [e|]] eqn:E; [discriminate|]. eapply IH; [|exact H2|exact H].
  eapply step_inv; eauto.
Qed.
End After.

(** Whatever the algorithm does with vectors of the right length: if some goal is
    below the sentinel, the run ends without error, and the parameters are then the
    values at which the smallest goal was found first. *)
Theorem C56_after_the_run :
  forall goalf gradf show pm evs st,
  good pm -> Forall (good_event pm) evs ->
  orun goalf gradf show (opt_init pm) evs = (st, None) ->
  (exists e g, In e (o_log st) /\ le_goal e = Some g /\ (g < sentinel)%R) ->
  exists st' e qs qb, optimize_controls goalf gradf show (opt_init pm) evs = (st', None)
   /\ first_best (o_log st) e /\ le_goal e = goalf (le_at e)
   /\ get_parameters (o_pmap st') None = Ok qs /\ get_parameters (le_at e) None = Ok qb
   /\ map numpy qs = map numpy qb.
Proof.
  intros goalf gradf show pm evs st G He H (e1 & g1 & Hi1 & Hg1 & Hs1).
  assert (I0 : inv goalf pm (opt_init pm)) by (split; [exact G|reflexivity|intro; reflexivity|constructor|discriminate]).
  pose proof (run_inv goalf gradf show pm evs _ _ I0 He H) as [I1 I2 I3 I4 I5].
  pose proof (C56_best_point goalf gradf show pm evs st None H) as T.
  unfold optimize_controls. rewrite H. destruct (o_file st) as [f|]; [|destruct T as [_ T]; specialize (T _ _ Hi1 Hg1); lra].
  destruct T as (e & F & Hp & Hb & _).
  assert (Hin : In e (o_log st)) by (destruct F as (l1 & l2 & g & -> & _); apply in_or_app; right; left; reflexivity).
  rewrite Forall_forall in I4. destruct (I4 e Hin) as (Hgo & (qb & Eqb & Evb) & pm1 & xs & Gp & Eo & Sp & Hsl & As).
  destruct (reload pm1 (le_at e) (o_pmap st) xs (le_params e) f Gp Hsl As) as (pm3 & E3 & qs & Eqs & Evs); eauto.
  { congruence. }
  { eapply shapes_trans; [apply shapes_sym; exact Sp|exact I3]. }
  { rewrite (I5 f eq_refl). congruence. }
  rewrite E3. exists (with_pmap st pm3), e, qs, qb. split; [reflexivity|]. split; [exact F|]. split; [exact Hgo|]. split; [exact Eqs|].
  split; [exact Eqb|]. congruence.
Qed.
Print Assumptions C56_after_the_run.

(** Without any goal below the sentinel there is no file to load. *)
Theorem C56_nothing_below_sentinel :
  forall goalf gradf show pm evs st,
  orun goalf gradf show (opt_init pm) evs = (st, None) ->
  (forall e g, In e (o_log st) -> le_goal e = Some g -> (sentinel <= g)%R) ->
  snd (optimize_controls goalf gradf show (opt_init pm) evs) = Some FileNotFound.
Proof.
  intros goalf gradf show pm evs st H Ha. pose proof (C56_best_point goalf gradf show pm evs st None H) as T.
  unfold optimize_controls. rewrite H. destruct (o_file st) as [f|]; [|reflexivity].
  destruct T as (e & (l1 & l2 & g & Hl & Hg & Hs & _) & _). specialize (Ha e g). rewrite Hl in Ha.
  specialize (Ha ltac:(apply in_or_app; right; left; reflexivity) Hg). lra.
Qed.
Print Assumptions C56_nothing_below_sentinel.

(** A concrete run: one parameter, goal its distance from 0. *)
Definition o_q : quantity := mkQ 1 (-2) 4 [0%R] "V" "a".
Definition o_pm : pmap := mkPM [("a"%string, o_q)] [] [["a"%string]] false false 0.
Definition o_goal (pm : pmap) : option R :=
  match dget "a" (pm_pars pm) with Some q => option_map Rabs (nth_error (numpy q) 0) | None => None end.
Lemma o_good : good o_pm.
Proof.
  split.
  - intros k q H. cbn in H. destruct (String.eqb k "a"); [|discriminate]. injection H as <-. split; cbn; lra.
  - intros k q H. cbn in H. destruct (String.eqb k "a"); [|discriminate]. injection H as <-. unfold in_tol. cbn. repeat constructor; pose proof tol_pos; lra.
  - repeat constructor. intros [].
  - constructor; [|constructor]. split; [discriminate|]. intros k [<-|[]]. exists o_q. split; [reflexivity|]. intros k' q' [<-|[]] E. cbn in E. injection E as <-. reflexivity.
  - left. reflexivity.
Qed.
Example C56_example : good o_pm /\ Forall (good_event o_pm) [EFun [1%R]; EGrad [(1/2)%R]].
Proof.
  split; [exact o_good|]. constructor; [|constructor; [|constructor]]; cbn [good_event].
  - split; [|repeat constructor; lra]. repeat constructor; [discriminate|]. intros k [<-|[]]. exists o_q. split; reflexivity.
  - exists [[(1/2)%R]]. split; [reflexivity|]. repeat constructor; [discriminate|]. intros k [<-|[]]. exists o_q. split; reflexivity.
Qed.

(** Finding: without gradients the logged point is not the evaluated one when the
    algorithm leaves [-1, 1]: the map folds the value back, the log does not, and
    loading the best point is refused. *)
Theorem C56_unfolded_log_refuted :
  exists goalf gradf show st, good_vector o_pm [2%R] /\
    snd (optimize_controls goalf gradf show (opt_init o_pm) [EFun [2%R]]) = Some OptResultOOB
    /\ orun goalf gradf show (opt_init o_pm) [EFun [2%R]] = (st, None)
    /\ (exists e qs, o_log st = [e] /\ get_parameters (le_at e) None = Ok qs /\ map numpy qs = [[0%R]] /\ le_params e = [[4%R]]).
Proof.
  exists o_goal, (fun _ _ => []), (fun _ => EmptyString).
  assert (F : opt_fold 2 = 0%R).
  { unfold opt_fold. replace ((2 + 1) * PI / 2)%R with (3 * (PI / 2))%R by field. rewrite cos_3PI2, acos_0. field. apply PI_neq0. }
  assert (N : ((4 * (0 + 1) / 2 + -2) / 1 = 0)%R) by field. assert (N2 : ((4 * (2 + 1) / 2 + -2) / 1 = 4)%R) by field.
  assert (E : orun o_goal (fun _ _ => []) (fun _ => EmptyString) (opt_init o_pm) [EFun [2%R]]
     = (mkO (with_pars o_pm [("a"%string, with_value o_q [0%R])]) [] 0 (Some [[4%R]]) (Some (mkVF [["a"%string]] ["V"%string] [[4%R]]))
         [mkE [[4%R]] (Some 0%R) None (with_pars o_pm [("a"%string, with_value o_q [0%R])])], None)).
  { assert (S : set_parameters_scaled o_pm [2%R] None = (with_pars o_pm [("a"%string, with_value o_q [0%R])], None)).
    { rewrite <- F. reflexivity. }
    assert (P : get_parameters o_pm None = Ok [o_q]) by reflexivity.
    cbn [orun ostep]. unfold fct_to_min. cbn [opt_init o_pmap]. rewrite P. unfold goal_run. rewrite S.
    cbn [combine map fst snd]. change (get_other_value o_q 2) with ((4 * (2 + 1) / 2 + -2) / 1)%R. rewrite N2.
    assert (Go : o_goal (with_pars o_pm [("a"%string, with_value o_q [0%R])]) = Some 0%R).
    { cbn. change (numpy (with_value o_q [0%R])) with [((4 * (0 + 1) / 2 + -2) / 1)%R]. cbn. rewrite N, Rabs_R0. reflexivity. }
    rewrite Go. unfold log_parameters. cbn [le_goal].
    unfold Rltb. cbn [with_pmap o_best opt_init]. destruct (Rlt_dec 0 sentinel) as [L|L]; [|exfalso; apply L; unfold sentinel; lra].
    unfold store_status, get_opt_units, get_parameters. cbn. reflexivity. }
  eexists. split; [|split; [|split]].
  - exists [[2%R]]. split; [reflexivity|]. repeat constructor; [discriminate|]. intros k [<-|[]]. exists o_q. split; reflexivity.
  - unfold optimize_controls. rewrite E. cbn [o_file o_pmap]. unfold load_values, set_parameters. cbn.
    unfold set_value. cbn. unfold set_value_strict. cbn. destruct (Req_EM_T 4 0); [lra|]. unfold scaled_entry. cbn.
    assert (O : entry_oob (2 * (4 * 1 - -2) / 4 - 1) = true) by (apply entry_oob_spec; unfold tol; rewrite Rabs_right; lra).
    rewrite O. cbn. reflexivity.
  - exact E.
  - eexists. eexists. cbn [o_log]. split; [reflexivity|]. split; [reflexivity|]. split; [|reflexivity]. cbn. unfold numpy, get_value. cbn. rewrite N. reflexivity.
Qed.
Print Assumptions C56_unfolded_log_refuted.

(** ** C57 *)
Definition mentions (show : list R -> string) (x : list R) (ev : oevent) : Prop :=
  match ev with EFun _ => False | EGrad y | ELookup y => show y = show x end.

Lemma log_grads : forall st e st' x, log_parameters st e = (st', x) -> o_grads st' = o_grads st.
Proof.
  intros st e st' x H. unfold log_parameters in H. destruct (le_goal e) as [g|]; [destruct (Rltb g (o_best st)); [destruct (store_status _ _)|]|]; injection H as <- <-; reflexivity.
Qed.
Lemma step_grads : forall goalf gradf show x st ev st' err, ~ mentions show x ev -> ostep goalf gradf show st ev = (st', err) ->
  dget (show x) (o_grads st') = dget (show x) (o_grads st).
Proof.
  intros goalf gradf show x st ev st' err Hn H. destruct ev as [v|v|v]; cbn [ostep mentions] in *.
  - unfold fct_to_min in H. destruct (get_parameters (o_pmap st) None) as [qs|e]; [|injection H as <- <-; reflexivity].
    destruct (goal_run goalf (o_pmap st) v) as [pm' [g|e]]; [|injection H as <- <-; reflexivity]. rewrite (log_grads _ _ _ _ H). reflexivity.
  - unfold fct_to_min_autograd in H. destruct (goal_run goalf (o_pmap st) v) as [pm1 [g|e]]; [|injection H as <- <-; reflexivity].
    assert (K : dget (show x) (dset (show v) (gradf pm1 v) (o_grads st)) = dget (show x) (o_grads st)) by (apply dget_dset_other; congruence).
    destruct (set_parameters_scaled pm1 v None) as [pm2 [e|]]; [injection H as <- <-; exact K|].
    destruct (get_parameters pm2 None) as [qs|e]; [|injection H as <- <-; exact K]. rewrite (log_grads _ _ _ _ H). exact K.
  - unfold lookup_gradient in H. destruct (dget (show v) (o_grads st)); injection H as <- <-; [|reflexivity].
    cbn [with_grads o_grads]. apply dget_ddel_other. congruence.
Qed.
Lemma run_grads : forall goalf gradf show x evs st st' err, Forall (fun ev => ~ mentions show x ev) evs -> orun goalf gradf show st evs = (st', err) ->
  dget (show x) (o_grads st') = dget (show x) (o_grads st).
Proof.
  intros goalf gradf show x evs. induction evs as [|ev evs IH]; intros st st' err Hn H; cbn [orun] in H; [injection H as <- <-; reflexivity|].
  inversion Hn as [|? ? N1 N2]; subst. destruct (ostep goalf gradf show st ev) as [st1 [e|]] eqn:E.
  - injection H as <- <-. eapply step_grads; eauto.
  - rewrite (IH _ _ _ N2 H). eapply step_grads; eauto.
Qed.
(** the stored gradients never hold a key twice *)
Lemma keys_ddel_notin : forall {V} k k' (d : dict V), ~ In k (keys d) -> ~ In k (keys (ddel k' d)).
Proof. intros V k k' d H C. apply H. apply dget_in_keys in C as [v Hv]. apply dget_in_keys. destruct (String.eqb_spec k k') as [->|N]; [|rewrite dget_ddel_other in Hv by exact N; eauto]. clear H. induction d as [|[a b] d IH]; cbn in Hv; [discriminate|]. cbn. destruct (String.eqb_spec k' a); [eauto|]. cbn in Hv. destruct (String.eqb_spec k' a); [contradiction|auto]. Qed.
Lemma nodup_ddel : forall {V} k (d : dict V), NoDup (keys d) -> NoDup (keys (ddel k d)).
Proof.
  intros V k d. induction d as [|[a b] d IH]; intro H; [exact H|]. inversion H as [|? ? H1 H2]; subst. cbn [ddel].
  destruct (String.eqb k a); [exact H2|]. cbn [keys map fst]. constructor; [|apply IH, H2]. apply keys_ddel_notin. exact H1.
Qed.
Lemma nodup_dset : forall {V} k v (d : dict V), NoDup (keys d) -> NoDup (keys (dset k v d)).
Proof.
  intros V k v d. induction d as [|[a b] d IH]; intro H; [repeat constructor; intros []|]. inversion H as [|? ? H1 H2]; subst. cbn [dset].
  destruct (String.eqb_spec k a) as [->|N]; [exact H|]. cbn [keys map fst]. constructor; [|apply IH, H2]. intro C. apply H1.
  fold (keys (dset k v d)) in C. apply dget_in_keys in C as [w Hw]. rewrite dget_dset_other in Hw by congruence. apply dget_in_keys. eauto.
Qed.
Lemma step_nodup : forall goalf gradf show st ev st' err, NoDup (keys (o_grads st)) -> ostep goalf gradf show st ev = (st', err) -> NoDup (keys (o_grads st')).
Proof.
  intros goalf gradf show st ev st' err Hn H. destruct ev as [v|v|v]; cbn [ostep] in *.
  - unfold fct_to_min in H. destruct (get_parameters (o_pmap st) None) as [qs|e]; [|injection H as <- <-; exact Hn].
    destruct (goal_run goalf (o_pmap st) v) as [pm' [g|e]]; [|injection H as <- <-; exact Hn]. rewrite (log_grads _ _ _ _ H). exact Hn.
  - unfold fct_to_min_autograd in H. destruct (goal_run goalf (o_pmap st) v) as [pm1 [g|e]]; [|injection H as <- <-; exact Hn].
    pose proof (nodup_dset (show v) (gradf pm1 v) (o_grads st) Hn) as K.
    destruct (set_parameters_scaled pm1 v None) as [pm2 [e|]]; [injection H as <- <-; exact K|].
    destruct (get_parameters pm2 None) as [qs|e]; [|injection H as <- <-; exact K]. rewrite (log_grads _ _ _ _ H). exact K.
  - unfold lookup_gradient in H. destruct (dget (show v) (o_grads st)); injection H as <- <-; [|exact Hn]. apply nodup_ddel, Hn.
Qed.
Lemma run_nodup : forall goalf gradf show evs st st' err, NoDup (keys (o_grads st)) -> orun goalf gradf show st evs = (st', err) -> NoDup (keys (o_grads st')).
Proof.
  intros goalf gradf show evs. induction evs as [|ev evs IH]; intros st st' err Hn H; cbn [orun] in H; [injection H as <- <-; exact Hn|].
  destruct (ostep goalf gradf show st ev) as [st1 [e|]] eqn:E; [injection H as <- <-|]; eauto using step_nodup.
Qed.
Lemma orun_app : forall goalf gradf show a b st, orun goalf gradf show st (a ++ b)
  = match orun goalf gradf show st a with (st1, None) => orun goalf gradf show st1 b | (st1, Some e) => (st1, Some e) end.
Proof.
  intros goalf gradf show a b. induction a as [|ev a IH]; intro st; [reflexivity|]. cbn [app orun].
  destruct (ostep goalf gradf show st ev) as [st1 [e|]]; [reflexivity|apply IH].
Qed.

(** What a gradient is replaced by when it is looked up. *)
Definition repaired (g g' : list fl) : Prop :=
  Forall2 (fun a b => match a with Fin r => b = Fin r | _ => b = Fin (1 / 10 ^ 10)%R end) g g'.

Theorem C57_lookup :
  forall goalf gradf show pm before x after st err,
  orun goalf gradf show (opt_init pm) (before ++ EGrad x :: after) = (st, err) -> err = None ->
  Forall (fun ev => ~ mentions show x ev) after ->
  exists pm1 e g, In e (o_log st) /\ le_at e = pm1 /\ le_grad e = Some (gradf pm1 x)
    /\ snd (lookup_gradient show st x) = Ok g /\ repaired (gradf pm1 x) g
    /\ snd (lookup_gradient show (fst (lookup_gradient show st x)) x) = Err KeyError.
Proof.
  intros goalf gradf show pm before x after st err H -> Hn. pose proof H as H0. rewrite orun_app in H.
  destruct (orun goalf gradf show (opt_init pm) before) as [st0 [e0|]] eqn:E0; [discriminate|]. cbn [orun] in H.
  destruct (ostep goalf gradf show st0 (EGrad x)) as [st1 [e1|]] eqn:E1; [discriminate|].
  assert (K : exists pm1 e, In e (o_log st1) /\ le_at e = pm1 /\ le_grad e = Some (gradf pm1 x) /\ dget (show x) (o_grads st1) = Some (gradf pm1 x)).
  { cbn [ostep] in E1. unfold fct_to_min_autograd in E1. destruct (goal_run goalf (o_pmap st0) x) as [pm1 [g|e]]; [|discriminate].
    destruct (set_parameters_scaled pm1 x None) as [pm2 [e|]]; [discriminate|]. destruct (get_parameters pm2 None) as [qs|e]; [|discriminate].
    exists pm1. eexists. pose proof (log_grads _ _ _ _ E1) as Lg. split; [|split; [|split]].
    - unfold log_parameters in E1. cbn [le_goal] in E1. destruct g as [g|]; [destruct (Rltb g _); [destruct (store_status _ _); [|discriminate]|]|]; injection E1 as <-; cbn [o_log]; apply in_or_app; right; left; reflexivity.
    - reflexivity.
    - reflexivity.
    - rewrite Lg. cbn [with_pmap with_grads o_grads]. apply dget_dset_same. }
  destruct K as (pm1 & e & Hin & Ha & Hg & Hd).
  assert (Mono : In e (o_log st)).
  { clear -H Hin. revert st1 H Hin. induction after as [|ev after IH]; intros st1 H Hin; cbn [orun] in H; [injection H as <-; exact Hin|].
    destruct (ostep goalf gradf show st1 ev) as [st2 [e2|]] eqn:E; [discriminate|]. apply (IH st2 H).
    assert (LM : forall s en s' er, log_parameters s en = (s', er) -> In e (o_log s) -> In e (o_log s')).
    { intros s en s' er Hl Hi. unfold log_parameters in Hl. destruct (le_goal en) as [g|]; [destruct (Rltb g _); [destruct (store_status _ _)|]|]; injection Hl as <- <-; cbn [o_log]; try exact Hi; apply in_or_app; left; exact Hi. }
    destruct ev as [v|v|v]; cbn [ostep] in E.
    - unfold fct_to_min in E. destruct (get_parameters (o_pmap st1) None); [|discriminate]. destruct (goal_run goalf (o_pmap st1) v) as [? [?|?]]; [|discriminate]. eapply LM; [exact E|exact Hin].
    - unfold fct_to_min_autograd in E. destruct (goal_run goalf (o_pmap st1) v) as [p1 [?|?]]; [|discriminate]. destruct (set_parameters_scaled p1 v None) as [p2 [?|]]; [discriminate|]. destruct (get_parameters p2 None); [|discriminate]. eapply LM; [exact E|exact Hin].
    - unfold lookup_gradient in E. destruct (dget (show v) (o_grads st1)); [|discriminate]. injection E as <-. exact Hin. }
  pose proof (run_grads goalf gradf show x after st1 st None Hn H) as Eg. rewrite Hd in Eg.
  exists pm1, e, (clean (gradf pm1 x)). split; [exact Mono|]. split; [exact Ha|]. split; [exact Hg|].
  unfold lookup_gradient at 1 3. rewrite Eg. cbn [fst snd]. split; [reflexivity|]. split.
  - unfold repaired, clean. generalize (gradf pm1 x) as l0. intro l0. induction l0 as [|a l IH]; cbn [map]; [constructor|]. constructor; [destruct a; reflexivity|exact IH].
  - unfold lookup_gradient. cbn [with_grads o_grads]. rewrite dget_ddel_same_nodup; [reflexivity|].
    eapply run_nodup; [|exact H0]. constructor.
Qed.
Print Assumptions C57_lookup.

(** Finding: two vectors with the same printed form share one slot; looking up the
    first returns the gradient of the second. *)
Theorem C57_collision_refuted :
  forall goalf gradf show pm x y st err,
  show x = show y -> orun goalf gradf show (opt_init pm) [EGrad x; EGrad y] = (st, err) -> err = None ->
  exists pm2, snd (lookup_gradient show st x) = Ok (clean (gradf pm2 y)).
Proof.
  intros goalf gradf show pm x y st err E H He.
  destruct (C57_lookup goalf gradf show pm [EGrad x] y [] st err H He ltac:(constructor)) as (pm2 & e & g & _ & _ & _ & Hl & Hr & _).
  exists pm2. unfold lookup_gradient in *. rewrite E. destruct (dget (show y) (o_grads st)) as [gr|]; [|discriminate]. cbn [snd] in *. injection Hl as Hl. f_equal.
  rewrite Hl. clear -Hr. induction Hr as [|a b l l' Ha Hr IH]; [reflexivity|]. cbn [clean map]. unfold clean in IH. rewrite <- IH. destruct a; congruence.
Qed.
Print Assumptions C57_collision_refuted.
Example C57_example : exists st, orun o_goal (fun _ _ => [FNan; Fin 2]) (fun _ => "[0.5]"%string) (opt_init o_pm) [EGrad [0%R]] = (st, None)
  /\ snd (lookup_gradient (fun _ => "[0.5]"%string) st [0%R]) = Ok [Fin (1 / 10 ^ 10)%R; Fin 2].
Proof.
  cbn [orun ostep]. unfold fct_to_min_autograd, goal_run. destruct (scaled_assigned o_pm [[0%R]] o_good) as (pm1 & E1 & A1).
  { repeat constructor; [discriminate|]. intros k [<-|[]]. exists o_q. split; reflexivity. }
  assert (Hs : slices (pm_pars o_pm) (pm_opt_map o_pm) [[0%R]]) by (repeat constructor; [discriminate|]; intros k [<-|[]]; exists o_q; split; reflexivity).
  change (List.concat [[0%R]]) with [0%R] in E1. cbn [opt_init o_pmap]. rewrite E1.
  pose proof (assigned_good _ _ _ o_good Hs A1) as G1. pose proof (assigned_shapes _ _ _ Hs A1) as S1.
  assert (Hs1 : slices (pm_pars pm1) (pm_opt_map pm1) [[0%R]]) by (destruct A1 as (-> & _); eapply shapes_slices; eauto).
  destruct (scaled_assigned pm1 _ G1 Hs1) as (pm2 & E2 & A2). change (List.concat [[0%R]]) with [0%R] in E2. rewrite E2.
  pose proof (assigned_good _ _ _ G1 Hs1 A2) as G2. destruct (get_parameters_leaders pm2 (good_groups _ G2)) as (qs & -> & _).
  unfold log_parameters. cbn [le_goal with_pmap with_grads o_pmap].
  assert (U : exists f, store_status pm2 (map numpy qs) = Ok f).
  { unfold store_status, get_opt_units. destruct (get_parameters_leaders pm2 (good_groups _ G2)) as (q2 & -> & _). cbn. eauto. }
  destruct U as (f & Ef). cbn [le_params]. rewrite Ef. destruct (o_goal pm1) as [g|]; [destruct (Rltb g _)|]; eexists; (split; [reflexivity|reflexivity]).
Qed.

(** ** C58 *)

(** The equidistant points from a to b. *)
Theorem C58_linspace :
  forall a b n, length (linspace a b n) = n
  /\ (forall i, i < n -> nth i (linspace a b n) 0%R = (a + INR i * ((b - a) / INR (n - 1)))%R)
  /\ (0 < n -> nth 0 (linspace a b n) 0%R = a)
  /\ (1 < n -> nth (n - 1) (linspace a b n) 0%R = b).
Proof.
  intros a b n. assert (V : forall i, i < n -> nth i (linspace a b n) 0%R = (a + INR i * ((b - a) / INR (n - 1)))%R).
  { intros i Hi. destruct n as [|[|m]]; [lia| |].
    - assert (i = 0) by lia. subst i. cbn [linspace nth INR]. lra.
    - cbn [linspace]. replace (S (S m) - 1) with (S m) by lia. set (h := ((b - a) / INR (S m))%R).
      rewrite nth_indep with (d' := (fun i => (a + INR i * h)%R) 0) by (rewrite map_length, seq_length; exact Hi).
      rewrite map_nth with (f := fun i => (a + INR i * h)%R). rewrite seq_nth by exact Hi. reflexivity. }
  split; [|split; [exact V|split]].
  - destruct n as [|[|m]]; [reflexivity|reflexivity|]. cbn [linspace]. rewrite map_length, seq_length. reflexivity.
  - intro H. rewrite V by lia. cbn [INR]. lra.
  - intro H. rewrite V by lia. field. apply not_0_INR. lia.
Qed.
Print Assumptions C58_linspace.

(** Replacing a placeholder of a wrapper list: its first occurrence, nothing else. *)
Definition replaced (s : string) (r : R) (w w' : list witem) : Prop :=
  exists a b, w = a ++ WName s :: b /\ ~ In (WName s) a /\ w' = a ++ WVal r :: b.
Lemma subst_first_spec : forall s r w, (forall w', subst_first s r w = Ok w' -> replaced s r w w') /\ (In (WName s) w -> exists w', subst_first s r w = Ok w').
Proof.
  intros s r w. induction w as [|[t|v] w [IH1 IH2]]; cbn [subst_first]; [split; [discriminate|intros []]| |].
  - destruct (String.eqb_spec t s) as [->|N].
    + split; [|eauto]. intros w' E. injection E as <-. exists [], w. split; [reflexivity|]. split; [intros []|reflexivity].
    + split.
      * intros w' E. destruct (subst_first s r w) as [u|]; [|discriminate]. injection E as <-. destruct (IH1 u eq_refl) as (a & b & -> & Hn & ->).
        exists (WName t :: a), b. split; [reflexivity|]. split; [|reflexivity]. intros [C|C]; [congruence|contradiction].
      * intros [C|C]; [congruence|]. destruct (IH2 C) as (u & ->). cbn. eauto.
  - split.
    + intros w' E. destruct (subst_first s r w) as [u|]; [|discriminate]. injection E as <-. destruct (IH1 u eq_refl) as (a & b & -> & Hn & ->).
      exists (WVal v :: a), b. split; [reflexivity|]. split; [|reflexivity]. intros [C|C]; [congruence|contradiction].
    + intros [C|C]; [congruence|]. destruct (IH2 C) as (u & ->). cbn. eauto.
Qed.
Lemma replaced_other : forall s t r w w', s <> t -> replaced s r w w' -> In (WName t) w -> In (WName t) w'.
Proof.
  intros s t r w w' N (a & b & -> & _ & ->) H. apply in_app_or in H. apply in_or_app. destruct H as [H|[H|H]]; [left; exact H|congruence|right; right; exact H].
Qed.
(** What the goal function is called with at a grid point (x, y), at a sweep point x. *)
Definition calls_grid (o : scan_options) (x y : R) (a : arg) : Prop :=
  match so_wrapper o with
  | None => a = AVec [x; y]
  | Some w => exists w1 w2, replaced "x" x w w1 /\ replaced "y" y w1 w2 /\ a = AWrap w2
  end.
Definition calls_point (o : scan_options) (x : R) (a : arg) : Prop :=
  match so_wrapper o with None => a = AVec [x] | Some w => exists w1, replaced "x" x w w1 /\ a = AWrap w1 end.
Definition has_placeholders (names : list string) (o : scan_options) : Prop :=
  match so_wrapper o with None => True | Some w => forall s, In s names -> In (WName s) w end.

Lemma call_all_ok : forall {P} (P_ : P -> arg -> Prop) (mk : P -> result arg) ps,
  (forall p, exists a, mk p = Ok a /\ P_ p a) -> exists l, call_all (map mk ps) = (l, None) /\ Forall2 P_ ps l.
Proof.
  intros P P_ mk ps H. induction ps as [|p ps (l & E & F)]; [exists []; split; [reflexivity|constructor]|].
  destruct (H p) as (a & Ea & Ha). exists (a :: l). cbn [map call_all]. rewrite Ea, E. split; [reflexivity|constructor; assumption].
Qed.
Lemma grid_arg_ok : forall o x y, has_placeholders ["x"; "y"]%string o -> exists a, grid_arg o x y = Ok a /\ calls_grid o x y a.
Proof.
  intros o x y H. unfold grid_arg, calls_grid, has_placeholders in *. destruct (so_wrapper o) as [w|]; [|eauto].
  destruct (proj2 (subst_first_spec "x" x w)) as (w1 & E1); [apply H; left; reflexivity|]. rewrite E1. cbn [rbind]. pose proof (proj1 (subst_first_spec "x" x w) w1 E1) as R1.
  destruct (proj2 (subst_first_spec "y" y w1)) as (w2 & E2); [eapply replaced_other; [|exact R1|]; [discriminate|apply H; right; left; reflexivity]|]. rewrite E2. cbn [rbind].
  eexists. split; [reflexivity|]. exists w1, w2. split; [exact R1|]. split; [apply (proj1 (subst_first_spec "y" y w1) w2 E2)|reflexivity].
Qed.
Lemma sweep_arg_ok : forall o x, has_placeholders ["x"]%string o -> exists a, sweep_arg o x = Ok a /\ calls_point o x a.
Proof.
  intros o x H. unfold sweep_arg, calls_point, has_placeholders in *. destruct (so_wrapper o) as [w|]; [|eauto].
  destruct (proj2 (subst_first_spec "x" x w)) as (w1 & E1); [apply H; left; reflexivity|]. rewrite E1. cbn [rbind]. eexists. split; [reflexivity|].
  exists w1. split; [apply (proj1 (subst_first_spec "x" x w) w1 E1)|reflexivity].
Qed.

(** grid2D: n*n calls, the (i*n+j)-th at the i-th x value and the j-th y value. *)
Lemma flat_grid_nth : forall (xs ys : list R) i j, i < length xs -> j < length ys ->
  nth (i * length ys + j) (flat_map (fun x => map (fun y => (x, y)) ys) xs) (0%R, 0%R) = (nth i xs 0%R, nth j ys 0%R).
Proof.
  intros xs ys. induction xs as [|x xs IH]; intros i j Hi Hj; cbn in Hi; [lia|]. cbn [flat_map]. destruct i as [|i].
  - cbn [Nat.mul Nat.add nth]. rewrite app_nth1 by (rewrite map_length; exact Hj).
    rewrite nth_indep with (d' := (fun y => (x, y)) 0%R) by (rewrite map_length; exact Hj). apply map_nth with (f := fun y => (x, y)).
  - rewrite app_nth2 by (rewrite map_length; cbn; lia). rewrite map_length. replace (S i * length ys + j - length ys) with (i * length ys + j) by (cbn; lia).
    apply IH; [lia|exact Hj].
Qed.
Lemma flat_grid_length : forall (xs ys : list R), length (flat_map (fun x => map (fun y => (x, y)) ys) xs) = length xs * length ys.
Proof. intros xs ys. induction xs as [|x xs IH]; [reflexivity|]. cbn [flat_map length Nat.mul]. rewrite app_length, map_length, IH. reflexivity. Qed.

Lemma Forall2_nth_grid : forall {A B} (P : A -> B -> Prop) l l' d d', Forall2 P l l' -> forall k, k < length l -> P (nth k l d) (nth k l' d').
Proof. intros A B P l l' d d' H. induction H as [|a b l l' Ha H IH]; intros k Hk; cbn in Hk; [lia|]. destruct k; [exact Ha|]. apply IH. lia. Qed.
Theorem C58_grid :
  forall o bx by_ rest, so_bounds o = bx :: by_ :: rest -> has_placeholders ["x"; "y"]%string o ->
  let n := points_of o in
  exists l, grid2D o = (l, None) /\ length l = n * n
   /\ forall i j, i < n -> j < n ->
        calls_grid o (nth i (linspace (fst bx) (snd bx) n) 0%R) (nth j (linspace (fst by_) (snd by_) n) 0%R) (nth (i * n + j) l (AVec [])).
Proof.
  intros o bx by_ rest Hb Hp n. unfold grid2D. rewrite Hb. fold n. set (xs := linspace (fst bx) (snd bx) n). set (ys := linspace (fst by_) (snd by_) n).
  assert (Lx : length xs = n) by (apply C58_linspace). assert (Ly : length ys = n) by (apply C58_linspace).
  assert (E : flat_map (fun x => map (fun y => grid_arg o x y) ys) xs = map (fun p => grid_arg o (fst p) (snd p)) (flat_map (fun x => map (fun y => (x, y)) ys) xs)).
  { clear. induction xs as [|x xs IH]; [reflexivity|]. cbn [flat_map]. rewrite map_app, IH, map_map. reflexivity. }
  rewrite E. destruct (call_all_ok (fun p a => calls_grid o (fst p) (snd p) a) (fun p => grid_arg o (fst p) (snd p)) (flat_map (fun x => map (fun y => (x, y)) ys) xs)) as (l & El & F).
  { intros p. apply grid_arg_ok, Hp. }
  exists l. split; [exact El|]. pose proof (flat_grid_length xs ys) as FL. rewrite Lx, Ly in FL. split; [rewrite <- (Forall2_length _ _ _ F); exact FL|].
  intros i j Hi Hj. assert (K : i * n + j < length (flat_map (fun x => map (fun y => (x, y)) ys) xs)) by (rewrite FL; nia).
  pose proof (Forall2_nth_grid _ _ _ (0%R, 0%R) (AVec []) F (i * n + j) K) as G. cbn beta in G.
  replace (i * n + j) with (i * length ys + j) in G at 1 2 by (rewrite Ly; reflexivity). rewrite flat_grid_nth in G by lia. exact G.
Qed.
Print Assumptions C58_grid.

(** sweep: the initial point if asked for, the probe points in order, then the
    equidistant points over the bounds widened to contain the probe points. *)
Theorem C58_sweep :
  forall x0 xr o lo hi rest, so_bounds o = (lo, hi) :: rest -> so_probe o <> Some [] -> has_placeholders ["x"]%string o ->
  let probes := match so_probe o with Some l => l | None => [] end in
  exists l0 l1 l2 lo' hi', sweep (x0 :: xr) o = (l0 ++ l1 ++ l2, None)
   /\ l0 = (if so_init o then [AVec [x0]] else [])
   /\ Forall2 (calls_point o) probes l1
   /\ Forall2 (calls_point o) (linspace lo' hi' (points_of o)) l2
   /\ (lo' <= lo)%R /\ (hi <= hi')%R /\ Forall (fun p => lo' <= p <= hi')%R probes
   /\ (so_probe o = None -> lo' = lo /\ hi' = hi).
Proof.
  intros x0 xr o lo hi rest Hb Hpr Hp probes. unfold sweep. rewrite Hb.
  assert (F0 : forall l, then_calls (if so_init o then ([AVec [x0]], None) else ([], None)) (l, None) = ((if so_init o then [AVec [x0]] else []) ++ l, None)).
  { intro l. destruct (so_init o); reflexivity. }
  unfold probes. destruct (so_probe o) as [[|p ps]|] eqn:Ep; [congruence| |].
  - destruct (call_all_ok (calls_point o) (sweep_arg o) (p :: ps)) as (l1 & E1 & F1); [intro; apply sweep_arg_ok, Hp|].
    set (lo' := Rmin lo (list_min p ps)). set (hi' := Rmax hi (list_max p ps)).
    destruct (call_all_ok (calls_point o) (sweep_arg o) (linspace lo' hi' (points_of o))) as (l2 & E2 & F2); [intro; apply sweep_arg_ok, Hp|].
    exists (if so_init o then [AVec [x0]] else []), l1, l2, lo', hi'. rewrite E1, E2. cbn [then_calls fst snd]. rewrite F0.
    split; [reflexivity|]. split; [reflexivity|]. split; [exact F1|]. split; [exact F2|].
    split; [apply Rmin_l|]. split; [apply Rmax_l|]. split; [|discriminate]. apply Forall_forall. intros q Hq. split.
    + eapply Rle_trans; [apply Rmin_r|]. apply list_min_in, Hq.
    + eapply Rle_trans; [|apply Rmax_r]. apply list_max_in, Hq.
  - destruct (call_all_ok (calls_point o) (sweep_arg o) (linspace lo hi (points_of o))) as (l2 & E2 & F2); [intro; apply sweep_arg_ok, Hp|].
    exists (if so_init o then [AVec [x0]] else []), [], l2, lo, hi. rewrite E2, F0. split; [reflexivity|]. split; [reflexivity|]. split; [constructor|].
    split; [exact F2|]. split; [lra|]. split; [lra|]. split; [constructor|auto].
Qed.
Print Assumptions C58_sweep.
(** Finding: without initial point an empty probe list makes the sweep fail. *)
Theorem C58_empty_probe_list_refuted : forall x o lo hi rest, so_bounds o = (lo, hi) :: rest -> so_init o = false -> so_probe o = Some [] ->
  sweep x o = ([], Some ValueError).
Proof. intros x o lo hi rest Hb Hi Hp. unfold sweep. rewrite Hb, Hi, Hp. reflexivity. Qed.
Print Assumptions C58_empty_probe_list_refuted.
Example C58_example : has_placeholders ["x"; "y"]%string (mkSO (Some 3) [(0, 1)%R; (2, 3)%R] (Some [WName "x"; WVal 1; WName "y"]) true None).
Proof. intros s [<-|[<-|[]]]; cbn; auto. Qed.

(** ** C59 *)
Section CMA.
Variable es_stop : list (list (list R * R)) -> bool.
Variable es_sigma : list (list (list R * R)) -> R.
Variable es_ask : list (list (list R * R)) -> list (list R).
Variable func : list R -> R.
Notation width hist k := (es_sigma (firstn k hist)).

(** After [k] generations the last [c] widths are strictly decreasing. *)
Definition shrunk (c k : nat) (hist : list (list (list R * R))) : Prop :=
  forall i, i < c - 1 -> (width hist (k - i) < width hist (k - i - 1))%R.
(** the custom criteria, k generations done *)
Definition custom_stop (o : cma_options) (k : nat) (hist : list (list (list R * R))) : Prop :=
  (exists c, co_conv o = Some c /\ c < k /\ shrunk c k hist)
  \/ (exists s, co_sigma o = Some s /\ (width hist k < py_int s)%R).
(** the generation asked for after [k] others *)
Definition generation (o : cma_options) (x0 : list R) (k : nat) (hist : list (list (list R * R))) : list (list R) :=
  (if co_init o then if Nat.eqb k 0 then [x0] else [] else []) ++ es_ask (firstn k hist).

Lemma all_shrunk_spec : forall (f : nat -> R) n k, n <= k ->
  exists b, all_shrunk n (map f (rev (seq 0 (S k)))) = Ok b /\ (b = true <-> forall i, i < n -> (f (k - i)%nat < f (k - i - 1)%nat)%R).
Proof.
  intros f n. induction n as [|n IH]; intros k Hk; cbn [all_shrunk]; [exists true; split; [reflexivity|split; [lia|reflexivity]]|].
  destruct k as [|k]; [lia|]. rewrite !seq_S, !rev_app_distr. cbn [rev app map Nat.add].
  destruct (IH k ltac:(lia)) as (b & Eb & Hb). rewrite seq_S, rev_app_distr in Eb. cbn [rev app map Nat.add] in Eb.
  unfold Rltb. destruct (Rlt_dec (f (S k)) (f k)) as [L|L].
  - exists b. split; [exact Eb|]. rewrite Hb. split; intros H i Hi.
    + destruct i as [|i]; [replace (S k - 0 - 1) with k by lia; exact L|]. specialize (H i ltac:(lia)).
      replace (S k - S i) with (k - i) by lia. exact H.
    + specialize (H (S i) ltac:(lia)). replace (S k - S i) with (k - i) in H by lia. exact H.
  - exists false. split; [reflexivity|]. split; [discriminate|]. intro H. exfalso. apply L. specialize (H 0 ltac:(lia)).
    replace (S k - 0 - 1) with k in H by lia. exact H.
Qed.

Lemma cma_loop_spec : forall fuel o x0 iter sigmas hist hist' sg stop,
  length hist = iter ->
  (co_conv o <> None -> sigmas = map (fun k => width hist k) (rev (seq 0 iter))) ->
  (forall k, k < iter -> ~ custom_stop o k hist) ->
  (forall k, k < iter -> nth k hist [] = map (fun s => (s, func s)) (generation o x0 k hist)) ->
  cma_loop es_stop es_sigma es_ask func fuel o x0 iter sigmas hist = (hist', sg, stop) -> stop <> StopFuel ->
  (forall k, k < length hist' -> ~ custom_stop o k hist')
  /\ (forall k, k < length hist' -> nth k hist' [] = map (fun s => (s, func s)) (generation o x0 k hist'))
  /\ ((stop = StopEs /\ es_stop hist' = true)
      \/ (es_stop hist' = false /\ custom_stop o (length hist') hist' /\ (stop = StopShrunk \/ stop = StopSigma))).
Proof.
  induction fuel as [|fuel IH]; intros o x0 iter sigmas hist hist' sg stop HL Hsg Hno Hgen H Hst; cbn [cma_loop] in H.
  { injection H as <- <- <-. congruence. }
  destruct (es_stop hist) eqn:Es.
  { injection H as <- <- <-. rewrite HL. split; [exact Hno|]. split; [exact Hgen|]. left. auto. }
  assert (Fn : firstn iter hist = hist) by (rewrite <- HL; apply firstn_all).
  set (sigmas' := match co_conv o with Some _ => es_sigma hist :: sigmas | None => sigmas end) in *.
  assert (Hsg' : co_conv o <> None -> sigmas' = map (fun k => width hist k) (rev (seq 0 (S iter)))).
  { intro Hc. unfold sigmas'. destruct (co_conv o); [|congruence]. rewrite (Hsg Hc), seq_S, rev_app_distr. cbn [rev app map Nat.add]. rewrite Fn. reflexivity. }
  assert (Hshr : exists b, match co_conv o with Some c => if Nat.ltb c iter then all_shrunk (c - 1) sigmas' else Ok false | None => Ok false end = Ok b
                 /\ (b = true <-> exists c, co_conv o = Some c /\ c < iter /\ shrunk c iter hist)).
  { destruct (co_conv o) as [c|] eqn:Ec; [|exists false; split; [reflexivity|split; [discriminate|intros (c & C & _); discriminate]]].
    destruct (Nat.ltb_spec c iter) as [Lc|Lc].
    - rewrite Hsg' by congruence. destruct (all_shrunk_spec (fun k => width hist k) (c - 1) iter ltac:(lia)) as (b & -> & Hb). exists b. split; [reflexivity|].
      rewrite Hb. split; [intro Hall; exists c; split; [reflexivity|split; [exact Lc|exact Hall]]|]. intros (c' & E & _ & Hall). injection E as <-. exact Hall.
    - exists false. split; [reflexivity|]. split; [discriminate|]. intros (c' & E & L & _). injection E as <-. lia. }
  destruct Hshr as (b & Eb & Hb). rewrite Eb in H. destruct b.
  { injection H as <- <- <-. rewrite HL. split; [exact Hno|]. split; [exact Hgen|]. right. split; [exact Es|]. split; [left; apply Hb; reflexivity|auto]. }
  destruct (match co_sigma o with Some s => Rltb (es_sigma hist) (py_int s) | None => false end) eqn:Esg.
  { injection H as <- <- <-. rewrite HL. split; [exact Hno|]. split; [exact Hgen|]. right. split; [exact Es|]. split; [|auto]. right.
    destruct (co_sigma o) as [s|]; [|discriminate]. exists s. split; [reflexivity|]. rewrite Fn. apply Rltb_true, Esg. }
  assert (Pref : forall g k, k <= iter -> firstn k (hist ++ [g]) = firstn k hist).
  { intros g k Hk. rewrite firstn_app, HL. replace (k - iter) with 0 by lia. cbn [firstn]. apply app_nil_r. }
  assert (CS : forall g k, k <= iter -> custom_stop o k (hist ++ [g]) -> custom_stop o k hist).
  { intros g k Hk [(c & E & L & S)|(s & E & L)]; [left; exists c; split; [exact E|split; [exact L|]]|right; exists s; split; [exact E|]].
    - intros i Hi. specialize (S i Hi). rewrite !Pref in S by lia. exact S.
    - rewrite Pref in L by lia. exact L. }
  eapply IH in H; [exact H| | | | |exact Hst].
  - rewrite app_length. cbn. lia.
  - intro Hc. rewrite (Hsg' Hc). apply map_ext_in. intros k Hk. apply in_rev, in_seq in Hk. rewrite Pref by lia. reflexivity.
  - intros k Hk C. apply CS in C; [|lia]. destruct (Nat.eq_dec k iter) as [->|N]; [|apply (Hno k); [lia|exact C]].
    destruct C as [C|(s & E & L)]; [apply Hb in C; discriminate|]. rewrite E in Esg. rewrite Fn in L. apply Rltb_true in L. congruence.
  - intros k Hk. assert (GE : forall g, generation o x0 k (hist ++ [g]) = generation o x0 k hist) by (intro g; unfold generation; rewrite Pref by lia; reflexivity).
    rewrite GE. destruct (Nat.eq_dec k iter) as [->|N]; [|rewrite app_nth1 by lia; apply Hgen; lia].
    rewrite app_nth2 by lia. rewrite HL, Nat.sub_diag. cbn [nth]. unfold generation. rewrite Fn. f_equal.
    destruct (co_init o); cbn [andb]; [destruct (Nat.eqb iter 0); reflexivity|reflexivity].
Qed.
End CMA.

(** The loop stops at the first generation at which the library stops or one of the
    custom criteria holds, and every generation is the one asked for, each sample
    evaluated once, the first preceded by the initial point if requested. *)
Theorem C59_stops_exactly :
  forall es_stop es_sigma es_ask func fuel o x0 hist sg stop,
  cma_loop es_stop es_sigma es_ask func fuel o x0 0 [] [] = (hist, sg, stop) -> stop <> StopFuel ->
  (forall k, k < length hist -> ~ custom_stop es_sigma o k hist)
  /\ (forall k, k < length hist -> nth k hist [] = map (fun s => (s, func s)) (generation es_ask o x0 k hist))
  /\ ((stop = StopEs /\ es_stop hist = true)
      \/ (es_stop hist = false /\ custom_stop es_sigma o (length hist) hist /\ (stop = StopShrunk \/ stop = StopSigma))).
Proof.
  intros es_stop es_sigma es_ask func fuel o x0 hist sg stop H Hs.
  apply (cma_loop_spec es_stop es_sigma es_ask func fuel o x0 0 [] [] hist sg stop); [reflexivity| | | |exact H|exact Hs].
  - intros _. reflexivity.
  - intros k Hk. inversion Hk.
  - intros k Hk. inversion Hk.
Qed.
Print Assumptions C59_stops_exactly.

Lemma py_int_small : forall s, (0 <= s < 1)%R -> py_int s = 0%R.
Proof.
  intros s Hs. unfold py_int, Rltb. destruct (Rlt_dec s 0); [lra|]. unfold Int_part.
  assert (E : up s = 1%Z) by (symmetry; apply tech_up; cbn; lra). rewrite E. reflexivity.
Qed.
(** Finding: a threshold below one is truncated to zero, so positive widths however
    small never trigger the sigma criterion. *)
Theorem C59_sigma_threshold_refuted :
  forall es_stop es_sigma es_ask func fuel s x0 init hist sg stop,
  (0 <= s < 1)%R -> (forall h, 0 < es_sigma h)%R ->
  cma_loop es_stop es_sigma es_ask func fuel (mkCO None (Some s) init) x0 0 [] [] = (hist, sg, stop) ->
  stop = StopEs \/ stop = StopFuel.
Proof.
  intros es_stop es_sigma es_ask func fuel s x0 init hist sg stop Hs Hp H.
  assert (K : stop = StopFuel \/ stop <> StopFuel) by (destruct stop; (left; reflexivity) || (right; discriminate)). destruct K as [K|K]; [auto|].
  destruct (C59_stops_exactly _ _ _ _ _ _ _ _ _ _ H K) as (_ & _ & [[E _]|(_ & C & _)]); [auto|]. exfalso.
  destruct C as [(c & C & _)|(t & E & L)]; cbn in *; [discriminate|]. injection E as <-.
  rewrite (py_int_small s Hs) in L. specialize (Hp (firstn (length hist) hist)). lra.
Qed.
Print Assumptions C59_sigma_threshold_refuted.
Example C59_example : exists hist sg, cma_loop (fun _ => false) (fun h => 1 / INR (S (length h)))%R (fun _ => [[0%R]]) (fun _ => 0%R) 9 (mkCO (Some 2) None true) [1%R] 0 [] []
  = (hist, sg, StopShrunk) /\ length hist = 3.
Proof.
  do 2 eexists. cbn [cma_loop co_conv co_sigma co_init Nat.ltb Nat.leb Nat.sub all_shrunk andb Nat.eqb map app length]. unfold Rltb.
  destruct (Rlt_dec _ _) as [L|L]; [split; reflexivity|]. exfalso. apply L. cbn. lra.
Qed.

(** Options of the combined algorithm: what a stage sets itself wins, everything else is passed on. *)
Theorem C59_combined_options :
  forall {V} (global sub : dict V) k, NoDup (keys global) -> k <> "cmaes"%string -> k <> "lbfgs"%string ->
  dget k (merge_options global sub) = match dget k sub with Some v => Some v | None => dget k global end.
Proof.
  intros V global. unfold merge_options. induction global as [|[a b] global IH]; intros sub k Hn H1 H2; cbn [fold_left]; [cbn [dget]; destruct (dget k sub); reflexivity|].
  inversion Hn as [|? ? Ha Hn']; subst. rewrite IH by assumption. cbn [fst snd dget].
  assert (D : dget a global = None) by (apply dget_None_notin; exact Ha).
  destruct (String.eqb_spec a "cmaes") as [->|N1]; cbn [orb].
  { destruct (String.eqb_spec k "cmaes"); [contradiction|]. reflexivity. }
  destruct (String.eqb_spec a "lbfgs") as [->|N2].
  { destruct (String.eqb_spec k "lbfgs"); [contradiction|]. reflexivity. }
  unfold dmem. destruct (String.eqb_spec k a) as [->|N].
  - destruct (dget a sub) as [v|] eqn:E; [rewrite E; reflexivity|]. rewrite dget_dset_same. reflexivity.
  - destruct (dget a sub) as [v|]; [reflexivity|]. rewrite dget_dset_other by congruence. reflexivity.
Qed.
Print Assumptions C59_combined_options.
