(** Property theorems about [ParameterMap] (C08-C16).

    Vocabulary: [dget k (pm_pars pm)] is the Quantity registered under the
    identifier k; [numpy q] its physical value; [get_opt_map pm om] the map in
    effect (the given one with tuples joined, or the stored one);
    [fits q v] says v has the size of q and lies within its limits up to the
    closeness tolerance; [wfd] / [told] say that every registered quantity has a
    non-empty range / holds a value within its limits; [slices d m xs] says that
    the optimizer vector [concat xs] has one slice per group of the map, as long
    as the value of each member. *)
From Coq Require Import Reals Lra.
From Verif Require Import Base QuantityModel QuantityProofs PMapModel PMapProofs.
Local Open Scope list_scope.

(** A small parameter map used by the examples. *)
Definition ex_q : quantity := mkQ 1 0 2 [0%R] "V" "a".
Definition ex_q2 : quantity := mkQ 1 0 4 [0%R; (1/2)%R] "V" "b".
Definition ex_pm : pmap :=
  mkPM [("a", ex_q); ("b", ex_q2); ("m", ex_q)]%string ["m"%string]
       [["a"]; ["b"]]%string false true 0.

Lemma ex_wfd : wfd (pm_pars ex_pm).
Proof.
  intros k q. cbn. repeat (destruct (String.eqb _ _); [intros [= <-]; split; cbn; lra|]).
  discriminate.
Qed.
Lemma ex_told : told (pm_pars ex_pm).
Proof.
  intros k q. pose proof tol_pos. cbn.
  repeat (destruct (String.eqb _ _); [intros [= <-]; unfold in_tol; cbn; repeat constructor; lra|]).
  discriminate.
Qed.
Lemma ex_nodup : NoDup (List.concat (pm_opt_map ex_pm)).
Proof. cbn. repeat constructor; cbn; intuition discriminate. Qed.
Lemma ex_fits_a x : (0 <= x <= 2)%R -> fits ex_q [x].
Proof.
  intros H. pose proof tol_pos. split; [reflexivity|]. cbn. repeat constructor; lra.
Qed.
Lemma ex_fits_b x y : (0 <= x <= 4)%R -> (0 <= y <= 4)%R -> fits ex_q2 [x; y].
Proof.
  intros H1 H2. pose proof tol_pos. split; [reflexivity|]. cbn. repeat constructor; lra.
Qed.

(** ** C08 *)
Theorem C08_set_then_get : forall pm vals om ext pm',
  wfd (pm_pars pm) ->
  let m := get_opt_map pm om in
  NoDup (List.concat m) -> Forall (fun g => g <> []) m ->
  set_parameters pm vals om ext = (pm', None) ->
  (exists qs, get_parameters pm' om = Ok qs /\ map numpy qs = vals)
  /\ (forall g v k, In (g, v) (combine m vals) -> In k g ->
        exists q, dget k (pm_pars pm') = Some q /\ numpy q = v).
Proof. exact set_parameters_readback. Qed.
Print Assumptions C08_set_then_get.

Theorem C08_accepts_exactly_fitting_vectors : forall pm vals om,
  wfd (pm_pars pm) ->
  let m := get_opt_map pm om in
  NoDup (List.concat m) ->
  (snd (set_parameters pm vals om false) = None <->
   List.length vals = List.length m /\
   forall g v k, In (g, v) (combine m vals) -> In k g ->
     exists q, dget k (pm_pars pm) = Some q /\ fits q v).
Proof. exact set_parameters_accepts. Qed.
Print Assumptions C08_accepts_exactly_fitting_vectors.

Example C08_example :
  wfd (pm_pars ex_pm) /\ NoDup (List.concat (get_opt_map ex_pm None))
  /\ snd (set_parameters ex_pm [[1%R]; [2%R; 3%R]] None false) = None.
Proof.
  split; [exact ex_wfd|]. split; [exact ex_nodup|].
  apply C08_accepts_exactly_fitting_vectors; [exact ex_wfd|exact ex_nodup|].
  split; [reflexivity|]. cbn.
  intros g v k [[= <- <-]|[[= <- <-]|[]]] [<-|[]]; cbn; eexists; split; try reflexivity.
  - apply ex_fits_a; lra.
  - apply ex_fits_b; lra.
Qed.

(** ** C09 *)
Theorem C09_touches_nothing_else : forall pm vals om ext k,
  ~ In k (List.concat (get_opt_map pm om)) ->
  let pm' := fst (set_parameters pm vals om ext) in
  dget k (pm_pars pm') = dget k (pm_pars pm) /\ keys (pm_pars pm') = keys (pm_pars pm).
Proof. exact set_parameters_frame. Qed.
Print Assumptions C09_touches_nothing_else.

Theorem C09_scaled_touches_nothing_else : forall pm om xs k,
  let m := get_opt_map pm om in
  wfd (pm_pars pm) -> NoDup (List.concat m) -> slices (pm_pars pm) m xs ->
  pm_update pm = false -> ~ In k (List.concat m) ->
  dget k (pm_pars (fst (set_parameters_scaled pm (List.concat xs) om))) = dget k (pm_pars pm).
Proof.
  intros pm om xs k m Hw Hnd Hs Hu Hn. unfold set_parameters_scaled. rewrite Hu.
  destruct (set_scaled_ctrls_ok pm om xs Hw Hnd Hs) as [pm' [-> [_ [_ HF]]]].
  now apply HF.
Qed.
Print Assumptions C09_scaled_touches_nothing_else.

Example C09_example : ~ In "m"%string (List.concat (get_opt_map ex_pm None)).
Proof. cbn. intuition discriminate. Qed.

(** ** C10.  After a failing call the parameters before the offending one hold
    the new values, everything else is as before, the model has not been
    refreshed; the offending value does not fit. *)
Theorem C10_failing_update_is_prefix : forall pm vals om ext pm' e,
  wfd (pm_pars pm) -> NoDup (List.concat (get_opt_map pm om)) ->
  set_parameters pm vals om ext = (pm', Some e) ->
  pm_refreshes pm' = pm_refreshes pm /\ pm_opt_map pm' = pm_opt_map pm
  /\ pm_update pm' = pm_update pm /\
  ((List.length vals <> List.length (get_opt_map pm om) /\ e = C3Error /\ pm' = pm) \/
   exists pre k v post,
     assignments (get_opt_map pm om) vals = pre ++ (k, v) :: post
     /\ (forall k' v', In (k', v') pre ->
          exists q, dget k' (pm_pars pm') = Some q /\ numpy q = v')
     /\ (forall k', ~ In k' (map fst pre) -> dget k' (pm_pars pm') = dget k' (pm_pars pm))
     /\ dget k (pm_pars pm') = dget k (pm_pars pm)
     /\ (ext = false -> e = MapOOBError -> exists q, dget k (pm_pars pm) = Some q
          /\ List.length v = List.length (numpy q) /\ ~ fits q v)).
Proof. exact set_parameters_failure. Qed.
Print Assumptions C10_failing_update_is_prefix.

(** A failing call is not atomic: the first parameter keeps its new value. *)
Theorem C10_set_parameters_atomic_refuted :
  exists pm vals pm' e, wfd (pm_pars pm) /\ NoDup (List.concat (pm_opt_map pm)) /\
    set_parameters pm vals None false = (pm', Some e) /\
    exists k q q', dget k (pm_pars pm) = Some q /\ dget k (pm_pars pm') = Some q'
      /\ numpy q' <> numpy q.
Proof.
  exists ex_pm, [[2%R]; [9%R; 9%R]].
  destruct (set_parameters ex_pm [[2%R]; [9%R; 9%R]] None false) as [pm' [e|]] eqn:E.
  - exists pm', e. split; [exact ex_wfd|]. split; [exact ex_nodup|]. split; [reflexivity|].
    destruct (set_parameters_failure ex_pm _ None _ _ _ ex_wfd ex_nodup E) as [_ [_ [_ [H|H]]]].
    { exfalso. apply (proj1 H). reflexivity. }
    destruct H as [pre [k [v [post [Ha [Hpre [_ [_ Hoff]]]]]]]].
    cbn in Ha. destruct pre as [|[k0 v0] pre]; cbn in Ha.
    + exfalso. injection Ha as <- <- _.
      assert (HF : fits ex_q [2%R]) by (apply ex_fits_a; lra).
      apply set_value_fits in HF as [q' Hq']; [|split; cbn; lra].
      unfold set_parameters in E. cbn -[set_value ex_q ex_q2] in E. unfold set_one in E.
      cbn -[set_value ex_q ex_q2] in E. rewrite Hq' in E. cbn -[set_value ex_q ex_q2] in E.
      assert (He : e = MapOOBError).
      { revert E. destruct (set_value [9%R; 9%R] false ex_q2) as [q2|e2] eqn:E2; [discriminate|].
        revert E2. unfold set_value, set_value_strict. cbn.
        destruct (Req_EM_T 4 0); [lra|]. destruct (_ || _); [|discriminate].
        intros [= <-]. now intros [= <- <-]. }
      destruct (Hoff eq_refl He) as [q [Hq [_ Hnf]]]. cbn in Hq. injection Hq as <-.
      apply Hnf. apply ex_fits_a; lra.
    + injection Ha as <- <- _.
      destruct (Hpre "a"%string [2%R] (or_introl eq_refl)) as [q' [Hq' Hn]].
      exists "a"%string, ex_q, q'. cbn. split; [reflexivity|]. split; [exact Hq'|].
      rewrite Hn. cbn. intros [= HH]. lra.
  - exfalso. assert (HH : snd (set_parameters ex_pm [[2%R]; [9%R; 9%R]] None false) = None) by now rewrite E.
    apply C08_accepts_exactly_fitting_vectors in HH; [|exact ex_wfd|exact ex_nodup].
    destruct HH as [_ HH]. destruct (HH ["b"%string] [9%R; 9%R] "b"%string) as [q [Hq [_ Hf]]].
    { cbn. auto. } { now left. }
    cbn in Hq. injection Hq as <-. inversion Hf as [|? ? Hx _]; subst. cbn in Hx.
    unfold tol in Hx. lra.
Qed.
Print Assumptions C10_set_parameters_atomic_refuted.

(** ** C11 *)
Theorem C11_scaled_set_then_get : forall pm om xs,
  let m := get_opt_map pm om in
  wfd (pm_pars pm) -> NoDup (List.concat m) -> slices (pm_pars pm) m xs ->
  pm_update pm = false \/ (om = None /\ pm_has_model pm = true) ->
  exists pm', set_parameters_scaled pm (List.concat xs) om = (pm', None)
    /\ (exists ys, get_parameters_scaled pm' om = Ok ys /\ Forall2 is_fold (List.concat xs) ys)
    /\ (forall g x k, In (g, x) (combine m xs) -> In k g ->
          exists q q', dget k (pm_pars pm) = Some q /\ dget k (pm_pars pm') = Some q'
            /\ Forall2 is_fold x (get_opt_value q')
            /\ get_limits q' = get_limits q
            /\ Forall (fun y => fst (get_limits q) <= y <= snd (get_limits q))%R (numpy q')).
Proof.
  intros pm om xs m Hw Hnd Hs Hc.
  destruct (set_scaled_ctrls_ok pm om xs Hw Hnd Hs) as [pm1 [E1 [Hpm1 [H1 _]]]].
  assert (HE : exists pm', set_parameters_scaled pm (List.concat xs) om = (pm', None)
                 /\ pm_pars pm' = pm_pars pm1 /\ pm_opt_map pm' = pm_opt_map pm).
  { unfold set_parameters_scaled. destruct Hc as [Hu|[-> Hm]].
    - rewrite Hu. exists pm1. repeat split; auto. now rewrite Hpm1.
    - destruct (pm_update pm).
      + unfold set_scaled_model. rewrite E1, Hm. exists (refresh pm1). repeat split.
        cbn. now rewrite Hpm1.
      + exists pm1. repeat split; auto. now rewrite Hpm1. }
  destruct HE as [pm' [E [Hp Ho]]]. exists pm'. split; [exact E|]. rewrite Hp. split.
  - exists (map opt_fold (List.concat xs)). split; [|apply opt_fold_Forall2].
    apply (scaled_vector_after pm om xs pm' Hs); [|now rewrite Hp].
    unfold get_opt_map. destruct om; [reflexivity|assumption].
  - intros g x k Hg Hk. destruct (H1 g x k Hg Hk) as [q [q' [Hq [Hq' ->]]]].
    destruct (slices_in_combine _ _ _ _ _ _ Hs Hg Hk) as [q2 [Hq2 HL]].
    assert (q2 = q) by congruence. subst q2.
    destruct (with_fold_facts q x (Hw _ _ Hq) HL) as [A [B [C _]]].
    exists q. eexists. split; [exact Hq|]. split; [exact Hq'|]. auto.
Qed.
Print Assumptions C11_scaled_set_then_get.

(** Feeding back the vector read from the map changes no value. *)
Theorem C11_scaled_get_then_set : forall pm om x,
  let m := get_opt_map pm om in
  wfd (pm_pars pm) -> NoDup (List.concat m) ->
  Forall (fun g => exists k, g = [k] /\ In k (keys (pm_pars pm))) m ->
  pm_update pm = false \/ (om = None /\ pm_has_model pm = true) ->
  get_parameters_scaled pm om = Ok x -> Forall (fun t => -1 <= t <= 1)%R x ->
  exists pm', set_parameters_scaled pm x om = (pm', None)
    /\ forall k q, dget k (pm_pars pm) = Some q ->
         exists q', dget k (pm_pars pm') = Some q' /\ numpy q' = numpy q
           /\ get_limits q' = get_limits q.
Proof.
  intros pm om x m Hw Hnd HG Hc Hx Hr.
  assert (HS : exists xs, Forall2 (fun g x => exists k q, g = [k] /\ dget k (pm_pars pm) = Some q
                 /\ x = get_opt_value q) m xs).
  { clear -HG. induction HG as [|g m [k [-> Hk]] _ [xs IH]]; [exists []; constructor|].
    apply dget_in_keys in Hk as [q Hq]. exists (get_opt_value q :: xs). constructor; eauto. }
  destruct HS as [xs HF].
  assert (Hxe : x = List.concat xs).
  { rewrite (get_scaled_concat pm om xs) in Hx; [congruence|].
    eapply Forall2_impl; [|exact HF]. intros g y [k [q [-> [Hq ->]]]]. now exists k, [], q. }
  assert (Hs : slices (pm_pars pm) m xs).
  { eapply Forall2_impl; [|exact HF]. intros g y [k [q [-> [Hq ->]]]].
    split; [discriminate|]. intros k' [<-|[]]. exists q. split; auto. now rewrite numpy_length. }
  destruct (set_scaled_ctrls_ok pm om xs Hw Hnd Hs) as [pm1 [E1 [Hpm1 [H1 H2]]]].
  assert (HE : exists pm', set_parameters_scaled pm x om = (pm', None)
                 /\ pm_pars pm' = pm_pars pm1).
  { subst x. unfold set_parameters_scaled. destruct Hc as [Hu|[-> Hm]].
    - rewrite Hu. now exists pm1.
    - destruct (pm_update pm).
      + unfold set_scaled_model. rewrite E1, Hm. now exists (refresh pm1).
      + now exists pm1. }
  destruct HE as [pm' [E Hp]]. exists pm'. split; [exact E|]. rewrite Hp. intros k q Hq.
  destruct (in_dec string_dec k (List.concat m)) as [Hin|Hn].
  - apply in_concat in Hin as [g [Hg Hk]].
    assert (HC : exists y, In (g, y) (combine m xs)).
    { clear -Hg HF. induction HF as [|a b l l' _ _ IH]; [destruct Hg|].
      destruct Hg as [->|Hg]; [exists b; now left|]. destruct (IH Hg) as [y Hy].
      exists y; now right. }
    destruct HC as [y Hcy]. destruct (H1 g y k Hcy Hk) as [q0 [q' [Hq0 [Hq' ->]]]].
    assert (q0 = q) by congruence. subst q0. eexists. split; [exact Hq'|].
    pose proof (Forall2_in_combine _ _ _ HF _ _ Hcy) as [k2 [q2 [-> [Hq2 ->]]]].
    destruct Hk as [->|[]]. assert (q2 = q) by congruence. subst q2.
    split; [|reflexivity].
    assert (Hid : map opt_fold (get_opt_value q) = q_value q).
    { unfold get_opt_value. rewrite <- (map_id (q_value q)) at 2. apply map_ext_in.
      intros t Ht. apply opt_fold_id. rewrite Forall_forall in Hr. apply Hr. rewrite Hxe.
      apply in_concat. exists (q_value q). split; auto. eapply in_combine_r; exact Hcy. }
    unfold get_opt_value in *. rewrite Hid. now destruct q.
  - exists q. rewrite H2 by assumption. auto.
Qed.
Print Assumptions C11_scaled_get_then_set.

Example C11_example : slices (pm_pars ex_pm) (get_opt_map ex_pm None) [[3%R]; [0%R; (-7)%R]].
Proof.
  repeat constructor; try discriminate; intros k [<-|[]]; cbn; eexists; split; reflexivity.
Qed.

(** When a model parameter is in the stored map, an explicit map passed to the
    scaled setter is ignored: the named parameter does not change. *)
Theorem C11_explicit_map_with_model_parameters_refuted :
  exists pm om x pm',
    wfd (pm_pars pm) /\ NoDup (List.concat (get_opt_map pm om))
    /\ slices (pm_pars pm) (get_opt_map pm om) [x]
    /\ set_parameters_scaled pm x om = (pm', None)
    /\ get_parameters_scaled pm' om <> Ok x /\ Forall (fun t => -1 <= t <= 1)%R x.
Proof.
  exists (mkPM [("a", ex_q); ("m", ex_q)]%string ["m"%string] [["m"]]%string true true 0),
    (Some [[PStr "a"]]), [1%R].
  eexists. split; [|split; [|split; [|split; [|split]]]].
  - intros k q. cbn. repeat (destruct (String.eqb _ _); [intros [= <-]; split; cbn; lra|]).
    discriminate.
  - cbn. repeat constructor; cbn; intuition discriminate.
  - repeat constructor; try discriminate; intros k [<-|[]]; cbn; eexists; split; reflexivity.
  - cbn. reflexivity.
  - cbn. intros [= HH]. lra.
  - repeat constructor; lra.
Qed.
Print Assumptions C11_explicit_map_with_model_parameters_refuted.

(** ** C12 *)
Theorem C12_index_to_name : forall pm om xs i j k g,
  let m := get_opt_map pm om in
  slices (pm_pars pm) m xs ->
  nth_error m i = Some (k :: g) -> j < List.length (nth i xs []) ->
  get_key_from_scaled_index pm (List.length (List.concat (firstn i xs)) + j) om = Ok k.
Proof.
  intros pm om xs i j k g m Hs Hi Hj. unfold get_key_from_scaled_index.
  change (List.length (List.concat (firstn i xs)) + j)
    with (0 + List.length (List.concat (firstn i xs)) + j).
  eapply key_from_index_spec; eauto.
  eapply Forall2_impl; [|exact Hs]. intros g0 x [Hne Hg]. destruct g0 as [|k0 g0]; [contradiction|].
  destruct (Hg k0 (or_introl eq_refl)) as [q [Hq HL]]. exists k0, g0, q.
  now rewrite <- numpy_length.
Qed.
Print Assumptions C12_index_to_name.

(** The value at that position of the optimizer vector is the value of the
    parameter with that name. *)
Theorem C12_name_owns_the_slot : forall pm om ys idx k,
  get_parameters_scaled pm om = Ok ys -> idx < List.length ys ->
  get_key_from_scaled_index pm idx om = Ok k ->
  exists q j, dget k (pm_pars pm) = Some q /\ nth_error (get_opt_value q) j = nth_error ys idx
              /\ j < List.length (get_opt_value q).
Proof.
  intros pm om ys idx k. unfold get_parameters_scaled, get_parameters, get_key_from_scaled_index.
  generalize (get_opt_map pm om) as m. intros m.
  destruct (mapM _ m) as [qs|e] eqn:EM; cbn; [|discriminate]. intros [= <-].
  apply mapM_spec in EM.
  assert (G : forall curr, List.length (List.concat (map get_opt_value qs)) > idx ->
     key_from_index (pm_pars pm) m curr (curr + idx) = Ok k ->
     exists q j, dget k (pm_pars pm) = Some q /\
       nth_error (get_opt_value q) j = nth_error (List.concat (map get_opt_value qs)) idx
       /\ j < List.length (get_opt_value q)).
  { revert idx. induction EM as [|g0 q0 m qs E0 EM IH]; intros idx curr HL HK; [cbn in HL; lia|].
    destruct g0 as [|k0 g0]; cbn in E0; [discriminate|].
    destruct (dget k0 (pm_pars pm)) as [q1|] eqn:Hq0; cbn in E0; [|discriminate].
    injection E0 as <-. cbn [key_from_index leader] in HK. rewrite Hq0 in HK. cbn [rbind] in HK.
    cbn [map List.concat] in *. rewrite app_length in HL.
    destruct (Nat.ltb_spec (curr + idx) (curr + List.length (q_value q1))).
    - injection HK as <-. exists q1, idx. split; auto.
      rewrite nth_error_app1 by (unfold get_opt_value; lia). unfold get_opt_value. split; [auto|lia].
    - rewrite nth_error_app2 by (unfold get_opt_value; lia).
      apply (IH (idx - List.length (get_opt_value q1)) (curr + List.length (q_value q1))).
      + unfold get_opt_value in *; lia.
      + rewrite <- HK. f_equal. unfold get_opt_value; lia. }
  intros HL HK. apply (G 0); auto.
Qed.
Print Assumptions C12_name_owns_the_slot.

Theorem C12_index_beyond_the_end : forall pm om xs idx,
  slices (pm_pars pm) (get_opt_map pm om) xs ->
  List.length (List.concat xs) <= idx ->
  get_key_from_scaled_index pm idx om = Ok ""%string.
Proof.
  intros pm om xs idx Hs Hi. unfold get_key_from_scaled_index.
  eapply key_from_index_over with (xs := xs); [|lia].
  eapply Forall2_impl; [|exact Hs]. intros g0 x [Hne Hg]. destruct g0 as [|k0 g0]; [contradiction|].
  destruct (Hg k0 (or_introl eq_refl)) as [q [Hq HL]]. exists k0, g0, q.
  now rewrite <- numpy_length.
Qed.
Print Assumptions C12_index_beyond_the_end.

Example C12_example : map (fun i => get_key_from_scaled_index ex_pm i None) [0; 1; 2; 3]
  = [Ok "a"; Ok "b"; Ok "b"; Ok ""]%string.
Proof. reflexivity. Qed.

(** ** C13 *)
Theorem C13_set_parameters_refreshes : forall pm vals om ext pm' e,
  set_parameters pm vals om ext = (pm', e) ->
  (e <> None -> pm_refreshes pm' = pm_refreshes pm) /\
  (e = None -> pm_has_model pm = true ->
     (exists k, In k (List.concat (get_opt_map pm om)) /\ In k (pm_model_ids pm)) ->
     pm_refreshes pm' = S (pm_refreshes pm)) /\
  ((forall k, In k (List.concat (get_opt_map pm om)) -> ~ In k (pm_model_ids pm)) ->
     pm_refreshes pm' = pm_refreshes pm).
Proof.
  intros pm vals om ext pm' e E. apply set_parameters_inv in E. cbn zeta in E.
  assert (Hsm : forall k l, smem k l = true <-> In k l).
  { intros k l. unfold smem. rewrite existsb_exists. split.
    - intros [x [Hx Ex]]. apply String.eqb_eq in Ex. now subst.
    - intros H. exists k. split; auto. apply String.eqb_refl. }
  destruct E as [[Hl [-> ->]]|[Hl [d [_ [_ [_ [_ [_ [_ Hr]]]]]]]]].
  - repeat split; auto; discriminate.
  - rewrite Hr. destruct e as [e|].
    + rewrite Nat.add_0_r. repeat split; auto; discriminate.
    + split; [congruence|]. split.
      * intros _ Hm [k [H1 H2]]. rewrite Hm.
        replace (existsb _ _) with true; [cbn; lia|]. symmetry. apply existsb_exists.
        exists k. split; auto. now apply Hsm.
      * intros H. replace (existsb _ _) with false; [cbn; lia|]. symmetry.
        apply not_true_iff_false. rewrite existsb_exists. intros [k [H1 H2]].
        apply Hsm in H2. now apply (H k).
Qed.
Print Assumptions C13_set_parameters_refreshes.

(** In every history in which each [set_opt_map] call succeeded, the optimizer
    setter refreshes the model exactly when the stored map names a model
    parameter. *)
Theorem C13_scaled_setter_refreshes : forall os pm vals pm' e,
  pm_opt_map pm = [] -> pm_update pm = false -> pm_has_model pm = true ->
  (forall pre o post, os = pre ++ o :: post ->
     match o with PSetOptMap om => snd (set_opt_map (pm_run pm pre) om) = None | _ => True end) ->
  let pmr := pm_run pm os in
  set_parameters_scaled pmr vals None = (pm', e) ->
  pm_refreshes pm' = pm_refreshes pmr +
    (if match e with None => true | Some _ => false end
        && existsb (fun k => existsb (String.eqb k) (pm_model_ids pm)) (List.concat (pm_opt_map pmr))
     then 1 else 0).
Proof.
  intros os pm vals pm' e Ho Hu Hm HS pmr E.
  assert (HI : pm_update pmr = existsb (fun k => smem k (pm_model_ids pm)) (List.concat (pm_opt_map pmr))
     /\ pm_model_ids pmr = pm_model_ids pm /\ pm_has_model pmr = true).
  { unfold pmr. clear E pmr. induction os as [|o os IH] using rev_ind.
    - cbn. rewrite Ho. auto.
    - destruct IH as [I1 [I2 I3]].
      { intros pre o' post Hs. apply (HS pre o' (post ++ [o])). rewrite Hs. now rewrite <- app_assoc. }
      specialize (HS os o []). assert (HS' := HS eq_refl). clear HS.
      unfold pm_run in *. rewrite fold_left_app. cbn [fold_left].
      set (p := fold_left (fun p o => fst (pm_exec p o)) os pm) in *.
      assert (HP : forall v om ext, let p' := fst (set_parameters p v om ext) in
        pm_update p' = pm_update p /\ pm_opt_map p' = pm_opt_map p
        /\ pm_model_ids p' = pm_model_ids p /\ pm_has_model p' = pm_has_model p).
      { intros v om ext. cbn zeta. destruct (set_parameters p v om ext) as [p' e'] eqn:Ep. cbn.
        apply set_parameters_inv in Ep. cbn zeta in Ep.
        destruct Ep as [[_ [_ ->]]|[_ [d [_ [_ [A [B [C [D _]]]]]]]]]; auto. }
      destruct o as [v om ext|v om|om|f ext]; cbn [pm_exec].
      + destruct (HP v om ext) as [A [B [C D]]]. rewrite A, B, C, D. auto.
      + unfold set_parameters_scaled, set_scaled_model, set_scaled_ctrls.
        case (pm_update p).
        * destruct (set_opt_groups _ v (pm_pars p)) as [d [e'|]]; rewrite ?I3; cbn; auto.
        * destruct (set_opt_groups _ v (pm_pars p)) as [d e']; cbn; auto.
      + unfold set_opt_map in *. destruct (forallb _ _); cbn in *; [|discriminate].
        destruct (check_limits _ _); cbn in *; [discriminate|]. rewrite I2. auto.
      + unfold load_values. destruct (HP (vf_params f) (Some (map (map PStr) (vf_opt_map f))) ext) as [A [B [C D]]].
        rewrite A, B, C, D. auto. }
  destruct HI as [I1 [I2 I3]]. unfold smem in I1. rewrite <- I1.
  unfold set_parameters_scaled in E. destruct (pm_update pmr).
  - unfold set_scaled_model, set_scaled_ctrls in E. rewrite I3 in E.
    destruct (set_opt_groups _ vals (pm_pars pmr)) as [d [e'|]]; injection E as <- <-; cbn; lia.
  - unfold set_scaled_ctrls in E.
    destruct (set_opt_groups _ vals (pm_pars pmr)) as [d e']; injection E as <- <-.
    rewrite andb_false_r. cbn; lia.
Qed.
Print Assumptions C13_scaled_setter_refreshes.

Example C13_example :
  pm_refreshes (pm_run (mkPM (pm_pars ex_pm) ["m"%string] [] false true 0)
     [PSetOptMap [[PStr "m"]]; PSetScaled [0%R] None; PSetOptMap [[PStr "a"]]; PSetScaled [0%R] None]) = 1.
Proof. reflexivity. Qed.

(** If [set_opt_map] is refused because of mismatched limits in the previous
    map, the refresh flag is nevertheless the one of the refused map: a later
    optimizer update of a model parameter no longer refreshes the model. *)
Theorem C13_refused_map_disables_refresh_refuted :
  exists pm om1 om2 vals,
    pm_opt_map pm = [] /\ pm_has_model pm = true /\
    let pm1 := fst (set_opt_map pm om1) in
    let pm2 := fst (set_opt_map pm1 om2) in
    let pm3 := fst (set_parameters_scaled pm2 vals None) in
    snd (set_opt_map pm om1) = None /\ snd (set_opt_map pm1 om2) <> None /\
    snd (set_parameters_scaled pm2 vals None) = None /\
    pm_opt_map pm2 = [["m"; "n"]]%string /\ pm_model_ids pm2 = ["m"%string] /\
    pm_refreshes pm3 = pm_refreshes pm.
Proof.
  exists (mkPM [("a", ex_q); ("m", ex_q); ("n", mkQ 1 0 3 [0%R] "V" "n")]%string
               ["m"%string] [] false true 0),
         [[PStr "m"; PStr "n"]], [[PStr "a"]], [0%R].
  split; [reflexivity|]. split; [reflexivity|]. cbn. unfold set_opt_map. cbn. unfold limits_eqb. cbn.
  destruct (Req_EM_T (0 / 1) (0 / 1)); [|congruence].
  destruct (Req_EM_T ((3 + 0) / 1) ((2 + 0) / 1)) as [HH|_]; [lra|]. cbn.
  repeat split; auto. discriminate.
Qed.
Print Assumptions C13_refused_map_disables_refresh_refuted.

(** ** C14 *)
Theorem C14_partition : forall pm om,
  let m := get_opt_map pm om in
  NoDup (keys (pm_pars pm)) -> NoDup (List.concat m) ->
  (forall k, In k (List.concat m) -> In k (keys (pm_pars pm))) ->
  exists d, get_not_opt_params pm om = Ok d /\
    forall k, (In k (List.concat m) -> dget k d = None) /\
              (~ In k (List.concat m) -> dget k d = dget k (pm_pars pm)).
Proof.
  intros pm om m Hd Hm Hk. destruct (del_all_ok _ _ Hd Hm Hk) as [d [E [_ H]]]. now exists d.
Qed.
Print Assumptions C14_partition.

Theorem C14_rejects_bad_maps : forall pm om,
  NoDup (keys (pm_pars pm)) ->
  (~ NoDup (List.concat (get_opt_map pm om)) \/
   exists k, In k (List.concat (get_opt_map pm om)) /\ ~ In k (keys (pm_pars pm))) ->
  get_not_opt_params pm om = Err KeyError.
Proof. intros pm om Hd H. now apply del_all_err. Qed.
Print Assumptions C14_rejects_bad_maps.

Example C14_example : get_not_opt_params ex_pm None = Ok [("m"%string, ex_q)].
Proof. reflexivity. Qed.

(** ** C15 *)
Theorem C15_stored_point_reloads : forall pm os f,
  wfd (pm_pars pm) -> told (pm_pars pm) -> NoDup (List.concat (pm_opt_map pm)) ->
  coherent pm -> (forall k, In k (List.concat (pm_opt_map pm)) -> In k (keys (pm_pars pm))) ->
  Forall (fun g => g <> []) (pm_opt_map pm) ->
  store_values pm = Ok f ->
  exists pm', load_values (pm_run pm os) f false = (pm', None) /\
    forall k q, In k (List.concat (pm_opt_map pm)) -> dget k (pm_pars pm) = Some q ->
      exists q', dget k (pm_pars pm') = Some q' /\ numpy q' = numpy q.
Proof. exact store_history_load. Qed.
Print Assumptions C15_stored_point_reloads.

Theorem C15_store_succeeds : forall pm,
  (forall k, In k (List.concat (pm_opt_map pm)) -> In k (keys (pm_pars pm))) ->
  Forall (fun g => g <> []) (pm_opt_map pm) ->
  exists f, store_values pm = Ok f /\ vf_opt_map f = pm_opt_map pm
    /\ Forall2 (fun g v => exists k g' q, g = k :: g' /\ dget k (pm_pars pm) = Some q /\ v = numpy q)
               (pm_opt_map pm) (vf_params f).
Proof. exact store_ok. Qed.
Print Assumptions C15_store_succeeds.

Example C15_example : told (pm_pars ex_pm) /\ coherent ex_pm
  /\ Forall (fun g => g <> []) (pm_opt_map ex_pm) /\ is_ok (store_values ex_pm) = true.
Proof.
  split; [exact ex_told|]. split; [|split; [repeat constructor; discriminate|reflexivity]].
  intros g k1 k2 q1 q2 [<-|[<-|[]]] [<-|[]] [<-|[]]; congruence.
Qed.

(** ** C16 *)
Theorem C16_unknown_identifier_refused : forall pm om k,
  In k (List.concat (norm_map om)) -> ~ In k (keys (pm_pars pm)) ->
  set_opt_map pm om = (pm, Some C3Error).
Proof.
  intros pm om k Hin Hn. unfold set_opt_map.
  replace (forallb _ _) with false; [reflexivity|]. symmetry. apply not_true_iff_false.
  rewrite forallb_forall. intros H. specialize (H k Hin). unfold dmem in H.
  apply Hn, dget_in_keys. destruct (dget k (pm_pars pm)) as [q|]; [now exists q|discriminate].
Qed.
Print Assumptions C16_unknown_identifier_refused.

Theorem C16_accepted_map_is_stored : forall pm om pm',
  set_opt_map pm om = (pm', None) ->
  pm_opt_map pm' = norm_map om /\ pm_pars pm' = pm_pars pm
  /\ (forall k, In k (List.concat (norm_map om)) -> In k (keys (pm_pars pm)))
  /\ (pm_update pm' = true <->
      exists k, In k (List.concat (norm_map om)) /\ In k (pm_model_ids pm)).
Proof.
  intros pm om pm'. unfold set_opt_map. destruct (forallb _ _) eqn:Ef; [|discriminate].
  destruct (check_limits _ _); [discriminate|]. intros [= <-]. cbn.
  repeat split; auto.
  - intros k Hin. rewrite forallb_forall in Ef. specialize (Ef k Hin). unfold dmem in Ef.
    apply dget_in_keys. destruct (dget k (pm_pars pm)) as [q|]; [now exists q|discriminate].
  - rewrite existsb_exists. intros [k [H1 H2]]. exists k. split; auto.
    unfold smem in H2. apply existsb_exists in H2 as [x [Hx Ex]]. apply String.eqb_eq in Ex. now subst.
  - intros [k [H1 H2]]. apply existsb_exists. exists k. split; auto.
    unfold smem. apply existsb_exists. exists k. split; auto. apply String.eqb_refl.
Qed.
Print Assumptions C16_accepted_map_is_stored.

(** The limits check looks at the previous map: grouping parameters with
    different limits is accepted. *)
Theorem C16_mismatched_limits_accepted_refuted :
  exists pm k1 k2 q1 q2, dget k1 (pm_pars pm) = Some q1 /\ dget k2 (pm_pars pm) = Some q2
    /\ get_limits q1 <> get_limits q2
    /\ snd (set_opt_map pm [[PStr k1; PStr k2]]) = None.
Proof.
  exists (mkPM (pm_pars ex_pm) [] [] false true 0), "a"%string, "b"%string, ex_q, ex_q2.
  cbn. repeat split; auto. unfold get_limits; cbn. intros [= HH]. lra.
Qed.
Print Assumptions C16_mismatched_limits_accepted_refuted.

Example C16_example : snd (set_opt_map ex_pm [[PStr "a"; PTup ["m"%string]]; [PStr "b"]]) = None.
Proof. reflexivity. Qed.
