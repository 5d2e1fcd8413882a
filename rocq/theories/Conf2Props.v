(** Configuration round trips of generators and models (C72) and experiments (C97). *)
From Coq Require Import Reals Lra Lia.
From Verif Require Import Base QuantityModel QuantityProofs ExpModel ExpProps Frame2Props MiscModel MiscProps ConfModel ConfProps ChainModel Conf2Model.
Local Open Scope list_scope.
Local Open Scope string_scope.
Local Notation length := List.length.

(** ** Specification *)
(** Parameters that are quantities in a valid state, with names that are distinct and no
    marker of the JSON encoding. *)
Definition good_params (ps : dict pyval) : Prop :=
  NoDup (keys ps) /\ unmarked (keys ps) /\ Forall (fun kv => exists q, snd kv = PQty q /\ good_q q) ps.
(** Classes of devices that survive writing and reading ... *)
Definition kept_devices := ["Readout"; "VoltsToHertz"; "DigitalToAnalog"; "CouplingTuning"; "FluxTuning"; "Response"; "ResponseFFT"; "StepFuncFilter";
  "ExponentialIIR"; "HighpassExponential"; "SkinEffectResponse"; "HighpassFilter"; "Mixer"; "Additive_Noise"; "DC_Noise"; "DC_Offset"; "LO"; "AWG"].
(** ... and the parameters their constructors ask for. *)
Definition needed (cls : string) : list string :=
  if String.eqb cls "Readout" then ["factor"; "offset"]
  else if String.eqb cls "CouplingTuning" then ["w_1"; "w_2"; "g0"]
  else if String.eqb cls "FluxTuning" then ["phi_0"; "phi"; "omega_0"; "anhar"]
  else if String.eqb cls "DC_Offset" then ["offset_amp"]
  else [].
Definition good_dev (d : dev) : Prop :=
  In (e_class d) kept_devices /\ good_params (e_params d) /\ (forall k, In k (needed (e_class d)) -> dget k (e_params d) <> None).
Definition same_dev (d d' : dev) : Prop :=
  e_class d' = e_class d /\ e_name d' = e_name d /\ e_in d' = e_in d /\ e_out d' = e_out d /\ e_res d' = e_res d /\ e_params d' = e_params d.
Definition good_chains (cs : dict chain) : Prop := unmarked (keys cs) /\ Forall (fun kc => unmarked (keys (snd kc))) cs.
Definition kept_phys := ["Qubit"; "Resonator"; "Transmon"; "TransmonExpanded"; "CShuntFluxQubitCos"; "CShuntFluxQubit"; "Fluxonium"].
Definition good_phys (p : phys) : Prop := In (p_class p) kept_phys /\ good_params (p_params p) /\ writable (p_dim p) /\ plain (p_dim p).
Definition good_line (l : line) : Prop := In (l_class l) ["LineComponent"; "Coupling"; "Drive"; "Coupling_Drive"] /\ In (l_func l) ham_names /\ good_params (l_params l).
Definition good_task (k : task) : Prop := In (k_class k) ["InitialiseGround"; "ConfusionMatrix"; "MeasurementRescale"] /\ good_params (k_params k).

(** ** Parameters *)
Definition pdict (v : pyval) : pyval := match v with PQty q => qdict_val (asdict q) | _ => PNone end.
Lemma qdict_as_read : forall d, as_read (qdict_val d) = qdict_val d.
Proof. intro d. unfold qdict_val. cbn [as_read map fst snd]. rewrite map_map. reflexivity. Qed.
Lemma qdict_writable : forall d, writable (qdict_val d).
Proof.
  intro d. unfold qdict_val. apply writable_dict; [apply two_keys|]. repeat (apply Forall_cons; [cbn [snd writable]; try exact Logic.I|]); [|apply Forall_nil].
  induction (qd_value d); cbn; auto.
Qed.
Lemma params_rt : forall ps, good_params ps ->
  params_asdict ps = Ok (rmap pdict ps) /\ writable (PDict (rmap pdict ps)) /\ as_read (PDict (rmap pdict ps)) = PDict (rmap pdict ps) /\ conv_options (rmap pdict ps) = Ok ps.
Proof.
  intros ps (N & U & F). split; [|split; [|split]].
  - clear N U. induction F as [|[k v] ps (q & E & G) F IH]; [reflexivity|]. cbn [snd] in E. subst v. cbn [params_asdict rmap map fst snd pdict]. rewrite IH. reflexivity.
  - apply writable_dict; [rewrite keys_rmap; exact U|]. apply Forall_rmap. eapply Forall_impl; [|exact F]. intros [k v] (q & E & _). cbn [snd] in *. subst v. apply qdict_writable.
  - cbn [as_read]. f_equal. fold (rmap as_read (rmap pdict ps)). rewrite rmap_rmap. apply rmap_ext. eapply Forall_impl; [|exact F]. intros [k v] (q & E & _). cbn [snd] in *. subst v. apply qdict_as_read.
  - clear N U. induction F as [|[k v] ps (q & E & G) F IH]; [reflexivity|]. cbn [snd] in E. subst v. cbn [rmap map fst snd pdict conv_options].
    unfold qdict_val at 1. fold (qdict_val (asdict q)). rewrite (quantity_arg q G). cbn [rbind]. fold (rmap pdict ps). rewrite IH. reflexivity.
Qed.
Lemma nat_back : forall n, nat_of (PNum (INR n)) = Ok n.
Proof.
  intro n. unfold nat_of. assert (E : up (INR n) = (Z.of_nat n + 1)%Z).
  { symmetry. apply tech_up; rewrite plus_IZR, <- INR_IZR_INZ; lra. }
  rewrite E. replace (Z.to_nat (Z.of_nat n + 1 - 1)) with n by lia. destruct (Req_EM_T (INR n) (INR n)); [reflexivity|contradiction].
Qed.
Lemma strs_back : forall l, strs_of (PList (map PStr l)) = Ok l.
Proof. intro l. unfold strs_of. induction l as [|s l IH]; [reflexivity|]. cbn [map fold_right str_of rbind]. rewrite IH. reflexivity. Qed.

(** ** Devices *)
Definition default_attrs (cls : string) : dict pyval :=
  if String.eqb cls "DigitalToAnalog" then [("sampling_method", PStr "nearest")]
  else if String.eqb cls "CouplingTuning" then [("two_inputs", PBool false)]
  else if String.eqb cls "LO" then [("phase_noise", PNum 0); ("freq_noise", PNum 0); ("amp_noise", PNum 0)]
  else if String.eqb cls "AWG" then [("logdir", PStr "c3logs/AWG")]
  else [].
Definition dev_restored (d : dev) : dev :=
  mkDevice (e_class d) (e_name d) (e_in d) (e_out d) (e_res d) (e_params d) (default_attrs (e_class d)).
Definition dev_props (d : dev) : dict pyval :=
  [("name", PStr (e_name d)); ("inputs", PNum (INR (e_in d))); ("outputs", PNum (INR (e_out d))); ("params", PDict (rmap pdict (e_params d))); ("resolution", PNum (e_res d))].
Lemma base_back : forall cls d, good_params (e_params d) -> device_base cls (dev_props d) = Ok (mkDevice cls (e_name d) (e_in d) (e_out d) (e_res d) (e_params d) []).
Proof.
  intros cls d G. destruct (params_rt _ G) as (_ & _ & _ & C). unfold device_base, dev_props, arg. cbn [dget String.eqb Ascii.eqb Bool.eqb]. rewrite !nat_back. cbn [rbind num_of str_of].
  cbn [without fold_right ddel String.eqb Ascii.eqb Bool.eqb dupdate fold_left]. unfold obj_params. rewrite C. reflexivity.
Qed.
Lemma io_back : forall a b d d', with_io a b (dev_props d) d' =
  Ok (mkDevice (e_class d') (e_name d') (match a with Some _ => e_in d | None => e_in d' end) (match b with Some _ => e_out d | None => e_out d' end) (e_res d') (e_params d') (e_attrs d')).
Proof.
  intros a b d d'. unfold with_io, arg, dev_props. cbn [dget String.eqb Ascii.eqb Bool.eqb]. rewrite !nat_back. destruct a, b; reflexivity.
Qed.
Lemma needs_ok : forall ks d, (forall k, In k ks -> dget k (e_params d) <> None) -> needs ks d = Ok d.
Proof.
  intros ks d H. unfold needs. replace (forallb _ ks) with true; [reflexivity|]. symmetry. apply forallb_forall. intros k I. specialize (H k I). unfold dmem. destruct (dget k (e_params d)); [reflexivity|contradiction].
Qed.
Lemma dev_back : forall d, good_dev d -> dev_new (e_class d) (dev_props d) = Ok (dev_restored d).
Proof.
  intros d (I & G & Nd). unfold dev_restored.
  assert (Q : exists cls, cls = e_class d) by (eexists; reflexivity). destruct Q as [cls E]. rewrite <- E in *.
  unfold kept_devices in I. cbn [In] in I.
  repeat (destruct I as [I|I]; [subst cls; unfold dev_new, noise_new; cbn [existsb String.eqb Ascii.eqb Bool.eqb orb popped dget ddel dev_props needed default_attrs] in *;
    fold (dev_props d); rewrite (base_back _ d G); cbn [rbind with_attr e_class e_name e_in e_out e_res e_params e_attrs dset];
    rewrite ?io_back; cbn [rbind e_class e_name e_in e_out e_res e_params e_attrs];
    try reflexivity; try (rewrite needs_ok by exact Nd; reflexivity)|]); try contradiction.
  (* DC_Offset *)
  specialize (Nd "offset_amp" (or_introl eq_refl)). destruct (dget "offset_amp" (e_params d)) as [v|] eqn:Ev; [|contradiction].
  destruct G as (_ & _ & F). rewrite Forall_forall in F. apply dget_Some_in in Ev. destruct (F _ Ev) as (q & Eq & _). cbn [snd] in Eq. subst v. reflexivity.
Qed.
Definition dev_val (d : dev) : dict pyval := ("c3type", PStr (e_class d)) :: dev_props d.
Lemma dev_written : forall d, good_dev d -> dev_asdict d = Ok (dev_val d) /\ writable (PDict (dev_val d)) /\ as_read (PDict (dev_val d)) = PDict (dev_val d).
Proof.
  intros d (_ & G & _). destruct (params_rt _ G) as (A & B & C & _). unfold dev_asdict, dev_val, dev_props. rewrite A. split; [reflexivity|]. split.
  - apply writable_dict; [apply two_keys|]. repeat (apply Forall_cons; [first [exact Logic.I|exact B]|]). apply Forall_nil.
  - cbn [as_read map fst snd] in C |- *. rewrite C. reflexivity.
Qed.
(** Reading back a written device gives the same device. *)
Theorem C72_device : forall d, good_dev d -> exists v d', dev_asdict d = Ok v /\ of_json (to_json (PDict v)) = Ok (PDict v)
  /\ dget "c3type" v = Some (PStr (e_class d)) /\ dev_new (e_class d) (ddel "c3type" v) = Ok d' /\ same_dev d d'.
Proof.
  intros d G. destruct (dev_written d G) as (A & B & C). exists (dev_val d), (dev_restored d). split; [exact A|]. split; [rewrite of_json_read by exact B; rewrite C; reflexivity|].
  split; [reflexivity|]. split; [|repeat split]. cbn [dev_val ddel String.eqb Ascii.eqb Bool.eqb]. apply dev_back. exact G.
Qed.
Print Assumptions C72_device.

(** ** Generator *)
Lemma chains_read : forall cs, good_chains cs -> writable (chains_val cs) /\ as_read (chains_val cs) = chains_val cs.
Proof.
  intros cs [U F]. assert (L : forall l : list string, as_read (PList (map PStr l)) = PList (map PStr l) /\ writable (PList (map PStr l))).
  { intro l. split; [cbn [as_read]; rewrite map_map; reflexivity|]. cbn [writable]. induction l; cbn; auto. }
  unfold chains_val. split.
  - apply writable_dict; [apply unmarked_map; [reflexivity|exact U]|]. apply Forall_map. eapply Forall_impl; [|exact F]. intros [k c] Hc. cbn [fst snd] in *.
    apply writable_dict; [apply unmarked_map; [reflexivity|exact Hc]|]. apply Forall_map. apply Forall_forall. intros [a l] _. apply L.
  - cbn [as_read]. f_equal. rewrite map_map. apply map_ext. intros [k c]. cbn [fst snd as_read]. do 2 f_equal. rewrite map_map. apply map_ext. intros [a l]. cbn [fst snd]. f_equal. apply L.
Qed.
Lemma chains_back : forall cs, exists d, chains_val cs = PDict d /\ read_chains d = Ok cs.
Proof.
  intro cs. eexists. split; [reflexivity|]. induction cs as [|[k c] cs IH]; [reflexivity|]. cbn [map fst snd read_chains]. rewrite IH.
  assert (E : read_chain (map (fun ks : string * list string => (fst ks, PList (map PStr (snd ks)))) c) = Ok c).
  { clear. induction c as [|[a l] c IH]; [reflexivity|]. cbn [map fst snd read_chain]. rewrite strs_back, IH. reflexivity. }
  rewrite E. reflexivity.
Qed.
Lemma devs_written : forall ds, Forall (fun kd => good_dev (snd kd)) ds -> asdicts dev_asdict ds = Ok (rmap (fun d => PDict (dev_val d)) ds).
Proof.
  intros ds F. induction F as [|[k d] ds G F IH]; [reflexivity|]. cbn [asdicts rmap map fst snd] in *. rewrite (proj1 (dev_written d G)). cbn [rbind]. rewrite IH. reflexivity.
Qed.
Lemma devs_back : forall ds, Forall (fun kd => good_dev (snd kd)) ds -> forall acc, NoDup (keys acc ++ keys ds)%list ->
  read_devs (rmap (fun d => PDict (dev_val d)) ds) acc = Ok (acc ++ rmap dev_restored ds)%list.
Proof.
  intros ds F. induction F as [|[k d] ds G F IH]; intros acc N; [cbn; rewrite app_nil_r; reflexivity|].
  cbn [rmap map fst snd read_devs] in *. unfold dev_val at 1 2 3. cbn [dget ddel String.eqb Ascii.eqb Bool.eqb].
  replace (dmem "name" (dev_props d)) with true by reflexivity. rewrite (dev_back d G). cbn [rbind].
  assert (Nk : ~ In k (keys acc)). { intro I. cbn [keys map fst] in N. apply NoDup_remove_2 in N. apply N. apply in_or_app. left. exact I. }
  rewrite dset_append by exact Nk. fold (rmap (fun d => PDict (dev_val d)) ds). rewrite IH; [rewrite <- app_assoc; reflexivity|]. rewrite keys_app, <- app_assoc. exact N.
Qed.
Lemma gen_written : forall g, Forall (fun kd => good_dev (snd kd)) (r_devices g) -> unmarked (keys (r_devices g)) -> good_chains (r_chains g) ->
  exists v, gen_asdict g = Ok v /\ writable (PDict v) /\ as_read (PDict v) = PDict v
  /\ dget "Devices" v = Some (PDict (rmap (fun d => PDict (dev_val d)) (r_devices g))) /\ dget "Chains" v = Some (chains_val (r_chains g)).
Proof.
  intros g F U C. unfold gen_asdict. rewrite (devs_written _ F). cbn [rbind]. eexists. split; [reflexivity|]. destruct (chains_read _ C) as [C1 C2]. split; [|split; [|split; reflexivity]].
  - apply writable_dict; [apply two_keys|]. constructor; [|constructor; [exact C1|constructor]]. cbn [snd]. apply writable_dict; [rewrite keys_rmap; exact U|].
    apply Forall_rmap. eapply Forall_impl; [|exact F]. intros [k d] G. apply dev_written. exact G.
  - cbn [as_read map fst snd]. rewrite C2. do 3 f_equal. f_equal. fold (rmap as_read (rmap (fun d => PDict (dev_val d)) (r_devices g))). rewrite rmap_rmap. apply rmap_ext. eapply Forall_impl; [|exact F]. intros [k d] G. apply dev_written. exact G.
Qed.
Lemma gen_back : forall devs chains res g v, Forall (fun kd => good_dev (snd kd)) devs -> NoDup (keys devs) ->
  gen_init devs chains res = Ok g -> dget "Devices" v = Some (PDict (rmap (fun d => PDict (dev_val d)) (r_devices g))) -> dget "Chains" v = Some (chains_val (r_chains g)) ->
  gen_fromdict v (mkGenerator [] [] [] 0) = Ok (mkGenerator (rmap dev_restored devs) chains (r_sorted g) 0).
Proof.
  intros devs chains res g v F N I D C. unfold gen_fromdict. rewrite D, C.
  assert (Er : r_devices g = devs /\ r_chains g = chains /\ check_chains (map (fun kd => (fst kd, chain_view (snd kd))) devs) chains [] = (r_sorted g, None)).
  { unfold gen_init in I. destruct chains as [|c cs]; [injection I as <-; auto|]. destruct (check_chains _ (c :: cs) []) as [srt [e|]] eqn:E; [discriminate|]. injection I as <-. auto. }
  destruct Er as (-> & -> & Ec). cbn [r_devices r_sorted r_resolution]. rewrite (devs_back devs F []) by exact N. cbn [rbind app].
  destruct (chains_back chains) as (d & -> & Ed). rewrite Ed. cbn [rbind].
  replace (map (fun kd => (fst kd, chain_view (snd kd))) (rmap dev_restored devs)) with (map (fun kd => (fst kd, chain_view (snd kd))) devs); [rewrite Ec; reflexivity|].
  unfold rmap. rewrite map_map. reflexivity.
Qed.
(** A generator accepted by its constructor is read back with the same devices, chains
    and orderings of the chains. *)
Theorem C72_generator : forall devs chains res g, Forall (fun kd => good_dev (snd kd)) devs -> NoDup (keys devs) -> unmarked (keys devs) -> good_chains chains ->
  gen_init devs chains res = Ok g ->
  exists g', gen_reread g = Ok g' /\ r_chains g' = r_chains g /\ r_sorted g' = r_sorted g /\ keys (r_devices g') = keys (r_devices g)
  /\ forall name, match dget name (r_devices g), dget name (r_devices g') with Some d, Some d' => same_dev d d' | None, None => True | _, _ => False end.
Proof.
  intros devs chains res g F N U C I.
  assert (Er : r_devices g = devs /\ r_chains g = chains).
  { unfold gen_init in I. destruct chains as [|c cs]; [injection I as <-; auto|]. destruct (check_chains _ (c :: cs) []) as [srt [e|]] eqn:E; [discriminate|]. injection I as <-. auto. }
  destruct Er as [E1 E2]. destruct (gen_written g) as (v & W1 & W2 & W3 & W4 & W5); [rewrite E1; exact F|rewrite E1; exact U|rewrite E2; exact C|].
  exists (mkGenerator (rmap dev_restored devs) chains (r_sorted g) 0). split.
  - unfold gen_reread. rewrite W1. cbn [rbind]. rewrite of_json_read by exact W2. rewrite W3. cbn [rbind]. eapply gen_back; eassumption.
  - cbn [r_chains r_sorted r_devices]. rewrite E1, E2, keys_rmap. split; [reflexivity|]. split; [reflexivity|]. split; [reflexivity|]. intro name. rewrite dget_rmap. destruct (dget name devs); cbn [option_map]; [repeat split|exact Logic.I].
Qed.
Print Assumptions C72_generator.

(** ** Model *)
Section Parts.
  Context {A : Type} (asd : A -> result (dict pyval)) (new : string -> dict pyval -> result A) (nm : A -> string) (val : A -> dict pyval).
  Definition part_rt (a : A) : Prop :=
    asd a = Ok (val a) /\ writable (PDict (val a)) /\ as_read (PDict (val a)) = PDict (val a)
    /\ exists ty, dget "c3type" (dset "name" (PStr (nm a)) (val a)) = Some (PStr ty) /\ new ty (ddel "c3type" (dset "name" (PStr (nm a)) (val a))) = Ok a.
  Lemma parts_rt : forall l, Forall part_rt l -> unmarked (map nm l) -> exists D, asdicts asd (map (fun a => (nm a, a)) l) = Ok D
    /\ writable (PDict D) /\ as_read (PDict D) = PDict D /\ read_parts new D = Ok l.
  Proof.
    intros l F U. exists (map (fun a => (nm a, PDict (val a))) l). split; [|split; [|split]].
    - clear U. induction F as [|a l (E & _) F IH]; [reflexivity|]. cbn [map asdicts]. rewrite E. cbn [rbind]. rewrite IH. reflexivity.
    - apply writable_dict; [unfold keys; rewrite map_map; exact U|]. apply Forall_map. eapply Forall_impl; [|exact F]. intros a (_ & W & _). exact W.
    - cbn [as_read]. f_equal. rewrite map_map. apply map_ext_Forall. eapply Forall_impl; [|exact F]. intros a (_ & _ & E & _). cbn [fst snd]. rewrite E. reflexivity.
    - clear U. induction F as [|a l (_ & _ & _ & ty & E1 & E2) F IH]; [reflexivity|]. cbn [map read_parts]. rewrite E1, E2. cbn [rbind]. rewrite IH. reflexivity.
  Qed.
End Parts.
Definition phys_val (p : phys) : dict pyval := [("c3type", PStr (p_class p)); ("params", PDict (rmap pdict (p_params p))); ("hilbert_dim", p_dim p)].
Lemma phys_rt : forall p, good_phys p -> p_drive p = None -> part_rt phys_asdict phys_new p_name phys_val p.
Proof.
  intros p (I & G & Wd & Pd) Dr. destruct (params_rt _ G) as (A & B & C & D). unfold part_rt, phys_asdict, phys_val. rewrite A. split; [reflexivity|]. split; [|split].
  - apply writable_dict; [apply two_keys|]. repeat (apply Forall_cons; [first [exact Logic.I|exact B|exact Wd]|]). apply Forall_nil.
  - cbn [as_read map fst snd] in C |- *. rewrite C, (plain_read _ Pd). reflexivity.
  - exists (p_class p). split; [reflexivity|]. cbn [dset ddel String.eqb Ascii.eqb Bool.eqb]. destruct p as [cls name dim ps dr]. cbn [p_class p_name p_dim p_params p_drive] in *. subst dr.
    unfold kept_phys in I. cbn [In] in I.
    repeat (destruct I as [I|I]; [subst cls; unfold phys_new, popped, check_args, str_arg; cbn [String.eqb Ascii.eqb Bool.eqb orb andb negb popped dget dmem keys map fst forallb existsb base_kw app rbind obj_params];
      rewrite D; reflexivity|]). contradiction.
Qed.
Definition line_val (l : line) : dict pyval := [("c3type", PStr (l_class l)); ("params", PDict (rmap pdict (l_params l))); ("hamiltonian_func", PStr (l_func l)); ("connected", PList (map PStr (l_conn l)))].
Lemma line_rt : forall l, good_line l -> part_rt line_asdict line_new l_name line_val l.
Proof.
  intros l (I & Fn & G). destruct (params_rt _ G) as (A & B & C & D). unfold part_rt, line_asdict, line_val. rewrite A. split; [reflexivity|]. split; [|split].
  - apply writable_dict; [apply two_keys|]. repeat (apply Forall_cons; [first [exact Logic.I|exact B|idtac]|]); [|apply Forall_nil]. cbn [snd writable]. induction (l_conn l); cbn; auto.
  - cbn [as_read map fst snd] in C |- *. rewrite C, map_map. reflexivity.
  - exists (l_class l). split; [reflexivity|]. cbn [dset ddel String.eqb Ascii.eqb Bool.eqb]. destruct l as [cls name fn conn ps]. cbn [l_class l_name l_func l_conn l_params] in *.
    cbn [In] in I.
    repeat (destruct I as [I|I]; [subst cls; unfold line_new, popped, check_args, str_arg; cbn [String.eqb Ascii.eqb Bool.eqb orb andb negb popped dget dmem keys map fst forallb existsb base_kw app rbind obj_params str_of];
      rewrite strs_back; cbn [rbind]; fold (existsb (String.eqb fn) ham_names); rewrite (in_existsb _ _ Fn); cbn [negb rbind]; rewrite D; reflexivity|]). contradiction.
Qed.
Definition task_val (k : task) : dict pyval := [("c3type", PStr (k_class k)); ("params", PDict (rmap pdict (k_params k))); ("name", PStr (k_name k))].
Lemma task_rt : forall k, good_task k -> part_rt task_asdict task_new k_name task_val k.
Proof.
  intros k (I & G). destruct (params_rt _ G) as (A & B & C & D). unfold part_rt, task_asdict, task_val. rewrite A. split; [reflexivity|]. split; [|split].
  - apply writable_dict; [apply two_keys|]. repeat (apply Forall_cons; [first [exact Logic.I|exact B]|]). apply Forall_nil.
  - cbn [as_read map fst snd] in C |- *. rewrite C. reflexivity.
  - exists (k_class k). split; [reflexivity|]. cbn [dset ddel String.eqb Ascii.eqb Bool.eqb]. destruct k as [cls name ps]. cbn [k_class k_name k_params] in *.
    cbn [In] in I.
    repeat (destruct I as [I|I]; [subst cls; unfold task_new, popped, str_arg; cbn [String.eqb Ascii.eqb Bool.eqb orb andb negb popped dget dmem keys map fst forallb existsb app rbind obj_params];
      rewrite D; reflexivity|]). contradiction.
Qed.
Lemma fold_named : forall {A} (nm : A -> string) (l : list A) acc, NoDup (keys acc ++ map nm l)%list ->
  fold_left (fun d a => dset (nm a) a d) l acc = (acc ++ map (fun a => (nm a, a)) l)%list.
Proof.
  intros A nm l. induction l as [|a l IH]; intros acc N; [cbn; rewrite app_nil_r; reflexivity|]. cbn [fold_left map] in *.
  assert (Na : ~ In (nm a) (keys acc)). { intro I. apply NoDup_remove_2 in N. apply N. apply in_or_app. left. exact I. }
  rewrite dset_append by exact Na. rewrite IH; [rewrite <- app_assoc; reflexivity|]. rewrite keys_app, <- app_assoc. exact N.
Qed.
Definition undriven (p : phys) : phys := mkPhys (p_class p) (p_name p) (p_dim p) (p_params p) None.
Lemma drive_connect_undriven : forall nm conn subs subs', drive_connect nm conn subs = Ok subs' -> rmap undriven subs' = rmap undriven subs.
Proof.
  intros nm conn. induction conn as [|c r IH]; intros subs subs' E; cbn [drive_connect] in E; [injection E as <-; reflexivity|].
  destruct (dget c subs) as [p|] eqn:G; [|discriminate]. rewrite (IH _ _ E), rmap_dset. apply dset_same. rewrite dget_rmap, G. reflexivity.
Qed.
Lemma add_lines_split : forall ls ss cs ss' cs', add_lines ls ss cs = Ok (ss', cs') ->
  rmap undriven ss' = rmap undriven ss /\ cs' = fold_left (fun d l => dset (l_name l) l d) ls cs.
Proof.
  intro ls. induction ls as [|l ls IH]; intros ss cs ss' cs' E; cbn [add_lines fold_left] in *; [injection E as <- <-; auto|].
  set (rr := if existsb _ _ then _ else Ok ss) in E. assert (R : forall s, rr = Ok s -> rmap undriven s = rmap undriven ss).
  { intros s Es. unfold rr in Es. destruct (existsb _ _); [exact (drive_connect_undriven _ _ _ _ Es)|injection Es as <-; reflexivity]. }
  destruct rr as [s|e]; cbn [rbind] in E; [|discriminate]. destruct (forallb _ _); [|discriminate]. destruct (IH _ _ _ _ E) as [E1 E2]. rewrite E1. split; [apply R; reflexivity|exact E2].
Qed.
Lemma asdicts_undriven : forall ss, asdicts phys_asdict (rmap undriven ss) = asdicts phys_asdict ss.
Proof. intro ss. induction ss as [|[k p] ss IH]; [reflexivity|]. cbn [rmap map fst snd asdicts]. fold (rmap undriven ss). rewrite IH. reflexivity. Qed.
Lemma rmap_undriven_named : forall l, Forall (fun p => p_drive p = None) l -> rmap undriven (map (fun p => (p_name p, p)) l) = map (fun p => (p_name p, p)) l.
Proof.
  intros l F. unfold rmap. rewrite map_map. apply map_ext_Forall. eapply Forall_impl; [|exact F]. intros [c n d ps dr] E. cbn in *. subst dr. reflexivity.
Qed.
(** What [Model(...)] stores, and what it writes. *)
Lemma model_made : forall subs coups tasks maxex m, subs <> [] -> NoDup (map p_name subs) -> NoDup (map l_name coups) -> NoDup (map k_name tasks) ->
  Forall (fun p => p_drive p = None) subs -> model_init subs (Some coups) tasks maxex = Ok m ->
  rmap undriven (m_subs m) = map (fun p => (p_name p, p)) subs /\ m_coups m = map (fun l => (l_name l, l)) coups /\ m_tasks m = map (fun k => (k_name k, k)) tasks
  /\ m_maxex m = Some maxex.
Proof.
  intros subs coups tasks maxex m Ne N1 N2 N3 Dr I. unfold model_init in I.
  assert (I' : rbind (set_components subs (Some coups) maxex model_blank) (fun m => Ok (match tasks with [] => m | _ => set_tasks tasks m end)) = Ok m) by (destruct subs; [contradiction|exact I]).
  clear I. unfold set_components in I'. rewrite (fold_named p_name) in I' by exact N1. cbn [app m_subs m_coups model_blank] in I'.
  destruct (add_lines coups _ []) as [[ss cs]|e] eqn:E; [|discriminate]. cbn [rbind] in I'. destruct (existsb _ _); [discriminate|]. cbn [rbind] in I'.
  destruct (add_lines_split _ _ _ _ _ E) as [E1 E2]. rewrite rmap_undriven_named in E1 by exact Dr. rewrite (fold_named l_name) in E2 by exact N2. cbn [app] in E2.
  destruct tasks as [|k ks]; injection I' as <-; cbn [m_subs m_coups m_tasks m_maxex set_tasks model_blank]; [auto|].
  split; [exact E1|]. split; [exact E2|]. split; [|reflexivity]. exact (fold_named k_name (k :: ks) [] N3).
Qed.
Definition good_model (subs : list phys) (coups : list line) (tasks : list task) (maxex : pyval) : Prop :=
  subs <> [] /\ NoDup (map p_name subs) /\ NoDup (map l_name coups) /\ NoDup (map k_name tasks)
  /\ unmarked (map p_name subs) /\ unmarked (map l_name coups) /\ unmarked (map k_name tasks)
  /\ Forall (fun p => good_phys p /\ p_drive p = None) subs /\ Forall good_line coups /\ Forall good_task tasks /\ writable maxex /\ plain maxex.
Lemma model_written : forall subs coups tasks maxex m dr li, good_model subs coups tasks maxex -> model_init subs (Some coups) tasks maxex = Ok m ->
  exists v, model_asdict (with_flags dr li m) = Ok v /\ writable (PDict v) /\ as_read (PDict v) = PDict v /\ model_fromdict v model_blank = Ok m.
Proof.
  intros subs coups tasks maxex m dr li (Ne & N1 & N2 & N3 & U1 & U2 & U3 & F1 & F2 & F3 & Wx & Px) I.
  assert (Dr : Forall (fun p => p_drive p = None) subs) by (eapply Forall_impl; [|exact F1]; intros p [_ X]; exact X).
  destruct (model_made subs coups tasks maxex m Ne N1 N2 N3 Dr I) as (E1 & E2 & E3 & E4).
  destruct (parts_rt phys_asdict phys_new p_name phys_val subs) as (D1 & A1 & W1 & R1 & B1); [eapply Forall_impl; [|exact F1]; intros p [X Y]; exact (phys_rt p X Y)|exact U1|].
  destruct (parts_rt line_asdict line_new l_name line_val coups) as (D2 & A2 & W2 & R2 & B2); [eapply Forall_impl; [|exact F2]; exact line_rt|exact U2|].
  destruct (parts_rt task_asdict task_new k_name task_val tasks) as (D3 & A3 & W3 & R3 & B3); [eapply Forall_impl; [|exact F3]; exact task_rt|exact U3|].
  exists [("Qubits", PDict D1); ("Couplings", PDict D2); ("Tasks", PDict D3); ("max_excitations", maxex)].
  split; [|split; [|split]].
  - unfold model_asdict, with_flags. cbn [m_subs m_coups m_tasks m_maxex]. rewrite <- asdicts_undriven, E1, A1. cbn [rbind]. rewrite E2, A2. cbn [rbind]. rewrite E3, A3. cbn [rbind]. rewrite E4. reflexivity.
  - apply writable_dict; [apply two_keys|]. repeat (apply Forall_cons; [assumption|]). apply Forall_nil.
  - cbn [as_read map fst snd] in R1, R2, R3 |- *. rewrite R1, R2, R3, (plain_read _ Px). reflexivity.
  - unfold model_fromdict, section. cbn [dget String.eqb Ascii.eqb Bool.eqb rbind popped]. rewrite B1. cbn [rbind]. rewrite B2. cbn [rbind]. rewrite B3. cbn [rbind].
    assert (I' : rbind (set_components subs (Some coups) maxex model_blank) (fun m => Ok (match tasks with [] => m | _ => set_tasks tasks m end)) = Ok m) by (unfold model_init in I; destruct subs; [contradiction|exact I]).
    unfold set_components in *. cbn [m_subs m_coups m_tasks model_blank set_tasks m_dressed m_lind m_fr m_deph] in *.
    destruct (add_lines coups _ []) as [[ss cs]|e]; [|discriminate]. cbn [rbind] in *. destruct (existsb _ _); [discriminate|]. cbn [rbind] in *.
    destruct tasks; injection I' as <-; reflexivity.
Qed.
(** A model built from components of the kept classes is read back as it was built,
    whatever its flags: the dressed and Lindbladian flags take their defaults. *)
Theorem C72_model : forall subs coups tasks maxex m dr li, good_model subs coups tasks maxex -> model_init subs (Some coups) tasks maxex = Ok m ->
  model_reread (with_flags dr li m) = Ok m.
Proof.
  intros subs coups tasks maxex m dr li G I. destruct (model_written subs coups tasks maxex m dr li G I) as (v & A & B & C & D).
  unfold model_reread. rewrite A. cbn [rbind]. rewrite of_json_read by exact B. rewrite C. exact D.
Qed.
Print Assumptions C72_model.
(** The requirement on the parameters of a device holds for whatever its constructor
    accepts, as long as the parameters are quantities. *)
Lemma needs_keys : forall ks d d', needs ks d = Ok d' -> d' = d /\ forall k, In k ks -> dget k (e_params d) <> None.
Proof.
  intros ks d d' E. unfold needs in E. destruct (forallb _ ks) eqn:F; [|discriminate]. injection E as <-. split; [reflexivity|]. intros k I G.
  rewrite forallb_forall in F. specialize (F k I). unfold dmem in F. rewrite G in F. discriminate.
Qed.
Lemma device_base_class : forall cls props d, device_base cls props = Ok d -> e_class d = cls.
Proof.
  intros cls props d E. unfold device_base in E. destruct (arg "inputs" _ _ _); [|discriminate]. destruct (arg "outputs" _ _ _); [|discriminate]. destruct (arg "resolution" _ _ _); [|discriminate].
  cbn [rbind] in E. destruct (dget "name" props); [|discriminate]. destruct (str_of p); [|discriminate]. cbn [rbind] in E. destruct (arg "params" _ _ _); [|discriminate]. cbn [rbind] in E.
  destruct (obj_params _); [|discriminate]. injection E as <-. reflexivity.
Qed.
Lemma with_io_class : forall a b props d d', with_io a b props d = Ok d' -> e_class d' = e_class d /\ e_params d' = e_params d.
Proof. intros a b props d d' E. unfold with_io in E. destruct (match a with None => _ | _ => _ end); [|discriminate]. cbn [rbind] in E. destruct (match b with None => _ | _ => _ end); [|discriminate]. injection E as <-. auto. Qed.
Ltac io_class := repeat match goal with
  | H : with_io _ _ _ _ = Ok _ |- _ => apply with_io_class in H; destruct H as [? ?]
  | H : device_base _ _ = Ok _ |- _ => apply device_base_class in H end.
Ltac open_bind E := match type of E with rbind ?r _ = Ok _ => let d := fresh "d" in destruct r as [d|] eqn:?; [cbn [rbind] in E|discriminate E] end.
Lemma plain_new : forall cls a b props d, rbind (device_base cls props) (with_io a b props) = Ok d -> e_class d = cls.
Proof. intros cls a b props d E. open_bind E. io_class. congruence. Qed.
Lemma noise_class : forall cls props d, noise_new cls props = Ok d -> e_class d = cls.
Proof. intros cls props d E. unfold noise_new in E. open_bind E. open_bind E. injection E as <-. io_class. destruct (dget "noise_amp" props); [change (e_class d1 = cls)|]; congruence. Qed.
Theorem C72_device_new : forall cls props d, In cls kept_devices -> dev_new cls props = Ok d -> good_params (e_params d) -> good_dev d.
Proof.
  intros cls props d K E G.
  assert (H : e_class d = cls /\ forall k, In k (needed cls) -> dget k (e_params d) <> None).
  { clear G. unfold kept_devices in K. cbn [In] in K. unfold dev_new in E.
    repeat (destruct K as [K|K]; [subst cls; cbn [existsb String.eqb Ascii.eqb Bool.eqb orb] in E; try (split; [first [exact (plain_new _ _ _ _ _ E)|exact (noise_class _ _ _ E)]|intros k []]; fail)|]); try contradiction.
    - open_bind E. apply needs_keys in E. destruct E as [-> E]. io_class. split; [assumption|exact E].
    - open_bind E. open_bind E. injection E as <-. io_class. split; [change (e_class d1 = "DigitalToAnalog"); congruence|intros k []].
    - open_bind E. open_bind E. open_bind E. apply needs_keys in E. destruct E as [-> E]. io_class. split; [|exact E]. change (e_class (with_attr "two_inputs" (popped "two_inputs" (PBool false) props) d0)) with (e_class d0) in *. congruence.
    - open_bind E. open_bind E. apply needs_keys in E. destruct E as [-> E]. io_class. split; [congruence|exact E].
    - open_bind E. open_bind E. io_class. split.
      + destruct (dget "offset_amp" (e_params d1)) as [v|]; [|discriminate]. destruct v; try (injection E as <-; congruence). destruct (dget "offset_amp" props) as [v|]; [|discriminate]. injection E as <-. change (e_class d1 = "DC_Offset"). congruence.
      + intros k [<-|[]]. destruct (dget "offset_amp" (e_params d1)) as [v|] eqn:Ev; [|discriminate]. destruct v; try (injection E as <-; rewrite Ev; discriminate).
        destruct (dget "offset_amp" props) as [v|]; [|discriminate]. injection E as <-. change (dget "offset_amp" (dset "offset_amp" v (e_params d1)) <> None). rewrite dget_dset_same. discriminate.
    - open_bind E. open_bind E. injection E as <-. io_class. split; [change (e_class d1 = "LO"); congruence|intros k []].
    - open_bind E. io_class. split; [|intros k []]. change (e_class (with_attr "logdir" (popped "logdir" (PStr "c3logs/AWG") props) d0)) with (e_class d0) in *. congruence. }
  destruct H as [H1 H]. unfold good_dev. rewrite H1. split; [exact K|]. split; [exact G|exact H].
Qed.
Print Assumptions C72_device_new.

(** ** What is lost *)
Lemma unwritable : forall ps k v, In (k, v) ps -> (forall q, v <> PQty q) -> params_asdict ps = Err AttributeError.
Proof.
  intros ps k v I N. induction ps as [|[a b] ps IH]; [contradiction|]. destruct I as [I|I]; [injection I as -> ->; destruct v; try reflexivity; exfalso; exact (N q eq_refl)|].
  cbn [params_asdict]. destruct b; try reflexivity. rewrite (IH I). reflexivity.
Qed.
Lemma conv_keeps : forall o o' k v, conv_options o = Ok o' -> dget k o = Some v -> (forall d, v <> PDict d) -> dget k o' = Some v.
Proof.
  intro o. induction o as [|[a b] o IH]; intros o' k v E G N; [discriminate|]. cbn [conv_options] in E. destruct (match b with PDict d => _ | _ => _ end) as [b'|] eqn:Eb; [|discriminate]. cbn [rbind] in E.
  destruct (conv_options o) as [r|] eqn:Er; [|discriminate]. injection E as <-. cbn [dget] in *. destruct (String.eqb k a); [|exact (IH r k v eq_refl G N)].
  injection G as ->. destruct v; try (injection Eb as <-; reflexivity). exfalso. exact (N d eq_refl).
Qed.
Lemma without_get : forall ks d k, ~ In k ks -> dget k (without ks d) = dget k d.
Proof. intros ks d k N. unfold without. induction ks as [|a ks IH]; [reflexivity|]. cbn [fold_right]. rewrite dget_ddel_other; [apply IH|]; cbn [In] in N; intuition congruence. Qed.
Lemma without_nodup : forall ks d, NoDup (keys d) -> NoDup (keys (without ks d)).
Proof. intros ks d N. unfold without. induction ks as [|a ks IH]; [exact N|]. cbn [fold_right]. apply keys_ddel_nodup. exact IH. Qed.
Lemma keyword_kept : forall cls props d k v, NoDup (keys props) -> device_base cls props = Ok d -> dget k props = Some v -> (forall e, v <> PDict e) ->
  ~ In k ["inputs"; "outputs"; "resolution"; "name"; "desc"; "comment"; "params"] -> dget k (e_params d) = Some v.
Proof.
  intros cls props d k v Nd E G N K. unfold device_base in E. destruct (arg "inputs" _ _ _); [|discriminate]. destruct (arg "outputs" _ _ _); [|discriminate]. destruct (arg "resolution" _ _ _); [|discriminate].
  cbn [rbind] in E. destruct (dget "name" props); [|discriminate]. destruct (str_of p); [|discriminate]. cbn [rbind] in E. destruct (arg "params" _ _ _) as [ps|]; [|discriminate]. cbn [rbind] in E.
  destruct (obj_params _) as [ps'|] eqn:Eo; [|discriminate]. injection E as <-. cbn [e_params obj_params] in *. eapply conv_keeps; [exact Eo| |exact N].
  rewrite dupdate_get by (apply without_nodup; exact Nd). rewrite without_get by exact K. rewrite G. reflexivity.
Qed.
(** Finding: a device given a keyword that is no quantity cannot be written, as for
    every sampling method of a DigitalToAnalog and every noise level of an LO. *)
Theorem C72_keyword_refuted :
  (forall props d s, NoDup (keys props) -> dev_new "DigitalToAnalog" props = Ok d -> dget "sampling_method" props = Some (PStr s) -> dev_asdict d = Err AttributeError)
  /\ (forall props d k r, NoDup (keys props) -> dev_new "LO" props = Ok d -> In k ["phase_noise"; "freq_noise"; "amp_noise"] -> dget k props = Some (PNum r) -> dev_asdict d = Err AttributeError)
  /\ (forall p k v, In (k, v) (p_params p) -> (forall q, v <> PQty q) -> phys_asdict p = Err AttributeError).
Proof.
  split; [|split].
  - intros props d s N E G. unfold dev_new in E. cbn [existsb String.eqb Ascii.eqb Bool.eqb orb] in E. open_bind E. open_bind E. injection E as <-. apply with_io_class in Heqr0. destruct Heqr0 as [_ P].
    unfold dev_asdict. change (e_params (with_attr _ _ d1)) with (e_params d1). rewrite P. erewrite (unwritable (e_params d0)); [reflexivity| |].
    + apply dget_Some_in. eapply keyword_kept; [exact N|exact Heqr|exact G|discriminate|cbn; intuition discriminate].
    + discriminate.
  - intros props d k r N E K G. unfold dev_new in E. cbn [existsb String.eqb Ascii.eqb Bool.eqb orb] in E. open_bind E. open_bind E. injection E as <-. apply with_io_class in Heqr1. destruct Heqr1 as [_ P].
    unfold dev_asdict. change (e_params (with_attr _ _ (with_attr _ _ (with_attr _ _ d1)))) with (e_params d1). rewrite P. erewrite (unwritable (e_params d0)); [reflexivity| |].
    + apply dget_Some_in. eapply keyword_kept; [exact N|exact Heqr0|exact G|discriminate|]. intro I. cbn [In] in K, I. intuition (subst; discriminate).
    + discriminate.
  - intros p k v I N. unfold phys_asdict. rewrite (unwritable _ k v I N). reflexivity.
Qed.
Print Assumptions C72_keyword_refuted.
(** Finding: these classes do not come back: a Crosstalk loses its channels and its
    matrix, after which it cannot be written any more; a Pink_Noise gets the default
    number of fluctuators; an LONoise and a FluxTuningLinear cannot be read. *)
Theorem C72_classes_refuted : forall d, good_params (e_params d) ->
  (e_class d = "Crosstalk" -> exists d', dev_new "Crosstalk" (ddel "c3type" (dev_val d)) = Ok d' /\ dget "channels" (e_attrs d') = Some PNone
     /\ dget "crosstalk_matrix" (e_params d') = Some PNone /\ dev_asdict d' = Err AttributeError)
  /\ (e_class d = "Pink_Noise" -> exists d', dev_new "Pink_Noise" (ddel "c3type" (dev_val d)) = Ok d' /\ dget "bfl_num" (e_params d') = Some (PQty (qty 5 1 10 "undefined")))
  /\ dev_new "LONoise" (ddel "c3type" (dev_val d)) = Err KeyError
  /\ dev_new "FluxTuningLinear" (ddel "c3type" (dev_val d)) = Err KeyError
  /\ dev_asdict d = Ok (dev_val d).
Proof.
  intros d G. change (ddel "c3type" (dev_val d)) with (dev_props d). split; [|split; [|split; [|split]]].
  - intros _. unfold dev_new. cbn [existsb String.eqb Ascii.eqb Bool.eqb orb]. change (ddel "channels" (dev_props d)) with (dev_props d). rewrite (base_back _ d G). cbn [rbind]. rewrite io_back. cbn [rbind].
    eexists. split; [reflexivity|]. split; [reflexivity|]. cbn [with_param with_attr e_class e_name e_in e_out e_res e_params e_attrs popped dev_props dget String.eqb Ascii.eqb Bool.eqb].
    assert (Q : dget "crosstalk_matrix" (dset "crosstalk_matrix" PNone (e_params d)) = Some PNone) by apply dget_dset_same. split; [exact Q|].
    unfold dev_asdict. cbn [e_params]. rewrite (unwritable _ "crosstalk_matrix" PNone); [reflexivity| |discriminate]. apply dget_Some_in. exact Q.
  - intros _. unfold dev_new, noise_new. cbn [existsb String.eqb Ascii.eqb Bool.eqb orb]. rewrite (base_back _ d G). cbn [rbind]. rewrite io_back. cbn [rbind].
    eexists. split; [reflexivity|]. cbn [popped dev_props dget String.eqb Ascii.eqb Bool.eqb with_param e_params]. apply dget_dset_same.
  - unfold dev_new. cbn [existsb String.eqb Ascii.eqb Bool.eqb orb]. rewrite (base_back _ d G). cbn [rbind]. rewrite io_back. reflexivity.
  - reflexivity.
  - unfold dev_asdict. rewrite (proj1 (params_rt _ G)). reflexivity.
Qed.
Print Assumptions C72_classes_refuted.
(** Finding: attributes that are no parameters take their defaults: the two inputs of a
    CouplingTuning, and the resolution of the generator. *)
Theorem C72_attributes_refuted :
  (forall d d', good_dev d -> e_class d = "CouplingTuning" -> dev_new (e_class d) (ddel "c3type" (dev_val d)) = Ok d' -> dget "two_inputs" (e_attrs d') = Some (PBool false))
  /\ (forall g g', gen_reread g = Ok g' -> r_resolution g' = 0%R).
Proof.
  split.
  - intros d d' G C E. change (ddel "c3type" (dev_val d)) with (dev_props d) in E. rewrite (dev_back d G) in E. injection E as <-. unfold dev_restored. rewrite C. reflexivity.
  - intros g g' E. unfold gen_reread in E. open_bind E. open_bind E. destruct d0; try discriminate. unfold gen_fromdict in E. destruct (dget "Devices" d0) as [[]|]; try discriminate. open_bind E.
    destruct (dget "Chains" d0) as [[]|]; try discriminate. open_bind E. destruct (check_chains _ _ _) as [? [e|]]; [discriminate|]. injection E as <-. reflexivity.
Qed.
Print Assumptions C72_attributes_refuted.
Lemma of_pairs_keys : forall d d', of_pairs d = Ok d' -> keys d' = keys d.
Proof.
  intro d. induction d as [|[k v] d IH]; intros d' E; cbn [of_pairs] in E; [injection E as <-; reflexivity|]. open_bind E. open_bind E. injection E as <-. cbn [keys map fst]. f_equal. apply IH. reflexivity.
Qed.
(** Finding: a model always comes back dressed and closed; a model without couplings (the
    default) cannot be built; one without components cannot be written; a SNAIL cannot be
    written after it is read. *)
Theorem C72_model_refuted :
  (forall m m', model_reread m = Ok m' -> m_dressed m' = true /\ m_lind m' = false)
  /\ (forall subs tasks maxex, subs <> [] -> model_init subs None tasks maxex = Err TypeError)
  /\ (forall coups tasks maxex m, Forall good_task tasks -> NoDup (map k_name tasks) -> model_init [] coups tasks maxex = Ok m -> model_asdict m = Err AttributeError)
  /\ (forall name p dim, good_params (p_params p) -> exists p', phys_new "SNAIL" [("params", PDict (rmap pdict (p_params p))); ("hilbert_dim", dim); ("name", PStr name)] = Ok p'
      /\ dget "freq" (p_params p') = Some PNone /\ phys_asdict p' = Err AttributeError).
Proof.
  split; [|split; [|split]].
  - intros m m' E. unfold model_reread in E. open_bind E. open_bind E. destruct d0; try discriminate.
    assert (W : dget "use_dressed_basis" d0 = None).
    { unfold model_asdict in Heqr. open_bind Heqr. open_bind Heqr. open_bind Heqr. destruct (m_maxex m) as [x|]; [|discriminate]. injection Heqr as <-.
      cbn [to_json map fst snd] in Heqr0. rewrite of_json_dict in Heqr0. open_bind Heqr0. apply of_pairs_keys in Heqr. cbn [keys map fst] in Heqr.
      destruct d as [|[a0 b0] [|[a1 b1] [|[a2 b2] [|[a3 b3] [|]]]]]; try discriminate Heqr. injection Heqr as -> -> -> ->. injection Heqr0 as <-. reflexivity. }
    unfold model_fromdict in E. rewrite W in E. open_bind E. open_bind E. open_bind E. open_bind E. open_bind E. open_bind E. injection E as <-. cbn [m_dressed m_lind].
    assert (Ef : m_dressed d6 = m_dressed d5 /\ m_lind d6 = m_lind d5).
    { unfold set_components in Heqr6. open_bind Heqr6. destruct d7 as [ss cs]. destruct (existsb _ _); [discriminate|]. injection Heqr6 as <-. auto. }
    destruct Ef as [-> ->]. destruct (dget "Tasks" d0) as [[]|]; try discriminate; [open_bind Heqr5|]; injection Heqr5 as <-; auto.
  - intros [|p subs] tasks maxex N; [contradiction|reflexivity].
  - intros coups tasks maxex m F N E. unfold model_init in E. cbn [rbind] in E. assert (Em : m_maxex m = None /\ m_subs m = [] /\ m_coups m = [] /\ m_tasks m = map (fun k => (k_name k, k)) tasks).
    { destruct tasks as [|k ks]; injection E as <-; [auto|]. cbn [set_tasks m_maxex m_subs m_coups m_tasks model_blank]. repeat split. exact (fold_named k_name (k :: ks) [] N). }
    destruct Em as (E1 & E2 & E3 & E4). unfold model_asdict. rewrite E2, E3, E4, E1. cbn [asdicts rbind].
    assert (A : asdicts task_asdict (map (fun k => (k_name k, k)) tasks) = Ok (map (fun k => (k_name k, PDict (task_val k))) tasks)).
    { clear N E E4. induction F as [|k ks G F IH]; [reflexivity|]. cbn [map asdicts]. rewrite (proj1 (task_rt k G)). cbn [rbind]. rewrite IH. reflexivity. }
    rewrite A. reflexivity.
  - intros name p dim G. destruct (params_rt _ G) as (_ & _ & _ & C). unfold phys_new, popped, check_args, str_arg.
    cbn [String.eqb Ascii.eqb Bool.eqb orb andb negb popped dget dmem keys map fst forallb existsb base_kw app rbind obj_params]. rewrite C. cbn [rbind].
    eexists. split; [reflexivity|]. cbn [p_params add_kw fold_left dget String.eqb Ascii.eqb Bool.eqb].
    set (ps := dset "beta" PNone (dset "freq" PNone (p_params p))).
    assert (Q : dget "freq" ps = Some PNone) by (unfold ps; rewrite dget_dset_other by discriminate; apply dget_dset_same). split; [exact Q|].
    unfold phys_asdict. cbn [p_params]. rewrite (unwritable ps "freq" PNone); [reflexivity|apply dget_Some_in; exact Q|discriminate].
Qed.
Print Assumptions C72_model_refuted.

(** ** Experiment *)
(** Writing an experiment and reading it into a new one gives back the model, the
    generator, the instructions and the options; the method of propagation is the
    default one. *)
Theorem C97_experiment : forall ideal_of_name x subs coups tasks maxex m dr li devs chains res,
  good_model subs coups tasks maxex -> model_init subs (Some coups) tasks maxex = Ok m -> x_model x = with_flags dr li m ->
  Forall (fun kd => good_dev (snd kd)) devs -> NoDup (keys devs) -> unmarked (keys devs) -> good_chains chains -> gen_init devs chains res = Ok (x_gen x) ->
  Forall (fun ki => valid (snd ki)) (x_instrs x) -> NoDup (keys (x_instrs x)) -> unmarked (keys (x_instrs x)) ->
  Forall (fun v => writable v /\ plain v) [x_batch x; x_control x; x_overwrite x; x_stop x] ->
  exists x', exp_reread ideal_of_name x = Ok x'
  /\ x_model x' = m /\ gen_reread (x_gen x) = Ok (x_gen x') /\ pmap_reread ideal_of_name (x_instrs x) = Ok (x_instrs x')
  /\ x_batch x' = x_batch x /\ x_control x' = x_control x /\ x_overwrite x' = x_overwrite x /\ x_stop x' = x_stop x
  /\ x_res x' = x_res x /\ x_method x' = "pwc".
Proof.
  intros f x subs coups tasks maxex m dr li devs chains res Gm Im Em Fd Nd Ud Gc Ig Fi Ni Ui Fo.
  destruct (model_written subs coups tasks maxex m dr li Gm Im) as (vm & M1 & M2 & M3 & M4).
  assert (Er : r_devices (x_gen x) = devs /\ r_chains (x_gen x) = chains).
  { pose proof Ig as I. unfold gen_init in I. destruct chains as [|c cs]; [injection I as <-; auto|]. destruct (check_chains _ (c :: cs) []) as [srt [e|]]; [discriminate|]. injection I as <-. auto. }
  destruct (gen_written (x_gen x)) as (vg & G1 & G2 & G3 & G4 & G5); [rewrite (proj1 Er); exact Fd|rewrite (proj1 Er); exact Ud|rewrite (proj2 Er); exact Gc|].
  pose proof (gen_back devs chains res (x_gen x) vg Fd Nd Ig G4 G5) as G6.
  assert (P1 : writable (PDict (pmap_asdict (x_instrs x)))).
  { unfold pmap_asdict. apply writable_dict; [apply unmarked_map; [reflexivity|exact Ui]|]. apply Forall_map. eapply Forall_impl; [|exact Fi]. intros [k i] V. apply writable_asdict. exact V. }
  assert (P2 : as_read (PDict (pmap_asdict (x_instrs x))) = PDict (rmap (fun i => PDict (rmap as_read (instr_asdict i))) (x_instrs x))).
  { cbn [as_read]. unfold pmap_asdict, rmap. rewrite map_map. reflexivity. }
  pose proof (pmap_from f (x_instrs x) Fi [] Ni) as P3. cbn [app] in P3.
  inversion Fo as [|? ? [O1 Q1] Fo1]; subst. inversion Fo1 as [|? ? [O2 Q2] Fo2]; subst. inversion Fo2 as [|? ? [O3 Q3] Fo3]; subst. inversion Fo3 as [|? ? [O4 Q4] _]; subst.
  eexists (mkCExp m (mkGenerator (rmap dev_restored (r_devices (x_gen x))) (r_chains (x_gen x)) (r_sorted (x_gen x)) 0) (rmap restored (x_instrs x)) (x_batch x) (x_control x) (x_overwrite x) (x_stop x) (x_res x) "pwc").
  split; [|split; [reflexivity|split; [|split; [|repeat split]]]].
  - unfold exp_reread, exp_asdict. rewrite Em, M1. cbn [rbind]. rewrite G1. cbn [rbind]. rewrite of_json_read.
    2:{ apply writable_dict; [apply two_keys|]. repeat (apply Forall_cons; [first [exact P1|exact M2|exact G2|exact Logic.I|idtac]|]); [|apply Forall_nil]. cbn [snd]. apply writable_dict; [apply two_keys|].
        repeat (apply Forall_cons; [assumption|]). apply Forall_nil. }
    change (as_read (PDict [("instructions", PDict (pmap_asdict (x_instrs x))); ("model", PDict vm); ("generator", PDict vg);
      ("options", PDict [("propagate_batch_size", x_batch x); ("use_control_fields", x_control x); ("overwrite_propagators", x_overwrite x); ("stop_partial_propagator_gradient", x_stop x)]); ("sim_res", PNum (x_res x))]))
      with (PDict [("instructions", as_read (PDict (pmap_asdict (x_instrs x)))); ("model", as_read (PDict vm)); ("generator", as_read (PDict vg));
      ("options", PDict [("propagate_batch_size", as_read (x_batch x)); ("use_control_fields", as_read (x_control x)); ("overwrite_propagators", as_read (x_overwrite x)); ("stop_partial_propagator_gradient", as_read (x_stop x))]); ("sim_res", PNum (x_res x))]).
    rewrite P2, M3, G3, !plain_read by assumption. cbn [rbind]. unfold exp_from_dict, section, arg. cbn [dget String.eqb Ascii.eqb Bool.eqb rbind]. rewrite M4. cbn [rbind]. rewrite G6. cbn [rbind]. rewrite P3, (proj1 Er), (proj2 Er). reflexivity.
  - cbn [x_gen]. unfold gen_reread. rewrite G1. cbn [rbind]. rewrite of_json_read by exact G2. rewrite G3, (proj1 Er), (proj2 Er). exact G6.
  - cbn [x_instrs]. unfold pmap_reread. rewrite of_json_read by exact P1. rewrite P2. cbn [rbind]. exact P3.
Qed.
Print Assumptions C97_experiment.
(** Finding: the method of propagation is not part of the configuration. *)
Theorem C97_method_refuted : forall ideal_of_name x x', exp_reread ideal_of_name x = Ok x' -> x_method x' = "pwc".
Proof.
  intros f x x' E. unfold exp_reread in E. open_bind E. open_bind E. destruct d0; try discriminate. unfold exp_from_dict in E. repeat open_bind E. injection E as <-. reflexivity.
Qed.
Print Assumptions C97_method_refuted.

(** ** A transmon with a drive line *)
Definition ex_phys := mkPhys "Transmon" "Q1" (PNum 3) [("freq", PQty (qty 5 4 6 "Hz"))] None.
Definition ex_phys2 := mkPhys "Resonator" "R1" (PNum 4) [("freq", PQty (qty 7 6 8 "Hz"))] None.
Definition ex_lines := [mkLine "Drive" "d1" "x_drive" ["Q1"] []; mkLine "Coupling" "g" "int_XX" ["Q1"; "R1"] [("strength", PQty (qty 1 0 2 "Hz"))]].
Definition ex_task := mkTask "InitialiseGround" "init_ground" [("init_temp", PQty (qty 1 0 2 "K"))].
Definition ex_devs : dict dev := [("lo", mkDevice "LO" "lo" 0 1 5 [] []); ("awg", mkDevice "AWG" "awg" 0 1 5 [] []); ("mix", mkDevice "Mixer" "mix" 2 1 0 [] []);
  ("v2hz", mkDevice "VoltsToHertz" "v2hz" 1 1 0 [("V_to_Hz", PQty (qty 1 0 2 "Hz/V"))] [])].
Definition ex_chains : dict chain := [("d1", [("lo", []); ("awg", []); ("mix", ["lo"; "awg"]); ("v2hz", ["mix"])])].
Lemma qty_good_params : forall k v lo hi u, (lo < hi)%R -> (lo <= v <= hi)%R -> ~ In k markers -> good_params [(k, PQty (qty v lo hi u))].
Proof.
  intros k v lo hi u L B M. split; [repeat constructor; intros []|]. split; [intros k' E; injection E as <-; exact M|]. constructor; [|constructor]. eexists. split; [reflexivity|]. apply qty_made; assumption.
Qed.
Lemma good_params_nil : good_params [].
Proof. split; [constructor|]. split; [intros k E; discriminate|constructor]. Qed.
Example C72_example : (exists m, model_init [ex_phys; ex_phys2] (Some ex_lines) [ex_task] (PNum 2) = Ok m /\ option_map p_drive (dget "Q1" (m_subs m)) = Some (Some "d1"))
  /\ good_model [ex_phys; ex_phys2] ex_lines [ex_task] (PNum 2)
  /\ Forall (fun kd => good_dev (snd kd)) ex_devs /\ good_chains ex_chains
  /\ exists g, gen_init ex_devs ex_chains 0 = Ok g /\ dget "d1" (r_sorted g) = Some ["awg"; "lo"; "mix"; "v2hz"].
Proof.
  split; [eexists; split; reflexivity|]. split; [|split; [|split]].
  - split; [discriminate|]. repeat split; cbn; repeat (constructor; cbn; try (intuition discriminate)); try (intros k E; first [discriminate|injection E as <-; cbn; intuition discriminate]); try lra; eexists; (split; [reflexivity|]); apply qty_made; lra.
  - assert (Q : good_params []) by apply good_params_nil. repeat (apply Forall_cons; [split; [cbn; tauto|split; [first [exact Q|apply qty_good_params; [lra|lra|cbn; intuition discriminate]]|intros k []]]|]). apply Forall_nil.
  - split; [intros k E; injection E as <-; cbn; intuition discriminate|]. constructor; [intros k E; discriminate|constructor].
  - unfold gen_init, ex_chains. cbn [check_chains]. unfold check_chain, ex_devs.
    cbn [check_devices check_sources check_res map fst snd chain_view e_in e_out e_res dget String.eqb Ascii.eqb Bool.eqb dv_resolution dv_inputs dv_outputs List.length Nat.eqb].
    repeat match goal with |- context [Req_EM_T ?a ?b] => destruct (Req_EM_T a b); [|exfalso; lra] end. eexists. split; reflexivity.
Qed.
Example C97_example : exists x m i, model_init [ex_phys; ex_phys2] (Some ex_lines) [ex_task] (PNum 2) = Ok m /\ x_model x = with_flags false true m
  /\ gen_init ex_devs ex_chains 0 = Ok (x_gen x) /\ x_instrs x = [("gate[0]", i)] /\ valid i
  /\ NoDup (keys ex_devs) /\ unmarked (keys ex_devs) /\ unmarked (keys (x_instrs x))
  /\ Forall (fun v => writable v /\ plain v) [x_batch x; x_control x; x_overwrite x; x_stop x] /\ x_method x = "tsit5".
Proof.
  destruct C72_example as ((m & Em & _) & _ & _ & _ & g & Eg & _). destruct C71_example as (i & _ & V & _).
  exists (mkCExp (with_flags false true m) g [("gate[0]", i)] PNone (PBool false) (PBool true) (PBool true) 5 "tsit5"), m, i.
  cbn [x_model x_gen x_instrs x_batch x_control x_overwrite x_stop x_method].
  split; [assumption|]. split; [reflexivity|]. split; [assumption|]. split; [reflexivity|]. split; [assumption|]. split; [|split; [|split; [|split; [|reflexivity]]]].
  - cbn. repeat (constructor; [cbn; intuition discriminate|]). constructor.
  - intros k E; discriminate.
  - intros k E. injection E as <-. cbn. intuition discriminate.
  - repeat (constructor; [split; exact Logic.I|]). constructor.
Qed.
