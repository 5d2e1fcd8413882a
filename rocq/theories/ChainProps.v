(** Property theorems about signal chains (C17-C20).

    Vocabulary: a chain maps each device to the list of its source devices;
    [edge c y x]: y is a source of x; [topo_sorted c o]: in the order o every
    device comes after its sources; [acyclic c]: no device depends on itself,
    directly or through others; [closed_chain c]: sources are devices of the
    chain, listed once; [flow proc chan c x s]: s is the signal of x when every
    device applies its function to the signals of its sources. *)
From Coq Require Import Reals Relations Permutation.
From Verif Require Import Base ChainModel ChainProofs.
Local Open Scope list_scope.

(** The standard chain lo, awg -> dac -> mixer -> v2hz and a device table. *)
Definition ex_devs : dict device :=
  [("lo", mkDev 0 1 1); ("awg", mkDev 0 1 2); ("dac", mkDev 1 1 1);
   ("mixer", mkDev 2 1 1); ("v2hz", mkDev 1 1 1)]%string.
Definition ex_chain : chain :=
  [("v2hz", ["mixer"]); ("lo", []); ("mixer", ["lo"; "dac"]); ("dac", ["awg"]); ("awg", [])]%string.

Lemma ex_chain_ok : check_chain ex_devs ex_chain = Ok ["awg"; "dac"; "lo"; "mixer"; "v2hz"]%string.
Proof.
  unfold check_chain, check_devices, ex_chain, check_sources. cbn.
  repeat match goal with |- context [Req_EM_T ?a ?a] => destruct (Req_EM_T a a); [cbn|congruence] end.
  reflexivity.
Qed.

(** ** C17 *)
Theorem C17_order_is_topological : forall g cs g' chan c,
  NoDup (keys cs) -> (forall ch c', dget ch cs = Some c' -> NoDup (keys c')) ->
  set_chains g cs = (g', None) -> dget chan cs = Some c ->
  exists o, dget chan (g_sorted g') = Some o /\ Permutation o (keys c) /\ topo_sorted c o.
Proof.
  intros g cs g' chan c Hnd Hk E Hc. unfold set_chains in E.
  destruct cs as [|kc cs]; [discriminate|].
  destruct (check_chains _ _ _) as [s e] eqn:Es. injection E as <- ->. cbn [g_sorted].
  destruct (check_chains_ok _ _ _ _ Hnd Es) as [H _]. destruct (H _ _ Hc) as [o [Ho Hch]].
  apply check_chain_ok in Hch as [_ [_ Ht]].
  exists o. split; [exact Ho|]. apply topo_sound; eauto.
Qed.
Print Assumptions C17_order_is_topological.

Example C17_example : exists o, check_chain ex_devs ex_chain = Ok o /\ NoDup (keys ex_chain).
Proof.
  eexists. split; [exact ex_chain_ok|]. cbn. repeat constructor; cbn; intuition discriminate.
Qed.

(** ** C18 *)
Theorem C18_cyclic_chains_rejected : forall g cs chan c,
  (forall ch c', In (ch, c') cs -> NoDup (keys c')) ->
  In (chan, c) cs -> ~ acyclic c -> snd (set_chains g cs) <> None.
Proof.
  intros g cs chan c Hk Hin Hcy. unfold set_chains.
  destruct cs as [|kc cs]; [destruct Hin|].
  pose proof (check_chains_reject (g_devices g) (kc :: cs) (g_sorted g)) as HR.
  destruct (check_chains (g_devices g) (kc :: cs) (g_sorted g)) as [s e]. cbn [snd] in *.
  apply HR. exists chan, c.
  destruct (check_chain (g_devices g) c) as [o|e'] eqn:Ec; [exfalso|now exists e'].
  apply check_chain_ok in Ec as [_ [_ Ht]]. apply Hcy.
  destruct (topo_sound c o (Hk _ _ Hin) Ht) as [HP HT].
  apply (topo_sorted_acyclic c o).
  - eapply Permutation_NoDup; [symmetry; exact HP|eauto].
  - intros x Hx. eapply Permutation_in; [symmetry; exact HP|exact Hx].
  - exact HT.
Qed.
Print Assumptions C18_cyclic_chains_rejected.

Theorem C18_ordering_succeeds_iff_acyclic : forall c,
  NoDup (keys c) -> closed_chain c ->
  ((exists o, topo c = Ok o) <-> acyclic c) /\ (~ acyclic c -> topo c = Err C3Error).
Proof.
  intros c Hnd Hcl.
  assert (HS : forall o, topo c = Ok o -> acyclic c).
  { intros o E. destruct (topo_sound c o Hnd E) as [HP HT]. apply (topo_sorted_acyclic c o); auto.
    - eapply Permutation_NoDup; [symmetry; exact HP|auto].
    - intros x Hx. eapply Permutation_in; [symmetry; exact HP|exact Hx]. }
  split; [split|].
  - intros [o E]. eauto.
  - intros Ha. now apply topo_complete.
  - intros Hn. destruct (topo_cases c Hnd) as [num [od [_ E]]].
    destruct (Nat.eqb _ _); [exfalso; eauto|exact E].
Qed.
Print Assumptions C18_ordering_succeeds_iff_acyclic.

(** Without the closedness hypothesis acyclic chains can be refused: a source
    listed twice (one device feeding both inputs of a mixer) is reported as a
    cycle although the device and signal counts are right. *)
Theorem C18_double_source_refuted : exists devs c,
  acyclic c /\ NoDup (keys c) /\ Forall (device_ok devs) c /\ signal_sum devs c = 1%Z
  /\ check_chain devs c = Err C3Error.
Proof.
  exists [("src", mkDev 0 2 1); ("mix", mkDev 2 1 1)]%string,
         [("src", []); ("mix", ["src"; "src"])]%string.
  split; [|split; [|split; [|split]]].
  - assert (HO : forall y x, edge [("src", []); ("mix", ["src"; "src"])]%string y x ->
               y = "src"%string /\ x = "mix"%string).
    { intros y x [ss [Hg Hy]]. cbn in Hg.
      destruct (String.eqb_spec x "src"); [injection Hg as <-; destruct Hy|].
      destruct (String.eqb_spec x "mix"); [|discriminate]. injection Hg as <-.
      cbn in Hy. intuition congruence. }
    assert (HT : forall y x, clos_trans _ (edge [("src", []); ("mix", ["src"; "src"])]%string) y x ->
               y = "src"%string /\ x = "mix"%string).
    { intros y x H. induction H; [auto|]. intuition congruence. }
    intros x H. apply HT in H. intuition congruence.
  - cbn. repeat constructor; cbn; intuition discriminate.
  - repeat constructor; cbn.
    + exists 0%R. intros s [].
    + eexists; split; reflexivity.
    + exists 1%R. intros s [<-|[<-|[]]]; cbn; eexists; split; reflexivity.
    + eexists; split; reflexivity.
  - reflexivity.
  - unfold check_chain, check_devices, check_sources. cbn.
    repeat match goal with |- context [Req_EM_T ?a ?a] => destruct (Req_EM_T a a); [cbn|congruence] end.
    reflexivity.
Qed.
Print Assumptions C18_double_source_refuted.

Example C18_example : closed_chain ex_chain /\ exists c, ~ acyclic c /\ NoDup (keys c) /\ closed_chain c.
Proof.
  split.
  - intros x ss Hg. unfold ex_chain in Hg. cbn in Hg.
    repeat (destruct (String.eqb x _); [injection Hg as <-; split;
      [repeat constructor; cbn; intuition discriminate|intros y; cbn; intuition]|]).
    discriminate.
  - exists [("a", ["b"]); ("b", ["a"])]%string. split; [|split].
    + intros H. apply (H "a"%string). apply t_trans with "b"%string; apply t_step.
      * exists ["a"%string]. split; [reflexivity|now left].
      * exists ["b"%string]. split; [reflexivity|now left].
    + cbn. repeat constructor; cbn; intuition discriminate.
    + intros x ss Hg. cbn in Hg.
      repeat (destruct (String.eqb x _); [injection Hg as <-; split;
        [repeat constructor; cbn; intuition discriminate|intros y; cbn; intuition]|]).
      discriminate.
Qed.

(** ** C19 *)

(** Every device is processed exactly once, each with the signals of its listed
    sources in the listed order. *)
Theorem C19_each_device_once : forall Sig (proc : string -> string -> list Sig -> Sig) devs c chan o,
  NoDup (keys c) -> check_chain devs c = Ok o ->
  exists out trace, run_chain proc devs c chan o [] None [] = Ok (Some out, trace)
    /\ Permutation (map fst trace) (keys c)
    /\ forall x ins, In (x, ins) trace ->
         exists ss, dget x c = Some ss /\ Forall2 (flow proc chan c) ss ins.
Proof.
  intros Sig proc devs c chan o Hnd E. apply check_chain_ok in E as [HF [Hs Ht]].
  destruct (topo_sound c o Hnd Ht) as [HP HT].
  assert (Hno : NoDup o) by (eapply Permutation_NoDup; [symmetry; exact HP|auto]).
  destruct (run_chain_ok proc devs c chan) with (order := o) (done := @nil string)
    (stack := @nil (string * Sig)) (output := @None Sig) (trace := @nil (string * list Sig))
    as [out [tr [E1 [E2 [E3 [_ E4]]]]]]; auto.
  - intros x Hx. rewrite Forall_forall in HF.
    unfold keys in Hx. apply in_map_iff in Hx as [kv [<- Hin]]. destruct (HF kv Hin) as [_ [d [Hd _]]].
    apply dget_in_keys. now exists d.
  - intros x Hx. eapply Permutation_in; eauto.
  - intros x [].
  - destruct o as [|l o'] using rev_ind.
    { exfalso. apply Permutation_nil in HP. unfold signal_sum in Hs. rewrite HP in Hs. discriminate. }
    destruct (E4 o' l eq_refl) as [s [-> _]]. exists s, tr. rewrite E1. cbn. rewrite E2. auto.
Qed.
Print Assumptions C19_each_device_once.

(** For an accepted generator: the returned dictionary has one entry per
    channel, the signal of a device feeding nobody; if every device has one
    output and feeds at most one other, it is the signal of any device feeding
    nobody (there is only one), so it does not depend on the dictionary order. *)
Theorem C19_generate_signals_is_dataflow :
  forall Sig (proc : string -> string -> list Sig -> Sig) g cs g' chans,
  NoDup (keys cs) -> (forall ch c', dget ch cs = Some c' -> NoDup (keys c')) ->
  cs <> [] -> set_chains g cs = (g', None) -> NoDup chans -> incl chans (keys cs) ->
  exists sig, generate_signals proc g' chans = Ok sig /\ keys sig = chans /\
    forall chan c, In chan chans -> dget chan cs = Some c ->
      exists s, dget chan sig = Some s
        /\ (exists x, is_sink c x /\ flow proc chan c x s)
        /\ (closed_chain c -> feeds_at_most_one c ->
            (forall x d, In x (keys c) -> dget x (g_devices g) = Some d -> dv_outputs d = 1) ->
            forall x s', is_sink c x -> flow proc chan c x s' -> s' = s).
Proof.
  intros Sig proc g cs g' chans Hnd Hk Hne E Hncs Hin. unfold set_chains in E.
  destruct cs as [|kc cs0]; [contradiction|]. set (cs := kc :: cs0) in *.
  destruct (check_chains _ _ _) as [s e] eqn:Es. injection E as <- ->.
  destruct (check_chains_ok _ _ _ _ Hnd Es) as [Hok _].
  set (g' := {| g_devices := g_devices g; g_chains := cs; g_sorted := s |}).
  assert (HC : forall chan c out, dget chan cs = Some c ->
     exists o sg tr, dget chan s = Some o /\
       run_chain proc (g_devices g) c chan o [] out [] = Ok (Some sg, tr)
       /\ (exists x, is_sink c x /\ flow proc chan c x sg)
       /\ (closed_chain c -> feeds_at_most_one c ->
            (forall x d, In x (keys c) -> dget x (g_devices g) = Some d -> dv_outputs d = 1) ->
            forall x s', is_sink c x -> flow proc chan c x s' -> s' = sg)).
  { intros chan c out Hc. destruct (Hok _ _ Hc) as [o [Ho Hch]].
    apply check_chain_ok in Hch as [HF [Hs Ht]].
    pose proof (Hk _ _ Hc) as Hndc.
    destruct (topo_sound c o Hndc Ht) as [HP HT].
    assert (Hno : NoDup o) by (eapply Permutation_NoDup; [symmetry; exact HP|auto]).
    destruct (run_chain_ok proc (g_devices g) c chan) with (order := o) (done := @nil string)
      (stack := @nil (string * Sig)) (output := out) (trace := @nil (string * list Sig))
      as [out' [tr [E1 [E2 [E3 [_ E4]]]]]]; auto.
    - intros x Hx. rewrite Forall_forall in HF.
      unfold keys in Hx. apply in_map_iff in Hx as [kv [<- Hkv]]. destruct (HF kv Hkv) as [_ [d [Hd _]]].
      apply dget_in_keys. now exists d.
    - intros x Hx. eapply Permutation_in; eauto.
    - intros x [].
    - destruct o as [|l o'] using rev_ind.
      { exfalso. apply Permutation_nil in HP. unfold signal_sum in Hs. rewrite HP in Hs. discriminate. }
      clear IHo'. destruct (E4 o' l eq_refl) as [sg [-> Hfl]].
      assert (Hsink : is_sink c l) by (eapply last_is_sink; eauto).
      exists (o' ++ [l]), sg, tr. split; [exact Ho|]. split; [exact E1|]. split; [now exists l|].
      intros Hcl Hfe Hout x s' Hx Hfx.
      assert (x = l) by (eapply unique_sink; eauto). subst x.
      eapply flow_fun; eauto. }
  unfold generate_signals.
  assert (G : forall chs out sg, NoDup chs -> incl chs (keys cs) -> (forall k, In k chs -> ~ In k (keys sg)) ->
    exists sig, run_channels proc g' chs out sg = Ok sig /\ keys sig = keys sg ++ chs
     /\ (forall k, ~ In k chs -> dget k sig = dget k sg) /\
     forall chan c, In chan chs -> dget chan cs = Some c ->
      exists s0, dget chan sig = Some s0
        /\ (exists x, is_sink c x /\ flow proc chan c x s0)
        /\ (closed_chain c -> feeds_at_most_one c ->
            (forall x d, In x (keys c) -> dget x (g_devices g) = Some d -> dv_outputs d = 1) ->
            forall x s', is_sink c x -> flow proc chan c x s' -> s' = s0)).
  { induction chs as [|ch chs IH]; intros out sg Hn Hi Hfresh.
    - exists sg. cbn. rewrite app_nil_r. repeat split; auto. intros ? ? [].
    - apply NoDup_cons_iff in Hn as [Hn1 Hn2].
      destruct (proj1 (dget_in_keys ch cs) (Hi ch (or_introl eq_refl))) as [c Hc].
      destruct (HC ch c out Hc) as [o [s1 [tr [Ho [Er [Hex Huni]]]]]].
      assert (Happ : forall (d : dict Sig) k v, ~ In k (keys d) -> keys (dset k v d) = keys d ++ [k]).
      { clear. unfold keys. induction d as [|[k' v'] d IHd]; intros k v Hk; cbn in *; [reflexivity|].
        destruct (String.eqb_spec k k') as [->|]; [exfalso; tauto|]. cbn. rewrite IHd; [reflexivity|tauto]. }
      destruct (IH (Some s1) (dset ch s1 sg)) as [sig [E1 [E2 [E3 E4]]]]; auto.
      { intros x Hx. apply Hi. now right. }
      { intros k Hkc. rewrite Happ by (apply Hfresh; now left).
        rewrite in_app_iff. intros [H|[->|[]]]; [|contradiction].
        apply (Hfresh k); auto. now right. }
      exists sig. cbn [run_channels]. change (g_chains g') with cs.
      change (g_sorted g') with s. change (g_devices g') with (g_devices g).
      replace (@dget chain ch cs) with (Some c) by (symmetry; exact Hc).
      rewrite Ho, Er. cbn [rbind]. split; [exact E1|]. split.
      { rewrite E2, Happ by (apply Hfresh; now left). now rewrite <- app_assoc. }
      split.
      { intros k Hk'. rewrite E3 by (intros H; apply Hk'; now right).
        apply dget_dset_other. intros ->. apply Hk'. now left. }
      intros chan c' [<-|Hin'] Hc'.
      + assert (c' = c) by congruence. subst c'. exists s1. rewrite E3 by assumption.
        rewrite dget_dset_same. auto.
      + apply E4; auto. }
  destruct (G chans None [] Hncs Hin) as [sig [E1 [E2 [_ E4]]]]; [intros k _ []|].
  exists sig. auto.
Qed.
Print Assumptions C19_generate_signals_is_dataflow.

Example C19_example : feeds_at_most_one ex_chain
  /\ generate_signals (fun ch d ins => (d ++ "(" ++ String.concat "," ins ++ ")")%string)
       (fst (set_chains (mkGen ex_devs [] []) [("d1"%string, ex_chain)])) ["d1"%string]
     = Ok [("d1", "v2hz(mixer(lo(),dac(awg())))")]%string.
Proof.
  split.
  - intros y x1 x2 [s1 [H1 I1]] [s2 [H2 I2]]. unfold ex_chain in *. cbn in H1, H2.
    repeat match type of H1 with context [String.eqb x1 ?k] =>
      destruct (String.eqb_spec x1 k); [injection H1 as <-|] end; try discriminate;
    repeat match type of H2 with context [String.eqb x2 ?k] =>
      destruct (String.eqb_spec x2 k); [injection H2 as <-|] end; try discriminate;
    subst; cbn in I1, I2; intuition congruence.
  - unfold set_chains, check_chains. cbn [g_devices g_sorted]. rewrite ex_chain_ok. reflexivity.
Qed.

(** A fan-out chain (one device feeding two others) passes the check although it
    has two final devices, and the signal returned depends on the dictionary
    order. *)
Theorem C19_fan_out_order_dependent_refuted : exists devs c1 c2 proc,
  Permutation c1 c2 /\ acyclic c1
  /\ is_ok (check_chain devs c1) = true /\ is_ok (check_chain devs c2) = true
  /\ generate_signals proc (fst (set_chains (mkGen devs [] []) [("d"%string, c1)])) ["d"%string]
     <> @generate_signals string proc (fst (set_chains (mkGen devs [] []) [("d"%string, c2)])) ["d"%string].
Proof.
  set (devs := [("a", mkDev 0 1 1); ("b", mkDev 1 1 1); ("c", mkDev 1 1 1)]%string).
  set (c1 := [("a", []); ("b", ["a"]); ("c", ["a"])]%string : chain).
  set (c2 := [("a", []); ("c", ["a"]); ("b", ["a"])]%string : chain).
  assert (K1 : check_chain devs c1 = Ok ["a"; "c"; "b"]%string).
  { unfold check_chain, check_devices, check_sources. cbn.
    repeat match goal with |- context [Req_EM_T ?a ?a] => destruct (Req_EM_T a a); [cbn|congruence] end.
    reflexivity. }
  assert (K2 : check_chain devs c2 = Ok ["a"; "b"; "c"]%string).
  { unfold check_chain, check_devices, check_sources. cbn.
    repeat match goal with |- context [Req_EM_T ?a ?a] => destruct (Req_EM_T a a); [cbn|congruence] end.
    reflexivity. }
  exists devs, c1, c2, (fun _ d _ => d).
  split; [|split; [|split; [|split]]].
  - unfold c1, c2. constructor. apply perm_swap.
  - apply check_chain_ok in K1 as [_ [_ K1]].
    assert (Hnd : NoDup (keys c1)) by (cbn; repeat constructor; cbn; intuition discriminate).
    destruct (topo_sound c1 _ Hnd K1) as [HP HT]. eapply topo_sorted_acyclic; [|intros x Hx|exact HT].
    + eapply Permutation_NoDup; [symmetry; exact HP|exact Hnd].
    + eapply Permutation_in; [symmetry; exact HP|exact Hx].
  - now rewrite K1.
  - now rewrite K2.
  - unfold set_chains, check_chains. cbn [g_devices g_sorted]. rewrite K1, K2. cbn. discriminate.
Qed.
Print Assumptions C19_fan_out_order_dependent_refuted.

(** ** C20 *)
Theorem C20_accepted_chains_balance : forall devs c,
  is_ok (check_chain devs c) = true ->
  (forall x ss, In (x, ss) c ->
     (exists d, dget x devs = Some d /\ dv_inputs d = List.length ss) /\
     (exists r, forall s, In s ss -> exists d, dget s devs = Some d /\ dv_resolution d = r)) /\
  signal_sum devs c = 1%Z.
Proof.
  intros devs c. destruct (check_chain devs c) as [o|e] eqn:E; [intros _|discriminate].
  apply check_chain_ok in E as [HF [Hs _]]. split; [|exact Hs].
  intros x ss Hin. rewrite Forall_forall in HF. destruct (HF _ Hin) as [H1 H2]. auto.
Qed.
Print Assumptions C20_accepted_chains_balance.

Theorem C20_balanced_acyclic_chains_accepted : forall devs c,
  NoDup (keys c) -> closed_chain c -> acyclic c -> Forall (device_ok devs) c ->
  signal_sum devs c = 1%Z -> is_ok (check_chain devs c) = true.
Proof.
  intros devs c Hnd Hcl Ha HF Hs. destruct (topo_complete c Hnd Hcl Ha) as [o Ho].
  assert (E : check_chain devs c = Ok o) by (apply check_chain_ok; auto). now rewrite E.
Qed.
Print Assumptions C20_balanced_acyclic_chains_accepted.

Example C20_example : is_ok (check_chain ex_devs ex_chain) = true /\ signal_sum ex_devs ex_chain = 1%Z.
Proof. rewrite ex_chain_ok. split; reflexivity. Qed.
