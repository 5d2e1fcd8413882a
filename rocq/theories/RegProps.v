(** Property C102: which parameters a ParameterMap knows, and under which identifiers. *)
From Coq Require Import Reals Lra Lia Ascii.
From Verif Require Import Base QuantityModel PMapModel PMapProofs QiskitModel QiskitProps ExpModel ExpProps Frame2Props RegModel.
Local Open Scope list_scope.
Local Open Scope nat_scope.
Local Notation length := List.length.

(** ** Specification: the parameters a user can see in the objects handed over *)
Definition owned (model : option rmodel) (devices : option (dict rcomp)) (c : rcomp) : Prop :=
  (exists m, model = Some m /\ exists n, In (n, c) (rm_couplings m ++ rm_subsystems m ++ rm_tasks m))
  \/ (exists d n, devices = Some d /\ In (n, c) d).
(** Parameters of a gate: those of its components, and options that are Quantities. *)
Inductive gate_par (i : rinstr) : string -> string -> string -> addr -> Prop :=
| gp_param : forall chan cs comp c p a, In (chan, cs) (ri_comps i) -> In (comp, c) cs -> In (p, a) (rc_params c) ->
    gate_par i chan comp p a
| gp_option : forall chan cs comp c co o p a, In (chan, cs) (ri_comps i) -> In (comp, c) cs ->
    dget chan (ri_opts i) = Some co -> dget comp co = Some o -> In (p, OQty a) o ->
    gate_par i chan comp p a.
Inductive Listed (comps : list rcomp) (instrs : list rinstr) : string -> addr -> Prop :=
| ls_comp : forall c p a, In c comps -> In (p, a) (rc_params c) ->
    Listed comps instrs (rc_name c ++ "-" ++ p)%string a
| ls_gate : forall i chan comp p a, In i instrs -> gate_par i chan comp p a ->
    Listed comps instrs (ri_key i ++ "-" ++ chan ++ "-" ++ comp ++ "-" ++ p)%string a.
Inductive Exposed (model : option rmodel) (devices : option (dict rcomp)) (instrs : list rinstr) : string -> addr -> Prop :=
| ex_comp : forall c p a, owned model devices c -> In (p, a) (rc_params c) ->
    Exposed model devices instrs (rc_name c ++ "-" ++ p)%string a
| ex_gate : forall i chan comp p a, In i instrs -> gate_par i chan comp p a ->
    Exposed model devices instrs (ri_key i ++ "-" ++ chan ++ "-" ++ comp ++ "-" ++ p)%string a.

(** ** The registrations as one list *)
Definition regs (h : heap) (l : list (string * addr)) (acc : collected) : collected :=
  fold_left (fun acc pa => register h (fst pa) (snd pa) acc) l acc.
Lemma regs_app : forall h l l' acc, regs h (l ++ l') acc = regs h l' (regs h l acc).
Proof. intros. unfold regs. apply fold_left_app. Qed.
Definition consistent (h : heap) (c : collected) : Prop :=
  keys (co_lens c) = keys (co_pars c) /\ NoDup (keys (co_pars c))
  /\ forall id a, dget id (co_pars c) = Some a -> dget id (co_lens c) = Some (qlength h a).
Lemma keys_dset_eq : forall V W k (v : V) (w : W) d e, keys d = keys e -> keys (dset k v d) = keys (dset k w e).
Proof.
  intros V W k v w d. induction d as [|[a b] d IH]; intros e H; destruct e as [|[a' b'] e]; try discriminate; [reflexivity|].
  cbn in H. injection H as <- H. cbn [dset]. destruct (String.eqb k a); cbn [keys map fst]; f_equal; [exact H|]. apply IH. exact H.
Qed.
Lemma register_consistent : forall h id a c, consistent h c -> consistent h (register h id a c).
Proof.
  intros h id a c (K & N & L). split; [|split].
  - cbn [register co_lens co_pars]. apply keys_dset_eq. exact K.
  - cbn [register co_pars]. apply nodup_dset'. exact N.
  - intros id' a' H. cbn [register co_lens co_pars] in *. destruct (string_dec id' id) as [->|Nn].
    + rewrite dget_dset_same in *. congruence.
    + rewrite dget_dset_other in * by exact Nn. auto.
Qed.
Lemma regs_consistent : forall h l c, consistent h c -> consistent h (regs h l c).
Proof. intros h l. induction l as [|[id a] l IH]; intros c H; [exact H|]. apply IH. apply register_consistent. exact H. Qed.
Lemma regs_sound : forall h l c id a, dget id (co_pars (regs h l c)) = Some a -> In (id, a) l \/ dget id (co_pars c) = Some a.
Proof.
  intros h l. induction l as [|[k b] l IH]; intros c id a H; [auto|]. apply IH in H. destruct H as [H|H]; [left; right; exact H|].
  cbn [register fst snd co_pars] in H. destruct (string_dec id k) as [->|N].
  - rewrite dget_dset_same in H. injection H as <-. left. left. reflexivity.
  - rewrite dget_dset_other in H by exact N. auto.
Qed.
Lemma regs_present : forall h l c id a, In (id, a) l \/ dget id (co_pars c) = Some a -> exists a', dget id (co_pars (regs h l c)) = Some a'.
Proof.
  intros h l. induction l as [|[k b] l IH]; intros c id a H.
  - destruct H as [[]|H]. eauto.
  - destruct (string_dec id k) as [->|N].
    + apply (IH _ _ b). right. cbn [register fst snd co_pars]. apply dget_dset_same.
    + apply (IH _ _ a). destruct H as [[H|H]|H].
      * injection H as <- <-. contradiction.
      * left. exact H.
      * right. cbn [register fst snd co_pars]. rewrite dget_dset_other by exact N. exact H.
Qed.

Definition comp_list (c : rcomp) : list (string * addr) :=
  map (fun pa => ((rc_name c ++ "-" ++ fst pa)%string, snd pa)) (rc_params c).
Lemma register_comp_regs : forall h c acc,
  co_lens (register_comp h c acc) = co_lens (regs h (comp_list c) acc)
  /\ co_pars (register_comp h c acc) = co_pars (regs h (comp_list c) acc)
  /\ co_ids (register_comp h c acc) = co_ids acc ++ map fst (comp_list c).
Proof.
  intros h c. unfold register_comp, comp_list. generalize (rc_params c) as ps.
  induction ps as [|[p a] ps IH]; intro acc; [cbn; rewrite app_nil_r; auto|].
  cbn [fold_left map fst snd].
  match goal with |- context [fold_left ?f ps ?x] => set (acc' := x); set (F := f) in * end.
  destruct (IH acc') as (A & B & D). unfold F in *. rewrite A, B, D. unfold acc'. cbn [co_lens co_pars co_ids regs fold_left].
  repeat split; [| |rewrite <- app_assoc; reflexivity].
  - unfold regs. cbn [fold_left fst snd]. unfold register at 2 4. cbn [co_lens co_pars co_ids].
    clear. set (g := fun (acc : collected) (pa : string * addr) => register h (fst pa) (snd pa) acc).
    generalize (map (fun pa : string * addr => ((rc_name c ++ "-" ++ fst pa)%string, snd pa)) ps) as l.
    assert (G : forall l x y, co_lens x = co_lens y -> co_pars x = co_pars y -> co_lens (fold_left g l x) = co_lens (fold_left g l y)).
    { induction l as [|q l IH]; intros x y E1 E2; [exact E1|]. cbn [fold_left]. apply IH; unfold g, register; cbn; congruence. }
    intro l. apply G; reflexivity.
  - unfold regs. cbn [fold_left fst snd]. unfold register at 2 4. cbn [co_lens co_pars co_ids].
    clear. set (g := fun (acc : collected) (pa : string * addr) => register h (fst pa) (snd pa) acc).
    generalize (map (fun pa : string * addr => ((rc_name c ++ "-" ++ fst pa)%string, snd pa)) ps) as l.
    assert (G : forall l x y, co_pars x = co_pars y -> co_pars (fold_left g l x) = co_pars (fold_left g l y)).
    { induction l as [|q l IH]; intros x y E2; [exact E2|]. cbn [fold_left]. apply IH; unfold g, register; cbn; congruence. }
    intro l. apply G; reflexivity.
Qed.
Definition same (x y : collected) : Prop := co_lens x = co_lens y /\ co_pars x = co_pars y.
Lemma regs_same : forall h l x y, same x y -> same (regs h l x) (regs h l y).
Proof.
  intros h l. induction l as [|q l IH]; intros x y H; [exact H|]. apply IH. destruct H as [A B].
  split; unfold register; cbn; congruence.
Qed.
Lemma regs_ids : forall h l x, co_ids (regs h l x) = co_ids x.
Proof. intros h l. induction l as [|q l IH]; intro x; [reflexivity|]. change (regs h (q :: l) x) with (regs h l (register h (fst q) (snd q) x)). rewrite IH. reflexivity. Qed.
Lemma comps_regs : forall h (cs : dict rcomp) acc,
  let r := fold_left (fun acc nc => register_comp h (snd nc) acc) cs acc in
  same r (regs h (flat_map (fun nc => comp_list (snd nc)) cs) acc)
  /\ co_ids r = co_ids acc ++ map fst (flat_map (fun nc => comp_list (snd nc)) cs).
Proof.
  intros h cs. induction cs as [|[n c] cs IH]; intro acc; cbn zeta.
  - cbn. rewrite app_nil_r. split; [split; reflexivity|reflexivity].
  - cbn [fold_left snd flat_map]. destruct (IH (register_comp h c acc)) as [A B].
    destruct (register_comp_regs h c acc) as (R1 & R2 & R3). split.
    + rewrite regs_app. destruct A as [A1 A2]. destruct (regs_same h (flat_map (fun nc => comp_list (snd nc)) cs)
        (register_comp h c acc) (regs h (comp_list c) acc) (conj R1 R2)) as [S1 S2]. split; congruence.
    + rewrite B, R3, map_app, app_assoc. reflexivity.
Qed.
Lemma in_chan_pars : forall key chan opts cs l, chan_pars key chan opts cs = Ok l ->
  forall ks a, In (ks, a) l <->
    exists comp c p, In (comp, c) cs /\ ks = [key; chan; comp; p]
      /\ (In (p, a) (rc_params c)
          \/ exists co o, dget chan opts = Some co /\ dget comp co = Some o /\ In (p, OQty a) o).
Proof.
  intros key chan opts cs. induction cs as [|[comp c] cs IH]; intros l H ks a; cbn [chan_pars] in H.
  - injection H as <-. split; [intros []|]. intros (? & ? & ? & [] & _).
  - destruct (dget chan opts) as [co|] eqn:Eo; [|discriminate]. destruct (dget comp co) as [o|] eqn:Ec; [|discriminate].
    destruct (chan_pars key chan opts cs) as [rest|] eqn:Er; [|discriminate]. cbn [rbind] in H. injection H as <-.
    specialize (IH rest eq_refl ks a). rewrite !in_app_iff, IH. split.
    + intros [H|[H|(comp' & c' & p & H1 & H2 & H3)]].
      * unfold comp_pars in H. apply in_map_iff in H. destruct H as ([p a'] & E & Hp). cbn in E. injection E as <- <-.
        exists comp, c, p. split; [left; reflexivity|]. split; [reflexivity|]. left. exact Hp.
      * unfold opt_pars in H. apply in_flat_map in H. destruct H as ([p v] & Hv & E). cbn in E. destruct v as [a'|]; [|destruct E].
        destruct E as [E|[]]. injection E as <- <-. exists comp, c, p. split; [left; reflexivity|]. split; [reflexivity|].
        right. exists co, o. auto.
      * exists comp', c', p. split; [right; exact H1|]. auto.
    + intros (comp' & c' & p & [H1|H1] & H2 & H3).
      * injection H1 as <- <-. subst ks. destruct H3 as [H3|(co' & o' & E1 & E2 & H3)].
        -- left. unfold comp_pars. apply in_map_iff. exists (p, a). auto.
        -- right. left. injection E1 as <-. rewrite Ec in E2. injection E2 as <-.
           unfold opt_pars. apply in_flat_map. exists (p, OQty a). split; [exact H3|]. left. reflexivity.
      * right. right. exists comp', c', p. auto.
Qed.
Lemma in_all_pars : forall key opts chans l, all_pars key opts chans = Ok l ->
  forall ks a, In (ks, a) l <->
    exists chan cs comp c p, In (chan, cs) chans /\ In (comp, c) cs /\ ks = [key; chan; comp; p]
      /\ (In (p, a) (rc_params c)
          \/ exists co o, dget chan opts = Some co /\ dget comp co = Some o /\ In (p, OQty a) o).
Proof.
  intros key opts chans. induction chans as [|[chan cs] chans IH]; intros l H ks a; cbn [all_pars] in H.
  - injection H as <-. split; [intros []|]. intros (? & ? & ? & ? & ? & [] & _).
  - destruct (chan_pars key chan opts cs) as [l1|] eqn:E1; [|discriminate]. cbn [rbind] in H.
    destruct (all_pars key opts chans) as [l2|] eqn:E2; [|discriminate]. cbn [rbind] in H. injection H as <-.
    rewrite in_app_iff, (in_chan_pars _ _ _ _ _ E1), (IH _ eq_refl). split.
    + intros [(comp & c & p & H)|(chan' & cs' & comp & c & p & H1 & H)].
      * exists chan, cs, comp, c, p. split; [left; reflexivity|exact H].
      * exists chan', cs', comp, c, p. split; [right; exact H1|exact H].
    + intros (chan' & cs' & comp & c & p & [H1|H1] & H).
      * injection H1 as <- <-. left. exists comp, c, p. exact H.
      * right. exists chan', cs', comp, c, p. auto.
Qed.
Lemma gate_pars_list : forall i l, get_optimizable_parameters i = Ok l ->
  forall id a, (exists ks, In (ks, a) l /\ id = String.concat "-" ks)
    <-> exists chan comp p, gate_par i chan comp p a /\ id = (ri_key i ++ "-" ++ chan ++ "-" ++ comp ++ "-" ++ p)%string.
Proof.
  intros i l H id a. unfold get_optimizable_parameters in H. split.
  - intros (ks & Hk & ->). apply (in_all_pars _ _ _ _ H) in Hk.
    destruct Hk as (chan & cs & comp & c & p & H1 & H2 & -> & H3). exists chan, comp, p. split; [|reflexivity].
    destruct H3 as [H3|(co & o & A1 & A2 & A3)]; [eapply gp_param; eauto|eapply gp_option; eauto].
  - intros (chan & comp & p & Hp & ->). exists [ri_key i; chan; comp; p]. split; [|reflexivity].
    apply (in_all_pars _ _ _ _ H). inversion Hp as [? cs ? c ? ? A1 A2 A3|? cs ? c co o ? ? A1 A2 A3 A4 A5]; subst.
    + exists chan, cs, comp, c, p. auto.
    + exists chan, cs, comp, c, p. split; [exact A1|]. split; [exact A2|]. split; [reflexivity|]. right. exists co, o. auto.
Qed.
Lemma instrs_regs : forall h is acc c, register_instrs h is acc = Ok c ->
  exists l, c = regs h l acc /\ forall id a, In (id, a) l <-> Listed [] (map snd is) id a.
Proof.
  intros h is. induction is as [|[k i] is IH]; intros acc c H; cbn [register_instrs] in H.
  - injection H as <-. exists []. split; [reflexivity|]. intros id a. split; [intros []|]. intro L. inversion L as [? ? ? []|? ? ? ? ? []].
  - destruct (get_optimizable_parameters i) as [ps|] eqn:Ei; [|discriminate]. cbn [rbind] in H.
    destruct (IH _ _ H) as (l & -> & Hl). exists (map (fun pa => (String.concat "-" (fst pa), snd pa)) ps ++ l).
    split.
    + rewrite regs_app. f_equal. unfold regs. clear. revert acc. induction ps as [|q ps IH]; intro acc; [reflexivity|]. cbn [fold_left map fst snd]. apply IH.
    + intros id a. rewrite in_app_iff, Hl. pose proof (gate_pars_list i ps Ei id a) as G. split.
      * intros [H0|H0].
        -- apply in_map_iff in H0. destruct H0 as ([ks a'] & E & Hk). cbn in E. injection E as <- <-.
           destruct (proj1 G (ex_intro _ ks (conj Hk eq_refl))) as (chan & comp & p & Hp & ->).
           apply ls_gate; [left; reflexivity|exact Hp].
        -- inversion H0 as [? ? ? []|i' chan comp p ? Hi Hp]; subst. apply ls_gate; [right; exact Hi|exact Hp].
      * intro L. inversion L as [? ? ? []|i' chan comp p ? [Hi|Hi] Hp]; subst.
        -- left. cbn in Hp. destruct (proj2 G) as (ks & Hk & E); [exists chan, comp, p; split; [exact Hp|reflexivity]|].
           cbn [snd]. apply in_map_iff. exists (ks, a). cbn. rewrite <- E. auto.
        -- right. apply ls_gate; [exact Hi|exact Hp].
Qed.
Lemma in_comp_lists : forall (cs : dict rcomp) id a,
  In (id, a) (flat_map (fun nc => comp_list (snd nc)) cs) <-> Listed (map snd cs) [] id a.
Proof.
  intros cs id a. rewrite in_flat_map. split.
  - intros ([n c] & Hc & H). unfold comp_list in H. apply in_map_iff in H. destruct H as ([p a'] & E & Hp). cbn in E.
    injection E as <- <-. apply ls_comp; [|exact Hp]. apply in_map_iff. exists (n, c). auto.
  - intro L. inversion L as [c p ? Hc Hp|? ? ? ? ? []]; subst. apply in_map_iff in Hc. destruct Hc as ([n c'] & E & Hc).
    cbn in E. subst c'. exists (n, c). split; [exact Hc|]. unfold comp_list. apply in_map_iff. exists (p, a). auto.
Qed.
(** After registration: what is known is what is listed. *)
Definition values {V} (d : dict V) : list V := map snd d.
Lemma initialize_spec : forall r r', initialize r = Ok r' ->
  rg_instructions r' = rg_instructions r /\ rg_components r' = rg_components r /\ rg_heap r' = rg_heap r
  /\ (forall id a, dget id (rg_pars r') = Some a -> Listed (values (rg_components r)) (values (rg_instructions r)) id a)
  /\ (forall id a, Listed (values (rg_components r)) (values (rg_instructions r)) id a -> exists a', dget id (rg_pars r') = Some a')
  /\ (forall id a, dget id (rg_pars r') = Some a -> dget id (rg_lens r') = Some (qlength (rg_heap r) a))
  /\ keys (rg_lens r') = keys (rg_pars r') /\ NoDup (keys (rg_pars r'))
  /\ (forall id, In id (rg_model_ids r') <-> exists a, Listed (values (rg_components r)) [] id a).
Proof.
  intros r r' H. unfold initialize in H. destruct (comps_regs (rg_heap r) (rg_components r) {| co_lens := []; co_pars := []; co_ids := [] |}) as [A B].
  cbv zeta in A, B. set (c0 := fold_left _ (rg_components r) _) in *.
  destruct (register_instrs (rg_heap r) (rg_instructions r) c0) as [c|] eqn:E; [|discriminate]. cbn [rbind] in H. injection H as <-.
  cbn [rg_instructions rg_components rg_heap rg_pars rg_lens rg_model_ids].
  destruct (instrs_regs _ _ _ _ E) as (l & -> & Hl).
  set (lc := flat_map (fun nc => comp_list (snd nc)) (rg_components r)) in *. set (e := {| co_lens := []; co_pars := []; co_ids := [] |}) in *.
  destruct (regs_same (rg_heap r) l c0 (regs (rg_heap r) lc e) A) as [S1 S2]. rewrite <- regs_app in S1, S2.
  assert (Split : forall id a, In (id, a) (lc ++ l) <-> Listed (values (rg_components r)) (values (rg_instructions r)) id a).
  { intros id a. rewrite in_app_iff, Hl. unfold lc. rewrite in_comp_lists. split.
    - intros [L|L]; inversion L as [? ? ? X Y|? ? ? ? ? X Y]; subst; try destruct X; [apply ls_comp; auto|apply ls_gate; auto].
    - intro L. inversion L as [? ? ? X Y|? ? ? ? ? X Y]; subst; [left; apply ls_comp; auto|right; apply ls_gate; auto]. }
  assert (CO : consistent (rg_heap r) (regs (rg_heap r) (lc ++ l) e)).
  { apply regs_consistent. split; [reflexivity|]. split; [constructor|]. intros ? ? X. discriminate X. }
  destruct CO as (K1 & K2 & K3).
  repeat (split; [reflexivity|]). split; [|split; [|split; [|split; [|split]]]].
  - intros id a H. rewrite S2 in H. apply regs_sound in H. destruct H as [H|H]; [apply Split; exact H|discriminate H].
  - intros id a H. rewrite S2. apply regs_present with a. left. apply Split. exact H.
  - intros id a H. rewrite S2 in H. rewrite S1. apply K3. exact H.
  - rewrite S1, S2. exact K1.
  - rewrite S2. exact K2.
  - intro id. rewrite regs_ids, B. cbn [co_ids app]. unfold e. cbn [co_ids app]. rewrite in_map_iff. split.
    + intros ([id' a] & <- & H). exists a. apply in_comp_lists. exact H.
    + intros (a & H). exists (id, a). split; [reflexivity|]. apply in_comp_lists. exact H.
Qed.

(** ** Unambiguous identifiers *)
Definition dashfree (s : string) : Prop := has_char "-" s = false.
Definition model_comps (model : option rmodel) (devices : option (dict rcomp)) : dict rcomp :=
  match model with None => [] | Some m => rm_couplings m ++ rm_subsystems m ++ rm_tasks m end
  ++ match devices with None => [] | Some d => d end.
(** Components are stored under their names, names are distinct and free of "-", and an
    option of a gate component is not called like one of its parameters. *)
Definition well_named (model : option rmodel) (devices : option (dict rcomp)) (instrs : list rinstr) : Prop :=
  NoDup (keys (model_comps model devices))
  /\ (forall n c, In (n, c) (model_comps model devices) ->
        n = rc_name c /\ dashfree n /\ NoDup (keys (rc_params c)) /\ forall p, In p (keys (rc_params c)) -> dashfree p)
  /\ NoDup (map ri_key instrs)
  /\ (forall i, In i instrs -> dashfree (ri_name i) /\ NoDup (keys (ri_comps i))
        /\ forall chan cs, In (chan, cs) (ri_comps i) -> dashfree chan /\ NoDup (keys cs)
           /\ forall comp c, In (comp, c) cs -> dashfree comp /\ NoDup (keys (rc_params c))
              /\ forall co o, dget chan (ri_opts i) = Some co -> dget comp co = Some o -> NoDup (keys (rc_params c) ++ keys o)).

Lemma dash_split : forall a b x y, dashfree a -> dashfree b ->
  (a ++ String "-" x)%string = (b ++ String "-" y)%string -> a = b /\ x = y.
Proof.
  unfold dashfree. induction a as [|ca a IH]; intros b x y Ha Hb E; destruct b as [|cb b]; cbn [append] in E.
  - injection E as ->. auto.
  - injection E as E1 _. subst cb. cbn in Hb. discriminate.
  - injection E as E1 _. subst ca. cbn in Ha. discriminate.
  - injection E as -> E. cbn [has_char] in *. apply orb_false_iff in Ha, Hb. destruct (IH b x y) as [-> ->]; tauto.
Qed.
Lemma has_char_app : forall c a b, has_char c (a ++ b) = has_char c a || has_char c b.
Proof. induction a as [|d a IH]; intro b; [reflexivity|]. cbn [append has_char]. rewrite IH. apply orb_assoc. Qed.
Lemma digits_dashfree : forall s, digits s -> dashfree s.
Proof.
  unfold dashfree. induction s as [|c s IH]; intro H; [reflexivity|]. cbn [digits] in H. destruct H as [H1 H2]. cbn [has_char].
  rewrite (IH H2), orb_false_r. destruct (Ascii.eqb_spec "-" c) as [<-|]; [discriminate H1|reflexivity].
Qed.
Lemma comma_dashfree : forall l, dashfree (comma_join (map str_nat l)).
Proof.
  assert (D : forall n, dashfree (str_nat n)) by (intro n; apply digits_dashfree, str_nat_digits).
  unfold dashfree in *. induction l as [|n l IH]; [reflexivity|]. cbn [map comma_join]. destruct (map str_nat l) as [|s r] eqn:E; [apply D|].
  rewrite !has_char_app, D, IH. reflexivity.
Qed.
Lemma key_dashfree : forall n t, dashfree n -> dashfree (get_key n t).
Proof.
  unfold dashfree. intros n [t|] H; [|exact H]. cbn [get_key]. unfold str_list. rewrite !has_char_app, H, (comma_dashfree t). reflexivity.
Qed.
Lemma in_nodup_eq : forall V (d : dict V) k v w, NoDup (keys d) -> In (k, v) d -> In (k, w) d -> v = w.
Proof.
  intros V d k v w N H1 H2. pose proof (dget_in_nodup k v d N H1) as A. pose proof (dget_in_nodup k w d N H2) as B. congruence.
Qed.
Lemma nodup_app_l : forall A (l l' : list A), NoDup (l ++ l') -> NoDup l.
Proof. intros A l l' H. induction l as [|x l IH]; [constructor|]. inversion H; subst. constructor; [|auto]. intro X. apply H2, in_app_iff. auto. Qed.
Lemma nodup_app_r : forall A (l l' : list A), NoDup (l ++ l') -> NoDup l'.
Proof. intros A l l' H. induction l as [|x l IH]; [exact H|]. inversion H; subst. auto. Qed.
Lemma nodup_app_disjoint : forall A (l l' : list A) x, NoDup (l ++ l') -> In x l -> In x l' -> False.
Proof. intros A l l' x H H1 H2. induction l as [|y l IH]; [destruct H1|]. inversion H; subst. destruct H1 as [->|H1]; [apply H4, in_app_iff; auto|auto]. Qed.
Lemma listed_unique : forall model devices instrs, well_named model devices instrs ->
  forall id a a', Listed (values (model_comps model devices)) instrs id a -> Listed (values (model_comps model devices)) instrs id a' -> a = a'.
Proof.
  intros model devices instrs (W1 & W2 & W3 & W4).
  assert (CG : forall c p a i chan comp q, In c (values (model_comps model devices)) -> In (p, a) (rc_params c) -> In i instrs ->
     (rc_name c ++ "-" ++ p)%string = (ri_key i ++ "-" ++ chan ++ "-" ++ comp ++ "-" ++ q)%string -> False).
  { intros c p a i chan comp q Hc Hp Hi E. unfold values in Hc. apply in_map_iff in Hc. destruct Hc as ([n c'] & E' & Hc). cbn in E'. subst c'.
    destruct (W2 n c Hc) as (-> & D & _ & P). destruct (W4 i Hi) as (K & _).
    apply (dash_split _ _ _ _ D (key_dashfree _ (ri_targets i) K)) in E. destruct E as [_ E].
    assert (X : dashfree p) by (apply P; apply (in_map fst) in Hp; exact Hp). unfold dashfree in X. rewrite E in X.
    rewrite has_char_app in X. cbn [append has_char] in X. rewrite orb_true_r in X. discriminate X. }
  intros id a a' L L'. destruct L as [c p a Hc Hp|i chan comp p a Hi Hp]; inversion L' as [c' p' ? Hc' Hp' E|i' chan' comp' p' ? Hi' Hp' E]; subst.
  - unfold values in Hc, Hc'. apply in_map_iff in Hc, Hc'. destruct Hc as ([n c0] & E0 & Hc). destruct Hc' as ([n' c0'] & E0' & Hc'). cbn in E0, E0'. subst c0 c0'.
    destruct (W2 n c Hc) as (-> & D & N & _). destruct (W2 n' c' Hc') as (-> & D' & _ & _).
    apply (dash_split _ _ _ _ D' D) in E. destruct E as [E ->].
    assert (c' = c) by (rewrite E in Hc'; exact (in_nodup_eq _ _ _ _ _ W1 Hc' Hc)). subst c'.
    exact (in_nodup_eq _ _ _ _ _ N Hp Hp').
  - exfalso. exact (CG c p a i' chan' comp' p' Hc Hp Hi' (eq_sym E)).
  - exfalso. exact (CG c' p' a' i chan comp p Hc' Hp' Hi E).
  - destruct (W4 i Hi) as (K & NC & Q). destruct (W4 i' Hi') as (K' & NC' & Q').
    apply (dash_split _ _ _ _ (key_dashfree _ (ri_targets i') K') (key_dashfree _ (ri_targets i) K)) in E. destruct E as [Ek E].
    assert (i' = i).
    { clear - W3 Hi Hi' Ek. induction instrs as [|x l IH]; [destruct Hi|]. cbn [map] in W3. inversion W3; subst.
      destruct Hi as [->|Hi], Hi' as [->|Hi']; auto.
      - exfalso. apply H1. apply in_map_iff. exists i'. auto.
      - exfalso. apply H1. apply in_map_iff. exists i. auto. }
    subst i'.
    assert (Q1 : forall chan comp p a, gate_par i chan comp p a -> exists cs c, In (chan, cs) (ri_comps i) /\ In (comp, c) cs).
    { intros ? ? ? ? G. destruct G; eauto. }
    destruct (Q1 _ _ _ _ Hp) as (cs & c & A1 & A2). destruct (Q1 _ _ _ _ Hp') as (cs' & c' & B1 & B2).
    destruct (Q chan cs A1) as (D1 & N1 & R1). destruct (Q chan' cs' B1) as (D1' & _ & R1').
    apply (dash_split _ _ _ _ D1' D1) in E. destruct E as [-> E].
    assert (cs' = cs) by exact (in_nodup_eq _ _ _ _ _ NC B1 A1). subst cs'.
    destruct (R1 comp c A2) as (D2 & N2 & T). destruct (R1 comp' c' B2) as (D2' & _ & _).
    apply (dash_split _ _ _ _ D2' D2) in E. destruct E as [-> ->].
    assert (c' = c) by exact (in_nodup_eq _ _ _ _ _ N1 B2 A2). subst c'.
    assert (U : forall b, gate_par i chan comp p b ->
       In (p, b) (rc_params c) \/ exists co o, dget chan (ri_opts i) = Some co /\ dget comp co = Some o /\ In (p, OQty b) o).
    { intros b G. inversion G as [? cs1 ? c1 ? ? X1 X2 X3|? cs1 ? c1 co o ? ? X1 X2 X3 X4 X5]; subst.
      - assert (cs1 = cs) by exact (in_nodup_eq _ _ _ _ _ NC X1 A1). subst cs1.
        assert (c1 = c) by exact (in_nodup_eq _ _ _ _ _ N1 X2 A2). subst c1. left. exact X3.
      - right. exists co, o. auto. }
    destruct (U _ Hp) as [P1|(co & o & P1 & P2 & P3)]; destruct (U _ Hp') as [S1|(co' & o' & S1 & S2 & S3)].
    + exact (in_nodup_eq _ _ _ _ _ N2 P1 S1).
    + exfalso. apply (nodup_app_disjoint _ _ _ p (T _ _ S1 S2)); [apply (in_map fst) in P1; exact P1|apply (in_map fst) in S3; exact S3].
    + exfalso. apply (nodup_app_disjoint _ _ _ p (T _ _ P1 P2)); [apply (in_map fst) in S1; exact S1|apply (in_map fst) in P3; exact P3].
    + rewrite P1 in S1. injection S1 as <-. rewrite P2 in S2. injection S2 as <-.
      pose proof (in_nodup_eq _ _ _ _ _ (nodup_app_r _ _ _ (T _ _ P1 P2)) P3 S3) as X. congruence.
Qed.
Lemma dupdate_disjoint : forall V (d e : dict V), NoDup (keys (d ++ e)) -> dupdate d e = d ++ e.
Proof.
  intros V d e. revert d. induction e as [|[k v] e IH]; intros d H; [rewrite app_nil_r; reflexivity|].
  unfold dupdate. cbn [fold_left fst snd].
  assert (X : dset k v d = d ++ [(k, v)]).
  { apply Frame2Props.dset_append. intro X. unfold keys in H. rewrite map_app in H. apply (nodup_app_disjoint _ _ _ k H X). left. reflexivity. }
  rewrite X. change (fold_left (fun d0 kv => dset (fst kv) (snd kv) d0) e (d ++ [(k, v)])) with (dupdate (d ++ [(k, v)]) e).
  rewrite IH by (rewrite <- app_assoc; exact H). rewrite <- app_assoc. reflexivity.
Qed.
Lemma collect_disjoint : forall model devices, NoDup (keys (model_comps model devices)) ->
  collect_components model devices = model_comps model devices.
Proof.
  intros model devices H. unfold collect_components, model_comps in *.
  assert (M : match model with Some m => dupdate (dupdate (dupdate [] (rm_couplings m)) (rm_subsystems m)) (rm_tasks m) | None => [] end
     = match model with Some m => rm_couplings m ++ rm_subsystems m ++ rm_tasks m | None => [] end).
  { destruct model as [m|]; [|reflexivity]. unfold keys in H. rewrite map_app in H. apply nodup_app_l in H.
    rewrite app_assoc in H. rewrite app_assoc. change (NoDup (keys ((rm_couplings m ++ rm_subsystems m) ++ rm_tasks m))) in H.
    assert (H1 : NoDup (keys (rm_couplings m ++ rm_subsystems m))) by (unfold keys in *; rewrite map_app in H; apply nodup_app_l in H; exact H).
    assert (H2 : NoDup (keys ([] ++ rm_couplings m))) by (unfold keys in *; rewrite map_app in H1; apply nodup_app_l in H1; exact H1).
    rewrite (dupdate_disjoint _ [] _ H2). cbn [app]. rewrite (dupdate_disjoint _ _ _ H1). apply dupdate_disjoint. exact H. }
  rewrite M. destruct devices as [d|]; [apply dupdate_disjoint; exact H|rewrite app_nil_r; reflexivity].
Qed.
Lemma instr_values : forall instrs, NoDup (map ri_key instrs) ->
  fold_left (fun d i => dset (ri_key i) i d) instrs [] = map (fun i => (ri_key i, i)) instrs.
Proof.
  intros instrs H.
  assert (G : forall l d, NoDup (keys d ++ map ri_key l) -> fold_left (fun d i => dset (ri_key i) i d) l d = d ++ map (fun i => (ri_key i, i)) l).
  { induction l as [|i l IH]; intros d N; [rewrite app_nil_r; reflexivity|]. cbn [fold_left map].
    rewrite Frame2Props.dset_append by (intro X; apply (nodup_app_disjoint _ _ _ _ N X); left; reflexivity).
    rewrite IH; [rewrite <- app_assoc; reflexivity|]. unfold keys in *. rewrite map_app, <- app_assoc. exact N. }
  apply G. exact H.
Qed.
Lemma owned_values : forall model devices c, In c (values (model_comps model devices)) <-> owned model devices c.
Proof.
  intros model devices c. unfold values, model_comps, owned. rewrite in_map_iff. split.
  - intros ([n c'] & E & H). cbn in E. subst c'. apply in_app_iff in H. destruct H as [H|H].
    + destruct model as [m|]; [|destruct H]. left. exists m. eauto.
    + destruct devices as [d|]; [|destruct H]. right. eauto.
  - intros [(m & -> & n & H)|(d & n & -> & H)]; exists (n, c); (split; [reflexivity|]); apply in_app_iff; auto.
Qed.
(** The map knows exactly the parameters of the components, the devices, the gate
    components and their options, each under its hierarchical name, with its length. *)
Theorem C102_registered :
  forall h instrs model devices r, well_named model devices instrs ->
  parameter_map h instrs model devices = Ok r ->
  (forall id a, dget id (rg_pars r) = Some a <-> Exposed model devices instrs id a)
  /\ (forall id a q, dget id (rg_pars r) = Some a -> nth_error h a = Some q -> dget id (rg_lens r) = Some (length (q_value q)))
  /\ keys (rg_lens r) = keys (rg_pars r) /\ NoDup (keys (rg_pars r))
  /\ (forall id, In id (rg_model_ids r) <->
        exists c p a, owned model devices c /\ In (p, a) (rc_params c) /\ id = (rc_name c ++ "-" ++ p)%string).
Proof.
  intros h instrs model devices r W H. pose proof W as (W1 & _ & W3 & _).
  unfold parameter_map in H. rewrite (collect_disjoint _ _ W1), (instr_values _ W3) in H.
  destruct (initialize_spec _ _ H) as (_ & _ & _ & A & B & D & E & F & G). cbn [rg_components rg_instructions rg_heap] in *.
  assert (V : values (map (fun i => (ri_key i, i)) instrs) = instrs) by (unfold values; rewrite map_map; apply map_id).
  rewrite V in *. pose proof (listed_unique _ _ _ W) as U.
  assert (LE : forall id a, Listed (values (model_comps model devices)) instrs id a <-> Exposed model devices instrs id a).
  { intros id a. split; intro L; inversion L as [? ? ? X Y|? ? ? ? ? X Y]; subst.
    - apply ex_comp; [apply owned_values; exact X|exact Y].
    - apply ex_gate; assumption.
    - apply ls_comp; [apply owned_values; exact X|exact Y].
    - apply ls_gate; assumption. }
  split; [|split; [|split; [exact E|split; [exact F|]]]].
  - intros id a. rewrite <- LE. split; [apply A|]. intro L. destruct (B id a L) as (a' & Ha').
    rewrite Ha'. f_equal. apply (U id); [apply A; exact Ha'|exact L].
  - intros id a q H1 H2. rewrite (D id a H1). unfold qlength. rewrite H2. reflexivity.
  - intro id. rewrite G. split.
    + intros (a & L). inversion L as [c p ? X Y|? ? ? ? ? []]; subst. exists c, p, a. rewrite <- owned_values. auto.
    + intros (c & p & a & X & Y & ->). exists a. apply ls_comp; [apply owned_values; exact X|exact Y].
Qed.
Print Assumptions C102_registered.

(** ** Registration succeeds *)
(** Instructions made with the constructor and [add_component]. *)
Inductive built : rinstr -> Prop :=
| built_new : forall name targets ideal channels, built (new_instruction name targets ideal channels)
| built_add : forall i c chan options name i', built i -> add_component c chan options name i = Ok i' -> built i'.
Definition matched (i : rinstr) : Prop :=
  NoDup (keys (ri_comps i)) /\ forall chan cs, dget chan (ri_comps i) = Some cs ->
    NoDup (keys cs) /\ exists co, dget chan (ri_opts i) = Some co /\ forall comp, In comp (keys cs) -> exists o, dget comp co = Some o.
Lemma built_matched : forall i, built i -> matched i.
Proof.
  intros i B. induction B as [name targets ideal channels|i c chan options name i' B IH H].
  - unfold matched, new_instruction. cbn [ri_comps ri_opts].
    assert (G : forall l (d : dict (dict rcomp)) (e : dict (dict (dict ropt))), NoDup (keys d) ->
       (forall chan cs, dget chan d = Some cs -> cs = [] /\ dget chan e = Some []) ->
       NoDup (keys (fold_left (fun d c => dset c [] d) l d))
       /\ forall chan cs, dget chan (fold_left (fun d c => dset c [] d) l d) = Some cs ->
            cs = [] /\ dget chan (fold_left (fun d c => dset c [] d) l e) = Some []).
    { induction l as [|x l IH]; intros d e N P; [auto|]. cbn [fold_left]. apply IH; [apply nodup_dset'; exact N|].
      intros chan cs. destruct (string_dec chan x) as [->|Ne].
      - rewrite !dget_dset_same. intro X. injection X as <-. auto.
      - rewrite !dget_dset_other by exact Ne. apply P. }
    destruct (G channels [] [] ltac:(constructor) ltac:(intros ? ? X; discriminate X)) as [A D]. split; [exact A|].
    intros chan cs X. destruct (D _ _ X) as [-> E]. split; [constructor|]. exists []. split; [exact E|]. intros ? [].
  - destruct IH as [N P]. unfold add_component in H. destruct (dget chan (ri_comps i)) as [cs|] eqn:E1; [|discriminate].
    destruct (dget chan (ri_opts i)) as [os|] eqn:E2; [|discriminate]. injection H as <-. unfold matched. cbn [ri_comps ri_opts].
    set (n := match name with Some n => n | None => rc_name c end). split; [apply nodup_dset'; exact N|].
    intros chan' cs'. destruct (string_dec chan' chan) as [->|Ne].
    + rewrite !dget_dset_same. intro X. injection X as <-. destruct (P chan cs E1) as (N1 & co & C1 & C2).
      rewrite E2 in C1. injection C1 as <-. split; [apply nodup_dset'; exact N1|]. eexists. split; [reflexivity|].
      intros comp Hc. apply in_keys_dset in Hc. destruct (string_dec comp n) as [->|Nn]; [rewrite dget_dset_same; eauto|].
      rewrite dget_dset_other by exact Nn. destruct Hc as [Hc|Hc]; [contradiction|]. apply C2. exact Hc.
    + rewrite !dget_dset_other by exact Ne. apply P.
Qed.
Lemma chan_pars_ok : forall key chan opts co cs, dget chan opts = Some co ->
  (forall comp, In comp (keys cs) -> exists o, dget comp co = Some o) -> exists l, chan_pars key chan opts cs = Ok l.
Proof.
  intros key chan opts co cs E. induction cs as [|[comp c] cs IH]; intro H; [eexists; reflexivity|]. cbn [chan_pars]. rewrite E.
  destruct (H comp (or_introl eq_refl)) as (o & ->). destruct IH as (l & ->); [intros x Hx; apply H; right; exact Hx|]. eexists. reflexivity.
Qed.
Lemma matched_ok : forall i, matched i -> exists l, get_optimizable_parameters i = Ok l.
Proof.
  intros i [N P]. unfold get_optimizable_parameters.
  assert (G : forall l, (forall chan cs, In (chan, cs) l -> dget chan (ri_comps i) = Some cs) -> exists r, all_pars (ri_key i) (ri_opts i) l = Ok r).
  { induction l as [|[chan cs] l IH]; intro H; [eexists; reflexivity|]. cbn [all_pars].
    destruct (P chan cs (H _ _ (or_introl eq_refl))) as (_ & co & E & C).
    destruct (chan_pars_ok (ri_key i) chan (ri_opts i) co cs E C) as (a & ->). cbn [rbind].
    destruct IH as (b & ->); [intros; apply H; right; assumption|]. eexists. reflexivity. }
  apply G. intros chan cs H. apply dget_in_nodup; assumption.
Qed.
(** Gates made with [add_component] can always be registered. *)
Theorem C102_built_gates_register :
  forall h instrs model devices, (forall i, In i instrs -> built i) -> exists r, parameter_map h instrs model devices = Ok r.
Proof.
  intros h instrs model devices H. unfold parameter_map, initialize. cbn [rg_heap rg_instructions rg_components].
  assert (G : forall is acc, (forall k i, In (k, i) is -> built i) -> exists c, register_instrs h is acc = Ok c).
  { induction is as [|[k i] is IH]; intros acc B; [eexists; reflexivity|]. cbn [register_instrs].
    destruct (matched_ok i (built_matched i (B k i (or_introl eq_refl)))) as (l & ->). cbn [rbind]. apply IH.
    intros; eapply B; right; eassumption. }
  assert (I : forall l d, (forall i, In i l -> built i) -> (forall k i, In (k, i) d -> built i) ->
     forall k i, In (k, i) (fold_left (fun d i => dset (ri_key i) i d) l d) -> built i).
  { induction l as [|x l IH]; intros d Hl Hd; [exact Hd|]. cbn [fold_left]. apply IH; [intros; apply Hl; right; assumption|].
    intros k i Hi. assert (X : In (k, i) d \/ i = x).
    { clear - Hi. induction d as [|[a b] d IH]; cbn [dset] in Hi; [destruct Hi as [Hi|[]]; injection Hi as <- <-; auto|].
      destruct (String.eqb (ri_key x) a).
      - destruct Hi as [Hi|Hi]; [injection Hi as <- <-; auto|left; right; exact Hi].
      - destruct Hi as [Hi|Hi]; [left; left; exact Hi|]. destruct (IH Hi); [left; right; assumption|auto]. }
    destruct X as [X| ->]; [eapply Hd; eassumption|apply Hl; left; reflexivity]. }
  match goal with |- context [register_instrs h ?is ?acc] => destruct (G is acc) as (c & ->) end.
  - intros k i Hi. eapply I; [exact H| |exact Hi]. intros ? ? [].
  - eexists. reflexivity.
Qed.
Print Assumptions C102_built_gates_register.
(** Looking a parameter up by its hierarchical name gives that object; unknown names are
    refused. *)
Theorem C102_get_parameter :
  forall h instrs model devices r, well_named model devices instrs -> parameter_map h instrs model devices = Ok r ->
  (forall par_id a, get_parameter r par_id = Ok a <-> Exposed model devices instrs (String.concat "-" par_id) a)
  /\ (forall par_id, (forall a, ~ Exposed model devices instrs (String.concat "-" par_id) a) -> get_parameter r par_id = Err C3Error).
Proof.
  intros h instrs model devices r W H. destruct (C102_registered _ _ _ _ _ W H) as (A & _). unfold get_parameter. split.
  - intros par_id a. rewrite <- A. destruct (dget _ _); split; congruence.
  - intros par_id N. destruct (dget (String.concat "-" par_id) (rg_pars r)) as [a|] eqn:E; [|reflexivity].
    exfalso. apply (N a). apply A. exact E.
Qed.
Print Assumptions C102_get_parameter.

(** ** Writing through the map *)
Lemma hput_length : forall h a q, length (hput a q h) = length h.
Proof. induction h as [|x h IH]; intros [|a] q; cbn; auto. Qed.
Lemma hput_same : forall h a q, a < length h -> nth_error (hput a q h) a = Some q.
Proof. induction h as [|x h IH]; intros [|a] q H; cbn in *; try lia; auto. apply IH. lia. Qed.
Lemma hput_other : forall h a b q, a <> b -> nth_error (hput a q h) b = nth_error h b.
Proof. induction h as [|x h IH]; intros [|a] [|b] q H; cbn; auto; try contradiction. Qed.
Definition flat (m : optmap) (vals : list (list R)) : list (string * list R) :=
  List.concat (map (fun gv => map (fun k => (k, snd gv)) (fst gv)) (combine m vals)).
Fixpoint heap_seq (pars : dict addr) (l : list (string * list R)) (ext : bool) (h : heap) : heap * option exn :=
  match l with
  | [] => (h, None)
  | (k, v) :: r => match heap_set_one pars k v ext h with (h', None) => heap_seq pars r ext h' | (h', Some e) => (h', Some e) end
  end.
Lemma heap_seq_app : forall pars a b ext h, heap_seq pars (a ++ b) ext h =
  match heap_seq pars a ext h with (h', None) => heap_seq pars b ext h' | x => x end.
Proof.
  intros pars a. induction a as [|[k v] a IH]; intros b ext h; [reflexivity|]. cbn [app heap_seq].
  destruct (heap_set_one pars k v ext h) as [h' [e|]]; [reflexivity|]. apply IH.
Qed.
Lemma heap_groups_seq : forall pars m vals ext h, length vals = length m ->
  heap_set_groups pars m vals ext h = heap_seq pars (flat m vals) ext h.
Proof.
  intros pars. induction m as [|g m IH]; intros vals ext h H; [destruct vals; [reflexivity|discriminate]|].
  destruct vals as [|v vals]; [discriminate|]. injection H as H. cbn [heap_set_groups]. unfold flat. cbn [combine map List.concat fst snd].
  rewrite heap_seq_app. fold (flat m vals).
  assert (G : forall u h, heap_set_group pars u v ext h = heap_seq pars (map (fun k => (k, v)) u) ext h).
  { induction u as [|k u IHg]; intro h0; [reflexivity|]. cbn [heap_set_group map heap_seq].
    destruct (heap_set_one pars k v ext h0) as [h' [e|]]; [reflexivity|]. apply IHg. }
  rewrite G. destruct (heap_seq pars _ ext h) as [h' [e|]]; [reflexivity|]. apply IH. exact H.
Qed.
Lemma set_one_spec : forall pars k v ext h h', heap_set_one pars k v ext h = (h', None) ->
  exists a q q', dget k pars = Some a /\ nth_error h a = Some q /\ set_value v ext q = Ok q' /\ h' = hput a q' h.
Proof.
  intros pars k v ext h h' H. unfold heap_set_one in H. destruct (dget k pars) as [a|]; [|discriminate].
  destruct (nth_error h a) as [q|] eqn:E; [|discriminate]. destruct (set_value v ext q) as [q'|[]] eqn:S; try discriminate.
  injection H as <-. exists a, q, q'. auto.
Qed.
Lemma set_one_frame : forall pars k v ext h h' e b, heap_set_one pars k v ext h = (h', e) -> dget k pars <> Some b ->
  nth_error h' b = nth_error h b /\ length h' = length h.
Proof.
  intros pars k v ext h h' e b H N. unfold heap_set_one in H. destruct (dget k pars) as [a|]; [|injection H as <- _; auto].
  destruct (nth_error h a) as [q|]; [|injection H as <- _; auto].
  destruct (set_value v ext q) as [q'|[]]; injection H as <- _; auto. rewrite hput_length. split; [|reflexivity].
  apply hput_other. congruence.
Qed.
Lemma heap_seq_frame : forall pars l ext h h' e b, heap_seq pars l ext h = (h', e) ->
  (forall k, In k (map fst l) -> dget k pars <> Some b) -> nth_error h' b = nth_error h b /\ length h' = length h.
Proof.
  intros pars l. induction l as [|[k v] l IH]; intros ext h h' e b H N; cbn [heap_seq] in H; [injection H as <- _; auto|].
  destruct (heap_set_one pars k v ext h) as [h1 [x|]] eqn:E.
  - injection H as <- _. apply (set_one_frame _ _ _ _ _ _ _ _ E). apply N. left. reflexivity.
  - destruct (set_one_frame _ _ _ _ _ _ _ b E) as [A1 A2]; [apply N; left; reflexivity|].
    destruct (IH _ _ _ _ b H) as [B1 B2]; [intros; apply N; right; assumption|]. split; congruence.
Qed.
Lemma heap_seq_ok : forall pars l ext h h', heap_seq pars l ext h = (h', None) ->
  NoDup (map fst l) -> (forall k k' a, In k (map fst l) -> In k' (map fst l) -> dget k pars = Some a -> dget k' pars = Some a -> k = k') ->
  forall k v a q, In (k, v) l -> dget k pars = Some a -> nth_error h a = Some q ->
  exists q', set_value v ext q = Ok q' /\ nth_error h' a = Some q'.
Proof.
  intros pars l. induction l as [|[k0 v0] l IH]; intros ext h h' H N J k v a q Hk Ha Hq; [destruct Hk|]. cbn [heap_seq] in H.
  destruct (heap_set_one pars k0 v0 ext h) as [h1 [x|]] eqn:E; [discriminate|]. cbn [map fst] in N. inversion N as [|? ? N1 N2]; subst.
  destruct (set_one_spec _ _ _ _ _ _ E) as (a0 & q0 & q0' & P1 & P2 & P3 & ->). destruct Hk as [Hk|Hk].
  - injection Hk as -> ->. rewrite Ha in P1. injection P1 as <-. rewrite Hq in P2. injection P2 as <-.
    exists q0'. split; [exact P3|]. destruct (heap_seq_frame _ _ _ _ _ _ a H) as [A _].
    + intros k' Hk' X. assert (k' = k) by (apply (J k' k a); auto; [right; exact Hk'|left; reflexivity]). subst k'. contradiction.
    + rewrite A. apply hput_same. apply nth_error_Some. congruence.
  - destruct (IH _ _ _ H N2) with (k := k) (v := v) (a := a) (q := q) as (q' & A & B); auto.
    + intros k1 k2 b H1 H2. apply J; right; assumption.
    + rewrite hput_other; [exact Hq|]. intro X. subst a0. apply N1. apply (in_map fst) in Hk. cbn in Hk.
      assert (k0 = k) by (apply (J k0 k a); auto; [left; reflexivity|right; exact Hk]). subst k0. exact Hk.
    + exists q'. auto.
Qed.
Lemma flat_fst : forall m vals, length vals = length m -> map fst (flat m vals) = List.concat m.
Proof.
  induction m as [|g m IH]; intros vals H; [destruct vals; [reflexivity|discriminate]|]. destruct vals as [|v vals]; [discriminate|].
  injection H as H. unfold flat. cbn [combine map List.concat fst snd]. rewrite map_app. fold (flat m vals). rewrite (IH _ H).
  rewrite map_map. cbn [fst]. rewrite map_id. reflexivity.
Qed.
Lemma in_flat : forall m vals n g v k, nth_error m n = Some g -> nth_error vals n = Some v -> In k g -> In (k, v) (flat m vals).
Proof.
  induction m as [|g0 m IH]; intros vals n g v k H1 H2 H3; [destruct n; discriminate|].
  destruct vals as [|v0 vals]; [destruct n; discriminate|]. unfold flat. cbn [combine map List.concat fst snd]. apply in_app_iff.
  destruct n as [|n]; cbn in H1, H2.
  - injection H1 as ->. injection H2 as ->. left. apply in_map_iff. exists k. auto.
  - right. eapply IH; eassumption.
Qed.
(** Setting parameters through the map changes the objects their owners hold: each listed
    parameter takes its value, every other object keeps its own.  Objects are registered
    under one identifier each. *)
Theorem C102_writes_reach_owners :
  forall h instrs model devices r m vals ext h', well_named model devices instrs ->
  parameter_map h instrs model devices = Ok r ->
  (forall id id' a, Exposed model devices instrs id a -> Exposed model devices instrs id' a -> id = id') ->
  length vals = length m -> NoDup (List.concat m) ->
  heap_set_groups (rg_pars r) m vals ext h = (h', None) ->
  (forall n g v id a q, nth_error m n = Some g -> nth_error vals n = Some v -> In id g ->
     Exposed model devices instrs id a -> nth_error h a = Some q ->
     exists q', set_value v ext q = Ok q' /\ nth_error h' a = Some q')
  /\ (forall a, (forall id, In id (List.concat m) -> ~ Exposed model devices instrs id a) -> nth_error h' a = nth_error h a).
Proof.
  intros h instrs model devices r m vals ext h' W H J L N S. destruct (C102_registered _ _ _ _ _ W H) as (A & _).
  rewrite heap_groups_seq in S by exact L. split.
  - intros n g v id a q H1 H2 H3 H4 H5. apply (heap_seq_ok _ _ _ _ _ S) with (k := id).
    + rewrite flat_fst by exact L. exact N.
    + intros k k' b _ _ X Y. apply (J k k' b); apply A; assumption.
    + apply (in_flat m vals n g); assumption.
    + apply A. exact H4.
    + exact H5.
  - intros a Ha. apply (heap_seq_frame _ _ _ _ _ _ a S). intros k Hk X. rewrite flat_fst in Hk by exact L.
    apply (Ha k Hk). apply A. exact X.
Qed.
Print Assumptions C102_writes_reach_owners.

(** ** The map by values *)
Definition no_quantity : quantity := {| q_pref := 1; q_offset := 0; q_scale := 1; q_value := []; q_unit := ""; q_symbol := "" |}.
(** The contents of the objects, by identifier: the parameters as PMapModel.v keeps them. *)
Definition contents (pars : dict addr) (h : heap) : dict quantity := map (fun ka => (fst ka, nth (snd ka) h no_quantity)) pars.
Lemma dget_contents : forall pars h k, dget k (contents pars h) = option_map (fun a => nth a h no_quantity) (dget k pars).
Proof. induction pars as [|[k' a] pars IH]; intros h k; [reflexivity|]. cbn. destruct (String.eqb k k'); [reflexivity|]. apply IH. Qed.
Lemma contents_put : forall pars h k a q, NoDup (keys pars) -> dget k pars = Some a -> a < length h ->
  (forall k', dget k' pars = Some a -> k' = k) -> contents pars (hput a q h) = dset k q (contents pars h).
Proof.
  intros pars h k a q. revert k. induction pars as [|[k0 b] pars IH]; intros k N H L J; [discriminate H|].
  cbn [keys map fst] in N. inversion N as [|? ? N1 N2]; subst. cbn [contents map fst snd dset]. cbn [dget] in H.
  assert (Rest : forall p, (forall k b, In (k, b) p -> b <> a) -> contents p (hput a q h) = contents p h).
  { induction p as [|[k1 c] p IHp]; intro F; [reflexivity|]. cbn [contents map fst snd]. f_equal.
    - f_equal. assert (X : a <> c) by (intro X; apply (F k1 c (or_introl eq_refl)); auto).
      pose proof (hput_other h a c q X) as Y.
      destruct (nth_error h c) as [w|] eqn:E; [rewrite (nth_error_nth _ _ _ E), (nth_error_nth _ _ _ Y); reflexivity|].
      rewrite !nth_overflow; auto; apply nth_error_None; congruence.
    - apply IHp. intros; eapply F; right; eassumption. }
  destruct (String.eqb_spec k k0) as [->|Ne].
  - injection H as ->. f_equal; [f_equal; apply nth_error_nth; apply hput_same; exact L|]. apply Rest.
    intros k1 b H1 X. subst b. assert (k1 = k0).
    { apply J. cbn [dget]. destruct (String.eqb_spec k1 k0) as [->|]; [reflexivity|]. apply dget_in_nodup; assumption. }
    subst k1. apply N1. apply (in_map fst) in H1. exact H1.
  - assert (X : b <> a).
    { intro X. subst b. apply Ne. symmetry. apply J. cbn [dget]. rewrite String.eqb_refl. reflexivity. }
    f_equal.
    + pose proof (Rest [(k0, b)]) as Y. cbn [contents map fst snd] in Y. injection (Y ltac:(intros ? ? [E|[]]; injection E as <- <-; exact X)) as Z.
      rewrite Z. reflexivity.
    + apply IH; auto. intros k' H'. apply J. cbn [dget]. destruct (String.eqb_spec k' k0) as [->|]; [|exact H'].
      exfalso. apply N1. eapply dget_in_keys; eauto.
Qed.
(** Provided no object is registered twice, setting parameters on the shared objects is
    what PMapModel.v does on the dictionary of their contents: every theorem about
    [set_parameters] there speaks about the objects of the model and of the gates. *)
Theorem C102_set_by_contents :
  forall pars m vals ext h h' e, NoDup (keys pars) -> (forall k a, dget k pars = Some a -> a < length h) ->
  (forall k k' a, dget k pars = Some a -> dget k' pars = Some a -> k = k') ->
  heap_set_groups pars m vals ext h = (h', e) ->
  set_groups m vals ext (contents pars h) = (contents pars h', e) /\ length h' = length h.
Proof.
  intros pars m vals ext h h' e N. revert m vals h h' e.
  assert (One : forall k v h h' e, (forall k a, dget k pars = Some a -> a < length h) ->
    (forall k k' a, dget k pars = Some a -> dget k' pars = Some a -> k = k') ->
    heap_set_one pars k v ext h = (h', e) -> set_one k v ext (contents pars h) = (contents pars h', e) /\ length h' = length h).
  { intros k v h h' e A J H. unfold heap_set_one in H. unfold set_one. rewrite dget_contents.
    destruct (dget k pars) as [a|] eqn:E; [|injection H as <- <-; auto]. cbn [option_map].
    destruct (nth_error h a) as [q|] eqn:Q; [|apply nth_error_None in Q; specialize (A k a E); lia].
    rewrite (nth_error_nth _ _ no_quantity Q). destruct (set_value v ext q) as [q'|x] eqn:S.
    - injection H as <- <-. rewrite hput_length. split; [|reflexivity].
      rewrite (contents_put pars h k a q' N E (A k a E)); [reflexivity|]. intros k' H'. apply (J k' k a); assumption.
    - destruct x; injection H as <- <-; auto. }
  assert (Grp : forall g v h h' e, (forall k a, dget k pars = Some a -> a < length h) ->
    (forall k k' a, dget k pars = Some a -> dget k' pars = Some a -> k = k') ->
    heap_set_group pars g v ext h = (h', e) -> set_group g v ext (contents pars h) = (contents pars h', e) /\ length h' = length h).
  { induction g as [|k g IH]; intros v h h' e A J H; cbn [heap_set_group set_group] in *; [injection H as <- <-; auto|].
    destruct (heap_set_one pars k v ext h) as [h1 o] eqn:E. destruct (One _ _ _ _ _ A J E) as [-> L].
    destruct o as [x|]; [injection H as <- <-; auto|]. destruct (IH _ _ _ _ (fun k a X => eq_ind_r (fun n => a < n) (A k a X) L) J H) as [-> L2].
    split; [reflexivity|congruence]. }
  induction m as [|g m IH]; intros vals h h' e A J H; cbn [heap_set_groups set_groups] in *; [injection H as <- <-; auto|].
  destruct vals as [|v vals]; [injection H as <- <-; auto|].
  destruct (heap_set_group pars g v ext h) as [h1 o] eqn:E. destruct (Grp _ _ _ _ _ A J E) as [-> L].
  destruct o as [x|]; [injection H as <- <-; auto|]. destruct (IH _ _ _ _ (fun k a X => eq_ind_r (fun n => a < n) (A k a X) L) J H) as [-> L2].
  split; [reflexivity|congruence].
Qed.
Print Assumptions C102_set_by_contents.

(** ** Updating the map *)
(** After assigning an instruction, its parameters are unknown until [update_parameters];
    then every listed parameter is known and nothing else. *)
Theorem C102_update_parameters :
  forall r k i r', rg_pars (put_instruction k i r) = rg_pars r
  /\ (update_parameters (put_instruction k i r) = Ok r' ->
      dget k (rg_instructions r') = Some i
      /\ (forall id a, dget id (rg_pars r') = Some a -> Listed (values (rg_components r)) (values (dset k i (rg_instructions r))) id a)
      /\ (forall id a, Listed (values (rg_components r)) (values (dset k i (rg_instructions r))) id a -> exists a', dget id (rg_pars r') = Some a')
      /\ update_parameters r' = Ok r').
Proof.
  intros r k i r'. split; [reflexivity|]. intro H. unfold update_parameters in *.
  destruct (initialize_spec _ _ H) as (A & _ & _ & B & D & _). cbn [put_instruction rg_instructions rg_components] in *.
  split; [rewrite A; apply dget_dset_same|]. split; [exact B|]. split; [exact D|].
  unfold initialize in *. cbn [put_instruction rg_heap rg_instructions rg_components] in H.
  match type of H with rbind ?x _ = _ => destruct x as [c|] eqn:E; [|discriminate H] end. cbn [rbind] in H. injection H as <-.
  cbn [rg_heap rg_instructions rg_components]. rewrite E. reflexivity.
Qed.
Print Assumptions C102_update_parameters.

(** ** Gates from a configuration *)
Lemma assign_frame : forall i l h h' n, (forall chan cs comp c p a, dget chan (ri_comps i) = Some cs -> dget comp cs = Some c ->
    dget p (rc_params c) = Some a -> n <= a) -> assign_all i l h = Ok h' ->
  length h' = length h /\ forall b, b < n -> nth_error h' b = nth_error h b.
Proof.
  intros i l. induction l as [|[[[chan comp] par] v] l IH]; intros h h' n G H; cbn [assign_all] in H; [injection H as <-; auto|].
  unfold assign_one in H. destruct (dget chan (ri_comps i)) as [cs|] eqn:E1; [|discriminate].
  destruct (dget comp cs) as [c|] eqn:E2; [|discriminate]. destruct (dget par (rc_params c)) as [a|] eqn:E3; [|discriminate].
  destruct (nth_error h a) as [q|]; [|discriminate]. destruct (set_value v false q) as [q'|]; [|discriminate]. cbn [rbind] in H.
  destruct (IH _ _ n G H) as [L F]. rewrite hput_length in L. split; [exact L|]. intros b Hb. rewrite (F b Hb).
  apply hput_other. specialize (G _ _ _ _ _ _ E1 E2 E3). lia.
Qed.
Lemma dget_map2 : forall V W (f : V -> W) k (d : dict V), dget k (dmap f d) = option_map f (dget k d).
Proof. induction d as [|[k' v] d IH]; [reflexivity|]. cbn. destruct (String.eqb k k'); [reflexivity|exact IH]. Qed.
Definition param_at (i : rinstr) (chan comp p : string) (a : addr) : Prop :=
  exists cs c, dget chan (ri_comps i) = Some cs /\ dget comp cs = Some c /\ dget p (rc_params c) = Some a.
Lemma shift_params : forall off n i chan comp p a, param_at (set_name n (shift_instr off i)) chan comp p a <->
  exists a0, param_at i chan comp p a0 /\ a = off + a0.
Proof.
  intros off n i chan comp p a. unfold param_at, set_name, shift_instr. cbn [ri_comps]. split.
  - intros (cs & c & H1 & H2 & H3). rewrite dget_map2 in H1. destruct (dget chan (ri_comps i)) as [cs0|] eqn:E1; [|discriminate].
    injection H1 as <-. rewrite dget_map2 in H2. destruct (dget comp cs0) as [c0|] eqn:E2; [|discriminate]. injection H2 as <-.
    cbn [shift_comp rc_params] in H3. change (dget p (dmap (fun x => off + x) (rc_params c0)) = Some a) in H3. rewrite dget_map2 in H3.
    destruct (dget p (rc_params c0)) as [a0|] eqn:E3; [|discriminate]. injection H3 as <-. exists a0. split; [|reflexivity]. exists cs0, c0. auto.
  - intros (a0 & (cs & c & H1 & H2 & H3) & ->). exists (dmap (shift_comp off) cs), (shift_comp off c).
    rewrite !dget_map2, H1, H2. cbn [option_map shift_comp rc_params]. repeat split.
    change (dget p (dmap (fun x => off + x) (rc_params c)) = Some (off + a0)). rewrite dget_map2, H3. reflexivity.
Qed.
Definition option_at (i : rinstr) (chan comp p : string) (a : addr) : Prop :=
  exists co o, dget chan (ri_opts i) = Some co /\ dget comp co = Some o /\ dget p o = Some (OQty a).
Lemma shift_options : forall off n i chan comp p a, option_at (set_name n (shift_instr off i)) chan comp p a ->
  exists a0, option_at i chan comp p a0 /\ a = off + a0.
Proof.
  intros off n i chan comp p a (co & o & H1 & H2 & H3). unfold set_name, shift_instr in H1. cbn [ri_opts] in H1.
  rewrite dget_map2 in H1. destruct (dget chan (ri_opts i)) as [co0|] eqn:E1; [|discriminate]. injection H1 as <-.
  rewrite dget_map2 in H2. destruct (dget comp co0) as [o0|] eqn:E2; [|discriminate]. injection H2 as <-.
  rewrite dget_map2 in H3. destruct (dget p o0) as [v|] eqn:E3; [|discriminate].
  destruct v as [b|t]; [|discriminate]. injection H3 as <-. exists b. split; [|reflexivity]. exists co0, o0. auto.
Qed.
Lemma fromdict_one_frame : forall key g r r' e, fromdict_one key g r = (r', e) ->
  length (rg_heap r) <= length (rg_heap r') /\ (forall b, b < length (rg_heap r) -> nth_error (rg_heap r') b = nth_error (rg_heap r) b)
  /\ (forall k, k <> key -> dget k (rg_instructions r') = dget k (rg_instructions r))
  /\ (e = None -> exists i, dget key (rg_instructions r') = Some i).
Proof.
  intros key g r r' e H. unfold fromdict_one in H.
  assert (St : forall i h, length (rg_heap r) <= length h -> (forall b, b < length (rg_heap r) -> nth_error h b = nth_error (rg_heap r) b) ->
    (let r1 := {| rg_instructions := dset key i (rg_instructions r); rg_components := rg_components r; rg_lens := rg_lens r;
                  rg_pars := rg_pars r; rg_model_ids := rg_model_ids r; rg_heap := h |} in
     match initialize r1 with Ok r'' => (r'', None) | Err x => (r1, Some x) end) = (r', e) ->
    length (rg_heap r) <= length (rg_heap r') /\ (forall b, b < length (rg_heap r) -> nth_error (rg_heap r') b = nth_error (rg_heap r) b)
    /\ (forall k, k <> key -> dget k (rg_instructions r') = dget k (rg_instructions r))
    /\ (e = None -> exists i, dget key (rg_instructions r') = Some i)).
  { intros i h Lh Fh S. cbv zeta in S.
    match type of S with match initialize ?x with _ => _ end = _ => destruct (initialize x) as [r2|y] eqn:E end; injection S as <- <-.
    - destruct (initialize_spec _ _ E) as (A & _ & B & _). cbn [rg_instructions rg_heap] in A, B. rewrite A, B.
      repeat split; auto; [intros k N; apply dget_dset_other; exact N|]. intros _. exists i. apply dget_dset_same.
    - cbn [rg_heap rg_instructions]. repeat split; auto; [intros k N; apply dget_dset_other; exact N|discriminate]. }
  destruct g as [target vals|i0 cells].
  - destruct (dget target (rg_instructions r)) as [i0|]; [|injection H as <- <-; repeat split; auto; discriminate].
    cbn [deepcopy] in H. destruct (assign_all _ vals (rg_heap r ++ rg_heap r)) as [h|x] eqn:E; [|injection H as <- <-; repeat split; auto; discriminate].
    destruct (assign_frame (set_name key (shift_instr (length (rg_heap r)) i0)) vals (rg_heap r ++ rg_heap r) h (length (rg_heap r))) as [L F]; [|exact E|].
    { intros chan cs comp c p a H1 H2 H3.
      assert (X : param_at (set_name key (shift_instr (length (rg_heap r)) i0)) chan comp p a) by (exists cs, c; auto).
      apply shift_params in X. destruct X as (a0 & _ & ->). lia. }
    apply (St (set_name key (shift_instr (length (rg_heap r)) i0)) h); [rewrite L, app_length; lia| |exact H]. intros b Hb. rewrite (F b Hb). apply nth_error_app1. exact Hb.
  - apply (St (shift_instr (length (rg_heap r)) i0) (rg_heap r ++ cells)); [rewrite app_length; lia| |exact H]. intros b Hb. apply nth_error_app1. exact Hb.
Qed.
(** Reading a configuration, even one that fails half way, never changes the value of an
    existing parameter and replaces only the gates it names; when it succeeds all of them
    are there. *)
Theorem C102_config_keeps_others :
  forall cfg r r' e, fromdict cfg r = (r', e) ->
  (forall a q, nth_error (rg_heap r) a = Some q -> nth_error (rg_heap r') a = Some q)
  /\ (forall k, ~ In k (map fst cfg) -> dget k (rg_instructions r') = dget k (rg_instructions r))
  /\ (e = None -> forall k, In k (map fst cfg) -> exists i, dget k (rg_instructions r') = Some i).
Proof.
  induction cfg as [|[key g] cfg IH]; intros r r' e H; cbn [fromdict] in H.
  - injection H as <- <-. repeat split; auto. intros _ k [].
  - destruct (fromdict_one key g r) as [r1 o] eqn:E. destruct (fromdict_one_frame _ _ _ _ _ E) as (L & F & K & P). destruct o as [x|].
    + injection H as <- <-. split; [|split; [|discriminate]].
      * intros a q Hq. rewrite F; [exact Hq|]. apply nth_error_Some. congruence.
      * intros k N. apply K. intro X. apply N. left. auto.
    + destruct (IH _ _ _ H) as (A & B & D). split; [|split].
      * intros a q Hq. apply A. rewrite F; [exact Hq|]. apply nth_error_Some. congruence.
      * intros k N. rewrite B by (intro X; apply N; right; exact X). apply K. intro X. apply N. left. auto.
      * intros He k [<-|Hk]; [|apply D; assumption]. destruct (in_dec string_dec key (map fst cfg)) as [I|I]; [apply D; assumption|].
        cbn [fst]. rewrite B by exact I. apply P. reflexivity.
Qed.
Print Assumptions C102_config_keeps_others.

Lemma assign_values : forall i l h h', assign_all i l h = Ok h' -> NoDup (map fst l) ->
  (forall chan comp p chan' comp' p' a, param_at i chan comp p a -> param_at i chan' comp' p' a -> (chan, comp, p) = (chan', comp', p')) ->
  forall chan comp p a q, param_at i chan comp p a -> nth_error h a = Some q ->
  exists q', nth_error h' a = Some q' /\ (forall v, In (chan, comp, p, v) l -> set_value v false q = Ok q')
    /\ ((forall v, ~ In (chan, comp, p, v) l) -> q' = q).
Proof.
  intros i l. induction l as [|[[[ch0 co0] p0] v0] l IH]; intros h h' H N J chan comp p a q Hp Hq; cbn [assign_all] in H.
  - injection H as <-. exists q. split; [exact Hq|]. split; [intros v []|]. reflexivity.
  - cbn [map fst] in N. inversion N as [|? ? N1 N2]; subst. unfold assign_one in H.
    destruct (dget ch0 (ri_comps i)) as [cs|] eqn:E1; [|discriminate]. destruct (dget co0 cs) as [c|] eqn:E2; [|discriminate].
    destruct (dget p0 (rc_params c)) as [b|] eqn:E3; [|discriminate]. destruct (nth_error h b) as [qb|] eqn:E4; [|discriminate].
    destruct (set_value v0 false qb) as [qb'|] eqn:E5; [|discriminate]. cbn [rbind] in H.
    assert (P0 : param_at i ch0 co0 p0 b) by (exists cs, c; auto).
    destruct (Nat.eq_dec a b) as [->|Nab].
    + pose proof (J _ _ _ _ _ _ _ Hp P0) as X. injection X as -> -> ->. rewrite Hq in E4. injection E4 as <-.
      destruct (IH _ _ H N2 J _ _ _ _ qb' Hp) as (q' & A & B & D); [apply hput_same; apply nth_error_Some; congruence|].
      exists q'. split; [exact A|].
      assert (Nin : forall v, ~ In (ch0, co0, p0, v) l) by (intros v X; apply N1; apply (in_map fst) in X; exact X).
      rewrite (D Nin). split; [|intro X; exfalso; apply (X v0); left; reflexivity].
      intros v [X|X]; [injection X as <-; exact E5|]. exfalso. exact (Nin v X).
    + destruct (IH _ _ H N2 J _ _ _ _ q Hp) as (q' & A & B & D); [rewrite hput_other by auto; exact Hq|].
      exists q'. split; [exact A|]. split.
      * intros v [X|X]; [|apply B; exact X]. exfalso. injection X as -> -> -> _. apply Nab.
        destruct Hp as (cs1 & c1 & Q1 & Q2 & Q3). destruct P0 as (cs2 & c2 & R1 & R2 & R3). congruence.
      * intro X. apply D. intros v Y. apply (X v). right. exact Y.
Qed.
(** A gate mapped to another one is a copy of its own: it has the same parameters in fresh
    objects, holding the values given in the configuration and, where none is given, those
    of the original. *)
Theorem C102_mapped_gate :
  forall key target vals r r' i0, fromdict_one key (CMapTo target vals) r = (r', None) ->
  dget target (rg_instructions r) = Some i0 -> NoDup (map fst vals) ->
  (forall chan comp p chan' comp' p' a, param_at i0 chan comp p a -> param_at i0 chan' comp' p' a -> (chan, comp, p) = (chan', comp', p')) ->
  (forall chan comp p a, param_at i0 chan comp p a -> a < length (rg_heap r)) ->
  exists i, dget key (rg_instructions r') = Some i /\ ri_name i = key /\ ri_targets i = ri_targets i0
  /\ (forall chan comp p, (exists a, param_at i0 chan comp p a) <-> exists a, param_at i chan comp p a)
  /\ (forall chan comp p a b, param_at i0 chan comp p a -> param_at i chan comp p b ->
        nth_error (rg_heap r) b = None
        /\ exists q q', nth_error (rg_heap r) a = Some q /\ nth_error (rg_heap r') a = Some q /\ nth_error (rg_heap r') b = Some q'
           /\ (forall v, In (chan, comp, p, v) vals -> set_value v false q = Ok q')
           /\ ((forall v, ~ In (chan, comp, p, v) vals) -> q' = q))
  /\ (forall chan comp p a, option_at i chan comp p a -> nth_error (rg_heap r) a = None
        /\ exists a0, option_at i0 chan comp p a0).
Proof.
  intros key target vals r r' i0 H E N J Al. pose proof (fromdict_one_frame _ _ _ _ _ H) as (_ & F & _ & _).
  unfold fromdict_one in H. rewrite E in H. cbn [deepcopy] in H. set (n := length (rg_heap r)) in *. set (i := set_name key (shift_instr n i0)) in *.
  destruct (assign_all i vals (rg_heap r ++ rg_heap r)) as [h|x] eqn:A; [|discriminate H].
  match type of H with match initialize ?x with _ => _ end = _ => destruct (initialize x) as [r2|y] eqn:I; [|discriminate H] end.
  injection H as <-. destruct (initialize_spec _ _ I) as (I1 & _ & I3 & _). cbn [rg_instructions rg_heap] in I1, I3. rewrite I1, I3 in *.
  exists i. split; [apply dget_dset_same|]. split; [reflexivity|]. split; [reflexivity|]. split; [|split].
  - intros chan comp p. split; [intros (a & Ha); exists (n + a); apply shift_params; eauto|].
    intros (a & Ha). apply shift_params in Ha. destruct Ha as (a0 & Ha & _). eauto.
  - intros chan comp p a b Ha Hb. pose proof Hb as Hb'. apply shift_params in Hb. destruct Hb as (a0 & Ha0 & ->).
    assert (a0 = a).
    { destruct Ha as (cs1 & c1 & Q1 & Q2 & Q3). destruct Ha0 as (cs2 & c2 & R1 & R2 & R3). congruence. }
    subst a0. split; [apply nth_error_None; fold n; lia|].
    destruct (nth_error (rg_heap r) a) as [q|] eqn:Q; [|apply nth_error_None in Q; specialize (Al _ _ _ _ Ha); fold n in Q; lia].
    destruct (assign_values i vals _ _ A N) with (chan := chan) (comp := comp) (p := p) (a := n + a) (q := q) as (q' & B1 & B2 & B3).
    + intros c1 d1 p1 c2 d2 p2 z Z1 Z2. apply shift_params in Z1, Z2. destruct Z1 as (z1 & Z1 & ->). destruct Z2 as (z2 & Z2 & Ez).
      apply (J c1 d1 p1 c2 d2 p2 z1); [exact Z1|]. assert (z2 = z1) by lia. subst z2. exact Z2.
    + exact Hb'.
    + rewrite nth_error_app2 by (fold n; lia). fold n. replace (n + a - n) with a by lia. exact Q.
    + exists q, q'. split; [reflexivity|]. split; [rewrite F by (apply (Al _ _ _ _ Ha)); exact Q|]. auto.
  - intros chan comp p a Ha. apply shift_options in Ha. destruct Ha as (a0 & Ha & ->).
    split; [apply nth_error_None; fold n; lia|]. eauto.
Qed.
Print Assumptions C102_mapped_gate.

(** ** Findings *)
Definition ex_qty (v : R) : quantity := {| q_pref := 1; q_offset := 0; q_scale := 2; q_value := [v]; q_unit := ""; q_symbol := "" |}.
(** Finding: a device of the generator that has the name of a subsystem hides all its
    parameters: they are in no map and cannot be optimised. *)
Theorem C102_same_name_refuted :
  ~ (forall h instrs model devices r id a, parameter_map h instrs model devices = Ok r ->
     Exposed model devices instrs id a -> exists a', dget id (rg_pars r) = Some a').
Proof.
  intro H.
  pose (m := {| rm_couplings := []; rm_subsystems := [("Q1", {| rc_name := "Q1"; rc_params := [("freq", 0)] |})]%string; rm_tasks := [] |}).
  pose (d := [("Q1", {| rc_name := "Q1"; rc_params := [("resolution", 1)] |})]%string : dict rcomp).
  destruct (H [ex_qty 0; ex_qty 1] [] (Some m) (Some d) _ "Q1-freq"%string 0 eq_refl) as (a & Ha).
  - apply (ex_comp (Some m) (Some d) [] {| rc_name := "Q1"; rc_params := [("freq", 0)] |}%string "freq" 0); [|left; reflexivity].
    left. exists m. split; [reflexivity|]. exists "Q1"%string. left. reflexivity.
  - discriminate Ha.
Qed.
Print Assumptions C102_same_name_refuted.
(** Finding: names that contain "-" can give two parameters one identifier; only the
    second can be reached. *)
Theorem C102_dash_refuted :
  ~ (forall h instrs model devices r, parameter_map h instrs model devices = Ok r ->
     NoDup (keys (model_comps model devices)) ->
     forall id a, Exposed model devices instrs id a -> dget id (rg_pars r) = Some a).
Proof.
  intro H.
  pose (c1 := {| rc_name := "q"; rc_params := [("a-b", 0)] |}%string). pose (c2 := {| rc_name := "q-a"; rc_params := [("b", 1)] |}%string).
  pose (m := {| rm_couplings := []; rm_subsystems := [("q", c1); ("q-a", c2)]%string; rm_tasks := [] |}).
  assert (X : dget "q-a-b"%string [("q-a-b"%string, 1)] = Some 0).
  { apply (H [ex_qty 0; ex_qty 1] [] (Some m) None _ eq_refl).
    - repeat constructor; cbn; intuition discriminate.
    - apply (ex_comp (Some m) None [] c1 "a-b" 0); [|left; reflexivity]. left. exists m. split; [reflexivity|]. exists "q"%string. left. reflexivity. }
  discriminate X.
Qed.
Print Assumptions C102_dash_refuted.
Definition ex_gate_instr : rinstr :=
  {| ri_name := "rx90p"; ri_targets := Some [0]; ri_ideal := Given 7;
     ri_comps := [("d1", [("gauss", {| rc_name := "g"; rc_params := [("amp", 0); ("t_final", 1)] |})])]%string;
     ri_opts := [("d1", [("gauss", [("delay", OQty 2); ("drag", OVal "True")])])]%string |}.
Definition ex_registry : registry :=
  {| rg_instructions := [("rx90p[0]"%string, ex_gate_instr)]; rg_components := [];
     rg_lens := []; rg_pars := []; rg_model_ids := []; rg_heap := [ex_qty 0; ex_qty (1 / 2); ex_qty 1] |}.
(** Finding: a gate created with "mapto" under [key] stores its parameters under [key]
    followed by the targets of the original, so identifiers made from the key used in the
    configuration are unknown. *)
Theorem C102_mapto_key_refuted :
  ~ (forall key target r r', fromdict_one key (CMapTo target []) r = (r', None) ->
     forall i chan comp p a, dget key (rg_instructions r') = Some i -> param_at i chan comp p a ->
     get_parameter r' [key; chan; comp; p] <> Err C3Error).
Proof.
  intro H. pose (r' := fst (fromdict_one "ry90p"%string (CMapTo "rx90p[0]" []) ex_registry)).
  apply (H "ry90p"%string "rx90p[0]"%string ex_registry r' eq_refl
    (set_name "ry90p" (shift_instr 3 ex_gate_instr)) "d1"%string "gauss"%string "amp"%string 3 eq_refl).
  - eexists. eexists. repeat split.
  - reflexivity.
Qed.
Print Assumptions C102_mapto_key_refuted.
(** Finding: "mapto" drops an ideal matrix the user gave for the original gate. *)
Theorem C102_mapto_ideal_refuted :
  ~ (forall key target r r' i0 i, fromdict_one key (CMapTo target []) r = (r', None) ->
     dget target (rg_instructions r) = Some i0 -> dget key (rg_instructions r') = Some i -> ri_ideal i = ri_ideal i0).
Proof.
  intro H. pose (r' := fst (fromdict_one "ry90p"%string (CMapTo "rx90p[0]" []) ex_registry)).
  specialize (H "ry90p"%string "rx90p[0]"%string ex_registry r' ex_gate_instr (set_name "ry90p" (shift_instr 3 ex_gate_instr)) eq_refl eq_refl eq_refl).
  discriminate H.
Qed.
Print Assumptions C102_mapto_ideal_refuted.

(** A transmon, an AWG and one gate with an option: the identifiers. *)
Definition ex_model : rmodel :=
  {| rm_couplings := [("d1", {| rc_name := "d1"; rc_params := [] |})]%string;
     rm_subsystems := [("Q1", {| rc_name := "Q1"; rc_params := [("freq", 3); ("t1", 4)] |})]%string; rm_tasks := [] |}.
Definition ex_devices : dict rcomp := [("AWG", {| rc_name := "AWG"; rc_params := [("logdir", 5)] |})]%string.
Definition ex_heap : heap := map (fun k => ex_qty (INR k / 5)) (seq 0 6).
Example C102_example :
  exists r, parameter_map ex_heap [ex_gate_instr] (Some ex_model) (Some ex_devices) = Ok r
  /\ rg_pars r = [("Q1-freq", 3); ("Q1-t1", 4); ("AWG-logdir", 5); ("rx90p[0]-d1-gauss-amp", 0);
                  ("rx90p[0]-d1-gauss-t_final", 1); ("rx90p[0]-d1-gauss-delay", 2)]%string
  /\ rg_model_ids r = ["Q1-freq"; "Q1-t1"; "AWG-logdir"]%string
  /\ well_named (Some ex_model) (Some ex_devices) [ex_gate_instr].
Proof.
  eexists. split; [reflexivity|]. split; [reflexivity|]. split; [reflexivity|]. unfold well_named.
  assert (D : forall s b, has_char "-" s = b -> b = false -> dashfree s) by (intros; unfold dashfree; congruence).
  split; [repeat constructor; cbn; intuition discriminate|]. split.
  - intros n c [E|[E|[E|[]]]]; injection E as <- <-; (split; [reflexivity|]); (split; [reflexivity|]);
      (split; [repeat constructor; cbn; intuition discriminate|]); cbn; intros p Hp; intuition subst; reflexivity.
  - split; [repeat constructor; cbn; intuition|]. intros i [<-|[]]. split; [reflexivity|]. split; [repeat constructor; cbn; intuition|].
    intros chan cs [E|[]]. injection E as <- <-. split; [reflexivity|]. split; [repeat constructor; cbn; intuition|].
    intros comp c [E|[]]. injection E as <- <-. split; [reflexivity|]. split; [repeat constructor; cbn; intuition discriminate|].
    intros co o E1 E2. injection E1 as <-. injection E2 as <-. repeat constructor; cbn; intuition discriminate.
Qed.
Example C102_mapped_example :
  exists r', fromdict_one "ry90p"%string (CMapTo "rx90p[0]" [("d1", "gauss", "amp", [3 / 4])]%R%string) ex_registry = (r', None)
  /\ length (rg_heap r') = 6.
Proof.
  unfold fromdict_one. cbn [ex_registry rg_instructions dget]. rewrite String.eqb_refl. cbn [deepcopy assign_all assign_one].
  unfold assign_one. cbn -[set_value ex_qty]. unfold set_value, set_value_strict. cbn -[Req_EM_T existsb]. destruct (Req_EM_T 2 0); [lra|].
  assert (X : existsb entry_oob [scaled_entry (ex_qty 0) (3 / 4)] = false).
  { cbn [existsb]. rewrite orb_false_r. unfold entry_oob, scaled_entry. cbn.
    replace (2 * (3 / 4 * 1 - 0) / 2 - 1)%R with (- (1 / 4))%R by field. rewrite Rabs_Ropp, Rabs_pos_eq by lra.
    unfold Rltb. destruct (Rlt_dec 1 (1 / 4)); [lra|reflexivity]. }
  cbn [map]. rewrite X. eexists. split; [reflexivity|]. reflexivity.
Qed.
