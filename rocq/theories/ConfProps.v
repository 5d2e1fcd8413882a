(** Configuration round trip of instructions (C71). *)
From Coq Require Import Reals Lra Lia.
From Verif Require Import Base QuantityModel QuantityProofs ExpModel ExpProps Frame2Props MiscModel MiscProps ConfModel.
Local Open Scope list_scope.
Local Open Scope string_scope.
Local Notation length := List.length.
Local Infix "++" := (@List.app _) : list_scope.

(** ** Specification *)
(** A quantity with positive range, inside its limits, with the prefactor of its unit. *)
Definition good_q (q : quantity) : Prop :=
  wfq q /\ q_pref q = pref_of_unit (q_unit q) /\ Forall (fun t => -1 <= t <= 1)%R (get_opt_value q).
(** A component as its constructor makes it: a known class, an envelope with a known
    shape, the standard parameters first. *)
Definition good_comp (c : component) : Prop :=
  (exists extra, keys (c_params c) = (keys (match c_shape c with Some _ => env_defaults | None => carrier_defaults end) ++ extra)%list)
  /\ NoDup (keys (c_params c)) /\ Forall (fun kq => good_q (snd kq)) (c_params c)
  /\ match c_shape c with
     | Some s => In s shape_names /\ In (c_class c) ["Envelope"; "EnvelopeDrag"; "EnvelopeNetZero"]
     | None => c_class c = "Carrier"
     end.
(** Names that do not make a one-entry dict look like an encoded value. *)
Definition markers := ["__complex__"; "__array__"; "__quantity__"].
Definition unmarked (ks : list string) : Prop := forall k, ks = [k] -> ~ In k markers.
Definition attr_names := ["ideal"; "targets"; "params"; "_options"; "fixed_t_end"; "drive_channels"; "_name"].
Definition not_dict (v : pyval) : Prop := match v with PDict _ | PObj _ => False | _ => True end.
Definition good_opts (o : dict pyval) : Prop := writable (PDict o) /\ Forall (fun kv => not_dict (snd kv)) o.
(** An instruction as [__init__] and [add_component] make it (see [C71_init] and
    [C71_add_component]). *)
Definition valid (i : instr) : Prop :=
  writable (n_ideal i) /\ writable (n_targets i) /\ writable (n_params i) /\ writable (n_fixed i)
  /\ (Forall (fun kv => writable (snd kv)) (n_extra i) /\ NoDup (keys (n_extra i)) /\ (forall k, In k (keys (n_extra i)) -> ~ In k attr_names))
  /\ Forall2 (fun cc oo => fst cc = fst oo /\ keys (snd cc) = keys (snd oo)) (n_comps i) (n_options i)
  /\ NoDup (keys (n_comps i)) /\ unmarked (keys (n_comps i))
  /\ Forall (fun cc => NoDup (keys (snd cc)) /\ unmarked (keys (snd cc)) /\ Forall (fun kc => good_comp (snd kc)) (snd cc)) (n_comps i)
  /\ Forall (fun oo => Forall (fun ko => good_opts (snd ko)) (snd oo)) (n_options i).

Definition comp_at (i : instr) (chan k : string) : option component :=
  match dget chan (n_comps i) with Some m => dget k m | None => None end.
Definition option_at (i : instr) (chan k o : string) : option pyval :=
  match dget chan (n_options i) with Some m => match dget k m with Some os => dget o os | None => None end | None => None end.
Definition same_comp (c c' : component) : Prop :=
  c_class c' = c_class c /\ c_name c' = c_name c /\ c_shape c' = c_shape c /\ c_params c' = c_params c.

(** ** Dict lemmas *)
Definition rmap {V W} (f : V -> W) (d : dict V) : dict W := map (fun kv => (fst kv, f (snd kv))) d.
Lemma keys_rmap : forall V W (f : V -> W) d, keys (rmap f d) = keys d.
Proof. intros. unfold keys, rmap. rewrite map_map. reflexivity. Qed.
Lemma dget_rmap : forall V W (f : V -> W) k d, dget k (rmap f d) = option_map f (dget k d).
Proof. intros V W f k d. induction d as [|[a b] d IH]; [reflexivity|]. cbn [rmap map fst snd dget]. fold (rmap f d). destruct (String.eqb k a); [reflexivity|exact IH]. Qed.
Lemma rmap_dset : forall V W (f : V -> W) k v d, rmap f (dset k v d) = dset k (f v) (rmap f d).
Proof. intros V W f k v d. induction d as [|[a b] d IH]; [reflexivity|]. cbn [rmap map fst snd dset]. fold (rmap f d). destruct (String.eqb k a); [reflexivity|]. rewrite <- IH. reflexivity. Qed.
Lemma rmap_rmap : forall V W X (f : V -> W) (g : W -> X) d, rmap g (rmap f d) = rmap (fun v => g (f v)) d.
Proof. intros. unfold rmap. rewrite map_map. reflexivity. Qed.
Lemma rmap_ext : forall V W (f g : V -> W) d, Forall (fun kv => f (snd kv) = g (snd kv)) d -> rmap f d = rmap g d.
Proof. intros V W f g d H. induction H as [|[k v] d E H IH]; [reflexivity|]. cbn [rmap map fst snd] in *. fold (rmap f d) (rmap g d). rewrite E, IH. reflexivity. Qed.
Lemma ddel_dset_new : forall V k (v : V) d, ~ In k (keys d) -> ddel k (dset k v d) = d.
Proof.
  intros V k v d. induction d as [|[a b] d IH]; intro N; cbn [dset ddel]; [rewrite String.eqb_refl; reflexivity|].
  cbn [keys map fst In] in N. destruct (String.eqb_spec k a) as [->|D]; [tauto|]. cbn [ddel]. destruct (String.eqb_spec k a); [contradiction|]. rewrite IH by tauto. reflexivity.
Qed.
Lemma dset_at : forall V k (v w : V) pre post, ~ In k (keys pre) -> dset k v (pre ++ (k, w) :: post)%list = (pre ++ (k, v) :: post)%list.
Proof.
  intros V k v w pre post. induction pre as [|[a b] pre IH]; intro N; cbn [app dset]; [rewrite String.eqb_refl; reflexivity|].
  cbn [keys map fst In] in N. destruct (String.eqb_spec k a) as [->|D]; [tauto|]. rewrite IH by tauto. reflexivity.
Qed.
Lemma dget_at : forall V k (w : V) pre post, ~ In k (keys pre) -> dget k (pre ++ (k, w) :: post)%list = Some w.
Proof.
  intros V k w pre post. induction pre as [|[a b] pre IH]; intro N; cbn [app dget]; [rewrite String.eqb_refl; reflexivity|].
  cbn [keys map fst In] in N. destruct (String.eqb_spec k a) as [->|D]; [tauto|]. apply IH. tauto.
Qed.
Lemma keys_app : forall V (a b : dict V), keys (a ++ b)%list = (keys a ++ keys b)%list.
Proof. intros. unfold keys. apply map_app. Qed.
Lemma dupdate_over : forall V (e pre d : dict V) x, keys e = (keys d ++ x)%list -> NoDup (keys pre ++ keys e)%list -> dupdate (pre ++ d)%list e = (pre ++ e)%list.
Proof.
  unfold dupdate. induction e as [|[k v] e IH]; intros pre d x E N.
  - destruct d; [cbn; rewrite app_nil_r; reflexivity|discriminate].
  - cbn [fold_left fst snd]. assert (Hp : ~ In k (keys pre)).
    { intro I. cbn [keys map fst] in N. apply NoDup_remove_2 in N. apply N. apply in_or_app. left. exact I. }
    assert (N' : NoDup (keys (pre ++ [(k, v)])%list ++ keys e)%list) by (rewrite keys_app, <- app_assoc; exact N).
    destruct d as [|[k' v'] d].
    + rewrite app_nil_r, dset_append by exact Hp. specialize (IH (pre ++ [(k, v)])%list [] (keys e) eq_refl N'). rewrite app_nil_r in IH. rewrite IH, <- app_assoc. reflexivity.
    + cbn [keys map fst app] in E. injection E as -> E. rewrite dset_at by exact Hp.
      specialize (IH (pre ++ [(k', v)])%list d x E N'). rewrite <- app_assoc in IH. cbn [app] in IH. rewrite IH, <- app_assoc. reflexivity.
Qed.
Lemma fold_writable : forall d, fold_right (fun kv P => writable (snd kv) /\ P) True d <-> Forall (fun kv : string * pyval => writable (snd kv)) d.
Proof. intro d. induction d as [|kv d IH]; cbn [fold_right]; [split; auto|]. rewrite IH. split; [intros [A B]; constructor; auto|intro H; inversion H; auto]. Qed.
Lemma writable_dict : forall d, unmarked (keys d) -> Forall (fun kv => writable (snd kv)) d -> writable (PDict d).
Proof.
  intros d U F. cbn [writable]. split; [|apply fold_writable; exact F]. intros (k & x & -> & I). apply (U k eq_refl), I.
Qed.
Lemma Forall_dset : forall V (P : V -> Prop) k v d, P v -> Forall (fun kv => P (snd kv)) d -> Forall (fun kv => P (snd kv)) (dset k v d).
Proof.
  intros V P k v d Hv F. induction F as [|[a b] d Hx F IH]; cbn [dset]; [constructor; [exact Hv|constructor]|]. destruct (String.eqb k a); constructor; auto.
Qed.
Lemma Forall_rmap : forall V W (f : V -> W) (P : W -> Prop) d, Forall (fun kv => P (f (snd kv))) d -> Forall (fun kv => P (snd kv)) (rmap f d).
Proof. intros V W f P d F. unfold rmap. apply Forall_map. exact F. Qed.

(** ** Components *)
Lemma qty_made : forall v lo hi u, (lo < hi -> lo <= v <= hi -> mk_quantity [v] u (Some lo) (Some hi) "\alpha" = Ok (qty v lo hi u) /\ good_q (qty v lo hi u))%R.
Proof.
  intros v lo hi u L B. pose proof (mk_quantity_limits [v] u lo hi "\alpha" L) as (q & E & _ & _ & W & Hp & Hu & Hs); [constructor; [exact B|constructor]|].
  assert (P : (0 < pref_of_unit u)%R) by (rewrite <- Hp; apply W).
  assert (Q : q = qty v lo hi u).
  { unfold mk_quantity in E. cbn [rbind] in E. unfold set_value in E. cbn [List.length q_value set_limits Nat.eqb] in E. unfold set_value_strict in E.
    destruct (Req_EM_T _ 0); [discriminate|]. destruct (existsb _ _); [discriminate|]. injection E as <-. reflexivity. }
  subst q. split; [exact E|]. split; [exact W|]. split; [rewrite Hp; reflexivity|].
  unfold qty, get_opt_value. cbn [q_value with_value set_limits]. constructor; [|constructor]. unfold scaled_entry. cbn [q_pref q_offset q_scale set_limits].
  rewrite Rabs_right by lra.
  replace (2 * (v * pref_of_unit u - lo * pref_of_unit u) / ((hi - lo) * pref_of_unit u) - 1)%R with (2 * ((v - lo) / (hi - lo)) - 1)%R by (field; lra).
  assert (0 <= (v - lo) / (hi - lo) <= 1)%R.
  { split; [apply Rmult_le_pos; [lra|left; apply Rinv_0_lt_compat; lra]|]. apply (Rmult_le_reg_r (hi - lo)); [lra|]. unfold Rdiv. rewrite Rmult_assoc, Rinv_l by lra. lra. }
  lra.
Qed.
Lemma defaults_good : Forall (fun kq => good_q (snd kq)) env_defaults /\ Forall (fun kq => good_q (snd kq)) carrier_defaults.
Proof. pose proof PI_RGT_0. unfold env_defaults, carrier_defaults. split; repeat (apply Forall_cons; [apply qty_made; lra|]); apply Forall_nil. Qed.
Lemma quantity_arg : forall q, good_q q -> py_quantity (qdict_val (asdict q)) = Ok (PQty q).
Proof.
  intros q (W1 & W2 & W3). unfold qdict_val, py_quantity. cbn [dget String.eqb Ascii.eqb Bool.eqb]. rewrite (proj2 (nums_back _)). cbn [rbind].
  assert (Q : forall d, mkQD (qd_value d) (qd_min d) (qd_max d) (qd_unit d) (qd_symbol d) = d) by (intros []; reflexivity). rewrite Q, quantity_back by assumption. reflexivity.
Qed.
Lemma params_back : forall ps defaults extra, keys ps = (keys defaults ++ extra)%list -> NoDup (keys ps) -> Forall (fun kq => good_q (snd kq)) ps ->
  to_params (dupdate (rmap PQty defaults) (rmap (fun q => qdict_val (asdict q)) ps)) = Ok ps.
Proof.
  intros ps defaults extra K N F.
  assert (E : dupdate (rmap PQty defaults) (rmap (fun q => qdict_val (asdict q)) ps) = rmap (fun q => qdict_val (asdict q)) ps).
  { apply (dupdate_over _ (rmap (fun q => qdict_val (asdict q)) ps) [] (rmap PQty defaults) extra); [rewrite !keys_rmap; exact K|cbn [app keys map]; rewrite keys_rmap; exact N]. }
  rewrite E. clear E K N. induction F as [|[k q] ps Hq F IH]; [reflexivity|]. cbn [rmap map fst snd to_params] in *. fold (rmap (fun q => qdict_val (asdict q)) ps).
  unfold qdict_val at 1. fold (qdict_val (asdict q)). rewrite (quantity_arg q Hq). cbn [rbind]. rewrite IH. reflexivity.
Qed.
Definition comp_restored (c : component) : component :=
  mkComp (c_class c) (c_name c) " " " " (c_shape c) false (c_params c).
Lemma in_existsb : forall s l, In s l -> existsb (String.eqb s) l = true.
Proof. intros s l H. apply existsb_exists. exists s. split; [exact H|apply String.eqb_refl]. Qed.
Lemma comp_back : forall c, good_comp c -> comp_new (c_class c) (ddel "c3type" (comp_asdict c)) = Ok (comp_restored c).
Proof.
  intros c ((extra & K) & N & F & H). unfold comp_asdict, comp_restored in *. destruct (c_shape c) as [s|].
  - destruct H as [Hs Hc]. unfold comp_new. rewrite (in_existsb _ _ Hc). cbn [ddel String.eqb Ascii.eqb Bool.eqb].
    unfold envelope_new, check_args, str_arg, params_arg, params_val. cbn [keys map fst forallb existsb String.eqb Ascii.eqb Bool.eqb andb orb dmem dget rbind].
    rewrite (in_existsb _ _ Hs). cbn [rbind]. fold (rmap PQty env_defaults) (rmap (fun q => qdict_val (asdict q)) (c_params c)). rewrite (params_back _ _ extra K N F). reflexivity.
  - rewrite H. unfold comp_new. cbn [ddel existsb orb String.eqb Ascii.eqb Bool.eqb].
    unfold carrier_new, check_args, str_arg, params_arg, params_val. cbn [keys map fst forallb existsb String.eqb Ascii.eqb Bool.eqb andb orb dmem dget rbind].
    fold (rmap PQty carrier_defaults) (rmap (fun q => qdict_val (asdict q)) (c_params c)). rewrite (params_back _ _ extra K N F). reflexivity.
Qed.
Lemma comp_props : forall c, exists cls, dget "c3type" (comp_asdict c) = Some (PStr cls) /\ cls = c_class c /\ dmem "name" (ddel "c3type" (comp_asdict c)) = true.
Proof. intro c. exists (c_class c). unfold comp_asdict. destruct (c_shape c); cbn; auto. Qed.

(** ** Reading the channels *)
Lemma conv_id : forall o, Forall (fun kv => not_dict (snd kv)) o -> conv_options o = Ok o.
Proof. intros o F. induction F as [|[k v] o Hv F IH]; [reflexivity|]. cbn [conv_options]. cbn [snd] in Hv. destruct v; try contradiction; cbn [rbind]; rewrite IH; reflexivity. Qed.
Lemma options_found : forall d chan comp m o, dget chan d = Some (PDict m) -> dget comp m = Some (PDict o) -> options_for (Some (PDict d)) chan comp = Ok (Some o).
Proof. intros [|kv d] chan comp m o H1 H2; [discriminate|]. cbn [options_for]. rewrite H1, H2. reflexivity. Qed.
Definition comp_dicts (cs : dict component) : dict pyval := rmap (fun c => PDict (comp_asdict c)) cs.
Lemma add_comps_ok : forall options chan cs os,
  Forall2 (fun kc ko => fst kc = fst ko /\ options_for options chan (fst ko) = Ok (Some (snd ko)) /\ conv_options (snd ko) = Ok (snd ko) /\ good_comp (snd kc)) cs os ->
  forall i pre m post pre' om post', n_comps i = (pre ++ (chan, m) :: post)%list -> n_options i = (pre' ++ (chan, om) :: post')%list ->
  ~ In chan (keys pre) -> ~ In chan (keys pre') -> NoDup (keys m ++ keys cs)%list -> keys om = keys m ->
  add_comps options chan (comp_dicts cs) i = Ok (with_comps i (pre ++ (chan, m ++ rmap comp_restored cs) :: post)%list (pre' ++ (chan, om ++ os) :: post')%list).
Proof.
  intros options chan cs os F. induction F as [|[k c] [k' o] cs os (E & Ho & Hc & G) F IH]; intros i pre m post pre' om post' E1 E2 N1 N2 N K.
  - cbn [comp_dicts rmap map add_comps]. rewrite !app_nil_r. destruct i; cbn in *; subst; reflexivity.
  - cbn [fst snd] in *. subst k'. cbn [comp_dicts rmap map fst snd add_comps].
    destruct (comp_props c) as (cls & P1 & -> & P2). rewrite P1, P2, (comp_back c G). cbn [rbind]. rewrite Ho. cbn [rbind].
    unfold add_component. rewrite E1, (dget_at _ chan m pre post N1), Hc. cbn [rbind]. rewrite E2, (dget_at _ chan om pre' post' N2). cbn [rbind].
    assert (Nk : ~ In k (keys m)).
    { intro I. cbn [keys map fst] in N. apply NoDup_remove_2 in N. apply N. apply in_or_app. left. exact I. }
    rewrite dset_at, dset_at by assumption. rewrite (dset_append _ k _ m) by exact Nk. rewrite (dset_append _ k _ om) by (rewrite K; exact Nk).
    fold (rmap (fun c => PDict (comp_asdict c)) cs). fold (comp_dicts cs).
    rewrite (IH _ pre (m ++ [(k, comp_restored c)])%list post pre' (om ++ [(k, o)])%list post'); try assumption; try reflexivity.
    + cbn [with_comps n_name n_ideal n_targets n_params n_start n_end n_fixed n_extra]. rewrite <- !app_assoc. reflexivity.
    + rewrite keys_app, <- app_assoc. exact N.
    + rewrite !keys_app, K. reflexivity.
Qed.
Lemma add_chans_ok : forall options css oss,
  Forall2 (fun cc oo => fst cc = fst oo /\ NoDup (keys (snd cc)) /\
    Forall2 (fun kc ko => fst kc = fst ko /\ options_for options (fst cc) (fst ko) = Ok (Some (snd ko)) /\ conv_options (snd ko) = Ok (snd ko) /\ good_comp (snd kc)) (snd cc) (snd oo)) css oss ->
  forall i pre pre', n_comps i = (pre ++ rmap (fun _ => []) css)%list -> n_options i = (pre' ++ rmap (fun _ => []) oss)%list ->
  NoDup (keys pre ++ keys css)%list -> keys pre' = keys pre ->
  add_chans options (rmap (fun cs => PDict (comp_dicts cs)) css) i = Ok (with_comps i (pre ++ rmap (rmap comp_restored) css)%list (pre' ++ oss)%list).
Proof.
  intros options css oss F. induction F as [|[ch cs] [ch' os] css oss (E & Nd & G) F IH]; intros i pre pre' E1 E2 N K.
  - cbn [rmap map add_chans] in *. rewrite !app_nil_r in *. destruct i; cbn in *; subst; reflexivity.
  - cbn [fst snd] in *. subst ch'. cbn [rmap map fst snd add_chans] in *. fold (rmap (fun _ : dict component => @nil (string * component)) css) in *. fold (rmap (fun _ : dict (dict pyval) => @nil (string * dict pyval)) oss) in *.
    assert (Nk : ~ In ch (keys pre)).
    { intro I. cbn [keys map fst] in N. apply NoDup_remove_2 in N. apply N. apply in_or_app. left. exact I. }
    rewrite (add_comps_ok options ch cs os G i pre [] _ pre' [] _ E1 E2 Nk); [|exact (eq_ind_r (fun l => ~ In ch l) Nk K)|exact Nd|reflexivity]. cbn [rbind app].
    fold (rmap (fun cs => PDict (comp_dicts cs)) css).
    rewrite (IH _ (pre ++ [(ch, rmap comp_restored cs)])%list (pre' ++ [(ch, os)])%list).
    + cbn [with_comps n_name n_ideal n_targets n_params n_start n_end n_fixed n_extra]. rewrite <- !app_assoc. reflexivity.
    + cbn [with_comps n_comps]. rewrite <- app_assoc. reflexivity.
    + cbn [with_comps n_options]. rewrite <- app_assoc. reflexivity.
    + rewrite keys_app, <- app_assoc. exact N.
    + rewrite !keys_app, K. reflexivity.
Qed.
Lemma attrs_extra : forall X i, (forall k, In k (keys X) -> ~ In k attr_names) ->
  fold_left set_attr X i = mkInstr (n_name i) (n_ideal i) (n_targets i) (n_params i) (n_start i) (n_end i) (n_comps i) (n_options i) (n_fixed i) (dupdate (n_extra i) X).
Proof.
  induction X as [|[k v] X IH]; intros i H; [destruct i; reflexivity|]. cbn [fold_left].
  rewrite IH by (intros a Ha; apply H; right; exact Ha).
  assert (Hk : ~ In k attr_names) by (apply H; left; reflexivity). unfold attr_names in Hk. cbn [In] in Hk.
  unfold set_attr.
  destruct (String.eqb_spec k "ideal"); [subst; tauto|]. destruct (String.eqb_spec k "targets"); [subst; tauto|]. destruct (String.eqb_spec k "params"); [subst; tauto|].
  destruct (String.eqb_spec k "fixed_t_end"); [subst; tauto|]. destruct (String.eqb_spec k "_name"); [subst; tauto|]. reflexivity.
Qed.

Lemma attrs_base : forall nm id tg pa st en cs os fx ex id' tg' pa' fx' X,
  fold_left set_attr (("ideal", id') :: ("targets", tg') :: ("params", pa') :: ("fixed_t_end", fx') :: X) (mkInstr nm id tg pa st en cs os fx ex)
  = fold_left set_attr X (mkInstr nm id' tg' pa' st en cs os fx' ex).
Proof. reflexivity. Qed.

(** What reading back gives, in full. *)
Definition restored (i : instr) : instr :=
  mkInstr (n_name i) (as_read (n_ideal i)) (as_read (n_targets i)) (as_read (n_params i)) 0 (n_end i - n_start i)
    (rmap (rmap comp_restored) (n_comps i)) (rmap (rmap (rmap as_read)) (n_options i)) (as_read (n_fixed i))
    (rmap as_read (dset "gate_length" (PNum (n_end i - n_start i)) (dset "name" (PStr (n_name i)) (n_extra i)))).
Lemma not_dict_read : forall v, not_dict v -> not_dict (as_read v).
Proof. intros []; cbn; auto. Qed.
Lemma two_keys : forall V k1 (v1 : V) k2 v2 d, unmarked (keys ((k1, v1) :: (k2, v2) :: d)).
Proof. intros V k1 v1 k2 v2 d k H. discriminate. Qed.
Lemma good_comp_writable : forall c, good_comp c -> writable (PObj c).
Proof.
  intros c ((extra & K) & _). cbn [writable]. intros (k & x & E & _). unfold keys in K. destruct (c_params c) as [|a [|b l]]; [discriminate| |discriminate].
  destruct (c_shape c); discriminate.
Qed.
Lemma unmarked_map : forall V W (g : string * V -> string * W) d, (forall kv, fst (g kv) = fst kv) -> unmarked (keys d) -> unmarked (keys (map g d)).
Proof. intros V W g d H U. unfold keys in *. rewrite map_map, (map_ext _ fst) by exact H. exact U. Qed.
Lemma writable_asdict : forall i, valid i -> writable (PDict (instr_asdict i)).
Proof.
  intros i (W1 & W2 & W3 & W4 & (W5 & N5 & D5) & A & N & U & C & O). unfold instr_asdict.
  apply writable_dict; [cbn [app dset String.eqb Ascii.eqb Bool.eqb]; apply two_keys|].
  apply Forall_dset; [|apply Forall_dset; [exact Logic.I|apply Forall_dset; [exact Logic.I|]]].
  - apply writable_dict; [apply unmarked_map; [reflexivity|exact U]|].
    apply Forall_map. eapply Forall_impl; [|exact C]. intros [ch cs] (_ & U2 & G). cbn [fst snd] in *.
    apply writable_dict; [apply unmarked_map; [reflexivity|exact U2]|]. apply Forall_map. eapply Forall_impl; [|exact G]. intros [k c] Hc. apply good_comp_writable. exact Hc.
  - apply Forall_app. split; [|exact W5]. repeat (apply Forall_cons; cbn [snd]); try assumption; [|apply Forall_nil].
    assert (Kk : keys (n_options i) = keys (n_comps i)) by (clear - A; induction A as [|x y l l' [E _] A IH]; [reflexivity|]; cbn [keys map]; unfold keys in IH; rewrite E, IH; reflexivity).
    apply writable_dict; [apply unmarked_map; [reflexivity|exact (eq_ind_r unmarked U Kk)]|].
    apply Forall_map. apply Forall_forall. intros [ch os] I. cbn [fst snd].
    rewrite Forall_forall in O. specialize (O _ I). cbn [snd] in O.
    assert (Hu : unmarked (keys os)).
    { clear - A C I. induction A as [|x y l l' [E1 E2] A IH]; [destruct I|]. inversion C; subst. destruct I as [->|I]; [exact (eq_ind _ unmarked (proj1 (proj2 H1)) _ E2)|apply IH; assumption]. }
    apply writable_dict; [apply unmarked_map; [reflexivity|exact Hu]|]. apply Forall_map. eapply Forall_impl; [|exact O]. intros [k o] Ho. apply Ho.
Qed.
Lemma asdict_read : forall i, rmap as_read (instr_asdict i) =
  dset "drive_channels" (PDict (rmap (fun cs => PDict (comp_dicts cs)) (n_comps i)))
  (dset "gate_length" (PNum (n_end i - n_start i)) (dset "name" (PStr (n_name i))
    ([("ideal", as_read (n_ideal i)); ("targets", as_read (n_targets i)); ("params", as_read (n_params i));
      ("_options", PDict (rmap (fun os => PDict (rmap (fun o => PDict (rmap as_read o)) os)) (n_options i)));
      ("fixed_t_end", as_read (n_fixed i))] ++ rmap as_read (n_extra i))%list)).
Proof.
  intro i. unfold instr_asdict. rewrite !rmap_dset. f_equal.
  - cbn [as_read]. f_equal. rewrite map_map. apply map_ext. intros [ch cs]. cbn [fst snd as_read]. rewrite map_map. reflexivity.
  - f_equal. f_equal. unfold rmap at 1. rewrite map_app. f_equal. cbn [map fst snd as_read]. do 3 f_equal. f_equal. f_equal. f_equal.
    rewrite map_map. apply map_ext. intros [ch os]. cbn [fst snd as_read]. rewrite map_map. reflexivity.
Qed.
Theorem C71_exact : forall ideal_of_name i name, valid i -> instr_reread ideal_of_name i name = Ok (restored i).
Proof.
  intros f i name V. unfold instr_reread. rewrite (of_json_read _ (writable_asdict i V)). cbn [as_read rbind]. fold (rmap as_read (instr_asdict i)).
  destruct V as (W1 & W2 & W3 & W4 & (W5 & N5 & D5) & A & N & U & C & O).
  rewrite asdict_read. set (E := rmap as_read (n_extra i)). set (CH := rmap (fun cs => PDict (comp_dicts cs)) (n_comps i)).
  set (OP := rmap (fun os => PDict (rmap (fun o => PDict (rmap as_read o)) os)) (n_options i)). cbn [app].
  cbn [dset String.eqb Ascii.eqb Bool.eqb]. set (X := dset "gate_length" _ (dset "name" _ E)).
  assert (KX : forall k, In k (keys X) -> ~ In k attr_names).
  { intros k I. unfold X in I. rewrite !in_keys_dset in I. destruct I as [->|[->|I]]; [cbn; intuition discriminate..|]. unfold E in I. rewrite keys_rmap in I. apply D5. exact I. }
  assert (NX : NoDup (keys X)) by (unfold X; apply nodup_dset', nodup_dset'; unfold E; rewrite keys_rmap; exact N5).
  assert (DX : ~ In "drive_channels" (keys X)) by (intro I; apply (KX _ I); cbn; tauto).
  unfold from_dict. cbn [dget String.eqb Ascii.eqb Bool.eqb]. rewrite dget_dset_same.
  rewrite (dget_dset_other "gate_length") by discriminate. unfold X at 1. rewrite dget_dset_same.
  unfold name_of. cbn [dget String.eqb Ascii.eqb Bool.eqb]. rewrite (dget_dset_other "name") by discriminate. unfold X at 1. rewrite (dget_dset_other "name"), dget_dset_same by discriminate.
  cbn [rbind ddel String.eqb Ascii.eqb Bool.eqb]. rewrite (ddel_dset_new _ _ _ _ DX).
  unfold instr_init. rewrite attrs_base.
  rewrite (attrs_extra X _ KX). cbn [n_name n_ideal n_targets n_params n_start n_end n_comps n_options n_fixed n_extra].
  assert (EX : dupdate [] X = X) by (apply (dupdate_over _ X [] [] (keys X)); [reflexivity|exact NX]). rewrite EX.
  assert (Ko : keys (n_options i) = keys (n_comps i)) by (clear - A; induction A as [|x y l l' [E _] A IH]; [reflexivity|]; cbn [keys map]; unfold keys in IH; rewrite E, IH; reflexivity).
  unfold CH. rewrite (add_chans_ok (Some (PDict OP)) (n_comps i) (rmap (rmap (rmap as_read)) (n_options i))) with (pre := []) (pre' := []).
  - cbn [with_comps n_name n_ideal n_targets n_params n_start n_end n_fixed n_extra app]. unfold restored, X. rewrite !rmap_dset. reflexivity.
  - assert (NO : NoDup (keys OP)) by (unfold OP; rewrite keys_rmap, Ko; exact N).
    assert (HI : forall ch os, In (ch, os) (n_options i) -> dget ch OP = Some (PDict (rmap (fun o => PDict (rmap as_read o)) os))).
    { intros ch os I. apply dget_in_nodup; [exact NO|]. unfold OP, rmap. apply in_map_iff. exists (ch, os). split; [reflexivity|exact I]. }
    clearbody OP. clear - A C O HI. induction A as [|[ch cs] [ch' os] css oss [E1 E2] A IH]; [constructor|]. cbn [fst snd] in *. subst ch'.
    inversion C as [|? ? (N1 & _ & G) C' ]; subst. inversion O as [|? ? G' O']; subst. cbn [fst snd] in *. cbn [rmap map fst snd]. constructor.
    + cbn [fst snd]. split; [reflexivity|]. split; [exact N1|].
      assert (HI2 : forall k o, In (k, o) os -> options_for (Some (PDict OP)) ch k = Ok (Some (rmap as_read o))).
      { intros k o I. eapply options_found; [apply HI; left; reflexivity|]. apply dget_in_nodup; [rewrite keys_rmap, <- E2; exact N1|]. unfold rmap. apply in_map_iff. exists (k, o). split; [reflexivity|exact I]. }
      clear - E2 G G' HI2. revert os E2 G' HI2. induction G as [|[k c] cs Hc G IH]; intros [|[k' o] os] E2 G' HI2; try discriminate E2; [constructor|].
      cbn [keys map fst] in E2. injection E2 as <- E2. inversion G' as [|? ? Ho G'']; subst. cbn [rmap map fst snd]. constructor.
      * cbn [fst snd] in *. split; [reflexivity|]. split; [apply HI2; left; reflexivity|]. split; [|exact Hc]. apply conv_id. apply Forall_rmap. eapply Forall_impl; [|apply Ho]. intros kv. apply not_dict_read.
      * apply IH; [exact E2|exact G''|]. intros a b I. apply HI2. right. exact I.
    + apply IH; try assumption. intros a b I. apply HI. right. exact I.
  - cbn [n_comps app]. unfold CH. rewrite keys_rmap. unfold rmap, keys. rewrite map_map. reflexivity.
  - cbn [n_options app]. unfold CH. rewrite keys_rmap, <- Ko. unfold rmap, keys. rewrite !map_map. reflexivity.
  - exact N.
  - reflexivity.
Qed.
Print Assumptions C71_exact.
(** In terms of what a user sees: the name, the length, the ideal gate, targets and
    parameters, the channels, for each channel and component its class, name, shape and
    parameters, and every option; tuples come back as lists. *)
Theorem C71_roundtrip : forall ideal_of_name i name, valid i -> exists i', instr_reread ideal_of_name i name = Ok i'
  /\ n_name i' = n_name i /\ (n_end i' - n_start i' = n_end i - n_start i)%R
  /\ n_ideal i' = as_read (n_ideal i) /\ n_targets i' = as_read (n_targets i) /\ n_params i' = as_read (n_params i) /\ n_fixed i' = as_read (n_fixed i)
  /\ keys (n_comps i') = keys (n_comps i)
  /\ (forall chan k, match comp_at i chan k, comp_at i' chan k with Some c, Some c' => same_comp c c' | None, None => True | _, _ => False end)
  /\ (forall chan k o, option_at i' chan k o = option_map as_read (option_at i chan k o)).
Proof.
  intros f i name V. exists (restored i). split; [apply C71_exact; exact V|]. cbn [restored n_name n_ideal n_targets n_params n_start n_end n_fixed n_comps].
  split; [reflexivity|]. split; [ring|]. repeat (split; [reflexivity|]). split; [apply keys_rmap|]. split.
  - intros chan k. unfold comp_at. cbn [restored n_comps]. rewrite dget_rmap. destruct (dget chan (n_comps i)) as [m|]; [|exact Logic.I]. cbn [option_map].
    rewrite dget_rmap. destruct (dget k m) as [c|]; [|exact Logic.I]. cbn [option_map]. repeat split.
  - intros chan k o. unfold option_at. cbn [restored n_options]. rewrite dget_rmap. destruct (dget chan (n_options i)) as [m|]; [|reflexivity]. cbn [option_map].
    rewrite dget_rmap. destruct (dget k m) as [os|]; [|reflexivity]. cbn [option_map]. apply dget_rmap.
Qed.
Print Assumptions C71_roundtrip.

(** Values without tuples, tensors and objects come back unchanged. *)
Lemma plain_read : forall v, plain v -> as_read v = v.
Proof.
  induction v as [ |b|r|s|z|z|q|c|l F|l F|l F|l F|d F] using pyval_ind2; intro H; try reflexivity; try contradiction; cbn [as_read plain] in *; f_equal.
  - induction F as [|x l Hx F IH]; [reflexivity|]. destruct H as [A B]. cbn [map]. rewrite (Hx A), (IH B). reflexivity.
  - induction F as [|x l Hx F IH]; [reflexivity|]. destruct H as [A B]. cbn [map]. rewrite (Hx A), (IH B). reflexivity.
  - induction F as [|[k x] l Hx F IH]; [reflexivity|]. destruct H as [A B]. cbn [map fst snd] in *. rewrite (Hx A), (IH B). reflexivity.
Qed.
Theorem C71_plain : forall ideal_of_name i name i', valid i -> instr_reread ideal_of_name i name = Ok i' ->
  (plain (n_ideal i) -> n_ideal i' = n_ideal i) /\ (plain (n_targets i) -> n_targets i' = n_targets i) /\ (plain (n_params i) -> n_params i' = n_params i)
  /\ (forall chan k o v, option_at i chan k o = Some v -> plain v -> option_at i' chan k o = Some v).
Proof.
  intros f i name i' V E. destruct (C71_roundtrip f i name V) as (j & E' & _ & _ & A & B & C & _ & _ & _ & D). rewrite E in E'. injection E' as <-.
  rewrite A, B, C. split; [apply plain_read|]. split; [apply plain_read|]. split; [apply plain_read|]. intros chan k o v H P. rewrite D, H. cbn [option_map]. rewrite plain_read by exact P. reflexivity.
Qed.
Print Assumptions C71_plain.

(** ** Default parameters *)
(** A component without parameters gets those of the documentation: each is the Quantity
    its constructor makes from value, limits and unit. *)
Theorem C71_defaults :
  Forall2 (fun spec kq => let '(name, v, lo, hi, u) := spec in
      fst kq = name /\ mk_quantity [v] u (Some lo) (Some hi) "\alpha" = Ok (snd kq) /\ numpy (snd kq) = [v])
    [("amp", 1, -1, 3 / 2, "V"); ("delta", 0, -5, 5, "V"); ("freq_offset", 0, -1, 1, "Hz 2pi");
     ("xy_angle", 0, -1, 1, "rad"); ("sigma", 5 / 10 ^ 9, -2, 2, "s"); ("t_final", 1, -1, 1, "s")]%R env_defaults
  /\ Forall2 (fun spec kq => let '(name, v, lo, hi, u) := spec in
      fst kq = name /\ mk_quantity [v] u (Some lo) (Some hi) "\alpha" = Ok (snd kq) /\ numpy (snd kq) = [v])
    [("freq", 0, -1, 1, "V"); ("framechange", 0, - PI, PI, "rad")]%R carrier_defaults.
Proof.
  assert (G : forall v lo hi u, (lo < hi -> lo <= v <= hi -> mk_quantity [v] u (Some lo) (Some hi) "\alpha" = Ok (qty v lo hi u) /\ numpy (qty v lo hi u) = [v])%R).
  { intros v lo hi u L B. destruct (qty_made v lo hi u L B) as (E & _). split; [exact E|].
    destruct (mk_quantity_limits [v] u lo hi "\alpha" L) as (q & E' & A & _); [constructor; [exact B|constructor]|].
    assert (q = qty v lo hi u) by congruence. subst q. exact A. }
  pose proof PI_RGT_0.
  split; repeat (apply Forall2_cons; [split; [reflexivity|]; apply G; lra|]); apply Forall2_nil.
Qed.
Print Assumptions C71_defaults.

(** ** Reading twice is reading once *)
Lemma params_as_read : forall ps, as_read (params_val ps) = params_val ps.
Proof.
  intro ps. unfold params_val. cbn [as_read]. f_equal. rewrite map_map. apply map_ext. intros [k q]. cbn [fst snd]. unfold qdict_val. cbn [as_read map fst snd]. rewrite map_map. reflexivity.
Qed.
Lemma as_read_twice : forall v, as_read (as_read v) = as_read v.
Proof.
  assert (L : forall l, Forall (fun v => as_read (as_read v) = as_read v) l -> map as_read (map as_read l) = map as_read l).
  { intros l F. rewrite map_map. apply map_ext_Forall. exact F. }
  induction v as [ |b|r|s|z|z|q|c|l F|l F|l F|l F|d F] using pyval_ind2; try reflexivity; cbn [as_read]; try (rewrite L by exact F; reflexivity).
  - unfold comp_asdict. destruct (c_shape c); cbn [map fst snd as_read]; rewrite params_as_read; reflexivity.
  - f_equal. rewrite map_map. apply map_ext_Forall. eapply Forall_impl; [|exact F]. intros [k v] H. cbn [fst snd] in *. rewrite H. reflexivity.
Qed.
Lemma writable_params : forall ps, unmarked (keys ps) -> writable (params_val ps).
Proof.
  intros ps U. unfold params_val. apply writable_dict; [apply unmarked_map; [reflexivity|exact U]|]. apply Forall_map. apply Forall_forall. intros [k q] _. cbn [snd].
  unfold qdict_val. apply writable_dict; [apply two_keys|]. repeat (apply Forall_cons; [cbn [snd writable]; try exact Logic.I|]); [|apply Forall_nil].
  induction (qd_value (asdict q)); cbn; auto.
Qed.
Lemma writable_read : forall v, writable v -> writable (as_read v).
Proof.
  assert (L : forall l, Forall (fun v => writable v -> writable (as_read v)) l -> fold_right (fun x P => writable x /\ P) True l -> fold_right (fun x P => writable x /\ P) True (map as_read l)).
  { intros l F. induction F as [|x l Hx F IH]; [auto|]. cbn [fold_right map]. intros [A B]. auto. }
  induction v as [ |b|r|s|z|z|q|c|l F|l F|l F|l F|d F] using pyval_ind2; intro W; try exact W; cbn [as_read]; try (apply L; [exact F|exact W]).
  - assert (U : unmarked (keys (c_params c))).
    { intros k E I. apply W. destruct (c_params c) as [|[a q] [|b l]]; try discriminate. cbn [keys map fst] in E. injection E as ->. exists k, PNone. split; [reflexivity|exact I]. }
    pose proof (writable_params _ U). unfold comp_asdict. destruct (c_shape c); (apply writable_dict; [apply two_keys|]); repeat (apply Forall_cons; [cbn [snd]; first [assumption|exact Logic.I]|]); apply Forall_nil.
  - destruct W as [M W]. apply writable_dict.
    + apply unmarked_map; [reflexivity|]. intros k E I. apply M. destruct d as [|[a x] [|b l]]; try discriminate. cbn [keys map fst] in E. injection E as ->. exists k, x. split; [reflexivity|exact I].
    + apply Forall_map. rewrite fold_writable in W. clear M. induction F as [|[k x] l Hx F IH]; [constructor|]. inversion W; subst. constructor; [apply Hx; assumption|apply IH; assumption].
Qed.
Lemma good_restored : forall c, good_comp c -> good_comp (comp_restored c).
Proof. intros c H. exact H. Qed.
Lemma Forall_rmap_id : forall V (P : string * V -> Prop) W (f : W -> V) d, Forall (fun kv => P (fst kv, f (snd kv))) d -> Forall P (rmap f d).
Proof. intros V P W f d F. unfold rmap. apply Forall_map. exact F. Qed.
Theorem C71_valid : forall ideal_of_name i name i', valid i -> instr_reread ideal_of_name i name = Ok i' -> valid i'.
Proof.
  intros f i name i' V E. rewrite (C71_exact f i name V) in E. injection E as <-. destruct V as (W1 & W2 & W3 & W4 & (W5 & N5 & D5) & A & N & U & C & O).
  unfold valid. cbn [restored n_ideal n_targets n_params n_fixed n_extra n_comps n_options].
  split; [apply writable_read; exact W1|]. split; [apply writable_read; exact W2|]. split; [apply writable_read; exact W3|]. split; [apply writable_read; exact W4|].
  split; [|split; [|split; [|split; [|split]]]].
  - split; [|split].
    + apply Forall_rmap_id. eapply Forall_impl; [|apply (Forall_dset pyval writable); [exact Logic.I|apply (Forall_dset pyval writable); [exact Logic.I|exact W5]]]. intros [k v] H. apply writable_read. exact H.
    + rewrite keys_rmap. apply nodup_dset', nodup_dset'. exact N5.
    + intros k I. rewrite keys_rmap, !in_keys_dset in I. destruct I as [->|[->|I]]; [cbn; intuition discriminate..|]. apply D5. exact I.
  - clear - A. induction A as [|[a b] [a' b'] l l' [E1 E2] A IH]; [constructor|]. cbn [rmap map fst snd] in *. constructor; [|exact IH]. cbn [fst snd]. split; [exact E1|]. exact (eq_trans (keys_rmap _ _ comp_restored b) (eq_trans E2 (eq_sym (keys_rmap _ _ (rmap as_read) b')))).
  - rewrite keys_rmap. exact N.
  - rewrite keys_rmap. exact U.
  - apply Forall_rmap_id. eapply Forall_impl; [|exact C]. intros [ch cs] (N1 & U1 & G). cbn [fst snd] in *. rewrite keys_rmap. split; [exact N1|]. split; [exact U1|].
    apply Forall_rmap_id. eapply Forall_impl; [|exact G]. intros [k c] H. exact H.
  - apply Forall_rmap_id. eapply Forall_impl; [|exact O]. intros [ch os] G. cbn [fst snd] in *. apply Forall_rmap_id. eapply Forall_impl; [|exact G]. intros [k o] [Ho1 Ho2]. cbn [fst snd] in *. split.
    + exact (writable_read (PDict o) Ho1).
    + apply Forall_rmap. eapply Forall_impl; [|exact Ho2]. intros kv. apply not_dict_read.
Qed.
Print Assumptions C71_valid.
Lemma dset_same : forall V k (v : V) d, dget k d = Some v -> dset k v d = d.
Proof.
  intros V k v d. induction d as [|[a b] d IH]; intro H; [discriminate|]. cbn [dget dset] in *. destruct (String.eqb_spec k a) as [->|D]; [injection H as ->; reflexivity|]. rewrite IH by exact H. reflexivity.
Qed.
Theorem C71_stable : forall ideal_of_name i name i', valid i -> instr_reread ideal_of_name i name = Ok i' -> forall name', instr_reread ideal_of_name i' name' = Ok i'.
Proof.
  intros f i name i' V E name'. rewrite (C71_exact f i' name' (C71_valid f i name i' V E)). rewrite (C71_exact f i name V) in E. injection E as <-. f_equal. unfold restored.
  cbn [n_name n_ideal n_targets n_params n_start n_end n_comps n_options n_fixed n_extra].
  rewrite !as_read_twice, Rminus_0_r, !rmap_rmap. f_equal.
  - apply rmap_ext. apply Forall_forall. intros [ch cs] _. cbn [snd]. rewrite rmap_rmap. reflexivity.
  - apply rmap_ext. apply Forall_forall. intros [ch os] _. cbn [snd]. rewrite rmap_rmap. apply rmap_ext. apply Forall_forall. intros [k o] _. cbn [snd]. rewrite rmap_rmap.
    apply rmap_ext. apply Forall_forall. intros [k' v] _. apply as_read_twice.
  - rewrite (dset_same _ "name").
    + rewrite (dset_same _ "gate_length").
      * rewrite rmap_rmap. apply rmap_ext. apply Forall_forall. intros [k v] _. apply as_read_twice.
      * rewrite dget_rmap, dget_dset_same. reflexivity.
    + rewrite dget_rmap, dget_dset_other, dget_dset_same by discriminate. reflexivity.
Qed.
Print Assumptions C71_stable.

(** ** Instructions are made valid *)
Theorem C71_init : forall ideal_of_name name targets params ideal channels t_start t_end,
  (forall s, writable (ideal_of_name s)) -> (forall v, targets = Some v -> writable v) -> (forall v, params = Some v -> writable v) -> (forall v, ideal = Some v -> writable v) ->
  NoDup channels -> unmarked channels ->
  valid (instr_init ideal_of_name name targets params ideal channels t_start t_end).
Proof.
  intros f name targets params ideal channels t0 t1 Wf W1 W2 W3 N U. unfold valid, instr_init. cbn [n_ideal n_targets n_params n_fixed n_extra n_comps n_options].
  assert (K : forall V, keys (map (fun c => (c, @nil V)) channels) = channels) by (intro V; unfold keys; rewrite map_map; apply map_id).
  split; [destruct ideal as [[]|]; try apply Wf; apply W3; reflexivity|].
  split; [destruct targets; [apply W1; reflexivity|exact Logic.I]|].
  split; [destruct params as [[]|]; try (apply writable_dict; [intros k E; discriminate|constructor]); apply W2; reflexivity|].
  split; [exact Logic.I|]. split; [split; [constructor|]; split; [constructor|]; intros k []|].
  split; [|split; [exact (eq_ind_r (@NoDup string) N (K (string * component)%type))|split; [exact (eq_ind_r unmarked U (K (string * component)%type))|]]].
  - clear. induction channels; constructor; [split; reflexivity|assumption].
  - split; apply Forall_map; apply Forall_forall; intros ch _; cbn [snd]; [split; [constructor|split; [intros k E; discriminate|constructor]]|constructor].
Qed.
Print Assumptions C71_init.
Lemma split_at : forall V k (d : dict V) w, dget k d = Some w -> exists pre post, d = (pre ++ (k, w) :: post)%list /\ ~ In k (keys pre).
Proof.
  intros V k d w. induction d as [|[a b] d IH]; intro H; [discriminate|]. cbn [dget] in H. destruct (String.eqb_spec k a) as [->|D].
  - injection H as ->. exists [], d. split; [reflexivity|intros []].
  - destruct (IH H) as (pre & post & -> & N). exists ((a, b) :: pre), post. split; [reflexivity|]. cbn [keys map fst In]. intros [E|E]; [congruence|apply N; exact E].
Qed.
Lemma unmarked_dset : forall V k (v : V) d, ~ In k markers -> unmarked (keys d) -> unmarked (keys (dset k v d)).
Proof.
  intros V k v d H U a E I. destruct d as [|[x y] d]; cbn [dset] in E.
  - cbn in E. injection E as <-. tauto.
  - destruct (String.eqb k x); [apply (U a); [exact E|exact I]|]. cbn [keys map fst] in E. injection E as -> E. destruct d as [|[x' y'] d]; cbn [dset] in E; [discriminate|]. destruct (String.eqb k x'); discriminate.
Qed.
Lemma conv_good : forall o o', good_opts o -> conv_options o = Ok o' -> o' = o.
Proof. intros o o' [_ G] E. rewrite (conv_id o G) in E. congruence. Qed.
Lemma keys_dset_eq : forall V W k (v : V) (w : W) d e, keys d = keys e -> keys (dset k v d) = keys (dset k w e).
Proof.
  intros V W k v w d. induction d as [|[a b] d IH]; intros [|[a' b'] e] E; try discriminate; [reflexivity|]. cbn [keys map fst] in E. injection E as <- E. cbn [dset].
  destruct (String.eqb k a); cbn [keys map fst]; f_equal; [exact E|]. apply IH. exact E.
Qed.
Theorem C71_add_component : forall i c chan options name i', valid i -> good_comp c ->
  ~ In (match name with Some n => n | None => c_name c end) markers ->
  (forall o, options = Some o -> good_opts o) -> add_component i c chan options name = Ok i' ->
  valid i' /\ comp_at i' chan (match name with Some n => n | None => c_name c end) = Some c.
Proof.
  intros i c chan options name i' V G M Go E. unfold add_component in E. set (nm := match name with Some n => n | None => c_name c end) in *.
  replace (match name with Some n => n | None => c_name c end) with nm in E by reflexivity.
  destruct (dget chan (n_comps i)) as [m|] eqn:Em; [|discriminate].
  assert (Go' : good_opts (match options with None => [] | Some o => o end)).
  { destruct options as [o|]; [apply Go; reflexivity|]. split; [apply writable_dict; [intros k Ek; discriminate|constructor]|constructor]. }
  destruct (conv_options _) as [o|] eqn:Eo in E; [|discriminate]. apply (conv_good _ _ Go') in Eo. subst o. cbn [rbind] in E.
  destruct (dget chan (n_options i)) as [om|] eqn:Eom; [|discriminate]. injection E as <-.
  destruct V as (W1 & W2 & W3 & W4 & W5 & A & N & U & C & O).
  assert (Km : keys m = keys om /\ NoDup (keys m) /\ unmarked (keys m) /\ Forall (fun kc => good_comp (snd kc)) m /\ Forall (fun ko => good_opts (snd ko)) om).
  { clear - A C O Em Eom. induction A as [|[a b] [a' b'] l l' [E1 E2] A IH]; [discriminate|]. cbn [fst snd dget] in *. subst a'. inversion C as [|? ? C1 C2]; subst. inversion O as [|? ? O1 O2]; subst.
    destruct (String.eqb chan a); [|apply IH; assumption]. injection Em as ->. injection Eom as ->. cbn [snd] in *. split; [exact E2|]. destruct C1 as (C1 & C3 & C4). auto. }
  destruct Km as (Km & Nm & Um & Gm & Om). split.
  - unfold valid. cbn [with_comps n_ideal n_targets n_params n_fixed n_extra n_comps n_options]. repeat (split; [assumption|]).
    assert (Kc : keys (dset chan (dset nm c m) (n_comps i)) = keys (n_comps i)) by (apply keys_dset_present; apply dget_Some_in in Em; apply (in_map fst) in Em; exact Em).
    rewrite Kc. split; [|split; [exact N|split; [exact U|]]].
    + clear - A Em Eom Km. induction A as [|[a b] [a' b'] l l' [E1 E2] A IH]; [discriminate|]. cbn [fst snd dget dset] in *. subst a'. destruct (String.eqb chan a).
      * injection Em as ->. injection Eom as ->. constructor; [|exact A]. split; [reflexivity|]. cbn [snd]. apply keys_dset_eq. exact Km.
      * constructor; [split; [reflexivity|exact E2]|]. apply IH; assumption.
    + split.
      * apply (Forall_dset _ (fun m => NoDup (keys m) /\ unmarked (keys m) /\ Forall (fun kc => good_comp (snd kc)) m)); [|exact C].
        split; [apply nodup_dset'; exact Nm|]. split; [apply unmarked_dset; assumption|]. apply Forall_dset; assumption.
      * apply (Forall_dset _ (fun os => Forall (fun ko => good_opts (snd ko)) os)); [|exact O]. apply (Forall_dset _ good_opts); assumption.
  - unfold comp_at. cbn [with_comps n_comps]. rewrite dget_dset_same, dget_dset_same. reflexivity.
Qed.
Print Assumptions C71_add_component.

(** ** A whole parameter map *)
Lemma pmap_from : forall f instrs, Forall (fun ki => valid (snd ki)) instrs -> forall acc, NoDup (keys acc ++ keys instrs)%list ->
  pmap_fromdict f (rmap (fun i => PDict (rmap as_read (instr_asdict i))) instrs) acc = Ok (acc ++ rmap restored instrs)%list.
Proof.
  intros f instrs F. induction F as [|[k i] instrs V F IH]; intros acc N; [cbn; rewrite app_nil_r; reflexivity|].
  cbn [rmap map fst snd pmap_fromdict] in *. fold (rmap (fun i => PDict (rmap as_read (instr_asdict i))) instrs).
  pose proof (C71_exact f i (Some k) V) as E. unfold instr_reread in E. rewrite (of_json_read _ (writable_asdict i V)) in E. cbn [as_read rbind] in E. fold (rmap as_read (instr_asdict i)) in E.
  rewrite E. cbn [rbind]. assert (Nk : ~ In k (keys acc)).
  { intro I. cbn [keys map fst] in N. apply NoDup_remove_2 in N. apply N. apply in_or_app. left. exact I. }
  rewrite dset_append by exact Nk. rewrite IH; [rewrite <- app_assoc; reflexivity|]. rewrite keys_app, <- app_assoc. exact N.
Qed.
Theorem C71_parameter_map : forall ideal_of_name instrs, Forall (fun ki => valid (snd ki)) instrs -> NoDup (keys instrs) -> unmarked (keys instrs) ->
  exists instrs', pmap_reread ideal_of_name instrs = Ok instrs' /\ keys instrs' = keys instrs
  /\ forall k i, dget k instrs = Some i -> exists i', dget k instrs' = Some i' /\ instr_reread ideal_of_name i (Some k) = Ok i'.
Proof.
  intros f instrs F N U. exists (rmap restored instrs). split; [|split; [apply keys_rmap|]].
  - unfold pmap_reread. rewrite of_json_read.
    + cbn [as_read rbind]. unfold pmap_asdict. rewrite map_map.
      assert (E : map (fun x : string * instr => (fst (fst x, PDict (instr_asdict (snd x))), as_read (snd (fst x, PDict (instr_asdict (snd x)))))) instrs = rmap (fun i => PDict (rmap as_read (instr_asdict i))) instrs) by reflexivity.
      rewrite E, (pmap_from f instrs F []); [reflexivity|exact N].
    + unfold pmap_asdict. apply writable_dict; [apply unmarked_map; [reflexivity|exact U]|]. apply Forall_map. eapply Forall_impl; [|exact F]. intros [k i] V. apply writable_asdict. exact V.
  - intros k i H. exists (restored i). split; [rewrite dget_rmap, H; reflexivity|]. apply C71_exact. rewrite Forall_forall in F. apply dget_Some_in in H. exact (F _ H).
Qed.
Print Assumptions C71_parameter_map.

(** ** What is lost *)
(** Without the detour through JSON, from_dict(asdict()) fails for every instruction
    with a component: asdict leaves the component objects in place. *)
Theorem C71_in_memory_refuted : forall ideal_of_name i name chan k c m rest rest', n_comps i = (chan, (k, c) :: m) :: rest -> n_extra i = rest' ->
  ~ In "drive_channels" (keys rest') -> ~ In "gate_length" (keys rest') -> ~ In "name" (keys rest') ->
  from_dict ideal_of_name (instr_asdict i) name = Err AttributeError.
Proof.
  intros f i name chan k c m rest rest' E <- H1 H2 H3. unfold from_dict, instr_asdict. cbn [app dset String.eqb Ascii.eqb Bool.eqb].
  cbn [dget String.eqb Ascii.eqb Bool.eqb]. rewrite dget_dset_same, (dget_dset_other "gate_length"), dget_dset_same by discriminate.
  unfold name_of. cbn [dget String.eqb Ascii.eqb Bool.eqb]. rewrite (dget_dset_other "name" "drive_channels"), (dget_dset_other "name" "gate_length"), dget_dset_same by discriminate.
  cbn [rbind]. rewrite E. reflexivity.
Qed.
Print Assumptions C71_in_memory_refuted.
(** The description, the comment and the choice [use_t_before] are not written. *)
Theorem C71_lost_refuted : forall ideal_of_name i name i' chan k c, valid i -> instr_reread ideal_of_name i name = Ok i' -> comp_at i chan k = Some c ->
  exists c', comp_at i' chan k = Some c' /\ c_before c' = false /\ c_desc c' = " " /\ c_comment c' = " ".
Proof.
  intros f i name i' chan k c V E H. rewrite (C71_exact f i name V) in E. injection E as <-. unfold comp_at in *. cbn [restored n_comps]. rewrite dget_rmap.
  destruct (dget chan (n_comps i)) as [m|]; [|discriminate]. cbn [option_map]. rewrite dget_rmap, H. eexists. split; [reflexivity|]. auto.
Qed.
Print Assumptions C71_lost_refuted.
(** An instruction that starts later is moved to time zero. *)
Theorem C71_start_refuted : forall ideal_of_name i name i', valid i -> instr_reread ideal_of_name i name = Ok i' -> n_start i' = 0%R /\ n_end i' = (n_end i - n_start i)%R.
Proof. intros f i name i' V E. rewrite (C71_exact f i name V) in E. injection E as <-. split; reflexivity. Qed.
Print Assumptions C71_start_refuted.

(** ** A concrete instruction: a gate with a DRAG pulse and a carrier, and an option *)
Definition ex_env : component := mkComp "EnvelopeDrag" "gauss" "Gaussian" "" (Some "gaussian_nonorm") true env_defaults.
Definition ex_car : component := mkComp "Carrier" "carrier" " " " " None false carrier_defaults.
Definition ex_instr : result instr :=
  rbind (add_component (instr_init (fun _ => PNone) "rx90p" (Some (PList [PNum 0])) None (Some (PArr [PList [PNum 1; PNum 0]; PList [PNum 0; PNum 1]])) ["d1"; "d2"] 2 7)
           ex_env "d1" (Some [("delay", PQty (qty 1 0 2 "s")); ("trigger_comp", PTup [PStr "d2"; PStr "carrier"])]) None) (fun i =>
  add_component i ex_car "d2" None None).
Lemma ex_good : good_comp ex_env /\ good_comp ex_car.
Proof.
  destruct defaults_good as [A B]. unfold good_comp, ex_env, ex_car. cbn [c_shape c_params c_class]. split; (split; [exists []; reflexivity|]); (split; [repeat (constructor; [cbn; intuition discriminate|]); constructor|]); (split; [assumption|]).
  - split; cbn; tauto.
  - reflexivity.
Qed.
Example C71_example : exists i, ex_instr = Ok i /\ valid i /\ n_start i = 2%R /\ comp_at i "d1" "gauss" = Some ex_env
  /\ option_at i "d1" "gauss" "delay" = Some (PQty (qty 1 0 2 "s")).
Proof.
  unfold ex_instr. set (i0 := instr_init _ _ _ _ _ _ _ _). set (o1 := [("delay", _); _]).
  assert (V0 : valid i0).
  { apply C71_init; [exact (fun _ => Logic.I)| | | | |intros k E; discriminate].
    - intros v E. injection E as <-. cbn. tauto.
    - discriminate.
    - intros v E. injection E as <-. cbn. tauto.
    - repeat (constructor; [cbn; intuition discriminate|]). constructor. }
  assert (G : good_opts o1).
  { split; [|repeat constructor]. apply writable_dict; [apply two_keys|]. constructor; [cbn [snd writable]; apply qty_made; lra|]. constructor; [cbn; tauto|constructor]. }
  destruct ex_good as [G1 G2].
  destruct (add_component i0 ex_env "d1" (Some o1) None) as [i1|] eqn:E1; [|discriminate].
  assert (V1 : valid i1).
  { apply (C71_add_component i0 ex_env "d1" (Some o1) None i1 V0 G1); [cbn; intuition discriminate| |exact E1]. intros o E. injection E as <-. exact G. }
  cbn [rbind]. destruct (add_component i1 ex_car "d2" None None) as [i2|] eqn:E2.
  - exists i2. split; [reflexivity|]. split; [apply (C71_add_component i1 ex_car "d2" None None i2 V1 G2); [cbn; intuition discriminate|discriminate|exact E2]|].
    cbv in E1. injection E1 as <-. cbv in E2. injection E2 as <-. split; [reflexivity|]. split; reflexivity.
  - exfalso. unfold add_component in E1. cbn [dget n_comps n_options i0 instr_init map String.eqb Ascii.eqb Bool.eqb o1 conv_options rbind] in E1. injection E1 as <-. discriminate.
Qed.
