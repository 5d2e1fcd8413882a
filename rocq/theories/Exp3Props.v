(** Property C80, continued: which frame rotation a computed gate carries, and for how
    many time slices the propagators are folded.
    Property C75, continued: which initial state vectors a backend accepts. *)
From Coq Require Import Reals Lra Lia.
From Coquelicot Require Import Complex.
From Verif Require Import Base Mat MExp HilbertModel HilbertProofs Hilbert2Props PropModel SuperProofs FoldModel EnvModel
  EnvProps ExpModel ExpProps QiskitModel QiskitProps Frame2Props.
Local Open Scope list_scope.
Local Open Scope nat_scope.
Local Notation length := List.length.

(** ** Specification.  A component of a line shifts the frequency when it has a frequency
    offset and an amplitude other than zero; the last such component counts. *)
Inductive shifts : dict R -> R -> Prop :=
| shifts_intro : forall c o a, dget "freq_offset"%string c = Some o -> dget "amp"%string c = Some a -> a <> 0%R -> shifts c o.
Inductive Offset : dict (dict R) -> R -> Prop :=
| Offset_none : forall ctrls, (forall k c, In (k, c) ctrls -> forall o, ~ shifts c o) -> Offset ctrls 0
| Offset_last : forall pre k c post o, shifts c o -> (forall k' c', In (k', c') post -> forall o', ~ shifts c' o') ->
    Offset (pre ++ (k, c) :: post) o.
(** The phase the basis label [l] picks up in time [T]: each line contributes, for every
    excitation of the subsystem it acts on, the shifted carrier frequency times [T] plus
    the frame change. *)
Inductive drive_phase (s : frame_sys) (T : R) (l : list nat) : dict (dict (dict R)) -> R -> Prop :=
| dp_nil : drive_phase s T l [] 0
| dp_cons : forall line ctrls rest k car f fc o ph,
    acts_on s line k -> dget "carrier"%string ctrls = Some car -> dget "freq"%string car = Some f ->
    dget "framechange"%string car = Some fc -> Offset ctrls o -> drive_phase s T l rest ph ->
    drive_phase s T l ((line, ctrls) :: rest) (INR (nth k l 0) * ((f + o) * T + fc) + ph).

Definition offset_step (acc : result R) (kc : string * dict R) : result R :=
  rbind acc (fun offset =>
    match dget "freq_offset"%string (snd kc) with
    | None => Ok offset
    | Some o => match dget "amp"%string (snd kc) with
                | None => Err KeyError
                | Some a => if Req_EM_T a 0 then Ok offset else Ok o
                end
    end).
Lemma line_offset_spec : forall ctrls o, line_offset ctrls = Ok o -> Offset ctrls o.
Proof.
  intros ctrls. change (line_offset ctrls) with (fold_left offset_step ctrls (Ok 0%R)).
  induction ctrls as [|[k c] ctrls IH] using rev_ind; intros o H.
  - injection H as <-. apply Offset_none. intros ? ? [].
  - rewrite fold_left_app in H. cbn [fold_left] in H. unfold offset_step at 1 in H.
    destruct (fold_left offset_step ctrls (Ok 0%R)) as [o0|]; [|discriminate]. cbn [rbind snd] in H. specialize (IH o0 eq_refl).
    assert (Keep : (forall o', ~ shifts c o') -> Offset (ctrls ++ [(k, c)]) o0).
    { intro Hn. inversion IH as [? Hp|pre k' c' post o' Hs Hp]; subst.
      - apply Offset_none. intros k1 c1 Hi. apply in_app_iff in Hi. destruct Hi as [Hi|[Hi|[]]]; [eapply Hp; eauto|].
        injection Hi as <- <-. exact Hn.
      - rewrite <- app_assoc. cbn [app]. apply Offset_last; auto. intros k1 c1 Hi.
        apply in_app_iff in Hi. destruct Hi as [Hi|[Hi|[]]]; [eapply Hp; eauto|]. injection Hi as <- <-. exact Hn. }
    destruct (dget "freq_offset"%string c) as [fo|] eqn:E1.
    + destruct (dget "amp"%string c) as [a|] eqn:E2; [|discriminate]. destruct (Req_EM_T a 0) as [Z|Z]; injection H as <-.
      * apply Keep. intros o' Hs. inversion Hs; subst. congruence.
      * apply Offset_last; [econstructor; eauto|]. intros ? ? [].
    + injection H as <-. apply Keep. intros o' Hs. inversion Hs. congruence.
Qed.
Lemma carrier_par_spec : forall name ctrls v, carrier_par name ctrls = Ok v ->
  exists car, dget "carrier"%string ctrls = Some car /\ dget name car = Some v.
Proof.
  intros name ctrls v H. unfold carrier_par in H. destruct (dget "carrier"%string ctrls) as [c|]; [|discriminate].
  destruct (dget name c) eqn:E; [|discriminate]. injection H as <-. eauto.
Qed.
Lemma frame_dicts_spec : forall comps f0 c0 f1 c1, NoDup (keys comps) ->
  (forall k, In k (keys comps) -> ~ In k (keys f0) /\ ~ In k (keys c0)) ->
  frame_dicts comps (f0, c0) = Ok (f1, c1) ->
  exists fs cs, f1 = f0 ++ fs /\ c1 = c0 ++ cs /\ keys fs = keys comps /\ keys cs = keys comps
  /\ forall line ctrls, In (line, ctrls) comps -> exists car f fc o,
      dget "carrier"%string ctrls = Some car /\ dget "freq"%string car = Some f /\ dget "framechange"%string car = Some fc
      /\ Offset ctrls o /\ dget line fs = Some (f + o)%R /\ dget line cs = Some fc.
Proof.
  induction comps as [|[line ctrls] comps IH]; intros f0 c0 f1 c1 ND Hd H; cbn [frame_dicts] in H.
  - injection H as <- <-. exists [], []. rewrite !app_nil_r. repeat split; auto. intros ? ? [].
  - destruct (line_offset ctrls) as [o|] eqn:Eo; [|discriminate]. cbn [rbind] in H.
    destruct (carrier_par "freq" ctrls) as [f|] eqn:Ef; [|discriminate]. cbn [rbind] in H.
    destruct (carrier_par "framechange" ctrls) as [fc|] eqn:Ec; [|discriminate]. cbn [rbind fst snd] in H.
    inversion ND as [|? ? N1 N2]; subst. destruct (Hd line (or_introl eq_refl)) as [D1 D2].
    rewrite !dset_append in H by auto. apply IH in H; [|exact N2|].
    + destruct H as (fs & cs & -> & -> & K1 & K2 & P). exists ((line, (f + o)%R) :: fs), ((line, fc) :: cs).
      rewrite <- !app_assoc. cbn [app]. split; [reflexivity|]. split; [reflexivity|].
      split; [cbn; unfold keys in K1; rewrite K1; reflexivity|]. split; [cbn; unfold keys in K2; rewrite K2; reflexivity|].
      intros line' ctrls' [Hi|Hi].
      * injection Hi as <- <-. destruct (carrier_par_spec _ _ _ Ef) as (car & A1 & A2).
        destruct (carrier_par_spec _ _ _ Ec) as (car' & B1 & B2). assert (car' = car) by congruence. subst car'.
        exists car, f, fc, o. cbn [dget]. rewrite String.eqb_refl. repeat split; auto. apply line_offset_spec; auto.
      * destruct (P _ _ Hi) as (car & f' & fc' & o' & A1 & A2 & A3 & A4 & A5 & A6).
        exists car, f', fc', o'. cbn [dget].
        destruct (String.eqb_spec line' line) as [->|Nl]; [exfalso; apply N1; apply (in_map fst) in Hi; exact Hi|].
        repeat split; auto.
    + intros k Hk. destruct (Hd k (or_intror Hk)) as [E1 E2]. unfold keys. rewrite !map_app, !in_app_iff. cbn.
      split; intros [X|[X|[]]]; auto; subst k; contradiction.
Qed.
Lemma drive_phase_of : forall s T l cs fs comps ph, NoDup (keys comps) -> keys fs = keys comps ->
  (forall line ctrls, In (line, ctrls) comps -> exists car f fc o,
      dget "carrier"%string ctrls = Some car /\ dget "freq"%string car = Some f /\ dget "framechange"%string car = Some fc
      /\ Offset ctrls o /\ dget line fs = Some (f + o)%R /\ dget line cs = Some fc) ->
  frame_phase s T cs l fs ph -> drive_phase s T l comps ph.
Proof.
  intros s T l cs fs. induction fs as [|[line w] fs IH]; intros comps ph ND K P H.
  - destruct comps; [|discriminate]. inversion H. constructor.
  - destruct comps as [|[line' ctrls] comps]; [discriminate|]. cbn in K. injection K as <- K.
    inversion H as [|? ? fc k ? ph' Ha Hf Hr]; subst. inversion ND as [|? ? N1 N2]; subst.
    destruct (P line ctrls (or_introl eq_refl)) as (car & f & fc' & o & A1 & A2 & A3 & A4 & A5 & A6).
    cbn [dget] in A5. rewrite String.eqb_refl in A5. injection A5 as ->. assert (fc' = fc) by congruence. subst fc'.
    econstructor; eauto. apply IH; auto. intros line' ctrls' Hi.
    destruct (P line' ctrls' (or_intror Hi)) as (car' & f' & fc' & o' & B1 & B2 & B3 & B4 & B5 & B6).
    exists car', f', fc', o'. cbn [dget] in B5.
    destruct (String.eqb_spec line' line) as [->|Nl]; [exfalso; apply N1; apply (in_map fst) in Hi; exact Hi|].
    repeat split; auto.
Qed.

(** The state after [T] in the rotating frame: every entry of the density matrix is
    turned by the phase difference of its labels. *)
Lemma diag_row : forall dims FR A (ph : list nat -> R) l l',
  (forall l l', valid dims l -> valid dims l' -> FR (pos dims l) (pos dims l') = if list_eqb l l' then expi (ph l) else RtoC 0) ->
  valid dims l -> valid dims l' ->
  mmul (prod_dims dims) FR A (pos dims l) (pos dims l') = (expi (ph l) * A (pos dims l) (pos dims l'))%C.
Proof.
  intros dims FR A ph l l' H Hl Hl'. unfold mmul. rewrite (csum_single _ (pos dims l)); [|apply pos_lt; auto|].
  - rewrite H by auto. rewrite (proj2 (list_eqb_eq _ _)) by reflexivity. reflexivity.
  - intros x Hx E. destruct (pos_surj dims _ Hx) as (u & Hu & <-). rewrite H by auto.
    destruct (list_eqb l u) eqn:X; [apply list_eqb_eq in X; subst; contradiction|]. ring.
Qed.

(** The number of time slices is the duration times the resolution, rounded down. *)
Theorem C80_frame_rotation :
  forall prop s ins e p e' g,
  compute_propagators prop s ins e = (Ok p, e') -> In g (selected ins e) -> es_dephasing s = 0%R ->
  length (f_names (es_sys s)) = length (f_dims (es_sys s)) -> NoDup (f_names (es_sys s)) ->
  exists i steps r U, dget g ins = Some i /\ prop i (folding_stack steps) = Ok r /\ dget g p = Some U
  /\ (let T := (ei_t_end i - ei_t_start i)%R in
      let dims := f_dims (es_sys s) in let n := prod_dims dims in
      ((0 <= T * es_sim_res s)%R -> (INR steps <= T * es_sim_res s < INR steps + 1)%R)
      /\ (es_use_FR s = false -> U = pr_U r)
      /\ (es_use_FR s = true -> NoDup (keys (ei_comps i)) ->
          exists ph, (forall l, valid dims l -> drive_phase (es_sys s) T l (ei_comps i) (ph l))
          /\ (es_lind s = false -> forall l l', valid dims l -> valid dims l' ->
               U (pos dims l) (pos dims l') = (expi (ph l) * pr_U r (pos dims l) (pos dims l'))%C)
          /\ (es_lind s = true -> forall rho l l', valid dims l -> valid dims l' ->
               evolved n U rho (pos dims l) (pos dims l')
               = (expi (ph l - ph l') * evolved n (pr_U r) rho (pos dims l) (pos dims l'))%C))).
Proof.
  intros prop s ins e p e' g H Hg Hz Hn Nn. destruct (C80_selected_gates _ _ _ _ _ _ H) as (_ & _ & A & _).
  destruct (A g Hg) as (i & r & U1 & U & d & Ei & Er & Ef & Ed & _ & Ep & _ & _).
  rewrite deph_0 in Ed by exact Hz. injection Ed as ->.
  exists i, (floor_nat ((ei_t_end i - ei_t_start i) * es_sim_res s)), r, U.
  split; [exact Ei|]. split; [exact Er|]. split; [exact Ep|]. cbv zeta. split; [apply floor_nat_spec|].
  unfold frame_part in Ef. split; [intro F; rewrite F in Ef; congruence|]. intros F ND. rewrite F in Ef.
  destruct (frame_dicts (ei_comps i) ([], [])) as [[f1 c1]|] eqn:Efd; [|discriminate]. cbn [rbind fst snd] in Ef.
  destruct (get_frame_rotation (es_sys s) _ f1 c1) as [FR|] eqn:EF; [|discriminate]. cbn [rbind] in Ef.
  destruct (frame_dicts_spec (ei_comps i) [] [] _ _ ND ltac:(intros k _; cbn; tauto) Efd) as (fs & cs & E1 & E2 & K1 & K2 & P).
  cbn [app] in E1, E2. subst f1 c1. clear Efd. set (T := (ei_t_end i - ei_t_start i)%R) in *. set (dims := f_dims (es_sys s)) in *.
  assert (PH : exists ph, (forall l, frame_phase (es_sys s) T cs l fs (ph l))
     /\ forall l l', valid dims l -> valid dims l' -> FR (pos dims l) (pos dims l') = if list_eqb l l' then expi (ph l) else RtoC 0).
  { unfold get_frame_rotation in EF. destruct (frame_exponent (es_sys s) T cs fs None) as [ex|] eqn:EX; [|discriminate].
    destruct (frame_exponent_spec (es_sys s) T cs Hn _ _ _ EX) as (ph & P1 & _). exists ph. split; [exact P1|].
    intros l l' Hl Hl'.
    destruct (C33_frame_rotation_phases (es_sys s) T fs cs FR Hn) with (l := l) (l' := l') as (q & Q1 & Q2); auto.
    { unfold get_frame_rotation. rewrite EX. exact EF. }
    rewrite (frame_phase_det _ _ _ _ _ _ _ Nn (P1 l) Q1). exact Q2. }
  destruct PH as (ph & P1 & P2). exists ph. split; [intros l _; apply (drive_phase_of (es_sys s) T l cs fs (ei_comps i) (ph l) ND K1 P (P1 l))|]. split.
  - intro L. rewrite L in Ef. injection Ef as <-. intros l l' Hl Hl'. apply diag_row; auto.
  - intro L. rewrite L in Ef. injection Ef as <-. intros rho l l' Hl Hl'. set (n := prod_dims dims).
    rewrite (evolved_mmul n _ _ rho) by (apply pos_lt; auto). set (sigma := evolved n (pr_U r) rho).
    unfold evolved. rewrite (row_unstack_mor n _ _ (super_row_stack n FR sigma)) by (apply pos_lt; auto).
    rewrite row_unstack_stack by (apply pos_lt; auto). unfold mmul at 1.
    rewrite (csum_single _ (pos dims l')); [|apply pos_lt; auto|].
    + unfold n. rewrite diag_row with (ph := ph) by auto. unfold madj. rewrite P2 by auto.
      rewrite (proj2 (list_eqb_eq l' l')) by reflexivity. rewrite expi_conj.
      replace (ph l - ph l')%R with (ph l + - ph l')%R by ring. rewrite expi_add. ring.
    + intros x Hx E. destruct (pos_surj dims _ Hx) as (u & Hu & <-). unfold madj. rewrite P2 by auto.
      destruct (list_eqb l' u) eqn:X; [apply list_eqb_eq in X; subst; contradiction|].
      replace (Cconj (RtoC 0)) with (RtoC 0) by (unfold Cconj, RtoC; cbn; f_equal; ring). ring.
Qed.
Print Assumptions C80_frame_rotation.

(** A pulse with frequency offset 1 and non-zero amplitude on a carrier at 5, with frame
    change 2, lasting from 1 to 4: excited states pick up the phase (5+1)*3+2 = 20. *)
Definition offset_instr : einstr :=
  {| ei_t_start := 1; ei_t_end := 4;
     ei_comps := [("d", [("carrier", [("freq", 5%R); ("framechange", 2%R)]); ("gauss", [("freq_offset", 1%R); ("amp", 3%R)])])]%string |}.
Example C80_frame_example :
  let s := {| es_sys := es_sys demo_settings; es_lind := false; es_use_FR := true; es_dephasing := 0%R; es_sim_res := 2%R |} in
  exists p e' U, compute_propagators demo_prop s [("x"%string, offset_instr)] demo_state = (Ok p, e')
  /\ dget "x"%string p = Some U /\ U 1 1 = expi 20.
Proof.
  intro s.
  destruct (compute_propagators demo_prop s [("x"%string, offset_instr)] demo_state) as [[p|x] e'] eqn:E.
  - destruct (C80_frame_rotation demo_prop s [("x"%string, offset_instr)] demo_state p e' "x"%string E
       (or_introl eq_refl) eq_refl eq_refl ltac:(repeat constructor; intros [])) as (i & st & r & U & Ei & Er & Ep & _ & _ & F).
    injection Ei as <-. injection Er as <-. destruct (F eq_refl ltac:(repeat constructor; intros [])) as (ph & P1 & P2 & _).
    exists p, e', U. split; [reflexivity|]. split; [exact Ep|].
    assert (V : valid (f_dims (es_sys s)) [1]) by (repeat constructor).
    pose proof (P2 eq_refl [1] [1] V V) as X. cbn in X. rewrite X. specialize (P1 [1] V).
    assert (Y : ph [1] = 20%R).
    { inversion P1 as [|? ? ? k car f fc o ph0 Ha H1 H2 H3 H4 H5]; subst. inversion H5; subst. clear H5.
      cbn in H1. injection H1 as <-. cbn in H2, H3. injection H2 as <-. injection H3 as <-.
      assert (k = 0). { inversion Ha as [? q conn ? C1 C2|? ? C1 C2]; subst; cbn in C1; [|discriminate].
        injection C1 as <- <-. destruct k as [|[|k]]; cbn in C2; [reflexivity|discriminate|discriminate]. }
      subst k. assert (o = 1%R).
      { inversion H4 as [? Hp|pre k c post ? Hs Hp Eq]; subst.
        - exfalso. apply (Hp "gauss"%string [("freq_offset", 1%R); ("amp", 3%R)]%string) with (o := 1%R); [right; left; reflexivity|].
          econstructor; [reflexivity|reflexivity|lra].
        - destruct pre as [|? [|? pre]]; cbn in Eq; injection Eq as; subst.
          + inversion Hs as [? ? ? A1]. discriminate A1.
          + inversion Hs as [? ? ? A1]; subst. cbn in A1. congruence.
          + destruct pre; discriminate. }
      subst o. cbn. lra. }
    rewrite Y. unfold mid. cbn. ring.
  - exfalso. unfold compute_propagators, demo_state in E. cbn -[Req_EM_T] in E. unfold one_gate in E. cbn -[Req_EM_T] in E.
    unfold frame_part in E. cbn -[Req_EM_T] in E. destruct (Req_EM_T 3 0); [lra|]. cbn -[Req_EM_T] in E.
    rewrite deph_0 in E by reflexivity. discriminate E.
Qed.

(** ** C75: initial state vectors *)

(** A supplied state vector is taken exactly when it has one amplitude for every level
    combination and its norm is 1 up to rounding at the twelfth digit; it is then used
    unchanged, as a column. *)
Theorem C75_statevector :
  forall n_qubits levels psi v, validate_initial_statevector n_qubits levels psi = Ok v ->
  length psi = levels ^ n_qubits
  /\ (Rabs (sqrt (fold_right Rplus 0 (map (fun z => Cmod z ^ 2) psi)) - 1) <= / (2 * 10 ^ 12))%R
  /\ rows v = levels ^ n_qubits /\ cols v = 1 /\ forall i z, nth_error psi i = Some z -> ent v i 0 = z.
Proof.
  intros q lv psi v H. unfold validate_initial_statevector in H.
  destruct (Nat.eqb_spec (length psi) (lv ^ q)) as [L|]; [|discriminate]. cbn [negb] in H.
  set (x := sqrt _) in H. destruct (Req_EM_T (IZR (np_round (x * 10 ^ 12))) (10 ^ 12)) as [E|]; [|discriminate]. injection H as <-.
  split; [exact L|]. split.
  - fold x. pose proof (np_round_near (x * 10 ^ 12)) as N. rewrite E in N.
    assert (P : (0 < 10 ^ 12)%R) by (apply pow_lt; lra). set (M := (10 ^ 12)%R) in *.
    replace (M - x * M)%R with (- (M * (x - 1)))%R in N by ring. rewrite Rabs_Ropp, Rabs_mult, (Rabs_pos_eq M) in N by lra.
    apply Rmult_le_reg_l with M; [exact P|]. replace (M * / (2 * M))%R with (1 / 2)%R by (field; lra). exact N.
  - cbn [rows cols ent]. split; [exact L|]. split; [reflexivity|]. intros i z Hz. apply nth_error_nth. exact Hz.
Qed.
Print Assumptions C75_statevector.
(** Every vector of the right length and norm exactly 1 is taken; a wrong length or a
    norm off by more than half a unit of the twelfth digit is refused. *)
Theorem C75_statevector_complete :
  forall n_qubits levels psi,
  (length psi = levels ^ n_qubits -> (fold_right Rplus 0 (map (fun z => Cmod z ^ 2) psi) = 1)%R ->
     exists v, validate_initial_statevector n_qubits levels psi = Ok v)
  /\ (length psi <> levels ^ n_qubits
      \/ (/ (2 * 10 ^ 12) < Rabs (sqrt (fold_right Rplus 0 (map (fun z => Cmod z ^ 2) psi)) - 1))%R ->
      validate_initial_statevector n_qubits levels psi = Err C3Error).
Proof.
  intros q lv psi. split.
  - intros L N. unfold validate_initial_statevector. rewrite L, Nat.eqb_refl. cbn [negb]. rewrite N, sqrt_1, Rmult_1_l.
    assert (P10 : (10 ^ 12)%R = IZR (10 ^ 12)) by (rewrite (pow_IZR 10 12); reflexivity). rewrite P10.
    assert (E : np_round (IZR (10 ^ 12)) = (10 ^ 12)%Z).
    { unfold np_round. assert (I : Int_part (IZR (10 ^ 12) + 1 / 2) = (10 ^ 12)%Z) by
        (destruct (base_Int_part (IZR (10 ^ 12) + 1 / 2)); apply Z.le_antisymm; apply Z.lt_succ_r; apply lt_IZR; rewrite succ_IZR; lra).
      rewrite I. destruct (Req_EM_T (IZR (10 ^ 12) + 1 / 2) (IZR (10 ^ 12))); [lra|reflexivity]. }
    rewrite E. destruct (Req_EM_T (IZR (10 ^ 12)) (IZR (10 ^ 12))); [eauto|contradiction].
  - intro B. destruct (validate_initial_statevector q lv psi) as [v|x] eqn:E.
    + exfalso. destruct (C75_statevector _ _ _ _ E) as (A1 & A2 & _). destruct B as [B|B]; [contradiction|lra].
    + unfold validate_initial_statevector in E.
      destruct (negb _); [congruence|]. destruct (Req_EM_T _ _); congruence.
Qed.
Print Assumptions C75_statevector_complete.
Example C75_statevector_example : exists v, validate_initial_statevector 1 2 [(3 / 5, 0); (0, 4 / 5)]%R = Ok v /\ ent v 1 0 = (0, 4 / 5)%R.
Proof.
  destruct (C75_statevector_complete 1 2 [(3 / 5, 0); (0, 4 / 5)]%R) as [A _].
  destruct A as (v & Hv); [reflexivity| |].
  - cbn [map fold_right]. unfold Cmod. rewrite !pow2_sqrt by (cbn; nra). cbn. field.
  - exists v. split; [exact Hv|]. destruct (C75_statevector _ _ _ _ Hv) as (_ & _ & _ & _ & E). apply (E 1). reflexivity.
Qed.
