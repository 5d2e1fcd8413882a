(** C146: the operators a model hands to the propagation follow its settings. *)
From Coq Require Import Reals Lia.
From Coquelicot Require Import Complex.
From Verif Require Import Base Mat HilbertModel PropModel ExpModel FrameModel FrameProps SettingsModel.
Local Open Scope list_scope.
Local Open Scope nat_scope.

(** ** Specification *)

(** The calls that recompute the model, the settings they leave and the order of the dressed states. *)
Definition updates {P} (c : @mcall P) : Prop := match c with SetParameters _ => False | _ => True end.
Definition dressed_after {P} (c : @mcall P) (b : bool) : bool := match c with SetDressed b' => b' | _ => b end.
Definition open_after {P} (c : @mcall P) (b : bool) : bool := match c with SetLindbladian b' => b' | _ => b end.
Definition ordered_by {P} (c : @mcall P) : bool := match c with UpdateModel o => o | _ => true end.

Section Proofs.
  Context {P : Type}.
  Variable n : nat.
  Variable dims : list nat.
  Variable hams ctrls : P -> dict mat.
  Variable collapse : P -> list (result (option mat)).
  Variable eigh : mat -> (nat -> R) * mat.
  Notation step := (mstep n hams ctrls collapse eigh).
  (** The model with parameters [p], as the propagation should read it: bare, or in the frame in
      which its own drift Hamiltonian is diagonal (C78, C81). *)
  Definition intended (p : P) (dressed lind ordered : bool) (cols : list mat) : pmodel :=
    model_view n dims lind (if dressed then Some (frame_of n eigh (drift_of (hams p)) ordered) else None)
               {| o_hams := hams p; o_controls := ctrls p; o_cols := cols |}.

  Lemma collect_ok : forall l xs, collect l = Ok xs <-> l = map Ok xs.
  Proof.
    induction l as [|r l IH]; intros xs; cbn.
    - split; [intro H; injection H as <-; reflexivity|destruct xs; [reflexivity|discriminate]].
    - destruct r as [x|e]; cbn.
      + destruct (collect l) as [ys|e]; cbn.
        * split; [intro H; injection H as <-; cbn; f_equal; apply IH; reflexivity|].
          destruct xs as [|y zs]; [discriminate|]. intro H. injection H as -> H. apply IH in H. injection H as ->. reflexivity.
        * split; [discriminate|]. destruct xs as [|y zs]; [discriminate|]. intro H. injection H as -> H. apply IH in H. discriminate.
      + split; [discriminate|]. destruct xs; discriminate.
  Qed.
  Lemma collect_fails : forall l e, In (Err e) l -> exists e', collect l = Err e'.
  Proof.
    induction l as [|r l IH]; intros e []; cbn.
    - subst r. cbn. eauto.
    - destruct r as [x|e1]; cbn; [|eauto]. destruct (IH e H) as (e' & ->). cbn. eauto.
  Qed.
  Lemma dress_ok : forall T l cs, dress_cols n T l = Ok cs <-> exists ds, l = map Some ds /\ cs = map (conjugated n T) ds.
  Proof.
    intro T. induction l as [|[c|] l IH]; intros cs; cbn.
    - split; [intro H; injection H as <-; exists []; split; reflexivity|]. intros ([|d ds] & E & ->); [reflexivity|discriminate].
    - destruct (dress_cols n T l) as [ys|e]; cbn.
      + split.
        * intro H. injection H as <-. destruct (proj1 (IH ys) eq_refl) as (ds & -> & ->). exists (c :: ds). split; reflexivity.
        * intros ([|d ds] & E & ->); [discriminate|]. injection E as -> E.
          assert (Q : Ok ys = Ok (map (conjugated n T) ds)) by (apply IH; exists ds; auto). injection Q as ->. reflexivity.
      + split; [discriminate|]. intros ([|d ds] & E & ->); [discriminate|]. injection E as -> E.
        assert (Q : @Err (list mat) e = Ok (map (conjugated n T) ds)) by (apply IH; exists ds; auto). discriminate.
    - split; [discriminate|]. intros ([|d ds] & E & ->); discriminate.
  Qed.
  Lemma updated : forall s c, updates c ->
    step s c = update_model n hams ctrls collapse eigh (with_lind (with_dressed s (dressed_after c (ms_dressed s))) (open_after c (ms_lind s))) (ordered_by c).
  Proof. intros s [b|b|o|p] []; cbn; unfold set_dressed, set_lindbladian; destruct s; reflexivity. Qed.

  (** ** C146: after every call that recomputes the model and returns, whatever happened before
      (calls that raised included), the parameters are untouched, the settings are those asked
      for, and the propagation reads the intended model: drift, controls and collapse operators
      of the current parameters, all in the same frame. *)
Theorem C146_follows : forall s c s', updates c -> step s c = (s', None) ->
    ms_par s' = ms_par s /\ ms_dressed s' = dressed_after c (ms_dressed s) /\ ms_lind s' = open_after c (ms_lind s)
    /\ (forall cols, let v := intended (ms_par s') (ms_dressed s') (ms_lind s') (ordered_by c) cols in
        get_hamiltonians s' = (Some (p_h0 v), p_hctrls v)
        /\ (ms_lind s' = true -> collapse (ms_par s') = map (fun x => Ok (Some x)) cols ->
            get_lindbladians s' = Ok (map Some (p_cols v)))).
  Proof using Type.
    intros s c s' U E. rewrite (updated s c U) in E.
    set (d := dressed_after c (ms_dressed s)) in *. set (l := open_after c (ms_lind s)) in *. set (o := ordered_by c) in *. clearbody d l o.
    unfold update_model, update_hamiltonians, with_lind, with_dressed in E. cbn [ms_lind ms_par ms_dressed] in E.
    unfold update_lindbladians, update_dressed in E.
    destruct l; cbn [ms_lind ms_par ms_dressed ms_drift ms_cols ms_hams ms_ctrls] in E.
    - destruct (collect (collapse (ms_par s))) as [xs|e] eqn:C; [|discriminate].
      apply collect_ok in C. destruct d; cbn [ms_lind ms_par ms_dressed ms_drift ms_cols ms_hams ms_ctrls] in E.
      + destruct (dress_cols n _ xs) as [cs|e] eqn:D; [|discriminate]. injection E as <-.
        apply dress_ok in D. destruct D as (ds & -> & ->).
        repeat split; cbn. intros _ Ec. rewrite C in Ec. rewrite map_map in Ec.
        assert (Q : ds = cols).
        { clear - Ec. revert cols Ec. induction ds as [|x ds IH]; intros [|y ys] E; cbn in E; try discriminate; [reflexivity|].
          injection E as -> E. f_equal. apply IH, E. }
        subst ds. reflexivity.
      + injection E as <-. repeat split; cbn. intros _ Ec. rewrite C in Ec. f_equal.
        clear - Ec. revert cols Ec. induction xs as [|x ds IH]; intros [|y ys] E; cbn in E; try discriminate; [reflexivity|].
        injection E as -> E. cbn. f_equal. apply IH, E.
    - destruct d; cbn [ms_lind ms_par ms_dressed ms_drift ms_cols ms_hams ms_ctrls] in E; injection E as <-; repeat split; cbn; discriminate.
  Qed.

  (** When the calls return: always without the master equation, whatever is known about
      relaxation; with it, when every subsystem has its operator. *)
Theorem C146_closed : forall s c, updates c -> open_after c (ms_lind s) = false -> snd (step s c) = None.
  Proof using Type.
    intros s c U L. rewrite (updated s c U), L. unfold update_model, update_hamiltonians, with_lind, with_dressed. cbn.
    destruct (dressed_after c (ms_dressed s)); reflexivity.
  Qed.
Theorem C146_open : forall s c, updates c -> open_after c (ms_lind s) = true ->
    (snd (step s c) = None <->
     exists ops, collapse (ms_par s) = map Ok ops /\ (dressed_after c (ms_dressed s) = true -> ~ In None ops)).
  Proof using Type.
    intros s c U L. rewrite (updated s c U), L. unfold update_model, update_hamiltonians, with_lind, with_dressed, update_lindbladians, update_dressed. cbn.
    destruct (collect (collapse (ms_par s))) as [xs|e] eqn:C.
    - pose proof (proj1 (collect_ok _ _) C) as C'. destruct (dressed_after c (ms_dressed s)); cbn.
      + destruct (dress_cols n _ xs) as [cs|e] eqn:D; cbn.
        * split; [intros _|reflexivity]. exists xs. split; [exact C'|]. intros _ I. apply dress_ok in D. destruct D as (ds & -> & _).
          apply in_map_iff in I. destruct I as (x & H & _). discriminate.
        * split; [discriminate|]. intros (ops & E & N). rewrite C' in E.
          assert (Q : xs = ops). { clear - E. revert ops E. induction xs as [|x ds IH]; intros [|y ys] E; cbn in E; try discriminate; [reflexivity|]. injection E as -> E. f_equal. apply IH, E. }
          subst ops. exfalso. specialize (N eq_refl).
          assert (S : exists ds, xs = map Some ds).
          { clear - N. induction xs as [|[x|] xs IH]; [exists []; reflexivity| |destruct N; left; reflexivity].
            destruct IH as (ds & ->); [intro I; apply N; right; exact I|]. exists (x :: ds). reflexivity. }
          destruct S as (ds & ->). rewrite (proj2 (dress_ok _ _ _) (ex_intro _ ds (conj eq_refl eq_refl))) in D. discriminate.
      + split; [intros _|reflexivity]. exists xs. split; [exact C'|discriminate].
    - cbn. split; [discriminate|]. intros (ops & E & _). apply collect_ok in E. rewrite E in C. discriminate.
  Qed.

  (** A new model returns, closed and in the dressed frame, and reads as intended. *)
Theorem C146_constructed : forall p, exists s, construct n hams ctrls collapse eigh p = (s, None)
    /\ ms_par s = p /\ ms_dressed s = true /\ ms_lind s = false
    /\ (let v := intended p true false true [] in get_hamiltonians s = (Some (p_h0 v), p_hctrls v)).
  Proof using Type. intro p. eexists. split; [reflexivity|]. repeat split. Qed.

  (** The frame the dressed operators are in: without sorting, the columns are the eigenvectors in the
    order of eigh; with sorting, column [i] consists mainly of the bare state [i].  In both the drift is diagonal. *)
Theorem C146_frame : forall drift e v, 0 < n -> eigh drift = (e, v) -> eigenbasis n drift e v ->
  frame_of n eigh drift false = v /\ meq n n (conjugated n v drift) (rdiag e)
  /\ ((forall j, j < n -> exists i, i < n /\ (1 / 2 < Cmod (v i j) ^ 2)%R /\ fst (v i j) <> 0%R) ->
      let T := frame_of n eigh drift true in
      unitary n T /\ (exists f, meq n n (conjugated n T drift) (rdiag f))
      /\ forall i, i < n -> (1 / 2 < Cmod (T i i) ^ 2)%R /\ (0 < fst (T i i))%R).
Proof.
  intros drift e v Hn E EB. unfold frame_of. rewrite E. split; [reflexivity|]. split.
  - exact (proj2 (proj2 (C78_unordered n drift e v _ _ _ EB eq_refl))).
  - intros D. destruct (reorder_frame n e v true) as [[r f] T] eqn:Er.
    destruct (C78_transform n drift e v r f T Hn EB D Er) as (U & X & B). cbn. split; [exact U|]. split; [exists f; exact X|exact B].
Qed.
Print Assumptions C146_frame.

(** The history does not matter: two models with the same parameters and settings, however
      they got there, read the same after a recomputation. *)
Theorem C146_history : forall s1 s2 c1 c2 s1' s2', updates c1 -> updates c2 -> ordered_by c1 = ordered_by c2 ->
    step s1 c1 = (s1', None) -> step s2 c2 = (s2', None) ->
    ms_par s1' = ms_par s2' -> ms_dressed s1' = ms_dressed s2' -> ms_lind s1' = ms_lind s2' ->
    get_hamiltonians s1' = get_hamiltonians s2' /\ (ms_lind s1' = true -> get_lindbladians s1' = get_lindbladians s2').
  Proof using dims.
    intros s1 s2 c1 c2 s1' s2' U1 U2 O E1 E2 Hp Hd Hl.
    destruct (C146_follows _ _ _ U1 E1) as (P1 & D1 & L1 & V1). destruct (C146_follows _ _ _ U2 E2) as (P2 & D2 & L2 & V2).
    split; [rewrite (proj1 (V1 [])), (proj1 (V2 [])), Hp, Hd, Hl, O; reflexivity|]. intro L.
    rewrite (updated _ _ U1) in E1. rewrite (updated _ _ U2) in E2.
    assert (O1 : open_after c1 (ms_lind s1) = true) by congruence. assert (O2 : open_after c2 (ms_lind s2) = true) by congruence.
    rewrite O1 in E1. rewrite O2 in E2.
    rewrite <- D1 in E1. rewrite <- D2 in E2. rewrite O in E1. clear V1 V2 D1 D2.
    unfold update_model, update_hamiltonians, with_lind, with_dressed, update_lindbladians, update_dressed in E1, E2. cbn in E1, E2.
    rewrite <- P1 in E1. rewrite <- P2 in E2. rewrite <- Hp in E2. rewrite <- Hd in E2.
    destruct (collect (collapse (ms_par s1'))) as [xs|e]; [|discriminate].
    destruct (ms_dressed s1') eqn:Ed; cbn in E1, E2.
    - destruct (dress_cols n _ xs) as [cs|e]; [|discriminate]. injection E1 as <-. injection E2 as <-. reflexivity.
    - injection E1 as <-. injection E2 as <-. reflexivity.
  Qed.

  (** A changed parameter shows only after a recomputation. *)
Theorem C146_before_update : forall s p,
    ms_par (fst (step s (SetParameters p))) = p
    /\ get_hamiltonians (fst (step s (SetParameters p))) = get_hamiltonians s
    /\ get_lindbladians (fst (step s (SetParameters p))) = get_lindbladians s.
  Proof using Type. intros s p. repeat split. Qed.

  (** Finding: a [set_lindbladian(True)] that raises because a subsystem has neither T1 nor T2*
      leaves the master equation switched on. Until it is switched off again, every [set_dressed]
      and [update_model], so every change of a model parameter through the parameter map, raises as
      well; the bare Hamiltonians follow the parameters, the dressed ones do not. *)
Theorem C146_failed_switch_refuted : forall s e, In (Err e) (collapse (ms_par s)) ->
    exists s' e', step s (SetLindbladian true) = (s', Some e') /\ ms_lind s' = true
    /\ ms_drift s' = Some (drift_of (hams (ms_par s))) /\ ms_d_drift s' = ms_d_drift s
    /\ forall c, updates c -> c <> SetLindbladian false -> snd (step s' c) <> None.
  Proof using dims.
    intros s e I. destruct (collect_fails _ _ I) as (e' & C).
    assert (K : forall s0, ms_par s0 = ms_par s -> ms_lind s0 = true -> forall c, updates c -> c <> SetLindbladian false -> snd (step s0 c) <> None).
    { intros s0 Hp Hl c U N Q. assert (O : open_after c (ms_lind s0) = true) by (destruct c as [b|[]|o|p]; cbn; auto; congruence).
      apply (C146_open s0 c U O) in Q. destruct Q as (ops & E & _). rewrite Hp in E. apply collect_ok in E. rewrite E in C. discriminate. }
    cbn [mstep]. unfold set_lindbladian, update_model, update_hamiltonians, with_lind, update_lindbladians. cbn. rewrite C.
    eexists. exists e'. split; [reflexivity|]. split; [reflexivity|]. split; [reflexivity|]. split; [reflexivity|].
    apply K; reflexivity.
  Qed.

  (** Finding: a resonator has no collapse operator. In the bare frame [set_lindbladian(True)]
      returns all the same, and [get_Lindbladians] hands None to the propagation. *)
Theorem C146_resonator_refuted : forall s ops, ms_dressed s = false -> collapse (ms_par s) = map Ok ops -> In None ops ->
    exists s', step s (SetLindbladian true) = (s', None) /\ get_lindbladians s' = Ok ops.
  Proof using Type.
    intros s ops D C _. cbn [mstep]. unfold set_lindbladian, update_model, update_hamiltonians, with_lind, update_lindbladians. cbn.
    rewrite (proj2 (collect_ok _ _) C). cbn. rewrite D. eexists. split; [reflexivity|]. unfold get_lindbladians. cbn. reflexivity.
  Qed.

  (** Finding: with the master equation switched off nothing recomputes the collapse operators:
      [get_Lindbladians] goes on returning those of the parameters at which it was last on. *)
Theorem C146_switched_off_refuted : forall s p o, ms_lind s = false ->
    get_lindbladians (mrun n hams ctrls collapse eigh s [SetParameters p; UpdateModel o]) = get_lindbladians s.
  Proof using Type.
    intros [p0 d l h dr c co t dh dd dc dco] p o L. cbn in L. subst l. destruct d; reflexivity.
  Qed.
End Proofs.
Print Assumptions C146_follows.
Print Assumptions C146_closed.
Print Assumptions C146_open.
Print Assumptions C146_constructed.
Print Assumptions C146_history.
Print Assumptions C146_before_update.
Print Assumptions C146_failed_switch_refuted.
Print Assumptions C146_resonator_refuted.
Print Assumptions C146_switched_off_refuted.

(** A qubit whose frequency is the parameter: the switch to the master equation in the dressed
    frame, the change of the frequency, and a qubit without relaxation times. *)
Definition level (x : R) : mat := fun i j => if andb (Nat.eqb i 1) (Nat.eqb j 1) then RtoC x else RtoC 0.
Definition down : mat := fun i j => if andb (Nat.eqb i 0) (Nat.eqb j 1) then RtoC 1 else RtoC 0.
Definition flip : mat := fun i j => if Nat.eqb i j then RtoC 0 else RtoC 1.
Definition qubit_step (c : list (result (option mat))) :=
  mstep 2 (fun x : R => [("q"%string, level x)]) (fun _ => [("d"%string, flip)]) (fun _ => c) (fun h => (fun i => fst (h i i), mid)).
Example C146_example :
  (exists s', qubit_step [Ok (Some down)] (blank 5%R) (SetLindbladian true) = (s', None) /\ ms_dressed s' = true
     /\ exists s'', qubit_step [Ok (Some down)] (with_par s' 6%R) (UpdateModel true) = (s'', None) /\ ms_lind s'' = true)
  /\ (exists s', qubit_step [Err C3Error] (blank 5%R) (SetLindbladian true) = (s', Some C3Error))
  /\ (exists s', qubit_step [Ok None] (with_dressed (blank 5%R) false) (SetLindbladian true) = (s', None)
     /\ get_lindbladians s' = Ok [None]).
Proof.
  split; [|split].
  - eexists. split; [reflexivity|]. split; [reflexivity|]. eexists. split; reflexivity.
  - eexists. reflexivity.
  - eexists. split; reflexivity.
Qed.
