(** Component timing (C61) and automatic gate length (C62). *)
From Coq Require Import Reals Lra Lia Ascii.
From Verif Require Import Base QuantityModel TimingModel.
Local Open Scope list_scope.
Local Open Scope nat_scope.
Local Notation length := List.length.

(** ** Specification *)
(** When a component that starts at [s] ends: after its cut length if it has one,
    else after its own length if it is an envelope, else with the instruction
    ([full] = false) or at once ([full] = true: shortest possible). *)
Definition ends (i : instruction) (c : component) (minimal : bool) (s e : R) : Prop :=
  (forall l, c_cut c = Some l -> e = (s + l)%R) /\
  (forall tf, c_cut c = None -> c_env c = Some tf -> e = (s + tf)%R) /\
  (c_cut c = None -> c_env c = None -> e = if minimal then s else i_end i).
Definition has_delay (c : component) (d : R) : Prop :=
  match c_delay c with Some x => d = x | None => d = 0%R end.
(** Component [name] on [chan] runs from [s] to [e]. *)
Inductive timed (i : instruction) : bool -> string -> string -> R -> R -> Prop :=
| timed_now : forall m chan name c d s e,
    find_comp i chan name = Some c -> c_trigger c = None -> has_delay c d ->
    s = (i_start i + d)%R -> ends i c m s e -> timed i m chan name s e
| timed_after : forall m chan name c d tc tn s' e' s e,
    find_comp i chan name = Some c -> c_trigger c = Some (tc, tn) -> has_delay c d ->
    timed i false tc tn s' e' ->
    s = (i_start i + d + e')%R -> ends i c m s e -> timed i m chan name s e.

Definition present (i : instruction) (chan name : string) : Prop := find_comp i chan name <> None.
Definition sized (c : component) : Prop := c_cut c <> None \/ c_env c <> None.
(** Well-formed instruction: a dictionary has no repeated channel, the keys under
    which timings are remembered tell components apart, and triggers exist. *)
Record wf (i : instruction) : Prop := {
  wf_chans : NoDup (keys (i_comps i));
  wf_keys : forall c1 n1 c2 n2, present i c1 n1 -> present i c2 n2 ->
            tkey c1 n1 = tkey c2 n2 -> c1 = c2 /\ n1 = n2;
  wf_triggers : forall chan name c tc tn, find_comp i chan name = Some c ->
            c_trigger c = Some (tc, tn) -> present i tc tn }.
(** [rank] decreases along triggers: no cyclic triggering. *)
Definition acyclic (i : instruction) (rank : string -> string -> nat) : Prop :=
  forall chan name c tc tn, find_comp i chan name = Some c -> c_trigger c = Some (tc, tn) ->
  rank tc tn < rank chan name.
Definition triggers_sized (i : instruction) : Prop :=
  forall chan name c tc tn c', find_comp i chan name = Some c -> c_trigger c = Some (tc, tn) ->
  find_comp i tc tn = Some c' -> sized c'.

(** ** Lemmas *)
Lemma ends_end_of : forall i c m s, ends i c m s (end_of i c m s).
Proof.
  intros i c m s. unfold ends, end_of. destruct (c_cut c) as [l|]; [|destruct (c_env c) as [tf|]]; repeat split; intros; try congruence.
Qed.
Lemma ends_unique : forall i c m s e e', ends i c m s e -> ends i c m s e' -> e = e'.
Proof.
  intros i c m s e e' (A & B & D) (A' & B' & D'). destruct (c_cut c) as [l|] eqn:E1.
  - rewrite (A l eq_refl), (A' l eq_refl). reflexivity.
  - destruct (c_env c) as [tf|] eqn:E2; [rewrite (B tf), (B' tf) by reflexivity; reflexivity|rewrite D, D' by reflexivity; reflexivity].
Qed.
Lemma ends_sized : forall i c m m' s e, sized c -> ends i c m s e -> ends i c m' s e.
Proof.
  intros i c m m' s e S (A & B & D). split; [exact A|]. split; [exact B|]. intros E1 E2. destruct S as [S|S]; contradiction.
Qed.
Lemma has_delay_of : forall c, has_delay c (delay_of c).
Proof. intro c. unfold has_delay, delay_of. destruct (c_delay c); reflexivity. Qed.
Lemma has_delay_unique : forall c d d', has_delay c d -> has_delay c d' -> d = d'.
Proof. intros c d d'. unfold has_delay. destruct (c_delay c); congruence. Qed.
Lemma timed_sized : forall i m m' chan name c s e, find_comp i chan name = Some c -> sized c ->
  timed i m chan name s e -> timed i m' chan name s e.
Proof.
  intros i m m' chan name c s e F S T. inversion T; subst.
  - match goal with H : find_comp _ _ _ = Some ?c' |- _ => assert (c' = c) by congruence; subst c' end.
    eapply timed_now; eauto. eapply ends_sized; eassumption.
  - match goal with H : find_comp i chan name = Some ?c' |- _ => assert (c' = c) by congruence; subst c' end.
    eapply timed_after; eauto. eapply ends_sized; eassumption.
Qed.
Lemma timed_unique : forall i m chan name s e, timed i m chan name s e ->
  forall s' e', timed i m chan name s' e' -> s = s' /\ e = e'.
Proof.
  intros i m chan name s e T. induction T as [m chan name c d s e F Tr D Es En|m chan name c d tc tn s0 e0 s e F Tr D T IH Es En]; intros s' e' T'; inversion T'; subst; try congruence.
  - assert (c0 = c) by congruence. subst c0. assert (d0 = d) by (eapply has_delay_unique; eassumption). subst d0. split; [reflexivity|]. eapply ends_unique; eassumption.
  - match goal with H : find_comp i chan name = Some ?x |- _ => assert (x = c) by congruence; subst x end.
    match goal with H : c_trigger c = Some (?a, ?b) |- _ => assert (a = tc) by congruence; assert (b = tn) by congruence; subst a b end.
    match goal with H : timed i false tc tn ?a ?b |- _ => destruct (IH _ _ H) as [<- <-] end.
    match goal with H : has_delay c ?x |- _ => assert (x = d) by (eapply has_delay_unique; eassumption); subst x end.
    split; [reflexivity|]. eapply ends_unique; eassumption.
Qed.

(** Timings remembered so far are right (relative to the flag in force). *)
Definition consistent (i : instruction) (M : bool) (tm : timings) : Prop :=
  forall chan name se, present i chan name -> dget (tkey chan name) tm = Some se -> timed i M chan name (fst se) (snd se).
Lemma consistent_nil : forall i M, consistent i M [].
Proof. intros i M chan name se _ H. discriminate. Qed.

Lemma get_timings_sound : forall fuel i M tm chan name m se tm', wf i -> (M = true -> triggers_sized i) ->
  consistent i M tm -> present i chan name ->
  (m = M \/ exists c, find_comp i chan name = Some c /\ sized c) ->
  get_timings fuel i tm chan name m = Ok (se, tm') ->
  timed i M chan name (fst se) (snd se) /\ consistent i M tm'.
Proof.
  induction fuel as [|fuel IH]; intros i M tm chan name m se tm' W TS K P Hm H; [discriminate|].
  cbn [get_timings] in H. destruct (dget (tkey chan name) tm) as [se0|] eqn:G.
  - injection H as <- <-. split; [apply K; assumption|exact K].
  - destruct (find_comp i chan name) as [c|] eqn:F; [|discriminate].
    set (t0 := (i_start i + delay_of c)%R) in *.
    assert (Sz : m = M \/ sized c). { destruct Hm as [Hm|(c' & Hc & Hs)]; [left; exact Hm|right; congruence]. }
    assert (Fin : forall ts tm1, timed i M chan name ts (end_of i c m ts) -> consistent i M tm1 ->
      let se1 := (ts, end_of i c m ts) in
      timed i M chan name (fst se1) (snd se1) /\ consistent i M (dset (tkey chan name) se1 tm1)).
    { intros ts tm1 T K1 se1. split; [exact T|]. intros c2 n2 se2 P2 G2.
      destruct (string_dec (tkey c2 n2) (tkey chan name)) as [E|E].
      - destruct (wf_keys i W c2 n2 chan name P2 P E) as [-> ->]. rewrite dget_dset_same in G2. injection G2 as <-. exact T.
      - rewrite dget_dset_other in G2 by exact E. apply K1; assumption. }
    assert (En : forall ts, ends i c M ts (end_of i c m ts)).
    { intro ts. destruct Sz as [->|Sz]; [apply ends_end_of|]. eapply ends_sized; [exact Sz|apply ends_end_of]. }
    destruct (c_trigger c) as [[tc tn]|] eqn:Tr; cbn [rbind] in H.
    + destruct (get_timings fuel i tm tc tn false) as [[se1 tm1]|] eqn:Gt; [|discriminate]. cbn [rbind] in H.
      assert (P1 : present i tc tn) by (eapply wf_triggers; eassumption).
      assert (Hm1 : false = M \/ exists c', find_comp i tc tn = Some c' /\ sized c').
      { destruct M; [right|left; reflexivity]. unfold present in P1. destruct (find_comp i tc tn) as [c'|] eqn:F1; [|contradiction]. exists c'. split; [reflexivity|]. exact (TS eq_refl chan name c tc tn c' F Tr F1). }
      destruct (IH i M tm tc tn false se1 tm1 W TS K P1 Hm1 Gt) as (T1 & K1).
      injection H as <- <-. apply Fin; [|exact K1]. eapply timed_after; [exact F|exact Tr|apply has_delay_of| |reflexivity|apply En].
      destruct Hm1 as [<-|(c' & F1 & S1)]; [exact T1|]. eapply timed_sized; eassumption.
    + injection H as <- <-. apply Fin; [|exact K]. eapply timed_now; [exact F|exact Tr|apply has_delay_of|reflexivity|apply En].
Qed.
Lemma get_timings_total : forall fuel i rank tm chan name m, wf i -> acyclic i rank ->
  present i chan name -> rank chan name < fuel -> exists se tm', get_timings fuel i tm chan name m = Ok (se, tm').
Proof.
  induction fuel as [|fuel IH]; intros i rank tm chan name m W A P L; [lia|]. cbn [get_timings].
  destruct (dget (tkey chan name) tm) as [se0|]; [exists se0, tm; reflexivity|].
  unfold present in P. destruct (find_comp i chan name) as [c|] eqn:F; [|contradiction].
  destruct (c_trigger c) as [[tc tn]|] eqn:Tr; cbn [rbind]; [|eexists; eexists; reflexivity].
  assert (P1 : present i tc tn) by (eapply wf_triggers; eassumption). pose proof (A _ _ _ _ _ F Tr).
  destruct (IH i rank tm tc tn false W A P1 ltac:(lia)) as (se1 & tm1 & ->). cbn [rbind]. eexists; eexists; reflexivity.
Qed.

(** ** C61 Component timing *)

(** For a well-formed instruction without cyclic triggers, get_timings on a fresh
    memo gives the interval prescribed by delays, triggers and lengths, and that
    interval is the only one. *)
Theorem C61_timings : forall i rank chan name fuel,
  wf i -> acyclic i rank -> present i chan name -> rank chan name < fuel ->
  exists s e tm, get_timings fuel i [] chan name false = Ok ((s, e), tm) /\
    timed i false chan name s e /\
    forall s' e', timed i false chan name s' e' -> s' = s /\ e' = e.
Proof.
  intros i rank chan name fuel W A P L. destruct (get_timings_total fuel i rank [] chan name false W A P L) as ([s e] & tm & E).
  exists s, e, tm. split; [exact E|].
  destruct (get_timings_sound fuel i false [] chan name false (s, e) tm W (fun H => ltac:(discriminate H)) (consistent_nil i false) P (or_introl eq_refl) E) as (T & _).
  split; [exact T|]. intros s' e' T'. destruct (timed_unique _ _ _ _ _ _ T _ _ T') as [E1 E2]. cbn in E1, E2. subst. split; reflexivity.
Qed.
Print Assumptions C61_timings.

(** The timings used to synthesise a channel are those of its components, one per
    component in order, although they share one memo. *)
Theorem C61_channel : forall i rank chan fuel names,
  wf i -> acyclic i rank -> (forall n, In n names -> present i chan n /\ rank chan n < fuel) ->
  exists l, awg_timings fuel i chan names [] = Ok l /\
    Forall2 (fun n se => timed i false chan n (fst se) (snd se)) names l.
Proof.
  intros i rank chan fuel names W A H.
  enough (G : forall tm, consistent i false tm -> exists l, awg_timings fuel i chan names tm = Ok l /\
    Forall2 (fun n se => timed i false chan n (fst se) (snd se)) names l) by (apply G, consistent_nil).
  induction names as [|n names IH]; intros tm K; [exists []; split; [reflexivity|constructor]|].
  destruct (H n (or_introl eq_refl)) as [P L]. cbn [awg_timings].
  destruct (get_timings_total fuel i rank tm chan n false W A P L) as (se & tm' & E). rewrite E. cbn [rbind].
  destruct (get_timings_sound fuel i false tm chan n false se tm' W (fun H => ltac:(discriminate H)) K P (or_introl eq_refl) E) as (T & K').
  destruct (IH (fun x Hx => H x (or_intror Hx)) tm' K') as (l & -> & F). exists (se :: l). split; [reflexivity|constructor; assumption].
Qed.
Print Assumptions C61_channel.

(** Start before end, and after the end of the trigger, when delays and lengths are
    not negative. *)
Theorem C61_order : forall i m chan name c s e,
  timed i m chan name s e -> find_comp i chan name = Some c -> sized c ->
  (forall l, c_cut c = Some l -> 0 <= l)%R -> (forall tf, c_env c = Some tf -> 0 <= tf)%R ->
  (s <= e)%R /\
  (forall tc tn s' e', c_trigger c = Some (tc, tn) -> timed i false tc tn s' e' ->
     (0 <= i_start i -> (forall d, c_delay c = Some d -> 0 <= d) -> e' <= s)%R).
Proof.
  intros i m chan name c s e T F S HL HE. split.
  - assert (En : ends i c m s e). { inversion T; subst; match goal with H : find_comp i chan name = Some ?x |- _ => assert (x = c) by congruence; subst x end; assumption. }
    destruct En as (A & B & _). unfold sized in S. destruct (c_cut c) as [l|]; [rewrite (A l eq_refl); specialize (HL l eq_refl); lra|].
    destruct (c_env c) as [tf|]; [rewrite (B tf) by reflexivity; specialize (HE tf eq_refl); lra|]. destruct S as [S|S]; exfalso; apply S; reflexivity.
  - intros tc tn s' e' Tr T' Hs Hd. inversion T; subst; match goal with H : find_comp i chan name = Some ?x |- _ => assert (x = c) by congruence; subst x end; [congruence|].
    match goal with H : c_trigger c = Some (?a, ?b), H' : timed i false ?a ?b _ ?z |- _ => assert (a = tc) by congruence; assert (b = tn) by congruence; subst a b; destruct (timed_unique _ _ _ _ _ _ H' _ _ T') as [_ <-] end.
    match goal with H : has_delay c ?d |- _ => unfold has_delay in H; destruct (c_delay c) as [x|]; subst d; [specialize (Hd x eq_refl)|]; lra end.
Qed.
Print Assumptions C61_order.

(** The documentation counts the delay from the end of the trigger; the start of
    the instruction is added on top, so this fails unless t_start = 0. *)
Theorem C61_double_start_refuted : forall i m chan name c tc tn s e s' e' d,
  find_comp i chan name = Some c -> c_trigger c = Some (tc, tn) -> has_delay c d ->
  timed i false tc tn s' e' -> timed i m chan name s e ->
  (s - (e' + d) = i_start i)%R.
Proof.
  intros i m chan name c tc tn s e s' e' d F Tr D T' T. inversion T; subst; match goal with H : find_comp i chan name = Some ?x |- _ => assert (x = c) by congruence; subst x end; [congruence|].
  match goal with H : c_trigger c = Some (?a, ?b), H' : timed i false ?a ?b _ ?z |- _ => assert (a = tc) by congruence; assert (b = tn) by congruence; subst a b; destruct (timed_unique _ _ _ _ _ _ H' _ _ T') as [_ <-] end.
  match goal with H : has_delay c ?x |- _ => assert (x = d) by (eapply has_delay_unique; eassumption); subst x end. ring.
Qed.
Print Assumptions C61_double_start_refuted.

(** Keys tell components apart if channel names contain no dash. *)
Fixpoint no_dash (s : string) : Prop :=
  match s with EmptyString => True | String a r => a <> "-"%char /\ no_dash r end.
Theorem C61_keys_distinct : forall c1 n1 c2 n2, no_dash c1 -> no_dash c2 ->
  tkey c1 n1 = tkey c2 n2 -> c1 = c2 /\ n1 = n2.
Proof.
  unfold tkey. induction c1 as [|a c1 IH]; intros n1 [|b c2] n2 D1 D2 H; cbn in *.
  - injection H as ->. split; reflexivity.
  - injection H as E _. destruct D2 as [D _]. congruence.
  - injection H as E _. destruct D1 as [D _]. congruence.
  - injection H as -> H. destruct (IH n1 c2 n2 (proj2 D1) (proj2 D2) H) as [-> ->]. split; reflexivity.
Qed.
Print Assumptions C61_keys_distinct.

Local Open Scope string_scope.
Definition env_comp (tf d : R) (tr : option (string * string)) : component := mkComp (Some tf) (Some d) tr None.
Definition carrier (tr : option (string * string)) : component := mkComp None None tr None.
(** With a dash in a channel name two components share a key and the second one
    inherits the times of the first. *)
Definition collide : instruction := mkInstr 0 100
  [("a", [("b-c", env_comp 10 5 None)]); ("a-b", [("c", env_comp 30 20 None)])].
(** Finding: A dash in a channel name makes two components share one key: the second gets the times of the first. *)
Theorem C61_key_collision_refuted :
  exists tm, get_timings 9 collide [] "a" "b-c" false = Ok ((0 + 5, 0 + 5 + 10)%R, tm) /\
    get_timings 9 collide tm "a-b" "c" false = Ok ((0 + 5, 0 + 5 + 10)%R, tm) /\
    timed collide false "a-b" "c" (0 + 20)%R (0 + 20 + 30)%R.
Proof.
  eexists. split; [reflexivity|]. split; [reflexivity|].
  eapply timed_now; [reflexivity|reflexivity|reflexivity|reflexivity|]. apply (ends_end_of collide (env_comp 30 20 None) false).
Qed.
Print Assumptions C61_key_collision_refuted.

(** A component that (indirectly) triggers itself recurses without end. *)
Definition selfish : instruction := mkInstr 0 100 [("d", [("x", env_comp 1 0 (Some ("d", "y"))); ("y", env_comp 1 0 (Some ("d", "x")))])].
(** Finding: Components that trigger each other recurse without end. *)
Theorem C61_cycle_refuted : forall fuel, get_timings fuel selfish [] "d" "x" false = Err OutOfFuel.
Proof.
  assert (G : forall fuel, get_timings fuel selfish [] "d" "x" false = Err OutOfFuel /\ get_timings fuel selfish [] "d" "y" false = Err OutOfFuel).
  { induction fuel as [|f [A B]]; [split; reflexivity|]. cbn [get_timings dget find_comp i_comps selfish]. cbn. rewrite A, B. split; reflexivity. }
  intro fuel. apply G.
Qed.
Print Assumptions C61_cycle_refuted.

(** Remembered timings survive a change of the options: get_timings on a memo that
    was filled before returns the old interval. *)
Theorem C61_stale_memo_refuted : forall fuel i i' tm chan name m s e,
  dget (tkey chan name) tm = Some (s, e) ->
  get_timings (S fuel) i tm chan name m = Ok ((s, e), tm) /\
  get_timings (S fuel) i' tm chan name m = Ok ((s, e), tm).
Proof. intros. cbn [get_timings]. rewrite H. split; reflexivity. Qed.
Print Assumptions C61_stale_memo_refuted.

(** *** full gate length *)
Definition all_comps (i : instruction) : list (string * string) :=
  flat_map (fun cd => map (pair (fst cd)) (keys (snd cd))) (i_comps i).
Lemma all_comps_present : forall i, NoDup (keys (i_comps i)) -> forall c n, In (c, n) (all_comps i) <-> present i c n.
Proof.
  intros i N c n. unfold all_comps, present, find_comp. rewrite in_flat_map. split.
  - intros ([c' d] & H1 & H2). apply in_map_iff in H2. destruct H2 as (n' & E & H2). cbn in *. injection E as -> ->.
    rewrite (dget_in_nodup _ _ _ N H1). apply dget_in_keys in H2. destruct H2 as (v & ->). discriminate.
  - intro H. destruct (dget c (i_comps i)) as [d|] eqn:E; [|contradiction]. exists (c, d). split; [apply dget_Some_in, E|].
    apply in_map_iff. exists n. split; [reflexivity|]. cbn [snd]. apply dget_in_keys. destruct (dget n d) as [v|]; [exists v; reflexivity|contradiction].
Qed.
Definition step_len (acc : option R * option R) (se : R * R) := (omin (fst acc) (fst se), omax (snd acc) (snd se)).
Lemma names_length_spec : forall fuel i rank chan names tm acc, wf i -> acyclic i rank -> triggers_sized i ->
  (forall n, In n names -> present i chan n /\ rank chan n < fuel) -> consistent i true tm ->
  exists tm' l, names_length fuel i chan names tm acc = Ok (tm', fold_left step_len l acc) /\
    Forall2 (fun n se => timed i true chan n (fst se) (snd se)) names l.
Proof.
  intros fuel i rank chan names. induction names as [|n names IH]; intros tm acc W A TS H K.
  - exists tm, []. split; [reflexivity|constructor].
  - destruct (H n (or_introl eq_refl)) as [P L]. cbn [names_length].
    destruct (get_timings_total fuel i rank tm chan n true W A P L) as (se & tm' & E). rewrite E. cbn [rbind].
    destruct (get_timings_sound fuel i true tm chan n true se tm' W (fun _ => TS) K P (or_introl eq_refl) E) as (T & K').
    destruct (IH tm' (step_len acc se) W A TS (fun x Hx => H x (or_intror Hx)) K') as (tm2 & l & E2 & F).
    exists tm2, (se :: l). split; [exact E2|constructor; assumption].
Qed.
Lemma chans_length_spec : forall fuel i rank chans acc, wf i -> acyclic i rank -> triggers_sized i ->
  (forall c d n, In (c, d) chans -> In n (keys d) -> present i c n /\ rank c n < fuel) ->
  exists l, chans_length fuel i chans acc = Ok (fold_left step_len l acc) /\
    Forall2 (fun cn se => timed i true (fst cn) (snd cn) (fst se) (snd se))
      (flat_map (fun cd => map (pair (fst cd)) (keys (snd cd))) chans) l.
Proof.
  intros fuel i rank chans. induction chans as [|[c d] chans IH]; intros acc W A TS H.
  - exists []. split; [reflexivity|constructor].
  - cbn [chans_length flat_map fst snd].
    destruct (names_length_spec fuel i rank c (keys d) [] acc W A TS (fun n Hn => H c d n (or_introl eq_refl) Hn) (consistent_nil i true)) as (tm' & l & -> & F).
    cbn [rbind]. destruct (IH (fold_left step_len l acc) W A TS (fun c' d' n Hc Hn => H c' d' n (or_intror Hc) Hn)) as (l2 & E2 & F2).
    exists (l ++ l2)%list. split; [rewrite fold_left_app; exact E2|]. apply Forall2_app; [|exact F2].
    clear -F. induction F; cbn; constructor; assumption.
Qed.
Definition acc_ok (l : list (R * R)) (acc : option R * option R) : Prop :=
  match acc with
  | (Some a, Some b) => (forall se, In se l -> a <= fst se /\ snd se <= b)%R /\ (exists se, In se l /\ fst se = a) /\ (exists se, In se l /\ snd se = b)
  | (None, None) => l = []
  | _ => False
  end.
Lemma fold_len : forall l done acc, acc_ok done acc -> acc_ok (done ++ l) (fold_left step_len l acc).
Proof.
  induction l as [|se l IH]; intros done acc H; [rewrite app_nil_r; exact H|].
  replace (done ++ se :: l)%list with ((done ++ [se]) ++ l)%list by (rewrite <- app_assoc; reflexivity). cbn [fold_left]. apply IH.
  unfold step_len. destruct acc as [[a|] [b|]]; cbn in H; try contradiction; cbn [fst snd omin omax acc_ok].
  - destruct H as (B & (x & Hx & Ex) & (y & Hy & Ey)). split; [|split].
    + intros z Hz. apply in_app_or in Hz. destruct Hz as [Hz|[<-|[]]].
      * specialize (B z Hz). pose proof (Rmin_l a (fst se)). pose proof (Rmax_l b (snd se)). lra.
      * split; [apply Rmin_r|apply Rmax_r].
    + unfold Rmin. destruct Rle_dec; [exists x|exists se]; split; try assumption; try reflexivity; apply in_or_app; [left; exact Hx|right; left; reflexivity].
    + unfold Rmax. destruct Rle_dec; [exists se|exists y]; split; try assumption; try reflexivity; apply in_or_app; [right; left; reflexivity|left; exact Hy].
  - subst done. cbn. split; [|split].
    + intros z [<-|[]]. lra.
    + exists se. split; [left; reflexivity|reflexivity].
    + exists se. split; [left; reflexivity|reflexivity].
Qed.

(** get_full_gate_length is the smallest interval that covers every component
    (components without a length of their own count with length 0), provided every
    trigger has a length of its own. *)
Theorem C61_full_length : forall i rank fuel c0 n0,
  wf i -> acyclic i rank -> triggers_sized i -> present i c0 n0 ->
  (forall c n, present i c n -> rank c n < fuel) ->
  exists gs ge, get_full_gate_length fuel i = Ok (Some gs, Some ge) /\
    (forall c n s e, timed i true c n s e -> gs <= s /\ e <= ge)%R /\
    (exists c n e, timed i true c n gs e) /\ (exists c n s, timed i true c n s ge).
Proof.
  intros i rank fuel c0 n0 W A TS P L. unfold get_full_gate_length.
  assert (H : forall c d n, In (c, d) (i_comps i) -> In n (keys d) -> present i c n /\ rank c n < fuel).
  { intros c d n Hc Hn. assert (Pr : present i c n). { unfold present, find_comp. rewrite (dget_in_nodup _ _ _ (wf_chans i W) Hc). apply dget_in_keys in Hn. destruct Hn as (v & ->). discriminate. }
    split; [exact Pr|apply L, Pr]. }
  destruct (chans_length_spec fuel i rank (i_comps i) (None, None) W A TS H) as (l & -> & F).
  pose proof (fold_len l [] (None, None) eq_refl) as K. cbn [app] in K. fold (all_comps i) in F.
  assert (Fl : forall se, In se l -> exists c n, timed i true c n (fst se) (snd se)).
  { intros se Hs. clear -F Hs. induction F as [|[c n] y ls l T F IH]; [destruct Hs|]. destruct Hs as [<-|Hs]; [exists c, n; exact T|apply IH, Hs]. }
  assert (Fr : forall c n, In (c, n) (all_comps i) -> exists se, In se l /\ timed i true c n (fst se) (snd se)).
  { intros c n Hc. clear -F Hc. induction F as [|x y ls l T F IH]; [destruct Hc|]. destruct Hc as [->|Hc]; [exists y; split; [left; reflexivity|exact T]|].
    destruct (IH Hc) as (se & S1 & S2). exists se. split; [right; exact S1|exact S2]. }
  destruct (fold_left step_len l (None, None)) as [[gs|] [ge|]]; cbn in K; try contradiction.
  - exists gs, ge. split; [reflexivity|]. destruct K as (B & (x & Hx & Ex) & (y & Hy & Ey)). split; [|split].
    + intros c n s e T. assert (Pr : present i c n) by (inversion T; subst; unfold present; congruence).
      destruct (Fr c n (proj2 (all_comps_present i (wf_chans i W) c n) Pr)) as (se & Hse & T'). destruct (timed_unique _ _ _ _ _ _ T _ _ T') as [-> ->]. apply B, Hse.
    + destruct (Fl x Hx) as (c & n & T). exists c, n, (snd x). rewrite <- Ex. exact T.
    + destruct (Fl y Hy) as (c & n & T). exists c, n, (fst y). rewrite <- Ey. exact T.
  - destruct (Fr c0 n0 (proj2 (all_comps_present i (wf_chans i W) c0 n0) P)) as (se & Hse & _). subst l. destruct Hse.
Qed.
Print Assumptions C61_full_length.

(** If a carrier without a length of its own is a trigger, the result depends on
    the order of the components in the dictionary. *)
Definition order1 : instruction := mkInstr 0 100 [("d", [("b", env_comp 1 0 (Some ("d", "c"))); ("c", carrier None)])].
Definition order2 : instruction := mkInstr 0 100 [("d", [("c", carrier None); ("b", env_comp 1 0 (Some ("d", "c")))])].
(** Finding: The gate length depends on the order of the dictionary when a carrier without a length is a trigger. *)
Theorem C61_order_dependence_refuted :
  exists s1 e1 s2 e2, get_full_gate_length 9 order1 = Ok (Some s1, Some e1) /\ get_full_gate_length 9 order2 = Ok (Some s2, Some e2) /\
    e1 = 101%R /\ e2 = 1%R.
Proof.
  do 4 eexists. split; [reflexivity|]. split; [reflexivity|]. cbn. unfold Rmax. repeat destruct Rle_dec; lra.
Qed.
Print Assumptions C61_order_dependence_refuted.

(** A non-trivial instruction: a flux pulse after the drive pulse, and a carrier. *)
Definition demo : instruction := mkInstr 0 100
  [("d1", [("gauss", env_comp 10 2 None); ("carrier", carrier None)]); ("tc", [("flux", env_comp 30 5 (Some ("d1", "gauss")))])].
Definition demo_rank (c n : string) : nat := if String.eqb n "flux" then 1 else 0.
Lemma demo_cases : forall c n x, find_comp demo c n = Some x ->
  (c = "d1" /\ n = "gauss" /\ x = env_comp 10 2 None) \/ (c = "d1" /\ n = "carrier" /\ x = carrier None) \/
  (c = "tc" /\ n = "flux" /\ x = env_comp 30 5 (Some ("d1", "gauss"))).
Proof.
  intros c n x H. unfold find_comp, demo in H. cbn [i_comps dget] in H.
  destruct (String.eqb_spec c "d1") as [->|]; [|destruct (String.eqb_spec c "tc") as [->|]; [|discriminate]]; cbn [dget] in H.
  - destruct (String.eqb_spec n "gauss") as [->|]; [injection H as <-; left; repeat split|].
    destruct (String.eqb_spec n "carrier") as [->|]; [injection H as <-; right; left; repeat split|discriminate].
  - destruct (String.eqb_spec n "flux") as [->|]; [injection H as <-; right; right; repeat split|discriminate].
Qed.
Example C61_example : wf demo /\ acyclic demo demo_rank /\ triggers_sized demo /\ present demo "tc" "flux" /\
  (forall c n, present demo c n -> demo_rank c n < 5) /\ timed demo false "tc" "flux" 17 47.
Proof.
  assert (Pr : forall c n, present demo c n -> (c = "d1" /\ n = "gauss") \/ (c = "d1" /\ n = "carrier") \/ (c = "tc" /\ n = "flux")).
  { intros c n H. unfold present in H. destruct (find_comp demo c n) as [x|] eqn:E; [|contradiction]. destruct (demo_cases c n x E) as [(-> & -> & _)|[(-> & -> & _)|(-> & -> & _)]]; tauto. }
  split; [|split; [|split; [|split; [|split]]]].
  - split.
    + cbn. constructor; [intros [H|[]]; discriminate|]. constructor; [intros []|constructor].
    + intros c1 n1 c2 n2 P1 P2. destruct (Pr _ _ P1) as [[-> ->]|[[-> ->]|[-> ->]]]; destruct (Pr _ _ P2) as [[-> ->]|[[-> ->]|[-> ->]]]; cbn; intro H; try discriminate; split; reflexivity.
    + intros c n x tc tn F Tr. destruct (demo_cases c n x F) as [(-> & -> & ->)|[(-> & -> & ->)|(-> & -> & ->)]]; cbn in Tr; try discriminate. injection Tr as <- <-. cbn. discriminate.
  - intros c n x tc tn F Tr. destruct (demo_cases c n x F) as [(-> & -> & ->)|[(-> & -> & ->)|(-> & -> & ->)]]; cbn in Tr; try discriminate. injection Tr as <- <-. cbn. lia.
  - intros c n x tc tn c' F Tr F'. destruct (demo_cases c n x F) as [(-> & -> & ->)|[(-> & -> & ->)|(-> & -> & ->)]]; cbn in Tr; try discriminate. injection Tr as <- <-. cbn in F'. injection F' as <-. right. discriminate.
  - discriminate.
  - intros c n P. unfold demo_rank. destruct String.eqb; lia.
  - eapply timed_after with (c := env_comp 30 5 (Some ("d1", "gauss"))) (d := 5%R) (s' := 2%R) (e' := 12%R); try reflexivity.
    + eapply timed_now with (c := env_comp 10 2 None) (d := 2%R); try reflexivity; [cbn; lra|]. cbn. repeat split; intros; try discriminate. injection H0 as <-. lra.
    + cbn. lra.
    + repeat split; intros; try discriminate. cbn in H0. injection H0 as <-. lra.
Qed.

(** ** C62 Automatic gate length *)
Definition same_but_end (i i' : instruction) : Prop := i_start i' = i_start i /\ i_comps i' = i_comps i.
Lemma find_set_end : forall i t c n, find_comp (set_end i t) c n = find_comp i c n.
Proof. reflexivity. Qed.
Lemma wf_set_end : forall i t, wf i -> wf (set_end i t).
Proof. intros i t [A B C]. split; [exact A|exact B|exact C]. Qed.
Lemma timed_set_end : forall i t m c n s e x, triggers_sized i -> find_comp i c n = Some x -> (m = true \/ sized x) ->
  timed i m c n s e -> timed (set_end i t) m c n s e.
Proof.
  intros i t m c n s e x TS F Hm T. revert x F Hm. induction T as [m chan name c d s e F Tr D Es En|m chan name c d tc tn s0 e0 s e F Tr D T IH Es En]; intros x Fx Hm.
  - assert (x = c) by congruence. subst x. eapply timed_now; eauto. destruct En as (A & B & X). split; [exact A|]. split; [exact B|].
    intros N1 N2. rewrite (X N1 N2). destruct Hm as [->|[Hm|Hm]]; [reflexivity|contradiction|contradiction].
  - assert (x = c) by congruence. subst x. eapply timed_after; eauto.
    + assert (P : exists c', find_comp i tc tn = Some c'). { inversion T; subst; eauto. } destruct P as (c' & P).
      apply (IH c' P). right. exact (TS _ _ _ _ _ _ F Tr P).
    + destruct En as (A & B & X). split; [exact A|]. split; [exact B|]. intros N1 N2. rewrite (X N1 N2). destruct Hm as [->|[Hm|Hm]]; [reflexivity|contradiction|contradiction].
Qed.
Lemma full_length_set_end : forall i rank fuel t c0 n0, wf i -> acyclic i rank -> triggers_sized i -> present i c0 n0 ->
  (forall c n, present i c n -> rank c n < fuel) ->
  get_full_gate_length fuel (set_end i t) = get_full_gate_length fuel i.
Proof.
  intros i rank fuel t c0 n0 W A TS P L.
  destruct (C61_full_length i rank fuel c0 n0 W A TS P L) as (gs & ge & E & B & (c1 & n1 & e1 & T1) & (c2 & n2 & s2 & T2)).
  destruct (C61_full_length (set_end i t) rank fuel c0 n0 (wf_set_end i t W) A TS P L) as (gs' & ge' & E' & B' & (c1' & n1' & e1' & T1') & (c2' & n2' & s2' & T2')).
  assert (X : forall c n s e, timed i true c n s e -> timed (set_end i t) true c n s e).
  { intros c n s e T. assert (Q : exists x, find_comp i c n = Some x) by (inversion T; subst; eauto). destruct Q as (x & Q). eapply timed_set_end; eauto. }
  assert (Y : forall c n s e, timed (set_end i t) true c n s e -> timed i true c n s e).
  { intros c n s e T. assert (Q : exists x, find_comp (set_end i t) c n = Some x) by (inversion T; subst; eauto). destruct Q as (x & Q).
    assert (TS' : triggers_sized (set_end i t)) by exact TS.
    pose proof (timed_set_end (set_end i t) (i_end i) true c n s e x TS' Q (or_introl eq_refl) T) as Z. destruct i; exact Z. }
  rewrite E, E'. assert (gs = gs'). { pose proof (proj1 (B' _ _ _ _ (X _ _ _ _ T1))). pose proof (proj1 (B _ _ _ _ (Y _ _ _ _ T1'))). lra. }
  assert (ge = ge'). { pose proof (proj2 (B' _ _ _ _ (X _ _ _ _ T2))). pose proof (proj2 (B _ _ _ _ (Y _ _ _ _ T2'))). lra. }
  congruence.
Qed.

(** With triggers that have lengths of their own, auto_adjust_t_end terminates
    (within two rounds), changes nothing but the end, and the new end is the end of
    the last component, extended by the buffer; hence every component with a length
    of its own fits. *)
Theorem C62_auto_adjust : forall i rank fuel lfuel buffer c0 n0,
  wf i -> acyclic i rank -> triggers_sized i -> present i c0 n0 ->
  (forall c n, present i c n -> rank c n < fuel) -> 2 <= lfuel ->
  exists i' last, auto_adjust fuel lfuel i buffer = Ok (Some i') /\
    i_start i' = i_start i /\ i_comps i' = i_comps i /\ i_end i' = (last * (1 + buffer))%R /\
    (exists c n s, timed i true c n s last) /\
    (forall c n x s e, find_comp i c n = Some x -> sized x -> timed i' false c n s e -> e <= last)%R /\
    (0 <= buffer -> 0 <= last ->
       forall c n x s e, find_comp i c n = Some x -> sized x -> timed i' false c n s e -> e <= i_end i')%R.
Proof.
  intros i rank fuel lfuel buffer c0 n0 W A TS P L Hl.
  destruct (C61_full_length i rank fuel c0 n0 W A TS P L) as (gs & ge & E & B & _ & Ex).
  assert (R : auto_adjust fuel lfuel i buffer = Ok (Some (set_end i (ge * (1 + buffer))))).
  { destruct lfuel as [|[|lf]]; [lia|lia|]. cbn [auto_adjust]. rewrite E. cbn [rbind]. destruct Req_EM_T as [Q|Q]; [reflexivity|].
    rewrite (full_length_set_end i rank fuel ge c0 n0 W A TS P L), E. cbn [rbind]. destruct Req_EM_T as [Q'|Q']; [reflexivity|]. exfalso. apply Q'. reflexivity. }
  exists (set_end i (ge * (1 + buffer))), ge. split; [exact R|]. split; [reflexivity|]. split; [reflexivity|]. split; [reflexivity|]. split; [exact Ex|].
  assert (Cov : forall c n x s e, find_comp i c n = Some x -> sized x -> timed (set_end i (ge * (1 + buffer))) false c n s e -> (e <= ge)%R).
  { intros c n x s e F S T. assert (TS' : triggers_sized (set_end i (ge * (1 + buffer)))) by exact TS.
    pose proof (timed_set_end _ (i_end i) false c n s e x TS' F (or_intror S) T) as Z.
    assert (Z' : timed i false c n s e) by (destruct i; exact Z). apply (timed_sized i false true c n x s e F S) in Z'. apply (proj2 (B _ _ _ _ Z')). }
  split; [exact Cov|]. intros Hb Hge c n x s e F S T. pose proof (Cov c n x s e F S T). cbn [i_end set_end]. nra.
Qed.
Print Assumptions C62_auto_adjust.
Example C62_example : exists i', auto_adjust 5 2 demo (/ 10) = Ok (Some i') /\ i_end i' = (47 * (1 + / 10))%R.
Proof.
  destruct C61_example as (W & A & TS & P & L & T).
  destruct (C62_auto_adjust demo demo_rank 5 2 (/ 10)%R "tc" "flux" W A TS P L (le_n 2)) as (i' & last & E & Es & Ec & En & (c & n & s & T1) & B & _).
  exists i'. split; [exact E|]. rewrite En. f_equal.
  assert (Up : (47 <= last)%R).
  { apply (B "tc" "flux" (env_comp 30 5 (Some ("d1", "gauss"))) 17%R); [reflexivity|right; discriminate|].
    destruct i' as [a b d]. cbn in Es, Ec. subst a d. apply (timed_set_end demo b false "tc" "flux" 17 47 _ TS eq_refl); [right; right; discriminate|exact T]. }
  enough (last <= 47)%R by lra.
  assert (Q : exists x, find_comp demo c n = Some x) by (inversion T1; subst; eauto). destruct Q as (x & Q).
  assert (G : timed demo true "d1" "gauss" 2 12). { eapply timed_now with (c := env_comp 10 2 None) (d := 2%R); try reflexivity; [cbn; lra|]. cbn. repeat split; intros; try discriminate. injection H0 as <-. lra. }
  assert (K : timed demo true "d1" "carrier" 0 0). { eapply timed_now with (c := carrier None) (d := 0%R); try reflexivity; [cbn; lra|]. cbn. repeat split; intros; discriminate. }
  assert (Fx : timed demo true "tc" "flux" 17 47). { eapply timed_sized; [| |exact T]; [reflexivity|right; discriminate]. }
  destruct (demo_cases c n x Q) as [(-> & -> & _)|[(-> & -> & _)|(-> & -> & _)]].
  - destruct (timed_unique _ _ _ _ _ _ G _ _ T1) as [_ <-]. lra.
  - destruct (timed_unique _ _ _ _ _ _ K _ _ T1) as [_ <-]. lra.
  - destruct (timed_unique _ _ _ _ _ _ Fx _ _ T1) as [_ <-]. lra.
Qed.

(** Unconditional termination is false: a pulse triggered by a carrier (which ends
    with the instruction) pushes the end forward in every round. *)
Lemma order1_length : forall fuel t, (0 <= t)%R -> 3 <= fuel -> exists s, get_full_gate_length fuel (set_end order1 t) = Ok (Some s, Some (t + 1)%R).
Proof.
  intros fuel t Ht Hf. destruct fuel as [|[|fuel]]; [lia|lia|]. eexists. unfold get_full_gate_length. cbn. f_equal. f_equal. f_equal.
  unfold Rmax. destruct Rle_dec; lra.
Qed.
(** Finding: With such a trigger auto_adjust_t_end never returns: each round makes the gate longer. *)
Theorem C62_divergence_refuted : forall fuel lfuel buffer t, (0 <= t)%R -> 3 <= fuel ->
  auto_adjust fuel lfuel (set_end order1 t) buffer = Err OutOfFuel.
Proof.
  intros fuel lfuel buffer. induction lfuel as [|lf IH]; intros t Ht Hf; [reflexivity|]. cbn [auto_adjust].
  destruct (order1_length fuel t Ht Hf) as (s & ->). cbn [rbind]. destruct Req_EM_T as [Q|Q]; [cbn in Q; lra|].
  apply (IH (t + 1)%R); [lra|exact Hf].
Qed.
Print Assumptions C62_divergence_refuted.
