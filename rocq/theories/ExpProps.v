From Coq Require Import Reals Lra Lia FunctionalExtensionality.
From Coquelicot Require Import Complex.
From Verif Require Import Base Mat MExp HilbertModel HilbertProofs Hilbert2Props PropModel SuperProofs FoldModel FoldProps EnvModel ExpModel.
Local Open Scope list_scope.
Local Open Scope nat_scope.
Local Notation length := List.length.

(** ** C80: gate selection *)
Lemma in_keys_dset : forall V k k' (v : V) d, In k (keys (dset k' v d)) <-> k = k' \/ In k (keys d).
Proof.
  intros V k k' v d. induction d as [|[a b] d IH]; cbn [dset keys map fst In]; [intuition|].
  destruct (String.eqb_spec k' a) as [->|N]; cbn [keys map fst In]; [intuition|]. unfold keys in IH. rewrite IH. intuition.
Qed.
Lemma nodup_dset' : forall V k (v : V) d, NoDup (keys d) -> NoDup (keys (dset k v d)).
Proof.
  intros V k v d H. induction d as [|[a b] d IH]; cbn [dset keys map fst]; [repeat constructor; cbn; tauto|].
  inversion H; subst. destruct (String.eqb_spec k a) as [->|N]; cbn [keys map fst]; [constructor; auto|].
  constructor; [|apply IH; auto]. fold (keys (dset k v d)). rewrite in_keys_dset. intros [->|X]; [auto|tauto].
Qed.
Lemma gate_loop_spec : forall prop s ins gates acc p pp,
  gate_loop prop s ins gates acc = Ok (p, pp) ->
  (forall g, In g gates -> exists U d, one_gate prop s ins g = Ok (U, d) /\ dget g p = Some U /\ dget g pp = Some d)
  /\ (forall g, ~ In g gates -> dget g p = dget g (fst acc) /\ dget g pp = dget g (snd acc))
  /\ (forall g, In g (keys p) <-> In g gates \/ In g (keys (fst acc)))
  /\ (NoDup (keys (fst acc)) -> NoDup (keys p)).
Proof.
  intros prop s ins gates. induction gates as [|g0 gates IH]; intros acc p pp H; cbn [gate_loop] in H.
  - injection H as ->. cbn. repeat split; try tauto.
  - destruct (one_gate prop s ins g0) as [[U d]|] eqn:E; [|discriminate]. cbn [rbind fst snd] in H.
    destruct (IH _ _ _ H) as (A & B & D & F). cbn [fst snd] in *. repeat split.
    + intros g [<-|Hg]; [|apply A; auto]. destruct (in_dec string_dec g0 gates) as [I|I]; [apply A; auto|].
      exists U, d. destruct (B g0 I) as [-> ->]. rewrite !dget_dset_same. auto.
    + destruct (B g) as [-> _]; [intro X; apply H0; right; auto|]. apply dget_dset_other. intro X. apply H0. left. auto.
    + destruct (B g) as [_ ->]; [intro X; apply H0; right; auto|]. apply dget_dset_other. intro X. apply H0. left. auto.
    + intro X. apply D in X. rewrite in_keys_dset in X. cbn [In]. intuition.
    + intro X. apply D. rewrite in_keys_dset. cbn [In] in X. intuition.
    + intro X. apply F. apply nodup_dset'. exact X.
Qed.
Lemma dupdate_get : forall V (e d : dict V) k, NoDup (keys e) ->
  dget k (dupdate d e) = match dget k e with Some v => Some v | None => dget k d end.
Proof.
  unfold dupdate. induction e as [|[a b] e IH]; intros d k H; [reflexivity|]. cbn [fold_left fst snd]. inversion H; subst.
  rewrite IH by auto. cbn [dget]. destruct (String.eqb_spec k a) as [->|N].
  - assert (X : dget a e = None) by (destruct (dget a e) eqn:E; auto; exfalso; apply H2; eapply dget_in_keys; eauto).
    rewrite X. apply dget_dset_same.
  - destruct (dget k e); auto. apply dget_dset_other. exact N.
Qed.

(** The gates a call computes. *)
Definition selected (ins : dict einstr) (e : estate) : list string :=
  match st_opt_gates e with None => keys ins | Some l => l end.

(** A successful call returns exactly the selected gates, each computed from its own
    instruction; it replaces or extends the stored propagators accordingly. *)
Theorem C80_selected_gates :
  forall prop s ins e p e', compute_propagators prop s ins e = (Ok p, e') ->
  NoDup (keys p) /\ (forall g, In g (keys p) <-> In g (selected ins e))
  /\ (forall g, In g (selected ins e) ->
      exists i r U1 U d, dget g ins = Some i /\ prop i (folding_stack (steps_of s i)) = Ok r
        /\ frame_part s i (pr_U r) = Ok U1 /\ dephasing_part s i U1 = Ok U /\ d = pr_dUs r
        /\ dget g p = Some U /\ dget g (st_props e') = Some U /\ dget g (st_partial e') = Some d)
  /\ (forall g, ~ In g (selected ins e) ->
      dget g (st_props e') = if st_overwrite e then None else dget g (st_props e)).
Proof.
  intros prop s ins e p e' H. unfold compute_propagators in H. fold (selected ins e) in H.
  destruct (gate_loop prop s ins (selected ins e) ([], [])) as [[p0 pp]|] eqn:E; [|discriminate].
  injection H as <- <-. destruct (gate_loop_spec _ _ _ _ _ _ _ E) as (A & B & D & F). cbn [fst snd] in *.
  assert (ND : NoDup (keys p0)) by (apply F; constructor).
  assert (NDP : NoDup (keys pp)).
  { assert (G : forall gates acc p pp, gate_loop prop s ins gates acc = Ok (p, pp) -> NoDup (keys (snd acc)) -> NoDup (keys pp)).
    { clear. induction gates as [|g gates IH]; intros acc p pp H N; cbn [gate_loop] in H.
      - injection H as ->. exact N.
      - destruct (one_gate prop s ins g) as [[U d]|]; [|discriminate]. cbn [rbind fst snd] in H.
        apply IH in H; auto. cbn [snd]. apply nodup_dset'. exact N. }
    apply (G _ _ _ _ E). constructor. }
  split; [exact ND|]. split; [intro g; rewrite D; cbn; tauto|]. split.
  - intros g Hg. destruct (A g Hg) as (U & d & O & P1 & P2). unfold one_gate in O.
    destruct (dget g ins) as [i|] eqn:Ei; [|discriminate].
    destruct (prop i (folding_stack (steps_of s i))) as [r|] eqn:Er; [|discriminate]. cbn [rbind] in O.
    destruct (frame_part s i (pr_U r)) as [U1|] eqn:Ef; [|discriminate]. cbn [rbind] in O.
    destruct (dephasing_part s i U1) as [U2|] eqn:Ed; [|discriminate]. cbn [rbind] in O. injection O as -> <-.
    exists i, r, U1, U, (pr_dUs r). repeat (split; [assumption || reflexivity|]).
    destruct (st_overwrite e); cbn [st_props st_partial]; [auto|].
    rewrite !dupdate_get, P1, P2 by auto. auto.
  - intros g Hg. destruct (B g Hg) as [B1 B2]. destruct (st_overwrite e); cbn [st_props]; [exact B1|].
    rewrite dupdate_get, B1 by auto. reflexivity.
Qed.
Print Assumptions C80_selected_gates.
(** A failing call leaves the stored propagators as they were. *)
Theorem C80_failure_keeps_propagators :
  forall prop s ins e x e', compute_propagators prop s ins e = (Err x, e') ->
  st_props e' = st_props e /\ st_partial e' = st_partial e.
Proof.
  intros prop s ins e x e' H. unfold compute_propagators in H.
  destruct (gate_loop prop s ins _ ([], [])) as [[p0 pp]|]; [discriminate|]. injection H as <- <-. auto.
Qed.
Print Assumptions C80_failure_keeps_propagators.
(** Selecting a gate that is not defined makes the call fail. *)
Theorem C80_unknown_gate_fails :
  forall prop s ins e g, In g (selected ins e) -> dget g ins = None ->
  is_ok (fst (compute_propagators prop s ins e)) = false.
Proof.
  intros prop s ins e g Hg Hn. destruct (compute_propagators prop s ins e) as [[p|x] e'] eqn:E; [|reflexivity].
  exfalso. destruct (C80_selected_gates _ _ _ _ _ _ E) as (_ & _ & A & _).
  destruct (A g Hg) as (i & _ & _ & _ & _ & Hi & _). congruence.
Qed.
Print Assumptions C80_unknown_gate_fails.
(** After selecting by sequences, whatever the order of the set, every sequence can
    be evaluated, and only the gates of the sequences are computed. *)
Theorem C80_sequences :
  forall order prop s ins seqs e p e', (forall l x, In x (order l) <-> In x l) ->
  compute_propagators prop s ins (set_opt_gates_seq order seqs e) = (Ok p, e') ->
  (forall g, In g (keys p) <-> exists q, In q seqs /\ In g q)
  /\ forall (S P : Type) (act : mat -> S -> S) (pop : S -> P) psi0,
     is_ok (evaluate_legacy act pop (st_props e') psi0 seqs) = true.
Proof.
  intros order prop s ins seqs e p e' Ho H. destruct (C80_selected_gates _ _ _ _ _ _ H) as (_ & K & A & _).
  assert (Sel : forall g, In g (selected ins (set_opt_gates_seq order seqs e)) <-> exists q, In q seqs /\ In g q).
  { intro g. cbn [selected set_opt_gates_seq set_opt_gates st_opt_gates]. rewrite Ho, in_concat. reflexivity. }
  split; [intro g; rewrite K; apply Sel|]. intros S P act pop psi0.
  assert (G : forall sq, (forall q, In q sq -> In q seqs) -> is_ok (evaluate_legacy act pop (st_props e') psi0 sq) = true).
  { induction sq as [|q sq IH]; intro Hs; [reflexivity|]. cbn [evaluate_legacy]. unfold evaluate_legacy in IH.
    assert (Q : forall q' psi, (forall g, In g q' -> In g q) -> exists out, evolve act (dlook (st_props e')) q' psi = Ok out).
    { induction q' as [|g q' IHq]; intros psi Hq; [exists psi; reflexivity|]. cbn [evolve].
      destruct (A g) as (i & r & U1 & U & d & _ & _ & _ & _ & _ & _ & E & _).
      { apply Sel. exists q. split; [apply Hs; left; auto|apply Hq; left; auto]. }
      unfold dlook. rewrite E. cbn [rbind]. apply IHq. intros; apply Hq; right; auto. }
    destruct (Q q psi0 ltac:(auto)) as (out & ->). cbn [rbind].
    specialize (IH ltac:(intros; apply Hs; right; auto)).
    match goal with |- context [rbind ?r _] => destruct r; [reflexivity|discriminate IH] end. }
  apply G. auto.
Qed.
Print Assumptions C80_sequences.
(** The result does not depend on order or repetition in the selection. *)
Theorem C80_order_irrelevant :
  forall prop s ins e e1 e2 l1 l2 p1 p2, (forall g, In g l1 <-> In g l2) ->
  compute_propagators prop s ins (set_opt_gates (ManyGates l1) e) = (Ok p1, e1) ->
  compute_propagators prop s ins (set_opt_gates (ManyGates l2) e) = (Ok p2, e2) ->
  forall g, dget g p1 = dget g p2 /\ dget g (st_props e1) = dget g (st_props e2).
Proof.
  intros prop s ins e e1 e2 l1 l2 p1 p2 Hl H1 H2 g.
  destruct (C80_selected_gates _ _ _ _ _ _ H1) as (_ & K1 & A1 & B1).
  destruct (C80_selected_gates _ _ _ _ _ _ H2) as (_ & K2 & A2 & B2).
  cbn [selected set_opt_gates st_opt_gates st_overwrite st_props] in *.
  destruct (in_dec string_dec g l1) as [I|I].
  - destruct (A1 g I) as (i & r & V & U & d & I1 & I2 & I3 & I4 & _ & -> & -> & _).
    destruct (A2 g (proj1 (Hl g) I)) as (i' & r' & V' & U' & d' & J1 & J2 & J3 & J4 & _ & -> & -> & _).
    rewrite I1 in J1. injection J1 as <-. rewrite I2 in J2. injection J2 as <-. rewrite I3 in J3. injection J3 as <-.
    rewrite I4 in J4. injection J4 as <-. auto.
  - assert (I' : ~ In g l2) by (rewrite <- Hl; exact I). rewrite (B1 g I), (B2 g I'). split; [|reflexivity].
    destruct (dget g p1) eqn:E1; [exfalso; apply I, K1; eapply dget_in_keys; eauto|].
    destruct (dget g p2) eqn:E2; [exfalso; apply I', K2; eapply dget_in_keys; eauto|]. reflexivity.
Qed.
Print Assumptions C80_order_irrelevant.
(** With the default setting, gates computed earlier are lost. *)
Theorem C80_earlier_gates_refuted :
  ~ (forall prop s ins e p e' g, compute_propagators prop s ins e = (Ok p, e') ->
     dget g (st_props e) <> None -> dget g (st_props e') <> None).
Proof.
  intro H.
  pose (s := {| es_sys := {| f_names := []; f_dims := []; f_couplings := [] |}; es_lind := false; es_use_FR := false;
                es_dephasing := 0%R; es_sim_res := 1%R |}).
  pose (e := {| st_opt_gates := Some []; st_overwrite := true; st_props := [("x"%string, mid)]; st_partial := [] |}).
  apply (H (fun _ _ => Err ValueError) s [] e [] {| st_opt_gates := Some []; st_overwrite := true; st_props := []; st_partial := [] |} "x"%string eq_refl).
  - discriminate.
  - reflexivity.
Qed.
Print Assumptions C80_earlier_gates_refuted.
Definition demo_settings : esettings :=
  {| es_sys := {| f_names := ["q"%string]; f_dims := [2]; f_couplings := [("d", ["q"])]%string |}; es_lind := false;
     es_use_FR := false; es_dephasing := 0%R; es_sim_res := 1%R |}.
Definition demo_instr : einstr :=
  {| ei_t_start := 0; ei_t_end := 3; ei_comps := [("d", [("carrier", [("freq", 5%R); ("framechange", 0%R)])])]%string |}.
Definition demo_state : estate := {| st_opt_gates := None; st_overwrite := false; st_props := [("z"%string, mid)]; st_partial := [] |}.
Definition demo_prop (i : einstr) (st : list layer) : result propres := Ok {| pr_U := mid; pr_dUs := [mid]; pr_ts := [0%R] |}.
Lemma deph_0 : forall s i U, es_dephasing s = 0%R -> dephasing_part s i U = Ok U.
Proof. intros s i U H. unfold dephasing_part. rewrite H. destruct (Req_EM_T 0 0); [reflexivity|congruence]. Qed.
Example C80_example : exists p e',
  compute_propagators demo_prop demo_settings [("x", demo_instr); ("y", demo_instr)]%string
    (set_opt_gates_seq (nodup string_dec) [["x"; "x"]; ["x"]]%string demo_state) = (Ok p, e')
  /\ keys p = ["x"%string] /\ keys (st_props e') = ["z"; "x"]%string.
Proof.
  unfold compute_propagators. cbn [set_opt_gates_seq set_opt_gates st_opt_gates List.concat app nodup].
  cbn. unfold one_gate. cbn [dget String.eqb]. cbn. rewrite deph_0 by reflexivity. cbn.
  eexists. eexists. split; [reflexivity|]. split; reflexivity.
Qed.

(** ** C82: what the propagators satisfy *)
Lemma mmul_assoc_leibniz : forall n (a b c : mat), mmul n a (mmul n b c) = mmul n (mmul n a b) c.
Proof.
  intros n a b c. apply functional_extensionality; intro i. apply functional_extensionality; intro j.
  apply (mmul_assoc (S i) (S j) n n a b c i j); lia.
Qed.

(** Any property kept by products holds for the folded product, whatever the stack. *)
Lemma zip_mul_closed : forall M (mul : M -> M -> M) (P : M -> Prop), (forall a b, P a -> P b -> P (mul a b)) ->
  forall a b, Forall P a -> Forall P b -> Forall P (zip_mul mul a b).
Proof.
  intros M mul P HP a. induction a as [|x a IH]; intros b Ha Hb; [constructor|]. destruct b as [|y b]; [constructor|].
  inversion Ha; inversion Hb; subst. cbn [zip_mul]. constructor; auto.
Qed.
Lemma evens_closed : forall M (P : M -> Prop) l, Forall P l -> Forall P (evens l).
Proof.
  intros M P l H. rewrite Forall_forall in *. intros x Hx. apply H.
  assert (G : forall n l, length l <= n -> forall x : M, In x (evens l) -> In x l).
  { clear. induction n as [|n IH]; intros [|a [|b l]] L x Hx; cbn in *; try tauto; try lia. destruct Hx as [->|Hx]; auto.
    right. right. apply IH; auto. lia. }
  eapply G; eauto.
Qed.
Lemma batch_closed : forall M (mul : M -> M -> M) (P : M -> Prop), (forall a b, P a -> P b -> P (mul a b)) ->
  forall a b l, Forall P a -> Forall P b -> batch_matmul mul a b = Ok l -> Forall P l.
Proof.
  intros M mul P HP a b l Ha Hb H. unfold batch_matmul in H. destruct (Nat.eqb (length a) (length b)).
  - injection H as <-. apply zip_mul_closed; auto.
  - destruct a as [|x [|x' a]]; destruct b as [|y [|y' b]]; try discriminate; injection H as <-;
      repeat match goal with H : Forall _ (_ :: _) |- _ => inversion H; clear H; subst end;
      repeat constructor; auto; apply Forall_forall; intros z Hz; apply in_map_iff in Hz; destruct Hz as (w & <- & Hw);
      rewrite ?Forall_forall in *; auto.
Qed.
Lemma matmul_n_closed : forall M (mul : M -> M -> M) (P : M -> Prop), (forall a b, P a -> P b -> P (mul a b)) ->
  forall stack l u, Forall P l -> tf_matmul_n mul l stack = Ok u -> P u.
Proof.
  intros M mul P HP stack. induction stack as [|f stack IH]; intros l u Hl H; cbn [tf_matmul_n] in H.
  - destruct l; [discriminate|]. injection H as <-. inversion Hl; auto.
  - destruct (apply_layer mul f (odds l) (evens l)) as [l'|] eqn:E; [|discriminate]. cbn [rbind] in H. apply (IH l'); auto.
    assert (He : Forall P (evens l)) by (apply evens_closed; auto).
    assert (Ho : Forall P (odds l)).
    { unfold odds. apply evens_closed. destruct l; [constructor|]. inversion Hl; auto. }
    destruct f; cbn [apply_layer] in E.
    + exact (batch_closed _ _ _ HP _ _ _ Ho He E).
    + destruct (rev (evens l)) as [|e r] eqn:Er; [discriminate E|].
      assert (Hr : Forall P (rev (evens l))) by (apply Forall_rev; auto). rewrite Er in Hr. inversion Hr; subst.
      destruct (batch_matmul mul (odds l) (rev r)) as [q|] eqn:Eq; [|discriminate]. cbn [rbind] in E. injection E as <-.
      apply Forall_app. split; [|constructor; auto]. eapply batch_closed; [exact HP| | |exact Eq]; auto. apply Forall_rev. auto.
Qed.

(** The Hamiltonian of time slice [t]: drift plus every control Hamiltonian weighted
    with the sample of its line. *)
Definition driven_hamiltonian (m : pmodel) (signal : dict wave) (t : nat) : mat :=
  madd (p_h0 m)
    (fold_right (fun kv acc => match dget (fst kv) (p_hctrls m) with
                               | Some h => madd (mscale (RtoC (nth t (w_values (snd kv)) 0%R)) h) acc
                               | None => acc
                               end) mzero signal).
Definition samples (signal : dict wave) : nat := match signal with [] => 0 | kv :: _ => length (w_values (snd kv)) end.
(** The time step: difference of the first two time points of the last line. *)
Definition is_step (signal : dict wave) (dt : R) : Prop :=
  exists kv r t0 t1 ts, signal = r ++ [kv] /\ w_ts (snd kv) = t0 :: t1 :: ts /\ dt = (t1 - t0)%R.

Lemma controls_found : forall hc (signal : dict wave) hks, lookup_controls hc (keys signal) = Ok hks ->
  Forall2 (fun kv h => dget (fst kv) hc = Some h) signal hks.
Proof.
  intros hc signal. induction signal as [|kv signal IH]; intros hks H; cbn in H.
  - injection H as <-. constructor.
  - destruct (dget (fst kv) hc) as [h|] eqn:E; [|discriminate]. fold (keys signal) in H.
    destruct (lookup_controls hc (keys signal)) as [hs|]; [|discriminate]. cbn [rbind] in H. injection H as <-.
    constructor; auto.
Qed.
Lemma to_C_nth : forall l t, nth t (to_C l) (RtoC 0) = RtoC (nth t l 0%R).
Proof. intros l t. unfold to_C. apply map_nth. Qed.
Lemma slice_ham_driven : forall m (signal : dict wave) hks t,
  Forall2 (fun kv h => dget (fst kv) (p_hctrls m) = Some h) signal hks ->
  slice_ham madd mscale mzero (p_h0 m) hks
    (map (fun ch => nth t ch (RtoC 0)) (map to_C (map (fun kv => w_values (snd kv)) signal)))
  = driven_hamiltonian m signal t.
Proof.
  intros m signal hks t H. unfold slice_ham, driven_hamiltonian. f_equal.
  induction H as [|kv h signal hks E _ IH]; [reflexivity|]. cbn [map combine fold_right fst snd]. rewrite E, IH, to_C_nth. reflexivity.
Qed.
Lemma controlled_split : forall m signal stack batch r, pwc_controlled m signal stack batch = Ok r ->
  exists dt, is_step signal dt
   /\ length (pr_dUs r) = samples signal
   /\ (forall t, t < samples signal ->
       nth_error (pr_dUs r) t
       = Some (if p_lind m then lind_slice (p_dim m) (driven_hamiltonian m signal t) (p_cols m) dt
               else mexp (p_dim m) (mscale (- Ci * RtoC dt)%C (driven_hamiltonian m signal t))))
   /\ tf_matmul_n (mmul (if p_lind m then p_dim m * p_dim m else p_dim m)) (pr_dUs r) stack = Ok (pr_U r).
Proof.
  intros m signal stack batch r H. unfold pwc_controlled in H.
  destruct (negb (Nat.eqb (p_max_ex m) 0)); [discriminate|].
  destruct (lookup_controls (p_hctrls m) (keys signal)) as [hks|] eqn:El; [|discriminate]. cbn [rbind] in H.
  apply controls_found in El.
  destruct (ragged (map (fun kv => w_values (snd kv)) signal)) eqn:Er; [discriminate|].
  destruct (match rev signal with [] => [] | kv :: _ => w_ts (snd kv) end) as [|t0 [|t1 ts]] eqn:Et; try discriminate.
  set (dt := (t1 - t0)%R) in *.
  set (sig := map to_C (map (fun kv => w_values (snd kv)) signal)) in *.
  assert (Hw : forall ch, In ch sig -> length ch = width sig).
  { unfold sig. destruct signal as [|kv signal]; [intros ch []|]. cbn [map] in *. cbn [width].
    intros ch [<-|Hc]; [reflexivity|]. unfold ragged in Er. apply negb_false_iff in Er. rewrite forallb_forall in Er.
    apply in_map_iff in Hc. destruct Hc as (l & <- & Hl). unfold to_C. rewrite !map_length.
    apply Nat.eqb_eq. apply Er. exact Hl. }
  assert (Hs : width sig = samples signal).
  { unfold sig, samples. destruct signal; [reflexivity|]. cbn [map width]. unfold to_C. apply map_length. }
  set (b := batch_of batch (t0 :: t1 :: ts)) in *.
  destruct (Nat.eq_dec b 0) as [Eb|Eb].
  { exfalso. unfold batch_propagate in H. rewrite Eb in H. discriminate H. }
  destruct (C23_batching _ _ madd mscale mzero (mexp (p_dim m)) (fun h => lind_slice (p_dim m) h (p_cols m) dt)
              (p_lind m) (RtoC 0) (p_h0 m) hks sig (- Ci * RtoC dt)%C b ltac:(lia) Hw) as (us & Eu & Lu & Nu).
  rewrite Eu in H. cbn [rbind] in H.
  destruct (tf_matmul_n (mmul (if p_lind m then p_dim m * p_dim m else p_dim m)) us stack) as [U|] eqn:EU; [|discriminate].
  cbn [rbind] in H. injection H as <-. cbn [pr_dUs pr_U].
  exists dt. split; [|split; [|split]].
  - destruct (rev signal) as [|kv r] eqn:Ev; [discriminate Et|]. exists kv, (rev r), t0, t1, ts. split; [|split; auto].
    rewrite <- (rev_involutive signal), Ev. reflexivity.
  - congruence.
  - intros t Ht. rewrite Nu by congruence. f_equal. unfold sig. rewrite (slice_ham_driven m signal hks t El).
    unfold slice_prop. reflexivity.
  - exact EU.
Qed.

Lemma driven_hermitian : forall m signal t, hermitian (p_dim m) (p_h0 m) ->
  (forall k h, dget k (p_hctrls m) = Some h -> hermitian (p_dim m) h) -> hermitian (p_dim m) (driven_hamiltonian m signal t).
Proof.
  intros m signal t H0 Hc. unfold driven_hamiltonian. apply PropProofs.herm_add; [exact H0|].
  induction signal as [|kv signal IH]; cbn [fold_right]; [apply PropProofs.herm_zero|].
  destruct (dget (fst kv) (p_hctrls m)) as [h|] eqn:E; [|exact IH].
  apply PropProofs.herm_add; [|exact IH]. apply PropProofs.herm_scale. eapply Hc; eauto.
Qed.

(** The propagator of a gate is the time ordered product of the exponentials of its
    time slices. *)
Theorem C82_time_slices :
  forall m signal batch r, p_lind m = false -> 0 < samples signal ->
  pwc_controlled m signal (folding_stack (samples signal)) batch = Ok r ->
  TimeOrdered (mmul (p_dim m)) (pr_dUs r) (pr_U r)
  /\ exists dt, is_step signal dt /\ length (pr_dUs r) = samples signal
     /\ forall t, t < samples signal ->
        nth_error (pr_dUs r) t = Some (mexp (p_dim m) (mscale (- Ci * RtoC dt)%C (driven_hamiltonian m signal t))).
Proof.
  intros m signal batch r Hl Hs H. destruct (controlled_split _ _ _ _ _ H) as (dt & A & B & D & E). rewrite Hl in *.
  split; [|exists dt; auto].
  destruct (C21_folded_product mat (mmul (p_dim m)) (mmul_assoc_leibniz (p_dim m)) (pr_dUs r)) as (p & P1 & P2).
  - intro X. rewrite X in B. cbn in B. lia.
  - rewrite B in P1. rewrite E in P1. injection P1 as ->. exact P2.
Qed.
Print Assumptions C82_time_slices.
(** For Hermitian Hamiltonians it is unitary, as is every partial propagator,
    whatever the signals, the number of slices, the batch size and the stack. *)
Theorem C82_closed_unitary :
  forall m signal stack batch r, p_lind m = false -> hermitian (p_dim m) (p_h0 m) ->
  (forall k h, dget k (p_hctrls m) = Some h -> hermitian (p_dim m) h) ->
  pwc_controlled m signal stack batch = Ok r ->
  unitary (p_dim m) (pr_U r) /\ Forall (unitary (p_dim m)) (pr_dUs r).
Proof.
  intros m signal stack batch r Hl H0 Hc H. destruct (controlled_split _ _ _ _ _ H) as (dt & A & B & D & E). rewrite Hl in *.
  assert (F : Forall (unitary (p_dim m)) (pr_dUs r)).
  { apply Forall_forall. intros u Hu. apply In_nth_error in Hu. destruct Hu as (t & Ht).
    assert (Lt : t < samples signal) by (rewrite <- B; apply nth_error_Some; congruence).
    rewrite (D t Lt) in Ht. injection Ht as <-. apply mexp_unitary. apply driven_hermitian; auto. }
  split; [|exact F]. apply (matmul_n_closed _ (mmul (p_dim m)) (unitary (p_dim m)) (unitary_mmul (p_dim m)) _ _ _ F E).
Qed.
Print Assumptions C82_closed_unitary.

(** A superoperator (on row stacked density matrices) keeps trace and Hermiticity. *)
Definition evolved (n : nat) (S rho : mat) : mat := row_unstack n (mmul (n * n) S (row_stack n rho)).
Definition keeps_density (n : nat) (S : mat) : Prop :=
  forall rho, mtrace n (evolved n S rho) = mtrace n rho /\ (hermitian n rho -> hermitian n (evolved n S rho)).
Lemma evolved_mmul : forall n S T rho, meq n n (evolved n (mmul (n * n) S T) rho) (evolved n S (evolved n T rho)).
Proof.
  intros n A B rho. unfold evolved. apply row_unstack_mor.
  rewrite <- (mmul_assoc (n * n) 1 (n * n) (n * n)). apply mmul_mor_r. symmetry. apply row_stack_unstack.
Qed.
Lemma keeps_density_mmul : forall n S T, keeps_density n S -> keeps_density n T -> keeps_density n (mmul (n * n) S T).
Proof.
  intros n A B HA HB rho. destruct (HB rho) as [T1 H1]. destruct (HA (evolved n B rho)) as [T2 H2]. split.
  - rewrite (mtrace_proper n _ _ (evolved_mmul n A B rho)). congruence.
  - intro H. rewrite evolved_mmul. auto.
Qed.
Lemma keeps_density_slice : forall n h cols dt, hermitian n h -> keeps_density n (lind_slice n h cols dt).
Proof.
  intros n h cols dt H rho. split.
  - apply (lind_evolve_trace n h cols dt rho).
  - intro Hr. apply (lind_evolve_herm n h cols dt rho H Hr).
Qed.
(** Open systems: every gate keeps the trace and the Hermiticity of density matrices. *)
Theorem C82_open_density :
  forall m signal stack batch r, p_lind m = true -> hermitian (p_dim m) (p_h0 m) ->
  (forall k h, dget k (p_hctrls m) = Some h -> hermitian (p_dim m) h) ->
  pwc_controlled m signal stack batch = Ok r ->
  keeps_density (p_dim m) (pr_U r) /\ Forall (keeps_density (p_dim m)) (pr_dUs r).
Proof.
  intros m signal stack batch r Hl H0 Hc H. destruct (controlled_split _ _ _ _ _ H) as (dt & A & B & D & E). rewrite Hl in *.
  assert (F : Forall (keeps_density (p_dim m)) (pr_dUs r)).
  { apply Forall_forall. intros u Hu. apply In_nth_error in Hu. destruct Hu as (t & Ht).
    assert (Lt : t < samples signal) by (rewrite <- B; apply nth_error_Some; congruence).
    rewrite (D t Lt) in Ht. injection Ht as <-. apply keeps_density_slice. apply driven_hermitian; auto. }
  split; [|exact F].
  apply (matmul_n_closed _ (mmul (p_dim m * p_dim m)) (keeps_density (p_dim m)) (keeps_density_mmul (p_dim m)) _ _ _ F E).
Qed.
Print Assumptions C82_open_density.

(** Every propagator an experiment computes this way is unitary, in the dressed or
    rotating frame, with or without frame rotation. *)
Theorem C82_experiment_unitary :
  forall m (gen : einstr -> result (dict wave)) batch s ins e p e',
  p_lind m = false -> es_lind s = false -> p_dim m = prod_dims (f_dims (es_sys s)) ->
  hermitian (p_dim m) (p_h0 m) -> (forall k h, dget k (p_hctrls m) = Some h -> hermitian (p_dim m) h) ->
  List.length (f_names (es_sys s)) = List.length (f_dims (es_sys s)) -> NoDup (f_names (es_sys s)) ->
  compute_propagators (fun i st => rbind (gen i) (fun signal => pwc_controlled m signal st batch)) s ins e = (Ok p, e') ->
  forall g U, dget g p = Some U -> unitary (p_dim m) U.
Proof.
  intros m gen batch s ins e p e' Hl Hs Hd H0 Hc Hn ND H g U Hg.
  destruct (C80_selected_gates _ _ _ _ _ _ H) as (_ & K & A & _).
  destruct (A g) as (i & r & U1 & U2 & d & _ & Er & Ef & Ed & _ & Ep & _). { apply K. eapply dget_in_keys; eauto. }
  assert (U2 = U) by congruence. subst U2.
  destruct (gen i) as [signal|]; [|discriminate Er]. cbn [rbind] in Er.
  destruct (C82_closed_unitary _ _ _ _ _ Hl H0 Hc Er) as [HU _].
  assert (HU1 : unitary (p_dim m) U1).
  { unfold frame_part in Ef. destruct (es_use_FR s); [|congruence].
    destruct (frame_dicts (ei_comps i) ([], [])) as [ff|]; [|discriminate]. cbn [rbind] in Ef.
    destruct (get_frame_rotation (es_sys s) _ (fst ff) (snd ff)) as [FR|] eqn:EF; [|discriminate]. cbn [rbind] in Ef.
    rewrite Hs, <- Hd in Ef. injection Ef as <-. apply unitary_mmul; auto. rewrite Hd.
    eapply C33_frame_rotation_unitary; eauto. }
  unfold dephasing_part in Ed. rewrite Hs in Ed. destruct (Req_EM_T (es_dephasing s) 0); [|discriminate]. congruence.
Qed.
Print Assumptions C82_experiment_unitary.

Lemma keeps_density_super : forall n U, unitary n U -> keeps_density n (tf_super n U).
Proof.
  intros n U HU rho.
  assert (E : meq n n (evolved n (tf_super n U) rho) (mmul n (mmul n U rho) (madj U))).
  { unfold evolved. rewrite (row_unstack_mor n _ _ (super_row_stack n U rho)). apply row_unstack_stack. }
  split.
  - rewrite (mtrace_proper n _ _ E). rewrite mtrace_mmul. apply mtrace_proper.
    rewrite (mmul_assoc n n n n). destruct HU as [HU1 HU2]. rewrite HU1. apply mmul_id_l.
  - intro Hr. rewrite E. apply PropProofs.herm_sandwich. exact Hr.
Qed.
(** The same for open systems, with dephasing switched off. *)
Theorem C82_experiment_density :
  forall m (gen : einstr -> result (dict wave)) batch s ins e p e',
  p_lind m = true -> es_lind s = true -> p_dim m = prod_dims (f_dims (es_sys s)) -> es_dephasing s = 0%R ->
  hermitian (p_dim m) (p_h0 m) -> (forall k h, dget k (p_hctrls m) = Some h -> hermitian (p_dim m) h) ->
  List.length (f_names (es_sys s)) = List.length (f_dims (es_sys s)) -> NoDup (f_names (es_sys s)) ->
  compute_propagators (fun i st => rbind (gen i) (fun signal => pwc_controlled m signal st batch)) s ins e = (Ok p, e') ->
  forall g U, dget g p = Some U -> keeps_density (p_dim m) U.
Proof.
  intros m gen batch s ins e p e' Hl Hs Hd Hz H0 Hc Hn ND H g U Hg.
  destruct (C80_selected_gates _ _ _ _ _ _ H) as (_ & K & A & _).
  destruct (A g) as (i & r & U1 & U2 & d & _ & Er & Ef & Ed & _ & Ep & _). { apply K. eapply dget_in_keys; eauto. }
  assert (U2 = U) by congruence. subst U2. rewrite deph_0 in Ed by exact Hz. injection Ed as ->.
  destruct (gen i) as [signal|]; [|discriminate Er]. cbn [rbind] in Er.
  destruct (C82_open_density _ _ _ _ _ Hl H0 Hc Er) as [HU _].
  unfold frame_part in Ef. destruct (es_use_FR s); [|injection Ef as <-; exact HU].
  destruct (frame_dicts (ei_comps i) ([], [])) as [ff|]; [|discriminate]. cbn [rbind] in Ef.
  destruct (get_frame_rotation (es_sys s) _ (fst ff) (snd ff)) as [FR|] eqn:EF; [|discriminate]. cbn [rbind] in Ef.
  rewrite Hs, <- Hd in Ef. injection Ef as <-. apply keeps_density_mmul; auto. apply keeps_density_super. rewrite Hd.
  eapply C33_frame_rotation_unitary; eauto.
Qed.
Print Assumptions C82_experiment_density.

(** With an excitation cut-off the propagator is unitary on the kept states only: the
    full matrix has zero rows for the states above it. *)
Theorem C82_cut_block_unitary :
  forall m hs signal stack batch r, p_max_ex m <> 0 -> p_lind m = false ->
  let d := length (kept (p_dims m) (p_max_ex m)) in
  Forall (hermitian d) hs ->
  pwc_uncontrolled m hs signal stack batch = Ok r ->
  unitary d (cut_excitations (p_dims m) (p_max_ex m) (pr_U r)).
Proof.
  intros m hs signal stack batch r Hm Hl d Hh H. unfold pwc_uncontrolled in H.
  destruct (map (fun kv => tl (w_ts (snd kv))) signal) as [|t0 tss] eqn:Et; [discriminate|].
  destruct (ragged (t0 :: tss)); [discriminate|].
  destruct (map (fun j => rmean (time_column (t0 :: tss) j)) (seq 0 (length t0))) as [|a [|b ts]] eqn:Ets; try discriminate.
  destruct (negb (forallb _ _)); [discriminate|]. destruct (negb (rltb _ _)); [discriminate|].
  rewrite (proj2 (Nat.eqb_neq _ _) Hm) in H.
  assert (Hr : rows (ex_cutter (p_dims m) (p_max_ex m)) = d).
  { unfold ex_cutter. cbn [rows]. rewrite cutter_kept, map_length. reflexivity. }
  rewrite Hr, Hl in H. set (bs := batch_of batch (a :: b :: ts)) in *.
  destruct (Nat.eq_dec bs 0) as [Eb|Eb]. { exfalso. unfold batch_propagate_h in H. rewrite Eb in H. discriminate H. }
  rewrite C23_batching_hamiltonian in H by lia. cbn [rbind] in H.
  destruct (tf_matmul_n _ _ stack) as [U|]; [|discriminate]. cbn [rbind] in H.
  destruct (tf_matmul_left _ _) as [V|] eqn:EV; [|discriminate]. cbn [rbind] in H. injection H as <-. cbn [pr_U].
  destruct (C31_cut_after_blowup (p_dims m) (p_max_ex m) V) as [E _]. fold d in E. rewrite E.
  assert (F : Forall (unitary d) (map (fun h => mexp d (mscale (- Ci * RtoC (b - a)%R)%C h)) hs)).
  { apply Forall_map. eapply Forall_impl; [|exact Hh]. intros h Hh'. apply mexp_unitary. exact Hh'. }
  clear - EV F. set (us := map _ _) in *. clearbody us. apply Forall_rev in F. unfold tf_matmul_left in EV.
  destruct (rev us) as [|u r]; [discriminate|]. injection EV as <-. inversion F as [|? ? Hu Hr]; subst. clear F.
  revert u Hu. induction r as [|v r IH]; intros u Hu; [exact Hu|]. cbn [fold_left].
  inversion Hr; subst. apply IH; auto. apply unitary_mmul; auto.
Qed.
Print Assumptions C82_cut_block_unitary.
(** Finding: With an excitation cut-off the gate of the whole space is not unitary as soon as some state is cut. *)
Theorem C82_cut_unitary_refuted :
  forall m hs signal stack batch r l, p_max_ex m <> 0 ->
  valid (p_dims m) l -> p_max_ex m < list_sum l ->
  pwc_uncontrolled m hs signal stack batch = Ok r -> ~ unitary (prod_dims (p_dims m)) (pr_U r).
Proof.
  intros m hs signal stack batch r l Hm Hv Hs H HU. unfold pwc_uncontrolled in H.
  destruct (map (fun kv => tl (w_ts (snd kv))) signal) as [|t0 tss] eqn:Et; [discriminate|].
  destruct (ragged (t0 :: tss)); [discriminate|].
  destruct (map (fun j => rmean (time_column (t0 :: tss) j)) (seq 0 (length t0))) as [|a [|b ts]] eqn:Ets; try discriminate.
  destruct (negb (forallb _ _)); [discriminate|]. destruct (negb (rltb _ _)); [discriminate|].
  rewrite (proj2 (Nat.eqb_neq _ _) Hm) in H.
  destruct (batch_propagate_h _ _ _ _ _ _ _) as [dUs|]; [|discriminate]. cbn [rbind] in H.
  destruct (tf_matmul_n _ _ stack) as [U|]; [|discriminate]. cbn [rbind] in H.
  destruct (tf_matmul_left _ _) as [V|] eqn:EV; [|discriminate]. cbn [rbind] in H. injection H as <-. cbn [pr_U] in HU.
  set (N := prod_dims (p_dims m)) in *. set (B := blowup_excitations (p_dims m) (p_max_ex m) V) in *.
  assert (Hp : pos (p_dims m) l < N) by (apply pos_lt; exact Hv).
  assert (Z : forall j, j < N -> B (pos (p_dims m) l) j = RtoC 0 /\ B j (pos (p_dims m) l) = RtoC 0).
  { intros j Hj. destruct (pos_surj _ _ Hj) as (l' & Hl' & <-).
    destruct (C31_blowup_places_elements (p_dims m) (p_max_ex m) V) as [_ Z]. split; apply Z; auto. }
  destruct HU as [HU1 _]. specialize (HU1 _ _ Hp Hp). unfold mid in HU1. rewrite Nat.eqb_refl in HU1.
  assert (Y : csum N (fun k => Cmult (RtoC 0) (RtoC 0)) = RtoC 1 -> False).
  { intro Y. rewrite (csum_0 N) in Y by (intros; ring). injection Y as Y. lra. }
  apply Y. rewrite <- HU1. unfold mmul, madj. apply csum_ext. intros k Hk. destruct (Z k Hk) as [_ ->].
  unfold Cconj; cbn. apply injective_projections; cbn; ring.
Qed.
Print Assumptions C82_cut_unitary_refuted.
(** Such a cut-off works with a model without separate controls only. *)
Theorem C82_cut_controlled_refuted :
  forall m signal stack batch, p_max_ex m <> 0 -> is_ok (pwc_controlled m signal stack batch) = false.
Proof. intros m signal stack batch H. unfold pwc_controlled. rewrite (proj2 (Nat.eqb_neq _ _) H). reflexivity. Qed.
Print Assumptions C82_cut_controlled_refuted.
(** A dephasing strength other than zero makes the computation of every driven gate
    fail. *)
Theorem C82_dephasing_refuted :
  forall prop s ins e g i, es_dephasing s <> 0%R -> In g (selected ins e) -> dget g ins = Some i -> ei_comps i <> [] ->
  is_ok (fst (compute_propagators prop s ins e)) = false.
Proof.
  intros prop s ins e g i Hd Hg Hi Hc. destruct (compute_propagators prop s ins e) as [[p|x] e'] eqn:E; [|reflexivity].
  exfalso. destruct (C80_selected_gates _ _ _ _ _ _ E) as (_ & _ & A & _).
  destruct (A g Hg) as (i' & r & U1 & U & d & Hi' & _ & _ & D & _). assert (i' = i) by congruence. subst i'.
  unfold dephasing_part in D. destruct (Req_EM_T (es_dephasing s) 0); [congruence|]. destruct (negb (es_lind s)); [discriminate|].
  destruct (ei_comps i); [congruence|discriminate].
Qed.
Print Assumptions C82_dephasing_refuted.

(** A driven two-level system over three slices, and its propagator. *)
Definition demo_model : pmodel :=
  {| p_dim := 2; p_h0 := fun i j => if Nat.eqb i 1 && Nat.eqb j 1 then RtoC 5 else RtoC 0;
     p_hctrls := [("d"%string, fun i j => if Nat.eqb i j then RtoC 0 else RtoC 1)]; p_lind := false; p_cols := [];
     p_dims := [2]; p_max_ex := 0 |}.
Definition demo_signal : dict wave :=
  [("d"%string, {| w_values := [1%R; 2%R; 3%R]; w_ts := [0%R; 1%R; 2%R] |})].
Example C82_example : exists r, pwc_controlled demo_model demo_signal (folding_stack (samples demo_signal)) (Some 2) = Ok r
  /\ hermitian 2 (p_h0 demo_model) /\ unitary 2 (pr_U r) /\ TimeOrdered (mmul 2) (pr_dUs r) (pr_U r).
Proof.
  assert (H0 : hermitian 2 (p_h0 demo_model)).
  { intros i j Hi Hj. unfold madj, demo_model, Cconj. cbn [p_h0].
    destruct i as [|[|i]]; destruct j as [|[|j]]; try lia; cbn; apply injective_projections; cbn; ring. }
  assert (Hc : forall k h, dget k (p_hctrls demo_model) = Some h -> hermitian 2 h).
  { intros k h Hk. cbn in Hk. destruct (String.eqb k "d"); [|discriminate]. injection Hk as <-. intros i j Hi Hj.
    unfold madj, Cconj. destruct i as [|[|i]]; destruct j as [|[|j]]; try lia; cbn; apply injective_projections; cbn; ring. }
  destruct (pwc_controlled demo_model demo_signal (folding_stack (samples demo_signal)) (Some 2)) as [r|x] eqn:E.
  - exists r. split; [reflexivity|]. split; [exact H0|]. split.
    + exact (proj1 (C82_closed_unitary demo_model _ _ _ _ eq_refl H0 Hc E)).
    + refine (proj1 (C82_time_slices demo_model demo_signal _ r eq_refl _ E)). cbn. lia.
  - exfalso. cbn in E. discriminate E.
Qed.
