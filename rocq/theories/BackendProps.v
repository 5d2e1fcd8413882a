From Coq Require Import Reals Lra Lia.
From Coquelicot Require Import Complex.
From Verif Require Import Base Mat HilbertModel HilbertProofs FidModel TaskModel MiscModel QiskitModel QiskitProps Exp3Props BackendModel.
Local Open Scope list_scope.
Local Open Scope nat_scope.
Local Notation length := List.length.

Section Spec.
  Context {P A B : Type}.
  Variables (dims : list nat) (lind : bool) (psi0 : smat) (readout : P -> tasks).
  Variable set_parameters : list A -> list B -> P -> P * option exn.
  Variable gate_update : qgate -> P -> P * option exn.
  Variable compute_propagators : P -> result (dict smat).

  (** ** Specification *)
  (** The gates of a circuit (neither "measure" nor "barrier") and the update of the parameters
      at its end, if there is one. *)
  Definition gates_and_update (ops gates : list qgate) (u : option qgate) : Prop :=
    match u with
    | None => Kept ops gates /\ (forall g l, gates = l ++ [g] -> qg_name g <> "param_update"%string)
    | Some g => Kept ops (gates ++ [g]) /\ qg_name g = "param_update"%string
    end.
  (** The parameters after the update of a circuit *)
  Definition after_update (u : option qgate) (p p' : P) : Prop :=
    match u with None => p' = p | Some g => gate_update g p = (p', None) end.
  (** [r] is what the backend reports for a circuit, given the parameters, the initial state and the gates:
      the populations after the gates, as read out, one number per basis state. *)
  Definition reports (p : P) (init : smat) (shots : R) (ops gates : list qgate) (r : qresult) : Prop :=
    exists props pops, compute_propagators p = Ok props
    /\ runs_to {| x_dims := dims; x_lind := lind; x_props := props; x_init := init; x_tasks := readout p |} gates pops
    /\ forall L n, dims = repeat L n -> n <> 0 -> length pops = L ^ n ->
       keys (r_counts r) = get_labels_qiskit L n /\
       forall l i, get_state_index dims l = Ok i ->
         exists c, dget (HexString.of_nat i) (r_counts r) = Some c /\ reported ops shots (nth i pops 0%R) c
           /\ dget (str_tuple l) (r_state_pops r) = Some (nth i pops 0%R).
  (** A sequence of circuits: each starts from the same state with the parameters left by the one before,
      and its own update acts before its gates. *)
  Inductive job_results (init : smat) (shots : R) : P -> list circuit -> list qresult -> P -> Prop :=
  | jr_nil : forall p, job_results init shots p [] [] p
  | jr_cons : forall p c cs gates u p1 r rs p2,
      ci_qubits c <= length dims -> gates_and_update (ci_ops c) gates u -> after_update u p p1 ->
      reports p1 init shots (ci_ops c) gates r -> job_results init shots p1 cs rs p2 ->
      job_results init shots p (c :: cs) (r :: rs) p2.

  Local Notation run_circuit := (run_circuit dims lind psi0 readout gate_update compute_propagators).
  Local Notation run_circuits := (run_circuits dims lind psi0 readout gate_update compute_propagators).
  Local Notation run := (run dims lind psi0 readout set_parameters gate_update compute_propagators).
  Definition init_of (iv : option smat) : smat := match iv with Some psi => psi | None => psi0 end.

  Lemma eval_reports : forall x lv iv shots ops gates r, hd_error dims = Some lv -> compute_propagators (xs_par x) = Ok (xs_props x) ->
    eval_circuit dims lind psi0 readout x lv iv shots ops gates = Ok r -> reports (xs_par x) (init_of iv) shots ops gates r.
  Proof.
    intros x lv iv shots ops gates r HL HP H. unfold eval_circuit in H. cbv zeta in H. set (q := view dims lind psi0 readout iv x) in *.
    destruct (key_error _) as [p|] eqn:Hk in H; [|discriminate]. cbn [rbind] in H.
    unfold key_error in Hk. destruct (rbind _ _) as [p'|e] eqn:Ep in Hk; [|destruct e; discriminate]. injection Hk as <-.
    destruct (evaluate_qasm _ _ _ _ [gates]) as [ps|] eqn:Ee in Ep; [|discriminate]. cbn [rbind] in Ep.
    destruct p' as [fin raw]. cbn [fst] in H. destruct fin as [|[pops|] rest]; try discriminate H.
    exists (xs_props x), pops. split; [exact HP|]. split; [exists rest, raw, ps; split; [exact Ee|exact Ep]|].
    intros L n Hd Hn HLn. assert (lv = L) by (rewrite Hd in HL; destruct n; [congruence|]; cbn in HL; congruence). subst lv.
    destruct (package_counts q L n shots ops pops rest r Hd HLn H) as (A1 & _ & A3). split; [exact A1|exact A3].
  Qed.
  (** the propagators belong to the parameters *)
  Definition fresh (x : xstate) : Prop := compute_propagators (xs_par x) = Ok (xs_props x).
  Lemma circuit_reports : forall x lv iv shots c x' r, hd_error dims = Some lv -> fresh x -> run_circuit x lv iv shots c = (x', Ok r) ->
    fresh x' /\ ci_qubits c <= length dims /\ exists gates u, gates_and_update (ci_ops c) gates u /\ after_update u (xs_par x) (xs_par x') /\
      reports (xs_par x') (init_of iv) shots (ci_ops c) gates r.
  Proof.
    intros x lv iv shots c x' r HL HP H. unfold BackendModel.run_circuit in H. cbv zeta in H.
    destruct (Nat.ltb_spec (length dims) (ci_qubits c)) as [|Q]; [discriminate|].
    set (k := fst (sanitize_instructions (ci_ops c))) in *.
    assert (K : Kept (ci_ops c) k) by (apply kept_sanitize; reflexivity).
    destruct (rev k) as [|g before] eqn:Er; [discriminate|].
    assert (Ek : k = rev before ++ [g]) by (rewrite <- (rev_involutive k), Er; reflexivity).
    destruct (String.eqb_spec (qg_name g) "param_update") as [E|E].
    - destruct (gate_update g (xs_par x)) as [p [e|]] eqn:Eg; [discriminate|].
      destruct (compute_propagators p) as [pr|] eqn:Ec; [|discriminate]. injection H as <- H. cbn [xs_par].
      split; [exact Ec|]. split; [exact Q|]. exists (rev before), (Some g). split; [split; [rewrite <- Ek; exact K|exact E]|]. split; [exact Eg|].
      change p with (xs_par (mkX p pr)). eapply eval_reports; [exact HL|exact Ec|exact H].
    - injection H as <- H. split; [exact HP|]. split; [exact Q|]. exists k, None. split.
      + split; [exact K|]. intros g' l El. rewrite Ek in El. apply app_inj_tail in El as [_ ->]. exact E.
      + split; [reflexivity|]. eapply eval_reports; eauto.
  Qed.
  Lemma circuits_report : forall lv iv shots cs x x' rs, hd_error dims = Some lv -> fresh x -> run_circuits x lv iv shots cs = (x', Ok rs) ->
    fresh x' /\ job_results (init_of iv) shots (xs_par x) cs rs (xs_par x').
  Proof.
    intros lv iv shots. induction cs as [|c cs IH]; intros x x' rs HL HP H; cbn [BackendModel.run_circuits] in H.
    - injection H as <- <-. split; [exact HP|constructor].
    - destruct (run_circuit x lv iv shots c) as [x1 [q|e]] eqn:E; [|discriminate].
      destruct (run_circuits x1 lv iv shots cs) as [x2 [qs|e]] eqn:E2; [|discriminate]. injection H as <- <-.
      destruct (circuit_reports _ _ _ _ _ _ _ HL HP E) as (F1 & Q & gates & u & G1 & G2 & G3).
      destruct (IH _ _ _ HL F1 E2) as (F2 & J). split; [exact F2|]. econstructor; eauto.
  Qed.

  (** A backend without leftover options *)
  Definition clean (b : backend (P := P) (A := A) (B := B)) : Prop := bk_params b = None /\ bk_map b = None /\ bk_sv b = None.
  (** A request without a state vector whose parameters come with their names *)
  Definition plain (rq : request (A := A) (B := B)) : Prop :=
    rq_sv rq = None /\ ((rq_params rq = None /\ rq_map rq = None) \/ exists v vs m ms, rq_params rq = Some (v :: vs) /\ rq_map rq = Some (m :: ms)).
  (** the parameters set by the options *)
  Definition set_by (rq : request (A := A) (B := B)) (p p' : P) : Prop :=
    match rq_params rq, rq_map rq with Some vs, Some ms => set_parameters vs ms p = (p', None) | _, _ => p' = p end.


  (** ** C110 *)

  (** A job without leftovers from earlier ones returns one result per circuit, in order.  The
      parameters of the options are set first, once; every circuit starts in the initial state
      of the model, and an update at its end acts before its gates and for all later circuits. *)
Theorem C110_job : forall b rq b' rs, clean b -> plain rq -> run b rq = (b', Ok rs) ->
    clean b' /\ exists p, set_by rq (xs_par (bk_x b)) p /\ job_results psi0 (rq_shots rq) p (rq_circuits rq) rs (xs_par (bk_x b')).
  Proof.
    intros b rq b' rs (C1 & C2 & C3) (S1 & S2) H. unfold BackendModel.run in H. cbv zeta in H. unfold this_sv in H. rewrite C1, C2, C3, S1 in H. cbn [updated check_sv] in H.
    destruct (Nat.ltb 10 (rq_qubits rq)); [discriminate|]. destruct dims as [|lv ds] eqn:ED; [discriminate|]. rewrite <- ED in *.
    assert (HL : hd_error dims = Some lv) by (rewrite ED; reflexivity).
    assert (U : (exists e, snd (update_pars set_parameters (bk_x b) (updated (rq_params rq) None) (updated (rq_map rq) None)) = Some e) \/
      exists p, set_by rq (xs_par (bk_x b)) p /\ update_pars set_parameters (bk_x b) (updated (rq_params rq) None) (updated (rq_map rq) None) = (mkX p (xs_props (bk_x b)), None, None, None)).
    { destruct S2 as [[E1 E2]|(v & vs & m & ms & E1 & E2)]; unfold set_by; rewrite E1, E2; cbn [updated update_pars].
      - right. exists (xs_par (bk_x b)). split; [reflexivity|]. destruct (bk_x b); reflexivity.
      - destruct (set_parameters (v :: vs) (m :: ms) (xs_par (bk_x b))) as [p [e|]]; [left; exists e; reflexivity|right; exists p; split; reflexivity]. }
    destruct U as [(e & U)|(p & SB & U)].
    { destruct (update_pars _ _ _ _) as [[[x1 ps1] om1] e1]. cbn [snd] in U. subst e1. discriminate H. }
    rewrite U in H. cbn [xs_par] in H. destruct (compute_propagators p) as [pr|] eqn:Ec; [|discriminate].
    destruct (run_circuits (mkX p pr) lv None (rq_shots rq) (rq_circuits rq)) as [x2 r] eqn:E. injection H as <- ->. split; [repeat split|].
    exists p. split; [exact SB|]. destruct (circuits_report lv None _ _ (mkX p pr) _ _ HL Ec E) as (_ & J). exact J.
  Qed.

  (** Only the current parameters matter: neither earlier jobs nor the propagators computed before. *)
Theorem C110_history : forall b1 b2 rq, clean b1 -> clean b2 -> rq_sv rq = None -> xs_par (bk_x b1) = xs_par (bk_x b2) ->
    snd (run b1 rq) = snd (run b2 rq) /\ xs_par (bk_x (fst (run b1 rq))) = xs_par (bk_x (fst (run b2 rq))).
  Proof.
    intros b1 b2 rq (C1 & C2 & C3) (D1 & D2 & D3) S1 EP. unfold BackendModel.run. cbv zeta. unfold this_sv. rewrite C1, C2, C3, D1, D2, D3, S1. cbn [updated check_sv].
    destruct (Nat.ltb 10 (rq_qubits rq)); [split; [reflexivity|exact EP]|]. destruct dims as [|lv ds] eqn:ED; [split; [reflexivity|exact EP]|]. rewrite <- ED.
    assert (U : let '(x1, a1, c1, e1) := update_pars set_parameters (bk_x b1) (updated (rq_params rq) None) (updated (rq_map rq) None) in
                let '(x2, a2, c2, e2) := update_pars set_parameters (bk_x b2) (updated (rq_params rq) None) (updated (rq_map rq) None) in
                xs_par x1 = xs_par x2 /\ e1 = e2).
    { destruct (updated (rq_params rq) None) as [[|v vs]|]; cbn [update_pars]; [auto| |auto].
      destruct (updated (rq_map rq) None) as [[|m ms]|]; cbn [update_pars]; [auto| |auto]. rewrite EP. destruct (set_parameters _ _ _) as [p e]. auto. }
    destruct (update_pars set_parameters (bk_x b1) _ _) as [[[x1 a1] c1] e1]. destruct (update_pars set_parameters (bk_x b2) _ _) as [[[x2 a2] c2] e2].
    destruct U as (U1 & <-). destruct e1; [split; [reflexivity|exact U1]|]. rewrite U1. destruct (compute_propagators (xs_par x2)); [|split; [reflexivity|exact U1]].
    destruct (run_circuits _ _ _ _ _) as [x3 r]. split; reflexivity.
  Qed.

  (** no update of the parameters at the end of the circuit *)
  Definition no_update (c : circuit) : Prop := forall l g, Kept (ci_ops c) (l ++ [g]) -> qg_name g <> "param_update"%string.
  Definition job (shots : R) (q : nat) (cs : list circuit) : request (A := A) (B := B) := mkRQ None None None shots q cs.
  Lemma circuit_stays : forall x lv iv shots c, no_update c -> fst (run_circuit x lv iv shots c) = x.
  Proof.
    intros x lv iv shots c N. unfold BackendModel.run_circuit. cbv zeta. destruct (Nat.ltb _ _); [reflexivity|].
    set (k := fst (sanitize_instructions (ci_ops c))) in *.
    assert (K : Kept (ci_ops c) k) by (apply kept_sanitize; reflexivity).
    destruct (rev k) as [|g before] eqn:Er; [reflexivity|].
    assert (Ek : k = rev before ++ [g]) by (rewrite <- (rev_involutive k), Er; reflexivity). rewrite Ek in K. pose proof (N _ _ K) as NN.
    destruct (String.eqb_spec (qg_name g) "param_update"); [contradiction|reflexivity].
  Qed.
  Lemma circuits_separate : forall lv iv shots cs x, Forall no_update cs ->
    fst (run_circuits x lv iv shots cs) = x /\
    forall rs, snd (run_circuits x lv iv shots cs) = Ok rs <-> Forall2 (fun c r => snd (run_circuit x lv iv shots c) = Ok r) cs rs.
  Proof.
    intros lv iv shots cs x F. induction F as [|c cs N F [IH1 IH2]]; cbn [BackendModel.run_circuits].
    - split; [reflexivity|]. intro rs. split; intro H; [injection H as <-; constructor|inversion H; reflexivity].
    - pose proof (circuit_stays x lv iv shots c N) as ST. destruct (run_circuit x lv iv shots c) as [x1 r1] eqn:E. cbn [fst] in ST. subst x1.
      destruct r1 as [q|e].
      + destruct (run_circuits x lv iv shots cs) as [x2 r2]. cbn [fst snd] in *. subst x2. destruct r2 as [qs|e]; cbn [fst snd]; (split; [reflexivity|]); intro rs; split; intro H.
        * injection H as <-. constructor; [rewrite E; reflexivity|]. apply IH2. reflexivity.
        * inversion H as [|? r ? rs' H1 H2]; subst. rewrite E in H1. cbn [snd] in H1. injection H1 as ->. apply IH2 in H2. congruence.
        * discriminate.
        * inversion H as [|? r ? rs' H1 H2]; subst. apply IH2 in H2. discriminate.
      + split; [reflexivity|]. intro rs. split; intro H; [discriminate|]. inversion H as [|? r ? rs' H1 H2]; subst. rewrite E in H1. discriminate.
  Qed.

  (** Circuits that update nothing do not influence each other: running them in one job is
      running each in a job of its own, and leaves the parameters as they are. *)
Theorem C110_separate : forall b shots q cs, clean b -> Forall no_update cs -> cs <> [] ->
    xs_par (bk_x (fst (run b (job shots q cs)))) = xs_par (bk_x b) /\
    forall rs, snd (run b (job shots q cs)) = Ok rs <-> Forall2 (fun c r => snd (run b (job shots q [c])) = Ok [r]) cs rs.
  Proof.
    intros b shots q cs (C1 & C2 & C3) F NE. unfold BackendModel.run, job. cbv zeta. cbn [rq_params rq_map rq_sv rq_shots rq_qubits rq_circuits this_sv]. rewrite C1, C2, C3. cbn [updated check_sv].
    assert (BAD : forall e rs, Err e = Ok rs <-> Forall2 (fun (_ : circuit) (r : qresult) => Err e = Ok [r]) cs rs).
    { intros e rs. split; intro H; [discriminate|]. inversion H; subst; [congruence|discriminate]. }
    destruct (Nat.ltb 10 q); [split; [reflexivity|apply BAD]|]. destruct dims as [|lv ds] eqn:ED; [split; [reflexivity|apply BAD]|]. rewrite <- ED in *.
    cbn [update_pars]. destruct (compute_propagators (xs_par (bk_x b))) as [pr|e]; [|split; [reflexivity|apply BAD]].
    destruct (circuits_separate lv None shots cs (mkX (xs_par (bk_x b)) pr) F) as (S1 & S2).
    destruct (run_circuits _ lv None shots cs) as [x2 r] eqn:E. cbn [fst snd] in *. subst x2. split; [reflexivity|]. cbn [bk_x xs_par].
    intro rs. rewrite S2. clear -F. split; intro H; induction H as [|c r cs rs H1 H2 IH]; constructor; inversion F; subst; auto.
    - clear -H1. cbn [BackendModel.run_circuits]. destruct (run_circuit _ lv None shots c) as [x1 r1]. cbn [snd] in H1. subst r1. reflexivity.
    - clear -H1. cbn [BackendModel.run_circuits] in H1. destruct (run_circuit _ lv None shots c) as [x1 [q1|e]]; cbn [snd] in *; [|discriminate]. injection H1 as ->. reflexivity.
  Qed.

  (** A state vector given to a backend that has run a circuit before: all circuits start in
      exactly this vector. *)
Theorem C110_statevector : forall b rq b' rs sv, clean b -> bk_nq b = length dims -> rq_params rq = None -> rq_sv rq = Some sv ->
    run b rq = (b', Ok rs) ->
    exists lv psi, hd_error dims = Some lv /\ rows psi = length (sv_values sv) /\ length (sv_values sv) = lv ^ length dims /\ cols psi = 1
    /\ (forall i z, nth_error (sv_values sv) i = Some z -> ent psi i 0 = z)
    /\ job_results psi (rq_shots rq) (xs_par (bk_x b)) (rq_circuits rq) rs (xs_par (bk_x b')).
  Proof.
    intros b rq b' rs sv (C1 & C2 & C3) NQ P1 S1 H. unfold BackendModel.run in H. cbv zeta in H. unfold this_sv in H. rewrite C1, P1, S1, NQ in H. cbn [updated] in H.
    destruct (Nat.ltb 10 (rq_qubits rq)); [discriminate|]. destruct dims as [|lv ds] eqn:ED; [discriminate|]. rewrite <- ED in *.
    assert (HL : hd_error dims = Some lv) by (rewrite ED; reflexivity).
    unfold check_sv in H. cbn [sv_array negb sv_values] in H. destruct (Nat.eqb (lv ^ length dims) 1); [discriminate|].
    destruct (validate_initial_statevector (length dims) lv (sv_values sv)) as [psi|] eqn:Ev; [|discriminate]. cbn [rbind] in H.
    destruct (C75_statevector _ _ _ _ Ev) as (V1 & _ & V2 & V3 & V4). cbn [update_pars] in H.
    destruct (compute_propagators (xs_par (bk_x b))) as [pr|] eqn:Ec; [|discriminate].
    destruct (run_circuits (mkX (xs_par (bk_x b)) pr) lv (Some psi) (rq_shots rq) (rq_circuits rq)) as [x2 r] eqn:E. injection H as <- ->.
    destruct (circuits_report lv (Some psi) _ _ (mkX (xs_par (bk_x b)) pr) _ _ HL Ec E) as (_ & J).
    exists lv, psi. split; [exact HL|]. split; [congruence|]. split; [exact V1|]. split; [exact V3|]. split; [exact V4|exact J].
  Qed.

  (** the backend after some jobs *)
  Definition after (b : backend) (rqs : list request) : backend := fold_left (fun b rq => fst (run b rq)) rqs b.
  Lemma stuck : forall b rq, bk_nq b = 0 -> (rq_sv rq <> None \/ bk_sv b <> None) ->
    (exists e, snd (run b rq) = Err e) /\ bk_nq (fst (run b rq)) = 0 /\ bk_sv (fst (run b rq)) <> None.
  Proof.
    intros b rq NQ SV. unfold BackendModel.run. cbv zeta. rewrite NQ.
    assert (US : updated (rq_sv rq) (bk_sv b) <> None) by (destruct (rq_sv rq); cbn [updated]; [discriminate|]; destruct SV; [congruence|assumption]).
    destruct (Nat.ltb 10 (rq_qubits rq)); [split; [eexists; reflexivity|split; [reflexivity|exact US]]|].
    destruct dims as [|lv ds]; [split; [eexists; reflexivity|split; [reflexivity|exact US]]|].
    assert (CS : exists e, check_sv 0 lv (this_sv rq (bk_sv b)) = Err e).
    { unfold this_sv, check_sv. destruct (rq_sv rq) as [v|].
      - cbn [sv_array negb Nat.pow Nat.eqb]. eexists; reflexivity.
      - destruct (bk_sv b) as [v|]; [|destruct SV; congruence]. destruct (sv_array v); cbn [negb Nat.pow Nat.eqb]; eexists; reflexivity. }
    destruct CS as (e & ->). split; [eexists; reflexivity|]. split; [reflexivity|exact US].
  Qed.

  (** Finding: a new backend refuses every state vector, because it does not know the number of
      qubits before it has run a circuit; and since the option is kept, no later job succeeds
      either, with or without a state vector. *)
Theorem C110_first_statevector_refuted : forall x rq sv, rq_sv rq = Some sv ->
    (exists e, snd (run (new_backend x) rq) = Err e) /\
    forall rqs rq', exists e, snd (run (after (fst (run (new_backend x) rq)) rqs) rq') = Err e.
  Proof.
    intros x rq sv S1. assert (NN : rq_sv rq <> None) by congruence.
    destruct (stuck (new_backend x) rq eq_refl (or_introl NN)) as (E & NQ & SV). split; [exact E|].
    intro rqs. revert NQ SV. generalize (fst (run (new_backend x) rq)) as b. induction rqs as [|r rqs IH]; intros b NQ SV rq'.
    - apply (stuck b rq' NQ (or_intror SV)).
    - cbn [after fold_left]. apply IH; apply (stuck b r NQ (or_intror SV)).
  Qed.

  (** Finding: when the update at the end of a circuit raises, the job fails but the experiment keeps
      the parameters that were set before the error. *)
Theorem C110_failed_update_refuted : forall b rq c gates last p e pr, clean b -> dims <> [] -> rq_params rq = None -> rq_map rq = None -> rq_sv rq = None -> rq_qubits rq <= 10 ->
    rq_circuits rq = [c] -> ci_qubits c <= length dims -> fst (sanitize_instructions (ci_ops c)) = gates ++ [last] -> qg_name last = "param_update"%string ->
    compute_propagators (xs_par (bk_x b)) = Ok pr -> gate_update last (xs_par (bk_x b)) = (p, Some e) ->
    snd (run b rq) = Err e /\ xs_par (bk_x (fst (run b rq))) = p.
  Proof.
    intros b rq c gates last p e pr (C1 & C2 & C3) DN P1 M1 S1 Q RC CQ SI LN CP GU. unfold BackendModel.run. cbv zeta. unfold this_sv. rewrite C1, C2, C3, P1, M1, S1, RC. cbn [updated check_sv].
    destruct (Nat.ltb_spec 10 (rq_qubits rq)); [lia|]. destruct dims as [|lv ds] eqn:ED; [congruence|]. rewrite <- ED in *. cbn [update_pars]. rewrite CP.
    cbn [BackendModel.run_circuits]. unfold BackendModel.run_circuit. destruct (Nat.ltb_spec (length dims) (ci_qubits c)); [lia|]. cbv zeta. rewrite SI, rev_app_distr. cbn [rev app].
    rewrite LN. cbn [String.eqb Ascii.eqb Bool.eqb xs_par]. rewrite GU. split; reflexivity.
  Qed.

  Definition with_sv (rq : request (A := A) (B := B)) (v : option statevec) : request := mkRQ (rq_params rq) (rq_map rq) v (rq_shots rq) (rq_qubits rq) (rq_circuits rq).
  Definition with_params (rq : request (A := A) (B := B)) (ps : option (list A)) : request := mkRQ ps (rq_map rq) (rq_sv rq) (rq_shots rq) (rq_qubits rq) (rq_circuits rq).

  (** Finding: a state vector given for one job is used for the following jobs too.  If it was an
      array, a job without one is the job with the old vector; if it was a list, it fails. *)
Theorem C110_sticky_statevector_refuted : forall b rq sv b1 rs rq', rq_sv rq = Some sv -> run b rq = (b1, Ok rs) -> rq_sv rq' = None -> rq_qubits rq' <= 10 ->
    (sv_array sv = true -> run b1 rq' = run b1 (with_sv rq' (Some sv))) /\
    (sv_array sv = false -> snd (run b1 rq') = Err AttributeError).
  Proof.
    intros b rq sv b1 rs rq' S1 H S2 Q.
    assert (SB : bk_sv b1 = Some sv /\ dims <> []).
    { unfold BackendModel.run in H. cbv zeta in H. rewrite S1 in H. cbn [updated] in H. destruct (Nat.ltb 10 _); [discriminate|]. destruct dims as [|lv ds]; [discriminate|].
      split; [|discriminate]. destruct (check_sv _ _ _) as [iv|]; [|discriminate]. destruct (update_pars _ _ _ _) as [[[x1 a1] c1] [e1|]]; [discriminate|].
      destruct (compute_propagators _); [|discriminate]. destruct (BackendModel.run_circuits _ _ _ _ _ _ _ _ _ _ _) as [x2 r]. injection H as <- _. reflexivity. }
    destruct SB as (SB & DN). split; intro SA.
    - unfold BackendModel.run, with_sv. cbv zeta. unfold this_sv. cbn [rq_params rq_map rq_sv rq_shots rq_qubits rq_circuits]. rewrite S2, SB. cbn [updated].
      destruct sv as [ar vs]. cbn [sv_array sv_values] in *. subst ar. reflexivity.
    - unfold BackendModel.run. cbv zeta. unfold this_sv. rewrite S2, SB. cbn [updated]. destruct (Nat.ltb_spec 10 (rq_qubits rq')); [lia|].
      destruct dims; [congruence|]. unfold check_sv. rewrite SA. reflexivity.
  Qed.

  (** Finding: parameters given without their names are kept.  The job raises, and so does every
      later one without names; a later job with names but without values sets the old values. *)
Theorem C110_params_without_map_refuted : forall b rq v vs, clean b -> dims <> [] -> rq_params rq = Some (v :: vs) -> rq_map rq = None -> rq_sv rq = None -> rq_qubits rq <= 10 ->
    snd (run b rq) = Err KeyError /\
    (forall rq', rq_params rq' = None -> rq_sv rq' = None -> rq_qubits rq' <= 10 ->
       (rq_map rq' = None -> run (fst (run b rq)) rq' = run b rq) /\ (rq_map rq' <> None -> run (fst (run b rq)) rq' = run b (with_params rq' (Some (v :: vs))))).
  Proof.
    intros b rq v vs (C1 & C2 & C3) DN P1 M1 S1 Q1. destruct b as [x nq ps om sv]. cbn [bk_params bk_map bk_sv] in *. subst ps om sv.
    assert (R1 : run (mkBK x nq None None None) rq = (mkBK x nq (Some (v :: vs)) None None, Err KeyError)).
    { unfold BackendModel.run. cbv zeta. unfold this_sv. cbn [bk_x bk_nq bk_params bk_map bk_sv]. rewrite P1, M1, S1. cbn [updated].
      destruct (Nat.ltb_spec 10 (rq_qubits rq)); [lia|]. destruct dims; [congruence|]. reflexivity. }
    rewrite R1. cbn [fst snd]. split; [reflexivity|]. intros rq' P2 S2 Q2. split; intro M2.
    - unfold BackendModel.run. cbv zeta. unfold this_sv. cbn [bk_x bk_nq bk_params bk_map bk_sv]. rewrite P2, M2, S2. cbn [updated].
      destruct (Nat.ltb_spec 10 (rq_qubits rq')); [lia|]. destruct dims; [congruence|]. reflexivity.
    - unfold BackendModel.run, with_params. cbv zeta. unfold this_sv. cbn [bk_x bk_nq bk_params bk_map bk_sv rq_params rq_map rq_sv rq_shots rq_qubits rq_circuits].
      rewrite P2, S2. cbn [updated]. reflexivity.
  Qed.
End Spec.
Print Assumptions C110_job.
Print Assumptions C110_failed_update_refuted.
Print Assumptions C110_history.
Print Assumptions C110_separate.
Print Assumptions C110_statevector.
Print Assumptions C110_first_statevector_refuted.
Print Assumptions C110_sticky_statevector_refuted.
Print Assumptions C110_params_without_map_refuted.

(** ** A concrete backend *)
(** One qubit, one gate that flips it if the only parameter is true and does nothing otherwise. *)
Definition bx_flip : smat := {| rows := 2; cols := 2; ent := fun i j => if Nat.eqb i j then RtoC 0 else RtoC 1 |}.
Definition bx_props (p : bool) : result (dict smat) := Ok [("g[0]"%string, if p then bx_flip else seye 2 2)].
Definition bx_run := run (P := bool) (A := bool) (B := string) [2] false (seye 2 1) (fun _ => {| conf_matrix := None; meas_rescale := None |})
  (fun vs _ _ => (hd false vs, None)) (fun _ _ => (true, None)) bx_props.
Definition bx_g : qgate := qg "g" [0] [].
Definition bx_m : qgate := qg "measure" [0] [].
Definition bx_u : qgate := qg "param_update" [] [].
Definition bx_pop (psi : smat) (i : nat) : R := nth i (populations (rows psi) (ent psi) false) 0%R.

(** A job of two circuits, of which the second sets the parameter; setting it by the options; a
    state vector on a used backend; and the three ways to get stuck. *)
Example C110_example :
  let b := new_backend (mkX false []) in
  let c1 := mkCirc 1 [bx_g; bx_m] in let c2 := mkCirc 1 [bx_g; bx_u] in
  let rq := mkRQ None None None 1000 1 [c1; c2; c1] in
  clean b /\ plain rq /\
  (exists b' r1 r2 r3, bx_run b rq = (b', Ok [r1; r2; r3]) /\ xs_par (bk_x b') = true /\ bk_nq b' = 1 /\
     dget "0x1" (r_counts r1) = Some 0%R /\ dget "0x1" (r_counts r2) = Some 1%R /\ dget "0x1" (r_counts r3) = Some 1000%R) /\
  Forall no_update [c1] /\ ~ no_update c2 /\
  (exists b' rs, bx_run b (mkRQ (Some [true]) (Some ["p"%string]) None 1000 1 [c1]) = (b', Ok rs) /\ clean b' /\ xs_par (bk_x b') = true) /\
  (let used := fst (bx_run b rq) in
   clean used /\ exists b' rs, bx_run used (mkRQ None None (Some (mkSV true [RtoC 0; RtoC 1])) 1000 1 [c1]) = (b', Ok rs)).
Proof.
  cbn zeta. split; [repeat split|]. split; [split; [reflexivity|left; split; reflexivity]|].
  assert (ID : populations 2 (mmul 2 mid mid) false = [1; 0]%R).
  { unfold populations. cbn. replace (RtoC 0 + RtoC 1 * RtoC 1 + RtoC 0 * RtoC 0)%C with (RtoC 1) by ring. replace (RtoC 0 + RtoC 0 * RtoC 1 + RtoC 1 * RtoC 0)%C with (RtoC 0) by ring. rewrite Cmod_1, Cmod_0. f_equal; [ring|f_equal; ring]. }
  assert (FL : populations 2 (mmul 2 (ent bx_flip) mid) false = [0; 1]%R).
  { unfold populations. cbn. replace (RtoC 0 + RtoC 0 * RtoC 1 + RtoC 1 * RtoC 0)%C with (RtoC 0) by ring. replace (RtoC 0 + RtoC 1 * RtoC 1 + RtoC 0 * RtoC 0)%C with (RtoC 1) by ring. rewrite Cmod_1, Cmod_0. f_equal; [ring|f_equal; ring]. }
  assert (RD : forall z, np_round (IZR z) = z).
  { intro z. unfold np_round. assert (I : Int_part (IZR z + 1 / 2) = z) by
        (destruct (base_Int_part (IZR z + 1 / 2)); apply Z.le_antisymm; apply Z.lt_succ_r; apply lt_IZR; rewrite succ_IZR; lra).
    rewrite I. destruct (Req_EM_T (IZR z + 1 / 2) (IZR z)); [lra|reflexivity]. }
  assert (R0 : np_round (0 * 1000) = 0%Z) by (rewrite Rmult_0_l; apply RD). assert (R1 : np_round (1 * 1000) = 1000%Z) by (rewrite Rmult_1_l; apply RD).
  assert (NU : no_update (mkCirc 1 [bx_g; bx_m])).
  { intros l g K. apply kept_sanitize in K. cbn in K. change [bx_g] with ([] ++ [bx_g]) in K. apply app_inj_tail in K as [_ <-]. discriminate. }
  split.
  { eexists _, _, _, _. split; [reflexivity|]. split; [reflexivity|]. split; [reflexivity|]. cbn -[populations np_round mid mmul bx_flip].
    change (rows bx_flip) with 2. change (cols bx_flip) with 2. rewrite ID, FL. unfold generate_shot_readout. cbn -[np_round]. rewrite R1, R0. auto. }
  split; [constructor; [exact NU|constructor]|]. split.
  { intro N. apply (N [bx_g] bx_u); [|reflexivity]. apply kept_sanitize. reflexivity. }
  split. { eexists _, _. split; [reflexivity|]. split; [repeat split|reflexivity]. }
  split; [repeat split|].
  destruct (proj1 (C75_statevector_complete 1 2 [RtoC 0; RtoC 1]) eq_refl) as (psi & EV).
  { cbn. rewrite Cmod_0, Cmod_1. lra. }
  assert (EP : psi = {| rows := 2; cols := 1; ent := fun i _ => nth i [RtoC 0; RtoC 1] (RtoC 0) |}).
  { unfold validate_initial_statevector in EV. cbn [length Nat.pow Nat.mul Nat.add Nat.eqb negb] in EV. destruct (Req_EM_T _ _); [|discriminate]. injection EV as <-. reflexivity. }
  unfold bx_run at 1. unfold run. cbv zeta. cbn [rq_qubits Nat.ltb Nat.leb this_sv rq_sv sv_values].
  change (bk_nq (fst (bx_run _ _))) with 1. change (bk_params (fst (bx_run _ _))) with (@None (list bool)). cbn [check_sv sv_array negb Nat.pow Nat.mul Nat.add Nat.eqb sv_values].
  rewrite EV. cbn [rbind rq_params updated update_pars]. rewrite EP. eexists _, _. reflexivity.
Qed.
