(** Properties C37 to C44: right-hand sides, ODE solvers, superoperators, the
    dephasing channel and the library Hamiltonians. *)
From Coq Require Import Reals Lra Lia Setoid Morphisms QArith Qreals.
From Coquelicot Require Import Coquelicot.
From Verif Require Import Base Mat MExp MExp2 HilbertModel HilbertProofs HilbertProps PropModel PropProofs
                          SuperProofs DephProofs RKProofs SampleProofs.
Local Open Scope list_scope.
Local Open Scope nat_scope.
Local Notation length := List.length.

(** ** C37 *)

Theorem C37_lindblad_traceless :
  forall n cols dt rho h, mtrace n (lindblad n cols dt rho h) = RtoC 0.
Proof. intros. apply mtrace_lindblad. Qed.
Print Assumptions C37_lindblad_traceless.

Theorem C37_lindblad_hermitian :
  forall n cols dt rho h, hermitian n rho -> hermitian n h -> hermitian n (lindblad n cols dt rho h).
Proof. intros. apply herm_lindblad; assumption. Qed.
Print Assumptions C37_lindblad_hermitian.

Theorem C37_von_neumann :
  forall n dt rho h, mtrace n (von_neumann n dt rho h) = RtoC 0
    /\ (hermitian n rho -> hermitian n h -> hermitian n (von_neumann n dt rho h)).
Proof. intros. split; [apply mtrace_von_neumann|apply herm_von_neumann]. Qed.
Print Assumptions C37_von_neumann.

(** The dissipative part moves population: for a lowering operator on a qubit
    the excited population decays with rate 1 into the ground state. *)
Definition sigma_minus : mat := fun i j => if andb (Nat.eqb i 0) (Nat.eqb j 1) then RtoC 1 else RtoC 0.
Definition excited : mat := fun i j => if andb (Nat.eqb i 1) (Nat.eqb j 1) then RtoC 1 else RtoC 0.
Example C37_example :
  hermitian 2 excited /\ hermitian 2 mzero
  /\ lindblad 2 [sigma_minus] 1 excited mzero 1 1 = RtoC (-1)
  /\ lindblad 2 [sigma_minus] 1 excited mzero 0 0 = RtoC 1.
Proof.
  split; [|split; [|split]].
  - intros i j Hi Hj. unfold madj, excited. rewrite andb_comm. destruct (andb _ _); apply conj_R.
  - apply madj_zero.
  - cbv [lindblad fold_left lindblad_add commutator anticommutator mscale msub madd mmul madj csum
         sigma_minus excited mzero andb Nat.eqb]. rewrite !conj_R.
    apply C_ext; cbn; lra.
  - cbv [lindblad fold_left lindblad_add commutator anticommutator mscale msub madd mmul madj csum
         sigma_minus excited mzero andb Nat.eqb]. rewrite !conj_R.
    apply C_ext; cbn; lra.
Qed.

(** ** C38 *)

Definition density_step (lind : option (list mat)) (k : step_kind) : Prop :=
  match lind with Some _ => True | None => k = VonNeumann end.

Lemma in_firstn_l : forall {A} k (l : list A) x, In x (firstn k l) -> In x l.
Proof. induction k; intros [|y l] x H; cbn in *; try contradiction. destruct H as [<-|H]; [left|right]; auto. Qed.
Lemma in_skipn_l : forall {A} k (l : list A) x, In x (skipn k l) -> In x l.
Proof. induction k; intros l x H; [exact H|]. destruct l; [contradiction|]. right. apply IHk, H. Qed.

Lemma ode_loop_inv : forall (P : mat -> Prop) s fr Hs,
    (forall st h, P st -> (forall k, In (hs h k) Hs \/ hs h k = mzero) -> P (solver_fun s fr st h)) ->
    forall steps index st l, P st -> ode_loop s fr Hs index steps st = Ok l -> Forall P l.
Proof.
  intros P s fr Hs Hstep. induction steps; intros index st l Hst H; cbn [ode_loop] in H.
  - injection H as <-. constructor.
  - destruct (tf_slice Hs (solver_start s * index) (solver_stop s)) as [h|] eqn:E; [|discriminate].
    cbn [rbind] in H.
    destruct (ode_loop s fr Hs (S index) steps (solver_fun s fr st h)) as [l'|] eqn:El; [|discriminate].
    cbn [rbind] in H. injection H as <-.
    assert (Hst' : P (solver_fun s fr st h)).
    { apply Hstep; [exact Hst|]. intro k. unfold tf_slice in E. destruct (Nat.leb _ _); [|discriminate].
      injection E as <-. unfold hs.
      destruct (nth_in_or_default k (firstn (solver_stop s) (skipn (solver_start s * index) Hs)) mzero) as [I|I]; [left|right; exact I].
      apply in_firstn_l in I. apply in_skipn_l in I. exact I. }
    constructor; [exact Hst'|]. eapply IHsteps; eassumption.
Qed.

Lemma last_cons : forall {A} (l : list A) x d, last (x :: l) d = last l x.
Proof. induction l as [|y l IH]; intros x d; [reflexivity|]. change (last (y :: l) d = last (y :: l) x). rewrite !IH. reflexivity. Qed.
Lemma ode_final_last : forall s fr Hs steps index st l,
    ode_loop s fr Hs index steps st = Ok l -> ode_final s fr Hs index steps st = Ok (last l st).
Proof.
  induction steps; intros index st l H; cbn [ode_loop ode_final] in *.
  - injection H as <-. reflexivity.
  - destruct (tf_slice Hs _ _) as [h|]; [|discriminate]. cbn [rbind] in *.
    destruct (ode_loop s fr Hs (S index) steps (solver_fun s fr st h)) as [l'|] eqn:El; [|discriminate].
    cbn [rbind] in H. injection H as <-. rewrite (IHsteps _ _ _ El), last_cons. reflexivity.
Qed.
Lemma ode_loop_length : forall s fr Hs steps index st l,
    ode_loop s fr Hs index steps st = Ok l -> length l = steps.
Proof.
  induction steps; intros index st l H; cbn [ode_loop] in *.
  - injection H as <-. reflexivity.
  - destruct (tf_slice Hs _ _) as [h|]; [|discriminate]. cbn [rbind] in *.
    destruct (ode_loop s fr Hs (S index) steps (solver_fun s fr st h)) as [l'|] eqn:El; [|discriminate].
    cbn [rbind] in H. injection H as <-. cbn [length]. rewrite (IHsteps _ _ _ El). reflexivity.
Qed.

(** Unfolding of one successful run. *)
Lemma ode_solver_inv : forall interp n h0 hctrls lind signal init s k states ts,
    ode_solver interp n h0 hctrls lind signal init s k = Ok (states, ts) ->
    exists d fr, Hs_of_t interp h0 hctrls signal (solver_res s) = Ok d
      /\ ode_step n (match lind with Some _ => Lindblad | None => k end) lind (d_dt d) = Ok fr
      /\ ode_loop s fr (d_Hs d) 0 (length (d_ts d)) init = Ok states /\ ts = d_ts d.
Proof.
  intros interp n h0 hctrls lind signal init s k states ts H. unfold ode_solver in H. cbv zeta in H.
  destruct (Hs_of_t interp h0 hctrls signal (solver_res s)) as [d|]; [|discriminate]. cbn [rbind] in H.
  destruct (ode_step n _ lind (d_dt d)) as [fr|] eqn:E; [|discriminate]. cbn [rbind] in H.
  destruct (ode_loop s fr (d_Hs d) 0 (length (d_ts d)) init) as [l|] eqn:El; [|discriminate]. cbn [rbind] in H.
  injection H as <- <-. exists d, fr. repeat split; auto.
Qed.

Lemma sum_H_herm : forall n h0 hks fields, hermitian n h0 -> Forall (hermitian n) hks ->
    hermitian n (sum_H h0 hks fields).
Proof.
  intros n h0 hks fields H0 Hk. unfold sum_H. apply herm_add; [|exact H0].
  revert fields. induction Hk as [|h hks Hh Hk IH]; intros [|c cs]; cbn [combine fold_right]; try apply herm_zero.
  apply herm_add; [apply herm_scale, Hh|apply IH].
Qed.
Lemma lookup_controls_in : forall hctrls names hks, lookup_controls hctrls names = Ok hks ->
    forall h, In h hks -> exists k, dget k hctrls = Some h.
Proof.
  induction names as [|k ks IH]; intros hks H h Hin; cbn [lookup_controls] in H.
  - injection H as <-. contradiction.
  - destruct (dget k hctrls) as [h'|] eqn:E; [|discriminate].
    destruct (lookup_controls hctrls ks) as [l|]; [|discriminate]. cbn [rbind] in H. injection H as <-.
    destruct Hin as [<-|Hin]; [exists k; exact E|]. eapply IH; eauto.
Qed.
Lemma Hs_of_t_herm : forall interp n h0 hctrls signal res d, hermitian n h0 ->
    (forall k h, dget k hctrls = Some h -> hermitian n h) ->
    Hs_of_t interp h0 hctrls signal res = Ok d -> forall h, In h (d_Hs d) -> hermitian n h.
Proof.
  intros interp n h0 hctrls signal res d H0 Hc H h Hin. unfold Hs_of_t in H.
  destruct (lookup_controls hctrls (keys signal)) as [hks|] eqn:Ek; [|discriminate]. cbn [rbind] in H. cbv zeta in H.
  destruct (map (fun kv => ch_ts (snd kv)) signal) as [|t0 tss]; [discriminate|].
  destruct (negb (forallb _ _)) in H; [discriminate|].
  destruct (map (fun j => rmean (time_column (t0 :: tss) j)) (seq 0 (length t0))) as [|a [|b r]]; try discriminate.
  destruct (negb (forallb _ _)) in H; [discriminate|].
  destruct (negb (rltb _ _)) in H; [discriminate|].
  destruct (interpolate_all _ _ _ _) as [cf|] in H; [|discriminate]. cbn [rbind] in H. injection H as <-.
  cbn [d_Hs] in Hin. unfold calculate_sum_Hs in Hin. destruct cf as [|c0 cf]; [contradiction|].
  apply in_map_iff in Hin as [j [<- _]]. apply sum_H_herm; [exact H0|].
  apply Forall_forall. intros x Hx. destruct (lookup_controls_in _ _ _ Ek x Hx) as [k E]. eapply Hc; eauto.
Qed.

Theorem C38_trace_preserved :
  forall interp n h0 hctrls lind signal init s k states ts,
  density_step lind k ->
  ode_solver interp n h0 hctrls lind signal init s k = Ok (states, ts) ->
  Forall (fun rho => mtrace n rho = mtrace n init) states.
Proof.
  intros interp n h0 hctrls lind signal init s k states ts Hk H.
  apply ode_solver_inv in H as (d & fr & Hd & Hs & Hl & _).
  assert (Z : forall rho h, mtrace n (fr rho h) = RtoC 0).
  { destruct lind as [l|]; cbn in Hk, Hs; [|subst k; cbn in Hs]; injection Hs as <-; intros;
      [apply mtrace_lindblad|apply mtrace_von_neumann]. }
  eapply (ode_loop_inv (fun rho => mtrace n rho = mtrace n init)); [|reflexivity|exact Hl].
  intros st h Hst _. cbv beta. rewrite (solver_trace n fr Z). exact Hst.
Qed.
Print Assumptions C38_trace_preserved.

Theorem C38_hermitian_preserved :
  forall interp n h0 hctrls lind signal init s k states ts,
  density_step lind k ->
  hermitian n h0 -> (forall c h, dget c hctrls = Some h -> hermitian n h) -> hermitian n init ->
  ode_solver interp n h0 hctrls lind signal init s k = Ok (states, ts) ->
  Forall (hermitian n) states.
Proof.
  intros interp n h0 hctrls lind signal init s k states ts Hk H0 Hc Hi H.
  apply ode_solver_inv in H as (d & fr & Hd & Hs & Hl & _).
  assert (Z : forall rho h, hermitian n rho -> hermitian n h -> hermitian n (fr rho h)).
  { destruct lind as [l|]; cbn in Hk, Hs; [|subst k; cbn in Hs]; injection Hs as <-; intros;
      [apply herm_lindblad|apply herm_von_neumann]; assumption. }
  eapply (ode_loop_inv (hermitian n)); [|exact Hi|exact Hl].
  intros st h Hst Hin. apply (solver_closed fr (hermitian n) (hermitian n)).
  - intros; apply herm_add; assumption.
  - intros; apply herm_sub; assumption.
  - intros; apply herm_opp; assumption.
  - intros; apply herm_scale; assumption.
  - exact Z.
  - exact Hst.
  - intro j. destruct (Hin j) as [I|I]; [|rewrite I; apply herm_zero].
    exact (Hs_of_t_herm interp n h0 hctrls signal _ d H0 Hc Hd _ I).
Qed.
Print Assumptions C38_hermitian_preserved.

(** [ode_solver_final_state] returns the last state of [ode_solver] (the
    initial state when there are no slices). *)
Theorem C38_final_state_agrees :
  forall interp n h0 hctrls lind signal init s k states ts,
  ode_solver interp n h0 hctrls lind signal init s k = Ok (states, ts) ->
  ode_solver_final_state interp n h0 hctrls lind signal init s k = Ok (last states init, ts)
  /\ length states = length ts.
Proof.
  intros interp n h0 hctrls lind signal init s k states ts H.
  apply ode_solver_inv in H as (d & fr & Hd & Hs & Hl & ->).
  split; [|eapply ode_loop_length; exact Hl].
  unfold ode_solver_final_state. cbv zeta. rewrite Hd. cbn [rbind]. rewrite Hs. cbn [rbind].
  rewrite (ode_final_last _ _ _ _ _ _ _ Hl). reflexivity.
Qed.
Print Assumptions C38_final_state_agrees.

(** ** C43 *)

Lemma lookup_found : forall (hctrls : dict mat) (sig : dict channel) hks, lookup_controls hctrls (keys sig) = Ok hks ->
  Forall2 (fun kv h => dget (fst kv) hctrls = Some h) sig hks.
Proof.
  intros hctrls sig. induction sig as [|kv sig IH]; intros hks H; cbn in H.
  - injection H as <-. constructor.
  - destruct (dget (fst kv) hctrls) as [h|] eqn:E; [|discriminate]. cbn [rbind] in H.
    destruct (lookup_controls hctrls (keys sig)) as [r|] eqn:El; unfold keys in El; rewrite El in H; [|discriminate].
    cbn in H. injection H as <-. constructor; [exact E|apply IH; reflexivity].
Qed.
Lemma sum_H_entries : forall h0 hks (cs : list R) i j, length cs = length hks ->
  sum_H h0 hks cs i j = (h0 i j + csum (length hks) (fun k => RtoC (nth k cs 0%R) * nth k hks mzero i j))%C.
Proof.
  intros h0 hks cs i j Hlen. unfold sum_H, madd at 1. rewrite Cplus_comm. f_equal. revert cs Hlen.
  induction hks as [|h hks IH]; intros [|c cs] Hlen; try discriminate; [reflexivity|].
  cbn [combine fold_right length fst snd]. unfold madd at 1. rewrite IH by (cbn in Hlen; lia).
  rewrite csum_head. reflexivity.
Qed.

(** Every step [i] reads the Hamiltonian exactly at t_i + c_k dt, where the c_k
    are the nodes of its tableau; no slice leaves the sampled tensor, and the
    run succeeds with one state per time.  The Hamiltonian read is the drift plus
    the control Hamiltonian of every line times its interpolated field. *)
Theorem C43_sampling_aligned :
  forall interp n h0 hctrls lind signal hks t0 dt N init s k,
  2 <= N -> (0 < dt)%R -> signal <> [] ->
  (forall c ch, In (c, ch) signal -> ch_ts ch = grid t0 dt N) ->
  lookup_controls hctrls (keys signal) = Ok hks ->
  (lind = None -> k <> Lindblad) ->
  let H := fun t => sum_H h0 hks (map (fun kv => interp (grid t0 dt N) (ch_values (snd kv)) t) signal) in
  let samples := fun i => map H (map (fun c => t0 + INR i * dt + c * dt)%R (nodes s)) in
  Forall2 (fun kv h => dget (fst kv) hctrls = Some h) signal hks
  /\ (forall t i j, H t i j = (h0 i j + csum (length signal) (fun l =>
        RtoC (interp (grid t0 dt N) (nth l (map (fun kv => ch_values (snd kv)) signal) []) t) * nth l hks mzero i j))%C)
  /\ exists d fr,
    Hs_of_t interp h0 hctrls signal (solver_res s) = Ok d /\ d_dt d = dt
    /\ (forall i, i < N -> tf_slice (d_Hs d) (solver_start s * i) (solver_stop s) = Ok (samples i))
    /\ ode_step n (match lind with Some _ => Lindblad | None => k end) lind dt = Ok fr
    /\ ode_solver interp n h0 hctrls lind signal init s k
       = Ok (map (fun i => state_after (solver_fun s fr) samples (S i) init) (seq 0 N), grid t0 dt N).
Proof.
  intros interp n h0 hctrls lind signal hks t0 dt N init s k HN Hd Hne Hg Hc Hk H samples.
  pose proof (lookup_found _ _ _ Hc) as F2. assert (FL : length signal = length hks) by (clear - F2; induction F2; cbn; congruence).
  split; [exact F2|]. split.
  { intros t i j. unfold H. rewrite sum_H_entries by (rewrite map_length; exact FL). rewrite <- FL.
    f_equal. apply csum_ext. intros l Hl. f_equal. f_equal.
    rewrite <- (map_map (fun kv => ch_values (snd kv)) (fun v => interp (grid t0 dt N) v t)).
    rewrite (nth_indep _ 0%R (interp (grid t0 dt N) [] t)) by (rewrite !map_length; exact Hl).
    apply (map_nth (fun v => interp (grid t0 dt N) v t)). }
  destruct (Hs_of_t_ok interp h0 hctrls signal hks t0 dt N HN Hd Hne Hg Hc s) as (tsi & _ & E).
  destruct (slices_ok interp h0 hctrls signal hks t0 dt N HN Hd Hne Hg Hc s _ E) as (E1 & E2 & S).
  eexists. set (d := {| d_Hs := _; d_ts := _; d_dt := _ |}) in *.
  assert (F : exists fr, ode_step n (match lind with Some _ => Lindblad | None => k end) lind dt = Ok fr).
  { destruct lind as [l|]; [eexists; reflexivity|]. destruct k; try (eexists; reflexivity).
    exfalso. apply Hk; reflexivity. }
  destruct F as [fr F]. exists fr. split; [exact E|]. split; [exact E2|]. split; [exact S|]. split; [exact F|].
  unfold ode_solver. cbv zeta. rewrite E. cbn [rbind]. rewrite E2, F. cbn [rbind]. rewrite E1, grid_length.
  pose proof (ode_loop_ok s fr (d_Hs d) samples N S N 0 init (Nat.add_0_l N)) as L.
  cbn [state_after] in L. rewrite L. reflexivity.
Qed.
Print Assumptions C43_sampling_aligned.

(** The tableau nodes are those of the stages: the number of samples of a step
    is the number the solver reads. *)
Example C43_example :
  let sig := [("d1"%string, {| ch_ts := grid 0 1 3; ch_values := [0; 1; 0]%R |})] in
  let hctrls := [("d1"%string, mid)] in
  exists d fr, ode_step 2 VonNeumann None 1 = Ok fr
   /\ Hs_of_t (fun _ _ t => t) mid hctrls sig (solver_res RK5) = Ok d
   /\ exists st, ode_solver (fun _ _ t => t) 2 mid hctrls None sig excited RK5 VonNeumann = Ok (st, grid 0 1 3)
      /\ length st = 3.
Proof.
  intros sig hctrls.
  destruct (C43_sampling_aligned (fun _ _ t => t) 2 mid hctrls None sig [mid] 0 1 3 excited RK5 VonNeumann)
    as (_ & _ & d & fr & A & _ & _ & B & E); auto; try lra; try discriminate.
  - intros c ch [X|[]]. injection X as <- <-. reflexivity.
  - exists d, fr. split; [exact B|]. split; [exact A|]. eexists. split; [exact E|]. reflexivity.
Qed.
Example C38_example :
  let sig := [("d1"%string, {| ch_ts := grid 0 1 3; ch_values := [0; 1; 0]%R |})] in
  let hctrls := [("d1"%string, mid)] in
  density_step (Some [sigma_minus]) Lindblad /\ hermitian 2 mid /\ hermitian 2 excited
  /\ exists st, ode_solver (fun _ _ t => t) 2 mid hctrls (Some [sigma_minus]) sig excited Tsit5 Lindblad
                = Ok (st, grid 0 1 3) /\ length st = 3.
Proof.
  intros sig hctrls. split; [exact I|]. split; [apply madj_id|]. split; [apply C37_example|].
  destruct (C43_sampling_aligned (fun _ _ t => t) 2 mid hctrls (Some [sigma_minus]) sig [mid] 0 1 3 excited Tsit5 Lindblad)
    as (_ & _ & d & fr & A & _ & _ & B & E); auto; try lra; try discriminate.
  - intros c ch [X|[]]. injection X as <- <-. reflexivity.
  - eexists. split; [exact E|]. reflexivity.
Qed.

(** The per-gate rk4 propagator makes one step per pair of samples after the
    first: with the 2m samples the generator delivers (resolution doubled) it
    makes m - 1 steps for m time points, so the last slice is never
    propagated. *)
Theorem C43_rk4_unitary_last_slice_refuted :
  forall n dt h m, length h = 2 * m -> 1 <= m ->
  length (gen_dus_rk4 n dt h) = m - 1 /\ length (gen_dus_rk4 n dt h) <> m.
Proof.
  intros n dt h m Hl Hm. unfold gen_dus_rk4, rk4_steps. rewrite !map_length, seq_length, Hl.
  assert (E : (2 * m - 1) / 2 = m - 1).
  { replace (2 * m - 1) with (1 + (m - 1) * 2) by lia. rewrite Nat.div_add by lia. reflexivity. }
  rewrite E. lia.
Qed.
Print Assumptions C43_rk4_unitary_last_slice_refuted.

(** Two signals with different time vectors (same length) are refused. *)
Example C43_different_times_refused :
  Hs_of_t (fun _ _ t => t) mid [("a"%string, mid); ("b"%string, mid)]
    [("a"%string, {| ch_ts := [0; 1]%R; ch_values := [0; 0]%R |});
     ("b"%string, {| ch_ts := [0; 3]%R; ch_values := [0; 0]%R |})] 2 = Err C3Error.
Proof.
  unfold Hs_of_t.
  cbv [lookup_controls dget keys map fst String.eqb Ascii.eqb Bool.eqb rbind snd ch_ts forallb length Nat.eqb andb negb
       seq time_column row nth rmean rsum fold_right rvar].
  unfold rltb. cbn [INR].
  destruct (Rlt_dec _ _) as [A|A]; [|reflexivity].
  destruct (Rlt_dec _ _) as [B|B]; [|reflexivity]. exfalso.
  cbn [INR] in B. lra.
Qed.
