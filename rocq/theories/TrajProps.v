From Coq Require Import Reals Lra Lia FunctionalExtensionality.
From Coquelicot Require Import Complex.
From Verif Require Import Base Mat MExp HilbertModel HilbertProofs FoldModel PropModel PropProofs SampleProofs PropProps TaskModel EnvModel TrajModel.
Local Open Scope list_scope.
Local Open Scope nat_scope.
Local Notation length := List.length.

(** ** C98: the initial state *)

(** Without open system dynamics, a state that was set is the one every simulation
    starts from. *)
Theorem C98_closed_kept :
  forall m s, im_lind m = false ->
  exists m', set_init_state m s = Ok m' /\ get_init_state m' = Ok (s, m').
Proof.
  intros m s H. unfold set_init_state. rewrite H. cbn [andb]. eexists. split; reflexivity.
Qed.
Print Assumptions C98_closed_kept.

(** Reading the initial state twice gives the same state. *)
Theorem C98_read_twice :
  forall m s m', get_init_state m = Ok (s, m') -> get_init_state m' = Ok (s, m').
Proof.
  intros m s m' H. unfold get_init_state in *. destruct (im_state m) as [x|] eqn:E.
  - injection H as <- <-. rewrite E. reflexivity.
  - destruct (im_task m) as [temp|] eqn:Et.
    + destruct (initialise _ _ _ _) as [v|] eqn:Ei; [|discriminate]. cbn [rbind] in H. injection H as <- <-.
      rewrite E, Et, Ei. reflexivity.
    + destruct (im_lind m); [|injection H as <- <-; reflexivity].
      destruct (state_to_dm _); [|discriminate]. cbn [rbind] in H. injection H as <- <-. reflexivity.
Qed.
Print Assumptions C98_read_twice.

(** The ground state: amplitude 1 on the first basis state and 0 elsewhere; as density
    matrix in an open system. *)
Definition ground_ket (s : smat) (n : nat) : Prop :=
  rows s = n /\ cols s = 1 /\ forall i, i < n -> ent s i 0 = if Nat.eqb i 0 then RtoC 1 else RtoC 0.
Definition ground_matrix (s : smat) (n : nat) : Prop :=
  rows s = n /\ cols s = n /\
  forall i j, i < n -> j < n -> ent s i j = if Nat.eqb i 0 && Nat.eqb j 0 then RtoC 1 else RtoC 0.
Theorem C98_default_ground :
  forall m, im_state m = None -> im_task m = None ->
  exists s m', get_init_state m = Ok (s, m')
    /\ (if im_lind m then ground_matrix s (im_dim m) else ground_ket s (im_dim m))
    /\ im_state m' = Some s.
Proof.
  intros m Hs Ht. unfold get_init_state. rewrite Hs, Ht. destruct (im_lind m).
  - eexists _, _. cbn. split; [reflexivity|]. split; [|reflexivity]. repeat split. intros i j Hi Hj. cbn.
    unfold tf_state_to_dm, mmul, mtrans, one_hot. cbn.
    destruct (Nat.eqb i 0), (Nat.eqb j 0); cbn; apply C_ext; cbn; ring.
  - eexists _, _. cbn. split; [reflexivity|]. split; [|reflexivity]. repeat split.
Qed.
Print Assumptions C98_default_ground.

(** With open system dynamics a pure state with real amplitudes becomes its projector
    |psi><psi|, whether it is set before or after switching the dynamics on. *)
Definition real_ket (psi : smat) (n : nat) : Prop :=
  rows psi = n /\ cols psi = 1 /\ forall i, i < n -> snd (ent psi i 0) = 0%R.
Definition projector_of (psi s : smat) (n : nat) : Prop :=
  rows s = n /\ cols s = n /\
  forall i j, i < n -> j < n -> ent s i j = (ent psi i 0%nat * Cconj (ent psi j 0%nat))%C.
Lemma real_projector : forall psi n, real_ket psi n ->
  exists s, state_to_dm psi = Ok s /\ projector_of psi s n.
Proof.
  intros psi n (Hr & Hc & Hi). unfold state_to_dm. rewrite Hc. cbn [Nat.eqb]. eexists. split; [reflexivity|].
  cbn. repeat split; auto. intros i j A B. unfold tf_state_to_dm, mmul, mtrans. cbn.
  specialize (Hi j B). destruct (ent psi j 0) as [x y]. cbn in Hi. subst y. apply C_ext; cbn; ring.
Qed.
Theorem C98_open_pure :
  forall m psi, 1 < im_dim m -> real_ket psi (im_dim m) ->
  (im_lind m = true -> exists m' s, set_init_state m psi = Ok m' /\ get_init_state m' = Ok (s, m') /\ projector_of psi s (im_dim m))
  /\ (im_lind m = false -> exists m1 m2 s, set_init_state m psi = Ok m1 /\ set_lindbladian m1 true = Ok m2
        /\ get_init_state m2 = Ok (s, m2) /\ projector_of psi s (im_dim m)).
Proof.
  intros m psi Hn H. pose proof H as (Hr & Hc & _). destruct (real_projector psi (im_dim m) H) as (s & Es & Ps).
  assert (E : Nat.eqb (im_dim m) 1 = false) by (apply Nat.eqb_neq; lia).
  split; intro L.
  - unfold set_init_state. rewrite L, Hr, Hc, E, Nat.eqb_refl. cbn [andb negb]. rewrite Es. cbn [rbind].
    eexists _, s. split; [reflexivity|]. split; [reflexivity|exact Ps].
  - exists (with_state m (Some psi)). unfold set_lindbladian, update_init_state, with_state. cbn [im_state im_dim im_lind im_drift im_task].
    unfold set_init_state. cbn [im_lind im_dim]. rewrite Hr, Hc, E, Nat.eqb_refl. rewrite L. cbn [andb negb]. rewrite Es. cbn [rbind]. eexists _, s. split; [unfold with_state; rewrite L; reflexivity|]. split; [reflexivity|]. split; [reflexivity|exact Ps].
Qed.
Print Assumptions C98_open_pure.

(** A density matrix given as such or as its stacked columns is what is used. *)
Theorem C98_open_mixed :
  forall m (rho : smat), 1 < im_dim m -> im_lind m = true -> rows rho = im_dim m -> cols rho = im_dim m ->
  (exists m', set_init_state m rho = Ok m' /\ get_init_state m' = Ok (rho, m'))
  /\ (forall v : smat, rows v = im_dim m * im_dim m -> cols v = 1 ->
      (forall i j, i < im_dim m -> j < im_dim m -> ent v (j * im_dim m + i) 0 = ent rho i j) ->
      exists m' s, set_init_state m v = Ok m' /\ get_init_state m' = Ok (s, m')
        /\ rows s = im_dim m /\ cols s = im_dim m
        /\ forall i j, i < im_dim m -> j < im_dim m -> ent s i j = ent rho i j).
Proof.
  intros m rho Hn L Hr Hc. split.
  - unfold set_init_state. rewrite Hr, Hc, Nat.eqb_refl, andb_false_r. eexists. split; reflexivity.
  - intros v Vr Vc Hv. unfold set_init_state. rewrite L, Vr, Vc.
    assert (E1 : Nat.eqb (im_dim m * im_dim m) 1 = false) by (apply Nat.eqb_neq; nia).
    assert (E2 : Nat.eqb (im_dim m * im_dim m) (im_dim m) = false) by (apply Nat.eqb_neq; nia).
    rewrite E1, E2, Nat.eqb_refl. cbn [andb negb]. unfold vec_to_dm. rewrite Vc. cbn [Nat.eqb rbind].
    eexists _, _. split; [reflexivity|]. split; [reflexivity|]. cbn [rows cols ent]. repeat split.
    intros i j Hi Hj. unfold tf_vec_to_dm, mtrans. apply Hv; auto.
Qed.
Print Assumptions C98_open_mixed.

Definition qubit_model (lind : bool) : imodel :=
  {| im_dim := 2; im_lind := lind; im_drift := mzero; im_task := None; im_state := None |}.
Definition ket2 (a b : C) : smat := {| rows := 2; cols := 1; ent := fun i _ => if Nat.eqb i 0 then a else b |}.
Example C98_example : real_ket (ket2 (RtoC 3) (RtoC 4)) (im_dim (qubit_model true)) /\ 1 < im_dim (qubit_model true).
Proof. split; [|cbn; lia]. repeat split. intros [|i] _; reflexivity. Qed.

(** Finding: set_init_state does not conjugate the amplitudes: (|0> + i|1>)/sqrt 2 becomes
    a matrix of trace zero. *)
Theorem C98_complex_ket_refuted :
  let s := sqrt (1 / 2) in
  exists m' rho, set_init_state (qubit_model true) (ket2 (RtoC s) (0%R, s)) = Ok m'
    /\ get_init_state m' = Ok (rho, m') /\ mtrace 2 (ent rho) = RtoC 0
    /\ (Cmod (RtoC s) ^ 2 + Cmod (0%R, s) ^ 2 = 1)%R.
Proof.
  intro s. eexists _, _. split; [reflexivity|]. split; [reflexivity|]. split.
  - unfold mtrace, csum, tf_state_to_dm, mmul, mtrans. cbn. apply C_ext; cbn; ring.
  - assert (Q : (s * s = 1 / 2)%R) by (unfold s; apply sqrt_sqrt; lra).
    unfold Cmod. cbn. rewrite !Rmult_1_r.
    rewrite !sqrt_sqrt by nra. rewrite Q. field.
Qed.
Print Assumptions C98_complex_ket_refuted.

(** Finding: a state of a wrong size is dropped without an error; the model keeps
    starting from the ground state. *)
Theorem C98_wrong_size_refuted :
  let m := qubit_model true in
  let psi := {| rows := 3; cols := 1; ent := one_hot 2 |} in
  set_init_state m psi = Ok m.
Proof. reflexivity. Qed.
Print Assumptions C98_wrong_size_refuted.

(** Finding: switching open system dynamics off again leaves the density matrix in place
    of the state vector. *)
Theorem C98_switch_back_refuted :
  exists m1 m2 m3 s, set_init_state (qubit_model false) (ket2 (RtoC 1) (RtoC 0)) = Ok m1
    /\ set_lindbladian m1 true = Ok m2 /\ set_lindbladian m2 false = Ok m3
    /\ get_init_state m3 = Ok (s, m3) /\ im_lind m3 = false /\ cols s = 2.
Proof. eexists _, _, _, _. repeat (split; [reflexivity|]). reflexivity. Qed.
Print Assumptions C98_switch_back_refuted.

(** Finding: for an open system the default initial state is a density matrix without the
    task "init_ground" and a density vector with it: the superoperators of the propagators
    apply to the second only, the solvers for trajectories to the first only. *)
Theorem C98_default_shape_refuted :
  forall n drift, 1 < n ->
  exists s1 s2,
    (exists m', get_init_state {| im_dim := n; im_lind := true; im_drift := drift; im_task := None; im_state := None |} = Ok (s1, m'))
    /\ (exists m', get_init_state {| im_dim := n; im_lind := true; im_drift := drift; im_task := Some 0%R; im_state := None |} = Ok (s2, m'))
    /\ rows s1 <> n * n /\ rows s2 = n * n
    /\ shape_ok n (Some []) Lindblad s1 = true /\ shape_ok n (Some []) Lindblad s2 = false.
Proof.
  intros n drift Hn. eexists _, _. split; [eexists; reflexivity|]. split.
  - eexists. unfold get_init_state. cbn [im_state im_task im_dim im_drift im_lind]. unfold initialise.
    destruct (Rlt_dec eps (Rabs 0)) as [X|X]; [exfalso; rewrite Rabs_R0 in X; unfold eps in X;
      assert (0 < / 2 ^ 52)%R by (apply Rinv_0_lt_compat; lra); lra|]. cbn [rbind]. reflexivity.
  - cbn [rows cols get_ground_state]. cbn [im_dim]. repeat split; [nia| |].
    + unfold shape_ok. cbn [rows cols]. rewrite !Nat.eqb_refl. reflexivity.
    + unfold shape_ok. cbn [rows cols]. apply andb_false_iff. left. apply Nat.eqb_neq. nia.
Qed.
Print Assumptions C98_default_shape_refuted.

(** ** C99: trajectories of gate sequences *)
Section Traj.
  Variable interp : list R -> list R -> R -> R.
  Variable n : nat.
  Variable h0 : mat.
  Variable hctrls : dict mat.
  Variable lind : option (list mat).
  Variable ins : dict (dict channel).
  Local Notation loop := (states_loop interp n h0 hctrls lind ins).
  Local Notation floop := (final_loop interp n h0 hctrls lind ins).
  Local Notation solve := (ode_solver interp n h0 hctrls lind).

  Lemma last_def : forall A (l : list A) d d', l <> [] -> last l d = last l d'.
  Proof. intros A l d d' H. induction l as [|a [|b l] IH]; cbn; auto; [congruence|]. apply IH. discriminate. Qed.
  Lemma last_app' : forall A (l r : list A) d, last (l ++ r) d = last r (last l d).
  Proof.
    intros A l r d. induction l as [|a l IH]; [reflexivity|]. cbn [app].
    destruct l as [|b l]; [|exact IH]. cbn [app last]. destruct r; [reflexivity|]. apply last_def. discriminate.
  Qed.
  Lemma loop_final : forall s k gates init t0 states ts res,
    loop s k gates init t0 = Ok (states, ts) ->
    exists r, floop s k gates init res = Ok r
      /\ (gates = [] -> r = res)
      /\ (gates <> [] -> exists ts', r = Some (last states init, ts')).
  Proof.
    intros s k gates. induction gates as [|g gates IH]; intros init t0 states ts res H; cbn [states_loop final_loop] in *.
    - injection H as <- <-. exists res. repeat split; auto. congruence.
    - destruct (dget g ins) as [sig|]; [|discriminate].
      destruct (solve sig init s k) as [[x y]|] eqn:E; [|discriminate]. cbn [rbind fst snd] in H.
      destruct (C38_final_state_agrees _ _ _ _ _ _ _ _ _ _ _ E) as [Ef _].
      destruct (loop s k gates (last x init) (last y 0%R)) as [[p q]|] eqn:El; [|discriminate].
      cbn [rbind fst snd] in H. injection H as <- <-. rewrite Ef. cbn [rbind fst].
      destruct (IH _ _ _ _ (Some (last x init, y)) El) as (r & Hr & R0 & R1). exists r.
      split; [exact Hr|]. split; [discriminate|]. intros _. rewrite last_app'.
      destruct gates as [|g' gs]; [|apply R1; discriminate]. cbn [states_loop] in El. injection El as <- <-.
      rewrite R0 by reflexivity. cbn [last]. eauto.
  Qed.
  Lemma loop_states_indep : forall s k gates init t0 t1 a b,
    loop s k gates init t0 = Ok (a, b) -> exists b', loop s k gates init t1 = Ok (a, b').
  Proof.
    intros s k gates init t0 t1 a b H. destruct gates as [|g gates]; cbn [states_loop] in *.
    - injection H as <- <-. eauto.
    - destruct (dget g ins) as [sig|]; [|discriminate]. destruct (solve sig init s k) as [[x y]|]; [|discriminate].
      cbn [rbind fst snd] in *. destruct (loop s k gates (last x init) (last y 0%R)) as [[p q]|]; [|discriminate].
      cbn [rbind fst snd] in *. injection H as <- <-. eauto.
  Qed.
  Lemma loop_app : forall s k g1 g2 init t0 a b, loop s k (g1 ++ g2) init t0 = Ok (a, b) ->
    exists a1 b1 a2 b2, loop s k g1 init t0 = Ok (a1, b1) /\ loop s k g2 (last a1 init) 0%R = Ok (a2, b2) /\ a = a1 ++ a2.
  Proof.
    intros s k g1. induction g1 as [|g g1 IH]; intros g2 init t0 a b H; cbn [app states_loop] in *.
    - destruct (loop_states_indep _ _ _ _ _ 0%R _ _ H) as [b' E]. exists [], [], a, b'. auto.
    - destruct (dget g ins) as [sig|]; [|discriminate]. destruct (solve sig init s k) as [[x y]|]; [|discriminate].
      cbn [rbind fst snd] in *. destruct (loop s k (g1 ++ g2) (last x init) (last y 0%R)) as [[p q]|] eqn:E; [|discriminate].
      cbn [rbind fst snd] in *. injection H as <- <-. destruct (IH _ _ _ _ _ E) as (a1 & b1 & a2 & b2 & E1 & E2 & ->).
      rewrite E1. cbn [rbind fst snd]. eexists _, _, a2, b2. split; [reflexivity|]. rewrite last_app', app_assoc. auto.
  Qed.
  Lemma loop_inv : forall s k (P : mat -> Prop),
    (forall sig init x y, P init -> solve sig init s k = Ok (x, y) -> Forall P x) ->
    forall gates init t0 a b, P init -> loop s k gates init t0 = Ok (a, b) -> Forall P a.
  Proof.
    intros s k P HP gates. induction gates as [|g gates IH]; intros init t0 a b Hi H; cbn [states_loop] in H.
    - injection H as <- <-. constructor.
    - destruct (dget g ins) as [sig|]; [|discriminate]. destruct (solve sig init s k) as [[x y]|] eqn:E; [|discriminate].
      cbn [rbind fst snd] in *. destruct (loop s k gates (last x init) (last y 0%R)) as [[p q]|] eqn:El; [|discriminate].
      cbn [rbind fst snd] in *. injection H as <- <-. pose proof (HP _ _ _ _ Hi E) as Fx. apply Forall_app. split; [exact Fx|].
      eapply IH; [|exact El]. clear - Fx Hi. induction Fx as [|u [|v l] Hu Fx IH]; cbn; auto.
  Qed.

  (** A gate whose lines are all sampled at N >= 2 times t0, t0 + dt, ... and have a
      control Hamiltonian. *)
  Definition sampled_gate (g : string) (t0 dt : R) (N : nat) : Prop :=
    exists sig hks, dget g ins = Some sig /\ sig <> [] /\ 2 <= N /\ (0 < dt)%R
      /\ (forall c ch, In (c, ch) sig -> ch_ts ch = grid t0 dt N)
      /\ lookup_controls hctrls (keys sig) = Ok hks.
  Lemma sampled_solve : forall g t0 dt N init s k, sampled_gate g t0 dt N -> (lind = None -> k <> Lindblad) ->
    exists sig x, dget g ins = Some sig /\ solve sig init s k = Ok (x, grid t0 dt N) /\ length x = N.
  Proof.
    intros g t0 dt N init s k (sig & hks & E & Hne & HN & Hd & Hg & Hc) Hk.
    destruct (C43_sampling_aligned interp n h0 hctrls lind sig hks t0 dt N init s k) as (_ & _ & d & fr & _ & _ & _ & _ & F); auto.
    exists sig. eexists. split; [exact E|]. split; [exact F|]. rewrite map_length. apply seq_length.
  Qed.
  (** The times of a sequence as the loop offsets them: a gate's samples are shifted by the
      last sample of the gate before it. *)
  Fixpoint loop_times (gs : list (R * R * nat)) (off : R) : list R :=
    match gs with
    | [] => []
    | (t0, dt, N) :: r => map (fun t => (t + off)%R) (grid t0 dt N) ++ loop_times r (last (grid t0 dt N) 0%R)
    end.
  Lemma sampled_loop : forall s k (gs : list (string * (R * R * nat))),
    (forall g t0 dt N, In (g, (t0, dt, N)) gs -> sampled_gate g t0 dt N) -> (lind = None -> k <> Lindblad) ->
    forall init off, exists a, loop s k (map fst gs) init off = Ok (a, loop_times (map snd gs) off)
      /\ length a = list_sum (map (fun g => snd (snd g)) gs).
  Proof.
    intros s k gs. induction gs as [|[g [[t0 dt] N]] gs IH]; intros Hs Hk init off; cbn [map fst snd states_loop loop_times].
    - exists []. auto.
    - destruct (sampled_solve g t0 dt N init s k) as (sig & x & E & F & L); [apply Hs; left; reflexivity|exact Hk|].
      rewrite E, F. cbn [rbind fst snd].
      destruct (IH (fun g t0 dt N X => Hs g t0 dt N (or_intror X)) Hk (last x init) (last (grid t0 dt N) 0%R)) as (a & Ea & La).
      rewrite Ea. cbn [rbind fst snd]. eexists. split; [reflexivity|]. rewrite app_length, L, La. reflexivity.
  Qed.
  Lemma loop_lengths : forall s k gates init t0 a b, loop s k gates init t0 = Ok (a, b) -> length a = length b.
  Proof.
    intros s k gates. induction gates as [|g gates IH]; intros init t0 a b H; cbn [states_loop] in H.
    - injection H as <- <-. reflexivity.
    - destruct (dget g ins) as [sig|]; [|discriminate]. destruct (solve sig init s k) as [[x y]|] eqn:E; [|discriminate].
      cbn [rbind fst snd] in *. destruct (loop s k gates (last x init) (last y 0%R)) as [[p q]|] eqn:El; [|discriminate].
      cbn [rbind fst snd] in *. injection H as <- <-. rewrite !app_length, map_length, (IH _ _ _ _ El).
      destruct (C38_final_state_agrees _ _ _ _ _ _ _ _ _ _ _ E) as [_ ->]. reflexivity.
  Qed.
End Traj.

(** A gate sequence on a properly sampled system is simulated without error; the
    trajectory starts in the initial state and has one state per time, 1 plus the number
    of samples of each gate in total. *)
Theorem C99_trajectory :
  forall interp n h0 hctrls lind ins init st s k (gs : list (string * (R * R * nat))),
  start_state k init = Ok st -> shape_ok n lind k st = true -> (lind = None -> k <> Lindblad) ->
  (forall g t0 dt N, In (g, (t0, dt, N)) gs -> sampled_gate hctrls ins g t0 dt N) ->
  exists states ts, compute_states interp n h0 hctrls lind ins init (Some (map fst gs)) s k = Ok (states, ts)
    /\ nth_error states 0 = Some (ent st) /\ nth_error ts 0 = Some 0%R
    /\ length states = length ts /\ length states = 1 + list_sum (map (fun g => snd (snd g)) gs).
Proof.
  intros interp n h0 hctrls lind ins init st s k gs Hst Hsh Hk Hg.
  destruct (sampled_loop interp n h0 hctrls lind ins s k gs Hg Hk (ent st) 0%R) as (a & Ea & La).
  pose proof (loop_lengths _ _ _ _ _ _ _ _ _ _ _ _ _ Ea) as L.
  unfold compute_states. rewrite Hst. cbn [rbind]. destruct gs as [|g gs].
  - cbn. eexists _, _. split; [reflexivity|]. auto.
  - cbn [map] in *. rewrite Ea. cbn [rbind fst snd]. rewrite Hsh. eexists _, _. split; [reflexivity|].
    cbn [nth_error length]. rewrite <- L, La. auto.
Qed.
Print Assumptions C99_trajectory.

(** The times of one gate are its samples, those of a second gate its samples after the
    last sample of the first. *)
Theorem C99_times_two_gates :
  forall interp n h0 hctrls lind ins init states ts s k g1 t1 d1 N1 g2 t2 d2 N2,
  (lind = None -> k <> Lindblad) ->
  sampled_gate hctrls ins g1 t1 d1 N1 -> sampled_gate hctrls ins g2 t2 d2 N2 ->
  compute_states interp n h0 hctrls lind ins init (Some [g1; g2]) s k = Ok (states, ts) ->
  ts = 0%R :: grid t1 d1 N1 ++ map (fun t => (last (grid t1 d1 N1) 0 + t)%R) (grid t2 d2 N2).
Proof.
  intros interp n h0 hctrls lind ins init states ts s k g1 t1 d1 N1 g2 t2 d2 N2 Hk H1 H2 H.
  unfold compute_states in H. destruct (start_state k init) as [st|]; [|discriminate]. cbn [rbind] in H.
  destruct (sampled_loop interp n h0 hctrls lind ins s k [(g1, (t1, d1, N1)); (g2, (t2, d2, N2))]) with (init := ent st) (off := 0%R) as (a & Ea & _); auto.
  { intros g t0 dt N [X|[X|[]]]; injection X as <- <- <- <-; assumption. }
  cbn [map fst snd] in Ea. rewrite Ea in H. cbn [rbind fst snd] in H. destruct (shape_ok n lind k st); [|discriminate].
  injection H as _ <-. cbn [loop_times]. rewrite app_nil_r. f_equal. f_equal.
  - rewrite (map_ext _ (fun t => t)) by (intro; ring). apply map_id.
  - apply map_ext. intro. ring.
Qed.
Print Assumptions C99_times_two_gates.

(** Running a sequence in two parts, the second from the last state of the first, gives
    the same states as running it at once. *)
Theorem C99_split :
  forall interp n h0 hctrls lind ins init g1 g2 s k states ts,
  k <> VonNeumann ->
  compute_states interp n h0 hctrls lind ins init (Some (g1 ++ g2)) s k = Ok (states, ts) ->
  shape_ok n lind k init = true ->
  exists states1 ts1 states2 ts2 mid_state,
    compute_states interp n h0 hctrls lind ins init (Some g1) s k = Ok (states1, ts1)
    /\ last states1 mzero = mid_state
    /\ compute_states interp n h0 hctrls lind ins {| rows := rows init; cols := cols init; ent := mid_state |} (Some g2) s k
       = Ok (mid_state :: states2, ts2)
    /\ states = states1 ++ states2.
Proof.
  intros interp n h0 hctrls lind ins init g1 g2 s k states ts Hk H Hsh.
  assert (Hst : forall x, start_state k x = Ok x) by (intro x; destruct k; try reflexivity; congruence).
  assert (Hsh' : forall x, shape_ok n lind k {| rows := rows init; cols := cols init; ent := x |} = true)
    by (intro x; exact Hsh).
  assert (G : forall x gs, compute_states interp n h0 hctrls lind ins {| rows := rows init; cols := cols init; ent := x |} (Some gs) s k
     = rbind (states_loop interp n h0 hctrls lind ins s k gs x 0%R) (fun r => Ok (x :: fst r, 0%R :: snd r))).
  { intros x gs. unfold compute_states. rewrite Hst. cbn [rbind ent]. destruct gs; [reflexivity|]. rewrite Hsh'. reflexivity. }
  assert (D : init = {| rows := rows init; cols := cols init; ent := ent init |}) by (destruct init; reflexivity).
  rewrite D in H. rewrite G in H. destruct (states_loop _ _ _ _ _ _ _ _ (g1 ++ g2) _ _) as [[a b]|] eqn:E; [|discriminate].
  cbn [rbind fst snd] in H. injection H as <- <-.
  destruct (loop_app _ _ _ _ _ _ _ _ _ _ _ _ _ _ E) as (a1 & b1 & a2 & b2 & E1 & E2 & ->).
  eexists (ent init :: a1), _, a2, _, (last a1 (ent init)). rewrite D at 1. rewrite !G, E1, E2. cbn [rbind fst snd ent].
  split; [reflexivity|]. split; [|split; reflexivity].
  destruct a1 as [|x a1]; [reflexivity|]. change (last (ent init :: x :: a1) mzero) with (last (x :: a1) mzero).
  apply last_def. discriminate.
Qed.
Print Assumptions C99_split.

(** compute_final_state returns the last state of compute_states. *)
Theorem C99_final_state :
  forall interp n h0 hctrls lind ins init gates s k states ts, gates <> [] ->
  compute_states interp n h0 hctrls lind ins init (Some gates) s k = Ok (states, ts) ->
  exists t, compute_final_state interp n h0 hctrls lind ins init (Some gates) s k = Ok (last states mzero, t).
Proof.
  intros interp n h0 hctrls lind ins init gates s k states ts Hne H.
  unfold compute_states, compute_final_state in *. destruct (start_state k init) as [st|]; [|discriminate]. cbn [rbind] in *.
  destruct gates as [|g gates]; [congruence|].
  destruct (states_loop _ _ _ _ _ _ _ _ (g :: gates) _ _) as [[a b]|] eqn:E; [|discriminate]. cbn [rbind fst snd] in H.
  destruct (shape_ok n lind k st); [|discriminate]. injection H as <- <-.
  destruct (loop_final _ _ _ _ _ _ _ _ _ _ _ _ _ None E) as (r & Er & _ & R1).
  destruct R1 as [ts' ->]; [discriminate|]. rewrite Er. cbn [rbind]. eexists. do 2 f_equal.
  destruct a as [|x a]; [reflexivity|]. change (last (ent st :: x :: a) mzero) with (last (x :: a) mzero).
  apply last_def. discriminate.
Qed.
Print Assumptions C99_final_state.

(** Along the whole trajectory of a density matrix, over all gates, trace and Hermiticity
    are those of the initial state. *)
Theorem C99_density :
  forall interp n h0 hctrls lind ins init st gates s k states ts,
  density_step lind k -> start_state k init = Ok st ->
  compute_states interp n h0 hctrls lind ins init (Some gates) s k = Ok (states, ts) ->
  Forall (fun rho => mtrace n rho = mtrace n (ent st)) states
  /\ (hermitian n h0 -> (forall c h, dget c hctrls = Some h -> hermitian n h) -> hermitian n (ent st) ->
      Forall (hermitian n) states).
Proof.
  intros interp n h0 hctrls lind ins init st gates s k states ts Hk Hst H.
  assert (G : forall P : mat -> Prop, P (ent st) ->
     (forall sig i x y, P i -> ode_solver interp n h0 hctrls lind sig i s k = Ok (x, y) -> Forall P x) -> Forall P states).
  { intros P P0 HP. unfold compute_states in H. rewrite Hst in H. cbn [rbind] in H. destruct gates as [|g gates].
    - injection H as <- <-. auto.
    - destruct (states_loop _ _ _ _ _ _ _ _ (g :: gates) _ _) as [[a b]|] eqn:E; [|discriminate]. cbn [rbind fst snd] in H.
      destruct (shape_ok n lind k st); [|discriminate]. injection H as <- <-. constructor; [exact P0|].
      eapply loop_inv; [exact HP|exact P0|exact E]. }
  split.
  - apply G; [reflexivity|]. intros sig i x y Hi E.
    eapply Forall_impl; [|exact (C38_trace_preserved _ _ _ _ _ _ _ _ _ _ _ Hk E)]. cbv beta. intros rho Hr. congruence.
  - intros H0 Hc Hi. apply G; [exact Hi|]. intros sig i x y Hi' E.
    exact (C38_hermitian_preserved _ _ _ _ _ _ _ _ _ _ _ Hk H0 Hc Hi' E).
Qed.
Print Assumptions C99_density.

(** A trajectory with the step "von_neumann" starts from the projector on the initial
    state vector when the amplitudes are real, and keeps its trace: the squared norm of
    that vector. *)
Theorem C99_von_neumann_start :
  forall interp n h0 hctrls lind ins init gates s states ts,
  (forall i, i < n -> snd (ent init i 0) = 0%R) ->
  compute_states interp n h0 hctrls lind ins init (Some gates) s VonNeumann = Ok (states, ts) ->
  cols init = 1
  /\ (exists rho rest, states = rho :: rest
      /\ forall i j, i < n -> j < n -> rho i j = (ent init i 0 * Cconj (ent init j 0))%C)
  /\ Forall (fun rho => mtrace n rho = csum n (fun i => (ent init i 0 * Cconj (ent init i 0))%C)) states.
Proof.
  intros interp n h0 hctrls lind ins init gates s states ts Hr H.
  destruct (start_state VonNeumann init) as [st|] eqn:E; [|unfold compute_states in H; rewrite E in H; discriminate].
  assert (D : density_step lind VonNeumann) by (destruct lind; exact I || reflexivity).
  destruct (C99_density _ _ _ _ _ _ _ _ _ _ _ _ _ D E H) as (T & _).
  pose proof E as E'. unfold start_state, state_to_dm in E'. destruct (Nat.eqb (cols init) 1) eqn:Ec; [|discriminate E'].
  injection E' as <-. cbn [ent] in T.
  assert (P : forall i j, i < n -> j < n -> tf_state_to_dm (ent init) i j = (ent init i 0 * Cconj (ent init j 0))%C).
  { intros i j Hi Hj. unfold tf_state_to_dm, mmul, mtrans. cbn [csum]. specialize (Hr j Hj). destruct (ent init j 0) as [a b]. cbn in Hr. subst b.
    apply C_ext; cbn; ring. }
  split; [apply Nat.eqb_eq; exact Ec|]. split.
  - unfold compute_states in H. rewrite E in H. cbn [rbind] in H. destruct gates as [|g gates].
    + injection H as <- _. eexists _, _. split; [reflexivity|]. exact P.
    + destruct (states_loop _ _ _ _ _ _ _ _ (g :: gates) _ _) as [[a b]|]; [|discriminate]. cbn [rbind fst snd] in H.
      destruct (shape_ok _ _ _ _); [|discriminate]. injection H as <- _. eexists _, _. split; [reflexivity|]. exact P.
  - eapply Forall_impl; [|exact T]. cbv beta. intros rho ->. unfold mtrace. apply csum_ext. intros i Hi. apply P; exact Hi.
Qed.
Print Assumptions C99_von_neumann_start.

(** A gate that is not defined raises. *)
Theorem C99_unknown_gate :
  forall interp n h0 hctrls lind ins init st gates s k,
  start_state k init = Ok st -> (exists g, In g gates /\ dget g ins = None) ->
  is_ok (compute_states interp n h0 hctrls lind ins init (Some gates) s k) = false
  /\ is_ok (compute_final_state interp n h0 hctrls lind ins init (Some gates) s k) = false.
Proof.
  intros interp n h0 hctrls lind ins init st gates s k Hst (g & Hin & Hg).
  assert (A : forall i t, is_ok (states_loop interp n h0 hctrls lind ins s k gates i t) = false).
  { clear Hst. induction gates as [|g' gates IH]; [contradiction|]. intros i t. cbn [states_loop]. destruct Hin as [->|Hin].
    - rewrite Hg. reflexivity.
    - destruct (dget g' ins) as [sig|]; [|reflexivity]. destruct (ode_solver _ _ _ _ _ _ _ _ _) as [[x y]|]; [|reflexivity].
      cbn [rbind fst snd]. specialize (IH Hin (last x i) (last y 0%R)).
      destruct (states_loop _ _ _ _ _ _ _ _ _ _ _); [discriminate|reflexivity]. }
  assert (B : forall i r, is_ok (final_loop interp n h0 hctrls lind ins s k gates i r) = false).
  { clear Hst A. induction gates as [|g' gates IH]; [contradiction|]. intros i r. cbn [final_loop]. destruct Hin as [->|Hin].
    - rewrite Hg. reflexivity.
    - destruct (dget g' ins) as [sig|]; [|reflexivity]. destruct (ode_solver_final_state _ _ _ _ _ _ _ _ _) as [[x y]|]; [|reflexivity].
      cbn [rbind fst snd]. apply IH. exact Hin. }
  unfold compute_states, compute_final_state. rewrite Hst. cbn [rbind]. split.
  - destruct gates as [|g' gates]; [contradiction|]. specialize (A (ent st) 0%R).
    destruct (states_loop _ _ _ _ _ _ _ _ _ _ _); [discriminate|reflexivity].
  - specialize (B (ent st) None). destruct (final_loop _ _ _ _ _ _ _ _ _ _ _); [discriminate|reflexivity].
Qed.
Print Assumptions C99_unknown_gate.

(** Finding: from the third gate on the times are wrong: the offset is the end of the
    previous gate counted from that gate's own start.  A gate repeated three times gets the
    same times in its second and its third run. *)
Theorem C99_times_three_gates_refuted :
  forall interp n h0 hctrls lind ins init states ts s k g t0 dt N,
  (lind = None -> k <> Lindblad) -> sampled_gate hctrls ins g t0 dt N ->
  compute_states interp n h0 hctrls lind ins init (Some [g; g; g]) s k = Ok (states, ts) ->
  forall i, i < N -> nth (1 + N + i) ts 0%R = nth (1 + 2 * N + i) ts 0%R.
Proof.
  intros interp n h0 hctrls lind ins init states ts s k g t0 dt N Hk Hs H i Hi.
  unfold compute_states in H. destruct (start_state k init) as [st|]; [|discriminate]. cbn [rbind] in H.
  destruct (sampled_loop interp n h0 hctrls lind ins s k [(g, (t0, dt, N)); (g, (t0, dt, N)); (g, (t0, dt, N))]) with (init := ent st) (off := 0%R) as (a & Ea & _); auto.
  { intros g' t0' dt' N' [X|[X|[X|[]]]]; injection X as <- <- <- <-; assumption. }
  cbn [map fst snd] in Ea. rewrite Ea in H. cbn [rbind fst snd] in H. destruct (shape_ok n lind k st); [|discriminate].
  injection H as _ <-. cbn [loop_times]. rewrite app_nil_r. cbn [Nat.add nth].
  set (A := map (fun t => (t + 0)%R) _). set (B := map (fun t => (t + last _ _)%R) _).
  assert (LA : length A = N) by (unfold A; rewrite map_length; apply grid_length).
  assert (LB : length B = N) by (unfold B; rewrite map_length; apply grid_length).
  rewrite (app_nth2 A) by lia. rewrite (app_nth1 B) by lia.
  rewrite (app_nth2 A) by lia. rewrite (app_nth2 B) by lia. f_equal. lia.
Qed.
Print Assumptions C99_times_three_gates_refuted.

(** Finding: the time compute_final_state returns is that of the last gate alone. *)
Theorem C99_final_time_refuted :
  forall interp n h0 hctrls lind ins init x t s k g t0 dt N m,
  (lind = None -> k <> Lindblad) -> sampled_gate hctrls ins g t0 dt N ->
  compute_final_state interp n h0 hctrls lind ins init (Some (repeat g (S m))) s k = Ok (x, t) ->
  t = last (grid t0 dt N) 0%R.
Proof.
  intros interp n h0 hctrls lind ins init x t s k g t0 dt N m Hk Hs H.
  unfold compute_final_state in H. destruct (start_state k init) as [st|]; [|discriminate]. cbn [rbind] in H.
  assert (G : forall m i res r, final_loop interp n h0 hctrls lind ins s k (repeat g (S m)) i res = Ok r ->
     exists y, r = Some (y, grid t0 dt N)).
  { clear m H. induction m as [|m IH]; intros i res r H.
    - cbn [repeat final_loop] in H. destruct (sampled_solve interp n h0 hctrls lind ins g t0 dt N i s k Hs Hk) as (sig & z & E & F & _).
      rewrite E in H. destruct (C38_final_state_agrees _ _ _ _ _ _ _ _ _ _ _ F) as [F' _]. rewrite F' in H. cbn [rbind] in H.
      injection H as <-. eauto.
    - change (repeat g (S (S m))) with (g :: repeat g (S m)) in H. cbn [final_loop] in H.
      destruct (dget g ins); [|discriminate]. destruct (ode_solver_final_state _ _ _ _ _ _ _ _ _); [|discriminate].
      cbn [rbind] in H. eapply IH. exact H. }
  destruct (final_loop _ _ _ _ _ _ _ _ _ _ _) as [r|] eqn:E; [|discriminate]. cbn [rbind] in H.
  destruct (G _ _ _ _ E) as [y ->]. destruct (shape_ok n lind k st); [|discriminate]. injection H as _ <-. reflexivity.
Qed.
Print Assumptions C99_final_time_refuted.

(** Finding: without a sequence both methods fail, and an empty one fails for the final
    state only. *)
Theorem C99_no_sequence_refuted :
  forall interp n h0 hctrls lind ins init s,
  compute_states interp n h0 hctrls lind ins init None s Schrodinger = Err TypeError
  /\ compute_final_state interp n h0 hctrls lind ins init None s Schrodinger = Err TypeError
  /\ compute_states interp n h0 hctrls lind ins init (Some []) s Schrodinger = Ok ([ent init], [0%R])
  /\ compute_final_state interp n h0 hctrls lind ins init (Some []) s Schrodinger = Err AttributeError.
Proof. intros. repeat split; reflexivity. Qed.
Print Assumptions C99_no_sequence_refuted.

(** Finding: with complex amplitudes the von Neumann trajectory starts from a matrix that
    is not a density matrix: its trace can be zero. *)
Theorem C99_complex_ket_refuted :
  let s := sqrt (1 / 2) in
  exists states ts rho, compute_states (fun _ _ t => t) 2 mid [] None [] (ket2 (RtoC s) (0%R, s)) (Some []) RK4 VonNeumann = Ok (states, ts)
    /\ In rho states /\ mtrace 2 rho = RtoC 0.
Proof.
  intro s. eexists _, _, _. split; [reflexivity|]. split; [left; reflexivity|].
  unfold mtrace, csum, tf_state_to_dm, mmul, mtrans. cbn. apply C_ext; cbn; ring.
Qed.
Print Assumptions C99_complex_ket_refuted.

Definition demo_signal : dict channel := [("d1"%string, {| ch_ts := grid (1/2) 1 3; ch_values := [0; 1; 0]%R |})].
Example C99_example :
  let ins := [("x"%string, demo_signal)] in let hctrls := [("d1"%string, mid)] in
  sampled_gate hctrls ins "x" (1/2) 1 3
  /\ start_state Schrodinger (ket2 (RtoC 1) (RtoC 0)) = Ok (ket2 (RtoC 1) (RtoC 0))
  /\ shape_ok 2 None Schrodinger (ket2 (RtoC 1) (RtoC 0)) = true
  /\ exists st ts, compute_states (fun _ _ t => t) 2 mid hctrls None ins (ket2 (RtoC 1) (RtoC 0))
                     (Some ["x"; "x"; "x"]%string) RK4 Schrodinger = Ok (st, ts) /\ length st = 10.
Proof.
  intros ins hctrls.
  assert (A : sampled_gate hctrls ins "x" (1/2) 1 3).
  { exists demo_signal, [mid]. split; [reflexivity|]. split; [discriminate|]. split; [lia|]. split; [lra|]. split; [|reflexivity].
    intros c ch [X|[]]. injection X as <- <-. reflexivity. }
  split; [exact A|]. split; [reflexivity|]. split; [reflexivity|].
  destruct (C99_trajectory (fun _ _ t => t) 2 mid hctrls None ins (ket2 (RtoC 1) (RtoC 0)) (ket2 (RtoC 1) (RtoC 0)) RK4 Schrodinger
     [("x"%string, ((1/2)%R, 1%R, 3)); ("x"%string, ((1/2)%R, 1%R, 3)); ("x"%string, ((1/2)%R, 1%R, 3))])
    as (st & ts & E & _ & _ & _ & L); auto; try reflexivity; try discriminate.
  - intros g t0 dt N [X|[X|[X|[]]]]; injection X as <- <- <- <-; exact A.
  - eauto.
Qed.

(** ** C100: the propagation method *)

(** The number of steps of a gate. *)
Definition gate_steps (e : mexper) (t : R) : nat := floor_nat (t * me_sim_res e).
Lemma compute_stack_in : forall sr ls acc,
  (forall t, In t ls -> exists l, In (floor_nat (t * sr), l) (compute_stack sr ls acc))
  /\ (forall e, In e acc -> In e (compute_stack sr ls acc))
  /\ ((forall k l, In (k, l) acc -> l = folding_stack k) -> forall k l, In (k, l) (compute_stack sr ls acc) -> l = folding_stack k).
Proof.
  intros sr ls. induction ls as [|t ls IH]; intro acc; cbn [compute_stack]; [repeat split; auto; contradiction|].
  cbv zeta. set (acc' := if existsb _ _ then _ else _). destruct (IH acc') as (A & B & D).
  assert (S : forall e, In e acc -> In e acc').
  { intros e He. unfold acc'. destruct (existsb _ _); [exact He|]. apply in_or_app. auto. }
  repeat split.
  - intros u [<-|Hu]; [|apply A; exact Hu].
    assert (X : exists l, In (floor_nat (t * sr), l) acc').
    { unfold acc'. destruct (existsb _ acc) eqn:E.
      - apply existsb_exists in E as [[k l] [I E]]. apply Nat.eqb_eq in E. cbn in E. subst k. eauto.
      - eexists. apply in_or_app. right. left. reflexivity. }
    destruct X as [l X]. exists l. apply B. exact X.
  - intros e He. apply B, S, He.
  - intros Ha. apply D. intros k l Hin. unfold acc' in Hin. destruct (existsb _ acc); [apply Ha; exact Hin|].
    apply in_app_or in Hin as [Hin|[X|[]]]; [apply Ha; exact Hin|]. injection X as <- <-. reflexivity.
Qed.
Lemma find_stack : forall d k, (forall k l, In (k, l) d -> l = folding_stack k) -> (exists l, In (k, l) d) ->
  exists x, find (fun x : nat * list layer => Nat.eqb (fst x) k) d = Some x /\ snd x = folding_stack k.
Proof.
  intros d k Hd [l Hl]. destruct (find _ d) as [[k' l']|] eqn:E.
  - apply find_some in E as [I E]. apply Nat.eqb_eq in E. cbn in E. subst k'. exists (k, l'). split; [reflexivity|]. cbn. apply Hd. exact I.
  - exfalso. pose proof (find_none _ _ E _ Hl) as X. cbn in X. rewrite Nat.eqb_refl in X. discriminate.
Qed.

(** Calls that change the method of an experiment: compute_states, compute_final_state
    and set_prop_method. *)
Inductive method_calls : mexper -> mexper -> Prop :=
| calls_none e : method_calls e e
| calls_more e a e' e'' : set_prop_method e a = Ok e' -> method_calls e' e'' -> method_calls e e''.

(** An experiment made with a parameter map and the default method computes the
    propagator of every gate with "pwc" and the folding stack for its number of steps,
    whatever simulations of states were run before. *)
Theorem C100_default_method :
  forall d sim_res e0 e g t,
  experiment_init (Some d) MNone sim_res = Ok e0 -> method_calls e0 e -> dget g d = Some t ->
  exists e', propagator_call e g = Ok ("pwc"%string, folding_stack (floor_nat (t * sim_res)), e').
Proof.
  intros d sim_res e0 e g t H0 Hc Hg.
  assert (K : me_pmap e = Some d /\ me_sim_res e = sim_res /\ me_method e = MNone).
  { injection H0 as <-. assert (Z : forall a b, method_calls a b -> me_pmap a = Some d /\ me_sim_res a = sim_res /\ me_method a = MNone ->
       me_pmap b = Some d /\ me_sim_res b = sim_res /\ me_method b = MNone).
    { intros a b Hab. induction Hab as [a|a arg a' a'' Hs Hab IH]; intro Q; [exact Q|]. apply IH. clear IH Hab.
      unfold set_prop_method in Hs. destruct arg as [|s|f]; [|destruct (_ || _); [|discriminate]|]; injection Hs as <-; exact Q. }
    eapply Z; [exact Hc|]. repeat split. }
  destruct K as (K1 & K2 & K3). unfold propagator_call. rewrite K1, K3. cbn [set_prop_method rbind]. rewrite K1, Hg.
  unfold stack_lookup, with_propagation. cbn [me_stack me_sim_res me_propagation me_pmap]. rewrite K2.
  destruct (compute_stack_in sim_res (map snd d) []) as (A & _ & D).
  destruct (find_stack (compute_stack sim_res (map snd d) []) (floor_nat (t * sim_res))) as (x & Ex & Sx).
  - intros k l Hin. eapply D; [|exact Hin]. contradiction.
  - apply A. apply in_map_iff. exists (g, t). split; [reflexivity|]. apply dget_Some_in. exact Hg.
  - rewrite Ex. cbn [rbind]. rewrite Sx. eauto.
Qed.
Print Assumptions C100_default_method.

(** An unknown name of a method raises and nothing else changes it. *)
Theorem C100_unknown_method :
  forall e s, set_prop_method e (MName s) = Err KeyError
  <-> ~ In s ["gen_dus_rk4"; "rk4_unitary"; "pwc"; "tf_propagation"; "ode_solver"; "ode_solver_final_state"]%string.
Proof.
  intros e s. unfold set_prop_method.
  assert (E : existsb (String.eqb s) unitary_provider || existsb (String.eqb s) state_provider = true
    <-> In s ["gen_dus_rk4"; "rk4_unitary"; "pwc"; "tf_propagation"; "ode_solver"; "ode_solver_final_state"]%string).
  { rewrite <- existsb_app. rewrite existsb_exists. split.
    - intros (x & I & X). apply String.eqb_eq in X. subst x. exact I.
    - intro I. exists s. split; [exact I|apply String.eqb_refl]. }
  destruct (_ || _).
  - split; [discriminate|]. intro X. exfalso. apply X, E. reflexivity.
  - split; auto. intros _ I. apply E in I. discriminate.
Qed.
Print Assumptions C100_unknown_method.

(** What set_prop_method selects: a registered name or a function selects itself, no
    argument selects "pwc"; the other attributes stay, except that without argument the
    folding stacks are computed. *)
Theorem C100_selected_method :
  forall e a e', set_prop_method e a = Ok e' ->
  me_propagation e' = Some (match a with MNone => "pwc"%string | MName s => s | MCallable f => f end)
  /\ me_pmap e' = me_pmap e /\ me_sim_res e' = me_sim_res e /\ me_method e' = me_method e
  /\ (a <> MNone -> me_stack e' = me_stack e).
Proof.
  intros e a e' H. unfold set_prop_method in H. destruct a as [|s|f]; [|destruct (_ || _); [|discriminate]|]; injection H as <-; repeat split; congruence.
Qed.
Print Assumptions C100_selected_method.

(** Stacks computed for other instructions: the gate is refused unless one of them has its number of steps. *)
Lemma stack_elsewhere : forall res n l acc, (forall x, In x acc -> fst x <> n) -> (forall t, In t l -> floor_nat (t * res) <> n) ->
  find (fun x => Nat.eqb (fst x) n) (compute_stack res l acc) = None.
Proof.
  intros res n. induction l as [|t l IH]; intros acc Ha Hl; cbn [compute_stack].
  - destruct (find _ acc) as [x|] eqn:E; [|reflexivity]. apply find_some in E. destruct E as [I E].
    apply Nat.eqb_eq in E. destruct (Ha x I E).
  - cbv zeta. apply IH; [|intros t' I; apply Hl; right; exact I].
    destruct (existsb _ acc); [exact Ha|]. intros x I. apply in_app_or in I. destruct I as [I|[<-|[]]]; [apply Ha; exact I|].
    apply (Hl t). left. reflexivity.
Qed.
Theorem C100_other_lengths :
  forall e e1 d (d' : dict R) res g t, me_method e <> MNone -> set_prop_method e (me_method e) = Ok e1 ->
  me_stack e = Some (compute_stack res (map snd d') []) -> me_pmap e = Some d -> dget g d = Some t ->
  (forall k t', In (k, t') d' -> floor_nat (t' * res) <> floor_nat (t * me_sim_res e)) ->
  propagator_call e g = Err KeyError.
Proof.
  intros e e1 d d' res g t Hm H Hs Hp Hg N. destruct (C100_selected_method e _ e1 H) as (_ & _ & R & _ & K).
  unfold propagator_call. rewrite Hp, H. cbn [rbind]. rewrite Hg. unfold stack_lookup. rewrite (K Hm), Hs, R.
  rewrite stack_elsewhere; [reflexivity|intros x []|]. intros t' I. apply in_map_iff in I. destruct I as ([k x] & <- & I).
  apply (N k x I).
Qed.
Print Assumptions C100_other_lengths.

Example C100_example :
  exists e0, experiment_init (Some [("x"%string, 1%R)]) MNone 4 = Ok e0
    /\ exists e1, set_prop_method e0 (MName "ode_solver") = Ok e1 /\ method_calls e0 e1 /\ me_propagation e1 = Some "ode_solver"%string.
Proof.
  eexists. split; [reflexivity|]. eexists. split; [reflexivity|]. split; [|reflexivity].
  eapply (calls_more _ (MName "ode_solver")); [reflexivity|apply calls_none].
Qed.

(** Finding: an experiment made with a named method, even "pwc", or with a function never
    computes the folding stacks; compute_propagators then fails for every gate. *)
Theorem C100_named_method_refuted :
  forall d sim_res a e0 g t, a <> MNone ->
  experiment_init (Some d) a sim_res = Ok e0 -> dget g d = Some t ->
  propagator_call e0 g = Err AttributeError.
Proof.
  intros d sim_res a e0 g t Ha H Hg. unfold experiment_init in H. destruct a as [|s|f]; [congruence| |].
  - unfold set_prop_method in H. destruct (_ || _) eqn:E; [|discriminate]. injection H as <-.
    unfold propagator_call, set_prop_method, with_propagation. cbn [me_pmap me_method me_sim_res me_stack]. rewrite E. cbn [rbind].
    rewrite Hg. reflexivity.
  - injection H as <-. unfold propagator_call. cbn [me_pmap me_method with_propagation set_prop_method rbind]. rewrite Hg. reflexivity.
Qed.
Print Assumptions C100_named_method_refuted.
