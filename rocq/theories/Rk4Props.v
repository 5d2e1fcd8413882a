(** Property C111: the propagation method rk4_unitary, the Hamiltonians it works on, and
    which of the registered methods an experiment can use. *)
From Coq Require Import Reals Lra Lia.
From Coquelicot Require Import Complex.
From Verif Require Import Base Mat MExp HilbertModel PropModel FoldModel FoldProps EnvModel SampleProofs PropProps Prop2Props
                          ExpModel ExpProps TrajModel TrajProps Rk4Model.
Local Open Scope list_scope.
Local Open Scope nat_scope.
Local Notation length := List.length.

(** ** Specification *)

(** The time points of the last drive line. *)
Definition last_times (signal : dict wave) (ts : list R) : Prop :=
  exists r kv, signal = r ++ [kv] /\ ts = w_ts (snd kv).
(** One step of the classical Runge-Kutta method for dU/dt = -i H(t) U from U = 1, with
    the Hamiltonian at the start, the middle and the end of the step. *)
Definition classical_step (n : nat) (dt : R) (H0 H1 H2 : mat) : mat :=
  let f (H X : mat) := mscale (- Ci * RtoC dt)%C (mmul n H X) in
  let K1 := f H0 mid in
  let K2 := f H1 (madd mid (mscale (RtoC (1 / 2)) K1)) in
  let K3 := f H1 (madd mid (mscale (RtoC (1 / 2)) K2)) in
  let K4 := f H2 (madd mid K3) in
  madd mid (mscale (RtoC (1 / 6)) (madd (madd (madd K1 (mscale (RtoC 2) K2)) (mscale (RtoC 2) K3)) K4)).
(** The product of the first [k] steps, the latest leftmost. *)
Fixpoint evolved (n : nat) (step : nat -> mat) (k : nat) : mat :=
  match k with O => mid | S j => mmul n (step j) (evolved n step j) end.
(** The method of a registered name. *)
Definition registered (s : string) : Prop :=
  In s ["gen_dus_rk4"; "rk4_unitary"; "pwc"; "tf_propagation"; "ode_solver"; "ode_solver_final_state"]%string.

(** ** Hamiltonians *)

Lemma every_nth : forall p ts k j, 1 <= p -> nth_error (every p k ts) j = nth_error ts (k + j * p).
Proof.
  intros p. induction ts as [|t ts IH]; intros k j Hp; cbn [every].
  - destruct j; destruct (k + _); reflexivity.
  - destruct k as [|k].
    + destruct j as [|j]; [reflexivity|]. cbn [nth_error]. rewrite IH by exact Hp.
      replace (0 + S j * p) with (S (p - 1 + j * p)) by (cbn; lia). reflexivity.
    + rewrite IH by exact Hp. reflexivity.
Qed.
Lemma sampled_ok : forall Hs ts p d, sampled Hs ts p = Ok d ->
  1 <= p /\ d_Hs d = Hs /\ (forall j, nth_error (d_ts d) j = nth_error ts (j * p))
  /\ exists a b, nth_error ts 0 = Some a /\ nth_error ts p = Some b /\ d_dt d = (b - a)%R.
Proof.
  intros Hs ts p d H. unfold sampled in H. destruct (nth_error ts p) as [b|] eqn:Eb; [|discriminate].
  destruct (nth_error ts 0) as [a|] eqn:Ea; [|discriminate].
  destruct (Nat.eqb_spec p 0) as [|Hp]; [discriminate|]. injection H as <-. cbn [d_Hs d_ts d_dt].
  split; [lia|]. split; [reflexivity|]. split.
  - intro j. rewrite every_nth by lia. reflexivity.
  - exists a, b. auto.
Qed.
Lemma sum_left : forall n l h0 acc,
  meq n n (fold_left (fun h ch => madd h (mscale (fst ch) (snd ch))) l (madd h0 acc))
          (madd h0 (madd acc (fold_right (fun ch a => madd (mscale (fst ch) (snd ch)) a) mzero l))).
Proof.
  intros n. induction l as [|[c h] l IH]; intros h0 acc; cbn [fold_left fold_right fst snd].
  - intros i j _ _. unfold madd, mzero. ring.
  - assert (E : meq n n (madd (madd h0 acc) (mscale c h)) (madd h0 (madd acc (mscale c h)))).
    { intros i j _ _. unfold madd. ring. }
    assert (P : forall l A B, meq n n A B -> meq n n (fold_left (fun h ch => madd h (mscale (fst ch) (snd ch))) l A)
                                             (fold_left (fun h ch => madd h (mscale (fst ch) (snd ch))) l B)).
    { clear. induction l as [|x l IH]; intros A B E; cbn [fold_left]; [exact E|]. apply IH. rewrite E. reflexivity. }
    rewrite (P l _ _ E), IH. intros i j _ _. unfold madd. ring.
Qed.
Lemma sum_h0_driven : forall m (signal : dict wave) hks t,
  Forall2 (fun kv h => dget (fst kv) (p_hctrls m) = Some h) signal hks -> forall n,
  meq n n (sum_h0_hks (p_h0 m) hks (map (fun v => nth t v (RtoC 0)) (map to_C (map (fun kv => w_values (snd kv)) signal))))
          (driven_hamiltonian m signal t).
Proof.
  intros m signal hks t H n. unfold sum_h0_hks, driven_hamiltonian.
  set (F := fold_right _ mzero signal).
  set (l := combine _ hks).
  assert (E0 : meq n n (fold_left (fun h ch => madd h (mscale (fst ch) (snd ch))) l (p_h0 m))
                       (fold_left (fun h ch => madd h (mscale (fst ch) (snd ch))) l (madd (p_h0 m) mzero))).
  { assert (P : forall l A B, meq n n A B -> meq n n (fold_left (fun h ch => madd h (mscale (fst ch) (snd ch))) l A)
                                             (fold_left (fun h ch => madd h (mscale (fst ch) (snd ch))) l B)).
    { clear. induction l as [|x l IH]; intros A B E; cbn [fold_left]; [exact E|]. apply IH. rewrite E. reflexivity. }
    apply P. intros i j _ _. unfold madd, mzero. ring. }
  rewrite E0, sum_left.
  assert (E1 : fold_right (fun ch a => madd (mscale (fst ch) (snd ch)) a) mzero l = F).
  { unfold l, F. clear l F E0. induction H as [|kv h signal hks E _ IH]; [reflexivity|].
    cbn [map combine fold_right fst snd]. rewrite E, IH, to_C_nth. reflexivity. }
  rewrite E1. intros i j _ _. unfold madd, mzero. ring.
Qed.

(** With control fields: one Hamiltonian per sample, drift plus every control weighted with
    its sample; every [p]-th time point of the last line; the distance of [p] points. *)
Theorem C111_hamiltonians :
  forall m ham signal res p d res',
  get_hs_of_t_ts true m ham (Ok signal) res p = (Ok d, res') ->
  length (d_Hs d) = samples signal
  /\ (forall t H, nth_error (d_Hs d) t = Some H -> meq (p_dim m) (p_dim m) H (driven_hamiltonian m signal t))
  /\ exists ts a b, last_times signal ts /\ 1 <= p
     /\ nth_error ts 0 = Some a /\ nth_error ts p = Some b /\ d_dt d = (b - a)%R
     /\ (forall j, nth_error (d_ts d) j = nth_error ts (j * p)).
Proof.
  intros m ham signal res p d res' H. unfold get_hs_of_t_ts in H. cbn [rbind] in H. injection H as H _.
  unfold hs_controlled in H. destruct (negb _); [discriminate|].
  destruct (lookup_controls (p_hctrls m) (keys signal)) as [hks|] eqn:El; [|discriminate]. cbn [rbind] in H.
  apply controls_found in El.
  destruct (ragged _); [discriminate|].
  destruct (map (fun kv => w_values (snd kv)) signal) as [|v0 vs] eqn:Ev; [discriminate|].
  assert (Hs : length v0 = samples signal).
  { destruct signal as [|kv s]; [discriminate|]. cbn in Ev. injection Ev as <- _. reflexivity. }
  apply sampled_ok in H. destruct H as (Hp & EH & ET & a & b & Ea & Eb & Ed).
  rewrite EH. split; [rewrite map_length, seq_length; exact Hs|]. split.
  - intros t X HX. rewrite nth_error_map in HX. destruct (nth_error (seq 0 (length v0)) t) as [t'|] eqn:Et; [|discriminate].
    assert (t' = t).
    { assert (Lt : t < length v0) by (rewrite <- (seq_length (length v0) 0); apply nth_error_Some; congruence).
      rewrite (nth_error_nth' _ 0), seq_nth in Et by (rewrite ?seq_length; exact Lt). cbn in Et. congruence. }
    subst t'. injection HX as <-. pose proof (sum_h0_driven m signal hks t El (p_dim m)) as Q. rewrite Ev in Q. exact Q.
  - exists (match rev signal with [] => [] | kv :: _ => w_ts (snd kv) end), a, b.
    split.
    { destruct (rev signal) as [|kv r] eqn:Er; [destruct p; discriminate Ea|].
      exists (rev r), kv. split; [|reflexivity]. rewrite <- (rev_involutive signal), Er. reflexivity. }
    auto.
Qed.
Print Assumptions C111_hamiltonians.

(** The calls of one generator, one after the other. *)
Fixpoint after_calls (b : bool) (m : pmodel) (ham : dict wave -> result (list mat)) (sig : result (dict wave)) (p k : nat) (res : R) : R :=
  match k with O => res | S k' => snd (get_hs_of_t_ts b m ham sig (after_calls b m ham sig p k' res) p) end.
(** Finding: [prop_res] is documented as the resolution the method requires, but neither
    the number of Hamiltonians nor their values depend on it: the samples stay as they are
    and the steps become longer.  What does change is the attribute [resolution] of the
    generator, multiplied at every call, also by a failing one. *)
Theorem C111_resolution_refuted :
  forall b m ham sig res p,
  (forall k, after_calls b m ham sig p k res = (INR p ^ k * res)%R)
  /\ (forall res1, fst (get_hs_of_t_ts b m ham sig res1 p) = fst (get_hs_of_t_ts b m ham sig res p))
  /\ (forall q d d' r1 r2, get_hs_of_t_ts b m ham sig res p = (Ok d, r1) -> get_hs_of_t_ts b m ham sig res q = (Ok d', r2) ->
      d_Hs d = d_Hs d').
Proof.
  intros b m ham sig res p. split; [|split].
  - induction k as [|k IH]; cbn [after_calls pow]; [ring|]. unfold get_hs_of_t_ts. cbn [snd]. rewrite IH. ring.
  - reflexivity.
  - intros q d d' r1 r2 H1 H2. unfold get_hs_of_t_ts in H1, H2. injection H1 as H1 _. injection H2 as H2 _.
    destruct sig as [signal|]; [|discriminate]. cbn [rbind] in H1, H2. destruct b.
    + unfold hs_controlled in H1, H2. destruct (negb _); [discriminate|].
      destruct (lookup_controls _ _); [|discriminate]. cbn [rbind] in H1, H2. destruct (ragged _); [discriminate|].
      destruct (map (fun kv => w_values (snd kv)) signal); [discriminate|].
      apply sampled_ok in H1. apply sampled_ok in H2. destruct H1 as (_ & -> & _). destruct H2 as (_ & -> & _). reflexivity.
    + destruct (ham signal) as [hs|]; [|discriminate]. cbn [rbind] in H1, H2. unfold hs_uncontrolled in H1, H2.
      destruct (map (fun kv => tl (w_ts (snd kv))) signal) as [|t0 tss]; [discriminate|]. destruct (ragged _); [discriminate|].
      destruct (map _ (seq 0 (length t0))) as [|x [|y l]]; try discriminate.
      destruct (negb _); [discriminate|]. destruct (negb _); [discriminate|].
      apply sampled_ok in H1. apply sampled_ok in H2. destruct H1 as (_ & -> & _). destruct H2 as (_ & -> & _). reflexivity.
Qed.
Print Assumptions C111_resolution_refuted.

(** ** Evolution *)

Lemma step_classical : forall n dt H0 H1 H2 h, 
  meq n n (nth 0 h mzero) H0 -> meq n n (nth 1 h mzero) H1 -> meq n n (nth 2 h mzero) H2 ->
  meq n n (rk4_matrix n dt h) (classical_step n dt H0 H1 H2).
Proof.
  intros n dt H0 H1 H2 h E0 E1 E2. unfold rk4_matrix, rk4, lin_rhs, classical_step, hs. cbv zeta.
  replace (1 / 2)%R with (/ 2)%R by lra. replace (1 / 6)%R with (/ 6)%R by lra.
  rewrite E0, E1, E2. reflexivity.
Qed.
Lemma product_evolved : forall n (step step' : nat -> mat) k,
  (forall j, j < k -> meq n n (step' (2 * j)) (step j)) ->
  meq n n (fold_left (fun U jj => mmul n (step' jj) U) (map (fun k => 2 * k) (seq 0 k)) mid) (evolved n step k).
Proof.
  intros n step step'. induction k as [|k IH]; intro H; [reflexivity|].
  rewrite seq_S, map_app, fold_left_app. cbn [map fold_left evolved Nat.add].
  rewrite IH by (intros; apply H; lia). rewrite H by lia. reflexivity.
Qed.
Lemma rk4_split : forall m ham signal res r res', rk4_unitary true m ham (Ok signal) res = (Ok r, res') ->
  exists d, get_hs_of_t_ts true m ham (Ok signal) res 2 = (Ok d, res')
    /\ r = {| pr_U := gen_u_rk4 (p_dim m) (d_dt d) (d_Hs d); pr_dUs := gen_dus_rk4 (p_dim m) (d_dt d) (d_Hs d); pr_ts := d_ts d |}.
Proof.
  intros m ham signal res r res' H. unfold rk4_unitary in H.
  destruct (get_hs_of_t_ts true m ham (Ok signal) res 2) as [[d|] x]; [|discriminate]. cbn [rbind] in H.
  injection H as <- <-. exists d. auto.
Qed.

(** The gate: with N samples, (N - 1) / 2 steps of the classical method of the length of
    two samples, with the Hamiltonians of three successive samples; the partial propagators
    are the transposed steps. *)
Theorem C111_rk4_unitary :
  forall m ham signal res r res', rk4_unitary true m ham (Ok signal) res = (Ok r, res') ->
  let n := p_dim m in
  let H := driven_hamiltonian m signal in
  exists (ts : list R) (a b : R), last_times signal ts /\ nth_error ts 0 = Some a /\ nth_error ts 2 = Some b /\
  let step j := classical_step n (b - a)%R (H (2 * j)) (H (2 * j + 1)) (H (2 * j + 2)) in
  let steps := (samples signal - 1) / 2 in
  meq n n (pr_U r) (evolved n step steps)
  /\ length (pr_dUs r) = steps
  /\ (forall j u, nth_error (pr_dUs r) j = Some u -> meq n n u (mtrans (step j)))
  /\ (forall j, nth_error (pr_ts r) j = nth_error ts (2 * j)).
Proof.
  intros m ham signal res r res' HR n H. destruct (rk4_split _ _ _ _ _ _ HR) as (d & Hd & ->).
  destruct (C111_hamiltonians _ _ _ _ _ _ _ Hd) as (HL & HH & ts & a & b & HT & _ & Ea & Eb & Edt & ET).
  exists ts, a, b. split; [exact HT|]. split; [exact Ea|]. split; [exact Eb|]. intros step steps. cbn [pr_U pr_dUs pr_ts].
  assert (NH : forall t, t < samples signal -> meq n n (nth t (d_Hs d) mzero) (H t)).
  { intros t Ht. apply HH. apply nth_error_nth'. lia. }
  assert (ND : forall k l j, j < 3 -> nth j (h_slice l k) mzero = nth (k + j) l mzero).
  { intros k l j Hj. unfold h_slice.
    assert (A : forall (l : list mat) j c, j < c -> nth j (firstn c l) mzero = nth j l mzero).
    { induction l0 as [|x l0 IH]; intros j0 c Hc; [destruct c; reflexivity|]. destruct c; [lia|]. destruct j0; [reflexivity|]. cbn. apply IH. lia. }
    rewrite A by exact Hj. clear A. revert l. induction k as [|k IHk]; intro l; [reflexivity|].
    destruct l; cbn [skipn]; [destruct j; reflexivity|]. cbn [Nat.add nth]. apply IHk. }
  assert (SJ : forall j, j < steps -> meq n n (rk4_matrix n (d_dt d) (h_slice (d_Hs d) (2 * j))) (step j)).
  { intros j Hj. unfold step. rewrite Edt.
    assert (B : 2 * j + 2 < samples signal).
    { unfold steps in Hj. pose proof (Nat.div_mod (samples signal - 1) 2 ltac:(lia)). lia. }
    apply step_classical; rewrite ND by lia; rewrite ?Nat.add_0_r; apply NH; lia. }
  destruct (C42_rk4_propagator n (d_dt d) (d_Hs d)) as [PU PD].
  assert (LS : rk4_steps (length (d_Hs d)) = map (fun k => 2 * k) (seq 0 steps)).
  { unfold rk4_steps. rewrite HL. reflexivity. }
  split; [|split; [|split]].
  - etransitivity; [exact PU|]. rewrite LS. apply product_evolved with (step' := fun jj => rk4_matrix n (d_dt d) (h_slice (d_Hs d) jj)). exact SJ.
  - unfold gen_dus_rk4. rewrite LS, !map_length, seq_length. reflexivity.
  - intros j u Hu. destruct (PD j) as [P1 P2]. change (p_dim m) with n in Hu. rewrite P1, LS, nth_error_map in Hu.
    destruct (nth_error (seq 0 steps) j) as [j'|] eqn:Ej; [|discriminate].
    assert (Lt : j < steps) by (rewrite <- (seq_length steps 0); apply nth_error_Some; congruence).
    rewrite (nth_error_nth' _ 0), seq_nth in Ej by (rewrite ?seq_length; exact Lt). cbn in Ej. injection Ej as <-.
    cbn [option_map] in Hu. injection Hu as <-. etransitivity; [apply P2|]. intros p q Hp Hq. exact (SJ j Lt q p Hq Hp).
  - intro j. rewrite ET. f_equal. lia.
Qed.
Print Assumptions C111_rk4_unitary.

(** Finding: the gate ends early.  On a uniform time grid the method covers N - 1 sample
    lengths if their number N is odd and N - 2 if it is even, never the N of the signal,
    which [pwc] covers. *)
Theorem C111_short_refuted :
  forall m ham signal res r res' stack batch r2 t0 dt N, rk4_unitary true m ham (Ok signal) res = (Ok r, res') ->
  pwc_controlled m signal stack batch = Ok r2 ->
  samples signal = N -> 1 <= N -> (0 < dt)%R -> (forall kv, In kv signal -> w_ts (snd kv) = grid t0 dt N) ->
  exists len len2,
    (forall ts, last_times signal ts -> exists a b, nth_error ts 0 = Some a /\ nth_error ts 2 = Some b /\ len = (b - a)%R)
    /\ is_step signal len2
    /\ (INR (length (pr_dUs r2)) * len2 = INR N * dt)%R
    /\ (INR (length (pr_dUs r)) * len = INR (N - if Nat.even N then 2 else 1) * dt)%R
    /\ (INR (length (pr_dUs r)) * len < INR (length (pr_dUs r2)) * len2)%R.
Proof.
  intros m ham signal res r res' stack batch r2 t0 dt N H1 H2 HN HN1 Hdt HT.
  destruct (controlled_split _ _ _ _ _ H2) as (len2 & IS & L2 & _).
  destruct (C111_rk4_unitary _ _ _ _ _ _ H1) as (ts & a & b & (pre & kv & -> & ->) & Ea & Eb & _ & L1 & _).
  assert (HTk : w_ts (snd kv) = grid t0 dt N) by (apply HT, in_or_app; right; left; reflexivity).
  assert (GN : forall k x, nth_error (grid t0 dt N) k = Some x -> k < N /\ x = (t0 + INR k * dt)%R).
  { intros k x Hk. unfold grid in Hk. rewrite nth_error_map in Hk. destruct (nth_error (seq 0 N) k) as [k'|] eqn:Ek; [|discriminate].
    assert (Lt : k < N) by (rewrite <- (seq_length N 0); apply nth_error_Some; congruence).
    rewrite (nth_error_nth' _ 0), seq_nth in Ek by (rewrite ?seq_length; exact Lt). cbn in Ek. injection Ek as <-.
    cbn [option_map] in Hk. injection Hk as <-. auto. }
  rewrite HTk in Ea, Eb. destruct (GN _ _ Ea) as [_ Xa]. destruct (GN _ _ Eb) as [N3 Xb].
  assert (EL2 : len2 = dt).
  { destruct IS as (kv' & r' & x0 & x1 & xs & E1 & E2 & ->). apply app_inj_tail in E1. destruct E1 as [_ <-]. rewrite HTk in E2.
    assert (Y0 : nth_error (grid t0 dt N) 0 = Some x0) by (rewrite E2; reflexivity).
    assert (Y1 : nth_error (grid t0 dt N) 1 = Some x1) by (rewrite E2; reflexivity).
    apply GN in Y0. apply GN in Y1. destruct Y0 as [_ ->]. destruct Y1 as [_ ->]. cbn. ring. }
  exists (b - a)%R, len2. rewrite EL2. split; [|split; [|split; [|split]]].
  - intros ts (pre' & kv' & E & ->). apply app_inj_tail in E. destruct E as [_ <-]. rewrite HTk. exists a, b. auto.
  - rewrite <- EL2. exact IS.
  - rewrite L2, HN. reflexivity.
  - rewrite L1, HN, Xa, Xb.
    assert (E : 2 * ((N - 1) / 2) = N - (if Nat.even N then 2 else 1)).
    { destruct (Nat.even N) eqn:EV.
      - apply Nat.even_spec in EV. destruct EV as [k ->]. replace (2 * k - 1) with (1 + (k - 1) * 2) by lia. rewrite Nat.div_add by lia. cbn. lia.
      - assert (OD : Nat.odd N = true) by (unfold Nat.odd; rewrite EV; reflexivity). apply Nat.odd_spec in OD. destruct OD as [k ->].
        replace (2 * k + 1 - 1) with (k * 2) by lia. rewrite Nat.div_mul by lia. lia. }
    rewrite <- E, mult_INR. cbn [INR]. ring.
  - rewrite L1, L2, HN, Xa, Xb.
    assert (E : 2 * ((N - 1) / 2) < N) by (pose proof (Nat.div_mod (N - 1) 2 ltac:(lia)); lia).
    apply lt_INR in E. rewrite mult_INR in E. cbn [INR] in *. nra.
Qed.
Print Assumptions C111_short_refuted.

(** Finding: the open system settings are ignored: whatever the collapse operators, the
    result is the closed evolution, of the dimension of states. *)
Theorem C111_open_refuted :
  forall b ham sig res dim h0 hctrls cols dims ex,
  rk4_unitary b {| p_dim := dim; p_h0 := h0; p_hctrls := hctrls; p_lind := true; p_cols := cols; p_dims := dims; p_max_ex := ex |} ham sig res
  = rk4_unitary b {| p_dim := dim; p_h0 := h0; p_hctrls := hctrls; p_lind := false; p_cols := []; p_dims := dims; p_max_ex := ex |} ham sig res.
Proof. reflexivity. Qed.
Print Assumptions C111_open_refuted.

(** The partial propagators of [tf_propagation] are those of [pwc]: slice t is
    exp(-i dt H(t)). *)
Theorem C111_tf_propagation :
  forall m signal stack batch r hks dt, p_lind m = false -> pwc_controlled m signal stack batch = Ok r ->
  Forall2 (fun kv h => dget (fst kv) (p_hctrls m) = Some h) signal hks -> is_step signal dt ->
  exists dUs, tf_propagation (p_dim m) (p_h0 m) hks (map (fun kv => to_C (w_values (snd kv))) signal) dt = Ok dUs
  /\ length dUs = length (pr_dUs r)
  /\ (forall t u v, nth_error dUs t = Some u -> nth_error (pr_dUs r) t = Some v ->
      meq (p_dim m) (p_dim m) u (mexp (p_dim m) (mscale (- Ci * RtoC dt)%C (driven_hamiltonian m signal t)))
      /\ meq (p_dim m) (p_dim m) u v).
Proof.
  intros m signal stack batch r hks dt Hl H Hh IS.
  destruct (controlled_split _ _ _ _ _ H) as (dt' & IS' & L & D & _). rewrite Hl in D.
  assert (dt' = dt).
  { destruct IS as (k1 & r1 & a & b & ts & E1 & E2 & ->). destruct IS' as (k2 & r2 & a' & b' & ts' & E1' & E2' & ->).
    rewrite E1 in E1'. apply app_inj_tail in E1'. destruct E1' as [_ <-]. congruence. }
  subst dt'.
  assert (RG : ragged (map (fun kv => w_values (snd kv)) signal) = false).
  { unfold pwc_controlled in H. destruct (negb _); [discriminate|]. destruct (lookup_controls _ _); [|discriminate]. cbn [rbind] in H.
    destruct (ragged _); [discriminate|reflexivity]. }
  destruct signal as [|kv signal]; [destruct IS as (k1 & [|] & a & b & ts & E1 & _); discriminate E1|].
  set (sg := kv :: signal) in *.
  set (c0 := to_C (w_values (snd kv))).
  assert (EM : map (fun kv => to_C (w_values (snd kv))) sg = c0 :: map (fun kv => to_C (w_values (snd kv))) signal) by reflexivity.
  assert (FL : forallb (fun c => Nat.leb (length c0) (length c)) (c0 :: map (fun kv => to_C (w_values (snd kv))) signal) = true).
  { apply forallb_forall. intros c [<-|Hc]; [apply Nat.leb_refl|]. apply in_map_iff in Hc. destruct Hc as (k & <- & Hk).
    unfold sg in RG. cbn [map ragged] in RG. apply negb_false_iff in RG. rewrite forallb_forall in RG.
    specialize (RG (w_values (snd k)) (in_map (fun kv => w_values (snd kv)) _ _ Hk)). apply Nat.eqb_eq in RG.
    apply Nat.leb_le. unfold c0, to_C. rewrite !map_length. lia. }
  unfold tf_propagation. rewrite EM, FL. eexists. split; [reflexivity|].
  assert (LC : length c0 = samples sg) by (unfold c0, to_C, sg; rewrite map_length; reflexivity).
  split; [rewrite map_length, seq_length, L; exact LC|].
  intros t u v Hu Hv.
  assert (Lt : t < samples sg) by (rewrite <- L; apply nth_error_Some; congruence).
  rewrite nth_error_map, (nth_error_nth' _ 0), seq_nth in Hu by (rewrite ?seq_length; lia). cbn [option_map Nat.add] in Hu. injection Hu as <-.
  rewrite D in Hv by exact Lt. injection Hv as <-.
  assert (E : meq (p_dim m) (p_dim m)
     (tf_dU_of_t (p_dim m) (p_h0 m) hks (map (fun c => nth t c (RtoC 0)) (c0 :: map (fun kv => to_C (w_values (snd kv))) signal)) dt)
     (mexp (p_dim m) (mscale (- Ci * RtoC dt)%C (driven_hamiltonian m sg t)))).
  { unfold tf_dU_of_t. apply mexp_proper. apply mscale_proper; [reflexivity|].
    pose proof (sum_h0_driven m sg hks t Hh (p_dim m)) as Q. rewrite (map_map (fun kv => w_values (snd kv)) to_C), EM in Q. exact Q. }
  split; exact E.
Qed.
Print Assumptions C111_tf_propagation.

(** Without control fields the Hamiltonians come from the model, and the times are those
    after the first sample: on a uniform grid they start one sample later than with control
    fields. *)
Theorem C111_uncontrolled :
  forall m ham hs signal res p d res', ham signal = Ok hs ->
  get_hs_of_t_ts false m ham (Ok signal) res p = (Ok d, res') ->
  d_Hs d = hs /\ signal <> [] /\
  forall t0 dt N, (forall kv, In kv signal -> w_ts (snd kv) = grid t0 dt N) ->
  d_dt d = (INR p * dt)%R /\ (forall j x, nth_error (d_ts d) j = Some x -> x = (t0 + (1 + INR (j * p)) * dt)%R).
Proof.
  intros m ham hs signal res p d res' Hh H. unfold get_hs_of_t_ts in H. cbn [rbind] in H. rewrite Hh in H. cbn [rbind] in H.
  injection H as H _. unfold hs_uncontrolled in H.
  destruct (map (fun kv => tl (w_ts (snd kv))) signal) as [|x0 tss] eqn:ET; [discriminate|].
  destruct (ragged _); [discriminate|].
  set (ts := map (fun j => rmean (time_column (x0 :: tss) j)) (seq 0 (length x0))) in *.
  assert (HS : sampled hs ts p = Ok d).
  { destruct ts as [|a [|b l]]; try discriminate. destruct (negb _); [discriminate|]. destruct (negb _); [discriminate|]. exact H. }
  apply sampled_ok in HS. destruct HS as (Hp & EH & EN & a & b & Ea & Eb & Ed). split; [exact EH|].
  split; [intros ->; discriminate ET|]. intros t0 dt N HG.
  assert (TJ : forall j x, nth_error ts j = Some x -> x = (t0 + (1 + INR j) * dt)%R).
  { intros j x Hx. unfold ts in Hx. rewrite nth_error_map in Hx.
    destruct (nth_error (seq 0 (length x0)) j) as [j'|] eqn:Ej; [|discriminate].
    assert (Lt : j < length x0) by (rewrite <- (seq_length (length x0) 0); apply nth_error_Some; congruence).
    rewrite (nth_error_nth' _ 0), seq_nth in Ej by (rewrite ?seq_length; exact Lt). cbn in Ej. injection Ej as <-.
    cbn [option_map] in Hx. injection Hx as <-.
    assert (AL : forall l, In l (x0 :: tss) -> l = tl (grid t0 dt N)).
    { intros l Hl. rewrite <- ET in Hl. apply in_map_iff in Hl. destruct Hl as (kv & <- & Hkv). rewrite HG by exact Hkv. reflexivity. }
    assert (VA : nth j (tl (grid t0 dt N)) 0%R = (t0 + (1 + INR j) * dt)%R).
    { rewrite (AL x0 (or_introl eq_refl)) in Lt. destruct N as [|N]; [cbn in Lt; lia|]. unfold grid in *. cbn [seq map tl] in *.
      rewrite map_length, seq_length in Lt.
      rewrite (nth_indep _ 0%R ((fun i => t0 + INR i * dt)%R 0)) by (rewrite map_length, seq_length; exact Lt).
      rewrite (map_nth (fun i => (t0 + INR i * dt)%R)), seq_nth by exact Lt. replace (1 + j) with (S j) by lia. rewrite S_INR. ring. }
    assert (CM : forall l : list R, l <> [] -> (forall y, In y l -> y = (t0 + (1 + INR j) * dt)%R) -> rmean l = (t0 + (1 + INR j) * dt)%R).
    { intros l Hne Hall. unfold rmean.
      assert (SU : forall l : list R, (forall y, In y l -> y = (t0 + (1 + INR j) * dt)%R) -> rsum l = (INR (length l) * (t0 + (1 + INR j) * dt))%R).
      { clear. induction l as [|y l IH]; intro Ha; [cbn; ring|]. cbn [rsum fold_right length]. fold (rsum l).
        rewrite IH by (intros; apply Ha; right; assumption). rewrite (Ha y) by (left; reflexivity). rewrite S_INR. ring. }
      rewrite SU by exact Hall. field. apply not_0_INR. destruct l; [congruence|discriminate]. }
    apply CM; [discriminate|]. intros y Hy. change (In y (map (fun c => nth j c 0%R) (x0 :: tss))) in Hy. apply in_map_iff in Hy. destruct Hy as (l & <- & Hl).
    rewrite (AL l Hl). exact VA. }
  split.
  - rewrite Ed, (TJ _ _ Ea), (TJ _ _ Eb). cbn. ring.
  - intros j x Hx. rewrite EN in Hx. apply TJ, Hx.
Qed.
Print Assumptions C111_uncontrolled.

(** ** The registered methods *)

Lemma call_registered : forall s, registered s -> (call_check s 5 = Ok tt <-> s = "pwc"%string) /\ (s <> "pwc"%string -> call_check s 5 = Err TypeError).
Proof.
  intros s [<-|[<-|[<-|[<-|[<-|[<-|[]]]]]]]; (split; [split|]); cbn; try congruence; try discriminate.
Qed.
(** Finding: [set_prop_method] accepts every registered name, but the call made by
    compute_propagators passes five positional arguments: of all registered methods only
    "pwc" can be entered, any other raises TypeError once its folding stack is found. *)
Theorem C111_methods_refuted :
  forall e gate s, registered s ->
  (exists e', set_prop_method e (MName s) = Ok e')
  /\ (me_method e = MName s -> forall p st, enter_method e gate = Ok (p, st) -> p = "pwc"%string /\ s = "pwc"%string)
  /\ (me_method e = MName s -> s <> "pwc"%string -> forall p st e', propagator_call e gate = Ok (p, st, e') ->
      p = s /\ enter_method e gate = Err TypeError).
Proof.
  intros e gate s Hs.
  assert (SEL : me_method e = MName s -> forall p st e', propagator_call e gate = Ok (p, st, e') -> p = s).
  { intros Hm p st e' H. unfold propagator_call in H. destruct (me_pmap e) as [dd|]; [|discriminate].
    destruct (set_prop_method e (me_method e)) as [e1|] eqn:E1; [|discriminate]. cbn [rbind] in H.
    destruct (dget gate dd); [|discriminate]. destruct (stack_lookup _ _); [|discriminate]. cbn [rbind] in H.
    apply C100_selected_method in E1. destruct E1 as [E1 _]. rewrite Hm in E1. rewrite E1 in H. injection H as <- _ _. reflexivity. }
  split; [|split].
  - destruct (set_prop_method e (MName s)) as [e'|x] eqn:E; [eauto|]. exfalso.
    assert (E' : set_prop_method e (MName s) = Err KeyError) by (unfold set_prop_method in *; destruct (_ || _); [discriminate|reflexivity]).
    apply C100_unknown_method in E'. exact (E' Hs).
  - intros Hm p st H. unfold enter_method in H. destruct (propagator_call e gate) as [[[q st'] e']|] eqn:E; [|discriminate]. cbn [rbind] in H.
    rewrite (SEL Hm _ _ _ eq_refl) in *. destruct (call_check s 5) as [[]|] eqn:EC; [|discriminate]. cbn [rbind] in H.
    apply (call_registered s Hs) in EC. injection H as <- _. auto.
  - intros Hm Hn p st e' H. pose proof (SEL Hm _ _ _ H). subst p. split; [reflexivity|].
    unfold enter_method. rewrite H. cbn [rbind]. rewrite (proj2 (call_registered s Hs) Hn). reflexivity.
Qed.
Print Assumptions C111_methods_refuted.

(** The default method is entered for every gate of the parameter map. *)
Theorem C111_default_enters :
  forall d sim_res e0 e g t,
  experiment_init (Some d) MNone sim_res = Ok e0 -> method_calls e0 e -> dget g d = Some t ->
  enter_method e g = Ok ("pwc"%string, folding_stack (floor_nat (t * sim_res))).
Proof.
  intros d sim_res e0 e g t H0 H1 H2. destruct (C100_default_method _ _ _ _ _ _ H0 H1 H2) as (e' & E).
  unfold enter_method. rewrite E. reflexivity.
Qed.
Print Assumptions C111_default_enters.

Example C111_example :
  (exists r, rk4_unitary true ExpProps.demo_model (fun _ => Err TypeError) (Ok ExpProps.demo_signal) 7 = (Ok r, (INR 2 * 7)%R)
     /\ length (pr_dUs r) = 1 /\ exists r2, pwc_controlled ExpProps.demo_model ExpProps.demo_signal (folding_stack 3) None = Ok r2 /\ length (pr_dUs r2) = 3)
  /\ (exists e0 e st, experiment_init (Some [("x"%string, 1%R)]) MNone 4 = Ok e0
       /\ e = {| me_pmap := me_pmap e0; me_sim_res := me_sim_res e0; me_method := MName "rk4_unitary";
                 me_propagation := me_propagation e0; me_stack := me_stack e0 |}
       /\ (exists e', propagator_call e "x" = Ok ("rk4_unitary"%string, st, e')) /\ enter_method e "x" = Err TypeError).
Proof.
  split.
  - eexists. split; [|split].
    + unfold rk4_unitary, get_hs_of_t_ts. cbn [rbind]. unfold hs_controlled. cbn. reflexivity.
    + reflexivity.
    + destruct C82_example as (r & E & _). destruct (controlled_split _ _ _ _ _ E) as (dt & _ & L & _).
      eexists. split; [unfold pwc_controlled; cbn; reflexivity|]. reflexivity.
  - assert (P : exists st e', propagator_call {| me_pmap := Some [("x"%string, 1%R)]; me_sim_res := 4; me_method := MName "rk4_unitary";
       me_propagation := Some "pwc"%string; me_stack := Some [(floor_nat (1 * 4), folding_stack (floor_nat (1 * 4)))] |} "x"
       = Ok ("rk4_unitary"%string, st, e')).
    { unfold propagator_call, set_prop_method. cbn [me_pmap me_method existsb unitary_provider state_provider String.eqb Ascii.eqb Bool.eqb orb rbind dget].
      unfold stack_lookup, with_propagation. cbn [me_stack me_sim_res me_propagation find fst snd]. rewrite Nat.eqb_refl. cbn [rbind]. eauto. }
    destruct P as (st & e' & P). eexists. eexists. exists st. split; [reflexivity|]. split; [reflexivity|].
    split; [exists e'; exact P|].
    unfold enter_method. cbn [me_pmap me_sim_res me_propagation me_stack with_propagation compute_stack map snd existsb app].
    rewrite P. reflexivity.
Qed.
