(** C123: the states of the Runge-Kutta solvers against the equation of motion. *)
From Coq Require Import Reals Lra Lia Setoid Morphisms FunctionalExtensionality.
From Coquelicot Require Import Coquelicot.
From Verif Require Import Base Mat MExp RSum MDeriv PropModel SampleProofs PropProps OdeConvProofs OdeGlobalProofs.
Local Open Scope list_scope.
Local Open Scope R_scope.
Local Notation length := List.length.

(** ** Specification *)
(** The drift plus, for each drive line k, the field c_k(t) times its control Hamiltonian. *)
Definition total_H (h0 : mat) (hctrls : dict mat) (lines : list string) (c : string -> R -> R) (t : R) : mat :=
  madd h0 (fold_right (fun k acc => match dget k hctrls with
                                    | Some h => madd (mscale (RtoC (c k t)) h) acc
                                    | None => acc
                                    end) mzero lines).
(** What a collapse operator adds to the change of the density matrix. *)
Definition dissipator (n : nat) (c x : mat) : mat :=
  msub (mmul n (mmul n c x) (madj c))
       (mscale (RtoC (1 / 2)) (madd (mmul n (mmul n (madj c) c) x) (mmul n x (mmul n (madj c) c)))).
(** The right-hand sides: Schroedinger, von Neumann and master equation. *)
Definition rhs (n : nat) (k : step_kind) (cols : list mat) (h x : mat) : mat :=
  match k with
  | Schrodinger => mscale (- Ci)%C (mmul n h x)
  | VonNeumann => mscale (- Ci)%C (msub (mmul n h x) (mmul n x h))
  | Lindblad => madd (mscale (- Ci)%C (msub (mmul n h x) (mmul n x h)))
                     (fold_right (fun c acc => madd (dissipator n c x) acc) mzero cols)
  end.
(** x solves x' = F(t, x) from [init] at t0 up to t1. *)
Definition solves (n m : nat) (F : R -> mat -> mat) (x : R -> mat) (init : mat) (t0 t1 : R) : Prop :=
  meq n m (x t0) init /\ forall t, t0 <= t <= t1 -> mderive n m x t (F t (x t)).
(** The fields c_k sampled N times, dt apart, from t0 on. *)
Definition on_grid (signal : dict channel) (c : string -> R -> R) (t0 dt : R) (N : nat) : Prop :=
  forall k ch, In (k, ch) signal -> ch_ts ch = grid t0 dt N /\ ch_values ch = map (c k) (grid t0 dt N).
(** tfp.math.interp_regular_1d_grid with fill_value "extrapolate" on a regular grid: linear between neighbouring
    samples, and beyond the last sample along the last segment. *)
Definition piecewise_linear (interp : list R -> list R -> R -> R) : Prop :=
  forall t0 dt N vs i t, 0 < dt -> length vs = N -> (S i < N)%nat ->
  t0 + INR i * dt <= t -> (t <= t0 + INR (S i) * dt \/ S (S i) = N) ->
  interp (grid t0 dt N) vs t = nth i vs 0 + (t - (t0 + INR i * dt)) / dt * (nth (S i) vs 0 - nth i vs 0).
(** The error that remains because the weights of tsit5 are rounded decimals. *)
Definition rounding (s : solver) : R := match s with Tsit5 => / 10 ^ 13 | _ => 0 end.
(** The equation the solver integrates: a model with collapse operators always uses the master equation. *)
Definition equation (lind : option (list mat)) (k : step_kind) : step_kind := match lind with Some _ => Lindblad | None => k end.
Definition collapse (lind : option (list mat)) : list mat := match lind with Some l => l | None => [] end.

(** ** The three right-hand sides *)
Lemma cmod_mi : Cmod (- Ci)%C = 1.
Proof. rewrite Cmod_opp. unfold Cmod, Ci; cbn [fst snd]. replace (0 ^ 2 + 1 ^ 2) with 1 by ring. apply sqrt_1. Qed.
Lemma commutator_bound : forall n h x, fro n n (msub (mmul n h x) (mmul n x h)) <= 2 * fro n n h * fro n n x.
Proof.
  intros n h x. eapply Rle_trans; [apply fro_sub_le|]. pose proof (fro_mul n n n h x). pose proof (fro_mul n n n x h). lra.
Qed.
Definition strength (n : nat) (cols : list mat) : R := fold_right (fun c acc => 2 * (fro n n c * fro n n c) + acc) 0 cols.
Lemma strength_nonneg : forall n cols, 0 <= strength n cols.
Proof. intros n cols. induction cols as [|c cols IH]; cbn; [lra|]. fold (strength n cols). pose proof (fro_nonneg n n c). nra. Qed.
Lemma fro_madj : forall n c, fro n n (madj c) = fro n n c.
Proof. intros. apply fro_adj. Qed.
Lemma dissipator_bound : forall n c x, fro n n (dissipator n c x) <= 2 * (fro n n c * fro n n c) * fro n n x.
Proof.
  intros n c x. unfold dissipator. pose proof (fro_nonneg n n c) as P. pose proof (fro_nonneg n n x) as P'.
  assert (CC : fro n n (mmul n (madj c) c) <= fro n n c * fro n n c). { eapply Rle_trans; [apply fro_mul|]. rewrite fro_madj. lra. }
  assert (A : fro n n (mmul n (mmul n c x) (madj c)) <= fro n n c * fro n n c * fro n n x).
  { eapply Rle_trans; [apply fro_mul|]. rewrite fro_madj. pose proof (fro_mul n n n c x).
    assert (fro n n (mmul n c x) * fro n n c <= fro n n c * fro n n x * fro n n c) by (apply Rmult_le_compat_r; lra). lra. }
  assert (B : fro n n (mmul n (mmul n (madj c) c) x) <= fro n n c * fro n n c * fro n n x).
  { eapply Rle_trans; [apply fro_mul|]. apply Rmult_le_compat_r; lra. }
  assert (D : fro n n (mmul n x (mmul n (madj c) c)) <= fro n n c * fro n n c * fro n n x).
  { eapply Rle_trans; [apply fro_mul|]. rewrite (Rmult_comm (_ * _) (fro n n x)). apply Rmult_le_compat_l; lra. }
  eapply Rle_trans; [apply fro_sub_le|]. rewrite fro_scale, Cmod_R, Rabs_pos_eq by lra.
  pose proof (fro_triangle n n (mmul n (mmul n (madj c) c) x) (mmul n x (mmul n (madj c) c))). lra.
Qed.
Lemma dissipator_sub : forall n c x y, meq n n (dissipator n c (msub x y)) (msub (dissipator n c x) (dissipator n c y)).
Proof.
  intros n c x y. unfold dissipator. rewrite !(mmul_sub_l n n n), !(mmul_sub_r n n n).
  intros i j _ _. unfold msub, madd, mscale. ring.
Qed.
Definition alpha_of (k : step_kind) : R := match k with Schrodinger => 1 | _ => 2 end.
Definition beta_of (n : nat) (k : step_kind) (cols : list mat) : R := match k with Lindblad => strength n cols | _ => 0 end.
Lemma rhs_generator : forall n m k cols, (k <> Schrodinger -> m = n) ->
  generator n m (rhs n k cols) (alpha_of k) (beta_of n k cols).
Proof.
  intros n m k cols Hm. destruct k; cbn [alpha_of beta_of].
  - clear Hm. constructor; [lra|lra| | |]; unfold rhs.
    + intros h x y. rewrite (mmul_sub_l n m n). intros i j _ _. unfold mscale, msub. ring.
    + intros h x. rewrite fro_scale, cmod_mi. pose proof (fro_mul n n m h x). lra.
    + intros h h' x. rewrite (fro_proper n m _ (mscale (- Ci)%C (mmul n (msub h h') x))).
      * rewrite fro_scale, cmod_mi. pose proof (fro_mul n n m (msub h h') x). lra.
      * rewrite (mmul_sub_r n m n). intros i j _ _. unfold mscale, msub. ring.
  - rewrite (Hm ltac:(discriminate)). clear Hm. constructor; [lra|lra| | |]; unfold rhs.
    + intros h x y. rewrite (mmul_sub_l n n n), (mmul_sub_r n n n). intros i j _ _. unfold mscale, msub. ring.
    + intros h x. rewrite fro_scale, cmod_mi. pose proof (commutator_bound n h x). lra.
    + intros h h' x. rewrite (fro_proper n n _ (mscale (- Ci)%C (msub (mmul n (msub h h') x) (mmul n x (msub h h'))))).
      * rewrite fro_scale, cmod_mi. pose proof (commutator_bound n (msub h h') x). lra.
      * rewrite (mmul_sub_r n n n), (mmul_sub_l n n n). intros i j _ _. unfold mscale, msub. ring.
  - rewrite (Hm ltac:(discriminate)). clear Hm. constructor; [lra|apply strength_nonneg| | |]; unfold rhs.
    + intros h x y. rewrite (mmul_sub_l n n n), (mmul_sub_r n n n).
      assert (D : meq n n (fold_right (fun c acc => madd (dissipator n c (msub x y)) acc) mzero cols)
                    (msub (fold_right (fun c acc => madd (dissipator n c x) acc) mzero cols) (fold_right (fun c acc => madd (dissipator n c y) acc) mzero cols))).
      { induction cols as [|c cols IH]; cbn [fold_right].
        - intros i j _ _. unfold msub, mzero. ring.
        - rewrite IH, dissipator_sub. intros i j _ _. unfold msub, madd. ring. }
      rewrite D. intros i j _ _. unfold mscale, msub, madd. ring.
    + intros h x. eapply Rle_trans; [apply fro_triangle|]. rewrite fro_scale, cmod_mi. pose proof (commutator_bound n h x).
      assert (D : fro n n (fold_right (fun c acc => madd (dissipator n c x) acc) mzero cols) <= strength n cols * fro n n x).
      { induction cols as [|c cols IH]; cbn [fold_right].
        - rewrite fro_zero by reflexivity. unfold strength; cbn. lra.
        - eapply Rle_trans; [apply fro_triangle|]. pose proof (dissipator_bound n c x). cbn [strength fold_right]. fold (strength n cols). lra. }
      lra.
    + intros h h' x. rewrite (fro_proper n n _ (mscale (- Ci)%C (msub (mmul n (msub h h') x) (mmul n x (msub h h'))))).
      * rewrite fro_scale, cmod_mi. pose proof (commutator_bound n (msub h h') x). lra.
      * rewrite (mmul_sub_r n n n), (mmul_sub_l n n n). intros i j _ _. unfold mscale, msub, madd. ring.
Qed.

Lemma lindblad_rhs : forall n l dt y h, lindblad n l dt y h = mscale (RtoC dt) (rhs n Lindblad l h y).
Proof.
  intros n l dt y h. unfold lindblad, rhs. f_equal. fold (commutator n h y). generalize (mscale (- Ci)%C (commutator n h y)) as z.
  induction l as [|c l IH]; intro z; cbn [fold_left fold_right].
  - apply functional_extensionality; intro i; apply functional_extensionality; intro j. unfold madd, mzero. ring.
  - rewrite IH. apply functional_extensionality; intro i; apply functional_extensionality; intro j.
    generalize (fold_right (fun c0 acc => madd (dissipator n c0 y) acc) mzero l) as w. intro w.
    unfold lindblad_add, dissipator, anticommutator, msub, madd, mscale. ring.
Qed.
Lemma ode_step_rhs : forall n lind k dt fr, ode_step n (equation lind k) lind dt = Ok fr ->
  fr = fun y h => mscale (RtoC dt) (rhs n (equation lind k) (collapse lind) h y).
Proof.
  intros n lind k dt fr E. unfold equation, collapse in *. destruct lind as [l|].
  - injection E as <-. apply functional_extensionality; intro y; apply functional_extensionality; intro h. apply lindblad_rhs.
  - destruct k; try discriminate E; injection E as <-; reflexivity.
Qed.

(** ** The interpolated fields *)
Lemma find_slot : forall t0 dt N t, 0 < dt -> (2 <= N)%nat -> t0 <= t <= t0 + INR N * dt ->
  exists i, (S i < N)%nat /\ t0 + INR i * dt <= t /\ (t <= t0 + INR (S i) * dt \/ S (S i) = N) /\ t <= t0 + INR (S (S i)) * dt.
Proof.
  intros t0 dt N t Hdt HN. destruct N as [|[|N]]; [lia|lia|]. clear HN. induction N as [|N IH]; intro Ht.
  - exists 0%nat. cbn [INR] in *. repeat split; try lia; try lra.
  - destruct (Rle_dec t (t0 + INR (S (S N)) * dt)) as [L|G].
    + destruct IH as (i & I1 & I2 & I3 & I4); [lra|]. destruct I3 as [I3|I3].
      * exists i. repeat split; auto.
      * assert (i = N) by lia. subst i. destruct (Rle_dec t (t0 + INR (S N) * dt)) as [L'|G'].
        -- exists N. repeat split; auto.
        -- exists (S N). rewrite (S_INR (S (S N))) in *. repeat split; try lia; try lra; right; reflexivity.
    + exists (S N). rewrite (S_INR (S N)) in *. repeat split; try lia; try lra.
Qed.
Lemma interp_error : forall interp (c : R -> R) l t0 dt N t, piecewise_linear interp -> 0 < dt -> (2 <= N)%nat -> 0 <= l ->
  t0 <= t <= t0 + INR N * dt ->
  (forall s s', t0 <= s <= t0 + INR N * dt -> t0 <= s' <= t0 + INR N * dt -> Rabs (c s - c s') <= l * Rabs (s - s')) ->
  Rabs (interp (grid t0 dt N) (map c (grid t0 dt N)) t - c t) <= l * (4 * dt).
Proof.
  intros interp c l t0 dt N t PL Hdt HN Hl Ht LC. destruct (find_slot t0 dt N t Hdt HN Ht) as (i & I1 & I2 & I3 & I4).
  rewrite (PL t0 dt N _ i t Hdt ltac:(rewrite map_length; apply grid_length) I1 I2 I3).
  assert (NV : forall j, (j < N)%nat -> nth j (map c (grid t0 dt N)) 0 = c (t0 + INR j * dt)).
  { intros j Hj. rewrite (nth_indep _ 0 (c 0)) by (rewrite map_length, grid_length; exact Hj). rewrite map_nth, grid_nth by exact Hj. reflexivity. }
  rewrite !NV by lia. set (a := t0 + INR i * dt) in *.
  assert (B : t0 + INR (S i) * dt = a + dt) by (rewrite S_INR; unfold a; ring). rewrite B in *.
  rewrite !S_INR in I4. assert (I4' : t <= a + 2 * dt) by (unfold a; lra).
  assert (A0 : t0 <= a). { unfold a. assert (0 <= INR i * dt) by (apply Rmult_le_pos; [apply pos_INR|lra]). lra. }
  assert (A1 : a + dt <= t0 + INR N * dt). { rewrite <- B. apply Rplus_le_compat_l, Rmult_le_compat_r; [lra|apply le_INR; lia]. }
  set (r := (t - a) / dt). assert (R0 : 0 <= r <= 2).
  { unfold r. split; [apply Rle_div_r; lra|]. apply Rle_div_l; lra. }
  assert (D1 : Rabs (c a - c t) <= l * (2 * dt)).
  { eapply Rle_trans; [apply LC; lra|]. apply Rmult_le_compat_l; [exact Hl|]. rewrite Rabs_left1 by lra. lra. }
  assert (D2 : Rabs (c (a + dt) - c a) <= l * dt).
  { eapply Rle_trans; [apply LC; lra|]. apply Rmult_le_compat_l; [exact Hl|]. rewrite Rabs_pos_eq by lra. lra. }
  replace (c a + r * (c (a + dt) - c a) - c t) with ((c a - c t) + r * (c (a + dt) - c a)) by ring.
  eapply Rle_trans; [apply Rabs_triang|]. rewrite Rabs_mult, (Rabs_pos_eq r) by lra.
  assert (r * Rabs (c (a + dt) - c a) <= 2 * (l * dt)) by (apply Rmult_le_compat; [lra|apply Rabs_pos|lra|exact D2]). lra.
Qed.

(** How fast the Hamiltonian changes. *)
Definition H_speed (n : nat) (hctrls : dict mat) (lines : list string) (l : string -> R) : R :=
  fold_right (fun k acc => match dget k hctrls with Some h => l k * fro n n h + acc | None => acc end) 0 lines.
Lemma H_speed_nonneg : forall n hctrls lines l, (forall k, In k lines -> 0 <= l k) -> 0 <= H_speed n hctrls lines l.
Proof.
  intros n hctrls lines l Hl. induction lines as [|k ks IH]; cbn; [lra|]. fold (H_speed n hctrls ks l).
  specialize (IH (fun k' I => Hl k' (or_intror I))). destruct (dget k hctrls) as [h|]; [|exact IH].
  pose proof (fro_nonneg n n h). specialize (Hl k (or_introl eq_refl)). assert (0 <= l k * fro n n h) by (apply Rmult_le_pos; lra). lra.
Qed.
Lemma H_change : forall n h0 hctrls lines l (e : R) (a b : string -> R), (forall k, In k lines -> Rabs (a k - b k) <= l k * e) ->
  fro n n (msub (total_H h0 hctrls lines (fun k _ => a k) 0) (total_H h0 hctrls lines (fun k _ => b k) 0)) <= H_speed n hctrls lines l * e.
Proof.
  intros n h0 hctrls lines l e a b Hd. unfold total_H.
  rewrite (fro_proper n n _ (msub (fold_right (fun k acc => match dget k hctrls with Some h => madd (mscale (RtoC (a k)) h) acc | None => acc end) mzero lines)
     (fold_right (fun k acc => match dget k hctrls with Some h => madd (mscale (RtoC (b k)) h) acc | None => acc end) mzero lines))).
  2: { intros i j _ _. unfold msub, madd. ring. }
  induction lines as [|k ks IH]; cbn [fold_right H_speed].
  - rewrite fro_zero; [lra|]. intros i j _ _. unfold msub, mzero. ring.
  - fold (H_speed n hctrls ks l). specialize (IH (fun k' I => Hd k' (or_intror I))). destruct (dget k hctrls) as [h|]; [|exact IH].
    set (A := (fold_right (fun k acc => match dget k hctrls with Some h => madd (mscale (RtoC (a k)) h) acc | None => acc end) mzero ks)) in *. set (B := (fold_right (fun k acc => match dget k hctrls with Some h => madd (mscale (RtoC (b k)) h) acc | None => acc end) mzero ks)) in *.
    rewrite (fro_proper n n _ (madd (mscale (RtoC (a k - b k)) h) (msub A B))).
    + eapply Rle_trans; [apply fro_triangle|]. rewrite fro_scale, Cmod_R. specialize (Hd k (or_introl eq_refl)).
      assert (Rabs (a k - b k) * fro n n h <= l k * e * fro n n h) by (apply Rmult_le_compat_r; [apply fro_nonneg|exact Hd]). lra.
    + intros i j _ _. unfold msub, madd, mscale. rewrite RtoC_minus. ring.
Qed.
Lemma sum_H_total : forall h0 hctrls signal hks v, lookup_controls hctrls (keys signal) = Ok hks ->
  sum_H h0 hks (map (fun kv : string * channel => v (fst kv)) signal) = total_H h0 hctrls (keys signal) (fun k _ => v k) 0.
Proof.
  intros h0 hctrls signal hks v E. pose proof (lookup_found _ _ _ E) as F. unfold sum_H, total_H. clear E.
  assert (Q : fold_right (fun ch acc => madd (mscale (RtoC (fst ch)) (snd ch)) acc) mzero (combine (map (fun kv : string * channel => v (fst kv)) signal) hks)
     = fold_right (fun k acc => match dget k hctrls with Some h => madd (mscale (RtoC (v k)) h) acc | None => acc end) mzero (keys signal)).
  { induction F as [|[k ch] h sg hk F1 F2 IH]; [reflexivity|]. cbn [fst] in F1. cbn [map combine fold_right fst snd keys]. rewrite F1. f_equal. exact IH. }
  apply functional_extensionality; intro i; apply functional_extensionality; intro j. unfold madd at 1 2. rewrite <- Q. 
  first [reflexivity | apply Cplus_comm].
Qed.

Lemma INR_beyond : forall y, exists N, y < INR N.
Proof.
  intro y. destruct (archimed (Rabs y)) as [A _]. exists (Z.to_nat (up (Rabs y))).
  assert (0 <= up (Rabs y))%Z. { apply le_IZR. pose proof (Rabs_pos y). lra. }
  rewrite INR_IZR_INZ, Z2Nat.id by assumption. pose proof (Rle_abs y). lra.
Qed.

(** ** Theorems *)
(** An explicit bound: the error of every state is at most a constant, independent of the number of samples, times the
    distance of the samples (plus the rounding of the weights of tsit5). *)
Definition error_constant (n : nat) (a b L T h X : R) : R :=
  let M := a * (h + 5 * L * T) + b in
  let Q := 10 * (a * (5 * L) + M * M * 30 * 31 ^ 7) in
  (Q + a * L + M * M + M) * X * T * exp ((2 * M + Q * T) * T).

Theorem C123_error_bound :
  forall interp n m h0 hctrls lind k s (c : string -> R -> R) (l : string -> R) t0 dt N signal hks init x X,
  piecewise_linear interp -> (2 <= N)%nat -> 0 < dt -> signal <> [] ->
  (k <> Schrodinger \/ lind <> None -> m = n) -> (lind = None -> k <> Lindblad) ->
  lookup_controls hctrls (keys signal) = Ok hks ->
  on_grid signal c t0 dt N ->
  (forall k, In k (keys signal) -> 0 <= l k) ->
  (forall k u v, In k (keys signal) -> t0 <= u <= t0 + INR N * dt -> t0 <= v <= t0 + INR N * dt -> Rabs (c k u - c k v) <= l k * Rabs (u - v)) ->
  solves n m (fun t => rhs n (equation lind k) (collapse lind) (total_H h0 hctrls (keys signal) c t)) x init t0 (t0 + INR N * dt) ->
  (forall t, t0 <= t <= t0 + INR N * dt -> fro n m (x t) <= X) ->
  let a := alpha_of (equation lind k) in
  let b := beta_of n (equation lind k) (collapse lind) in
  let L := H_speed n hctrls (keys signal) l in
  let h := fro n n (total_H h0 hctrls (keys signal) c t0) in
  let T := INR N * dt in
  dt * (a * (h + 5 * L * T) + b) <= 1 ->
  exists states, ode_solver interp n h0 hctrls lind signal init s k = Ok (states, grid t0 dt N)
    /\ ode_solver_final_state interp n h0 hctrls lind signal init s k = Ok (last states init, grid t0 dt N)
    /\ length states = N
    /\ forall i, (i < N)%nat ->
       fro n m (msub (nth i states mzero) (x (t0 + INR (S i) * dt))) <= error_constant n a b L T h X * (dt + rounding s).
Proof.
  intros interp n m h0 hctrls lind k s c l t0 dt N signal hks init x X PL HN Hdt Hne Hm Hk Hc Hg Hl LC [X0 DX] HX a b L h T Hsmall.
  destruct (C43_sampling_aligned interp n h0 hctrls lind signal hks t0 dt N init s k HN Hdt Hne (fun k' ch I => proj1 (Hg k' ch I)) Hc Hk)
    as (_ & _ & d & fr & _ & _ & _ & Efr & Erun).
  set (Hi := fun t => sum_H h0 hks (map (fun kv : string * channel => interp (grid t0 dt N) (ch_values (snd kv)) t) signal)) in *.
  set (samples := fun i => map Hi (map (fun c => t0 + INR i * dt + c * dt) (nodes s))) in *.
  pose proof (ode_step_rhs n lind k dt fr Efr) as ->.
  set (g := rhs n (equation lind k) (collapse lind)) in *.
  assert (G : generator n m g a b).
  { apply rhs_generator. intro NS. apply Hm. unfold equation in NS. destruct lind; [right; discriminate|left; exact NS]. }
  eexists. split; [exact Erun|]. split; [apply (proj1 (C38_final_state_agrees _ _ _ _ _ _ _ _ _ _ _ Erun))|].
  split; [rewrite map_length, seq_length; reflexivity|].
  intros i Hi'. rewrite (nth_indep _ mzero (state_after (solver_fun s (fun y h => mscale (RtoC dt) (g h y))) samples (S 0) init)) by (rewrite map_length, seq_length; exact Hi').
  rewrite (map_nth (fun i => state_after (solver_fun s (fun y h => mscale (RtoC dt) (g h y))) samples (S i) init)). rewrite seq_nth by exact Hi'. rewrite Nat.add_0_l.
  set (H := total_H h0 hctrls (keys signal) c) in *. fold T in DX, HX, LC.
  assert (TP : 0 < T). { unfold T. apply Rmult_lt_0_compat; [apply lt_0_INR; lia|lra]. }
  assert (dT : dt <= T). { unfold T. assert (1 <= INR N) by (change 1 with (INR 1); apply le_INR; lia). nra. }
  assert (LP : 0 <= L) by (apply H_speed_nonneg; exact Hl).
  assert (XP : 0 <= X). { eapply Rle_trans; [apply (fro_nonneg n m (x t0))|]. apply HX. lra. }
  assert (aP : 0 <= a) by (apply G). assert (bP : 0 <= b) by (apply G).
  assert (HH : forall t t', t0 <= t <= t0 + T -> t0 <= t' <= t0 + T -> fro n n (msub (H t) (H t')) <= L * Rabs (t - t')).
  { intros t t' A B. apply (H_change n h0 hctrls (keys signal) l (Rabs (t - t')) (fun k => c k t) (fun k => c k t')).
    intros k' I. apply LC; auto. }
  assert (HHi : forall t, t0 <= t <= t0 + T -> fro n n (msub (Hi t) (H t)) <= 4 * L * dt).
  { intros t A. assert (Es : Hi t = total_H h0 hctrls (keys signal) (fun k _ => interp (grid t0 dt N) (map (c k) (grid t0 dt N)) t) 0).
    { unfold Hi. rewrite <- (sum_H_total h0 hctrls signal hks (fun k => interp (grid t0 dt N) (map (c k) (grid t0 dt N)) t) Hc).
      f_equal. apply map_ext_in. intros [k' ch] I. cbn [fst snd]. destruct (Hg k' ch I) as [_ ->]. reflexivity. }
    rewrite Es. replace (4 * L * dt) with (L * (4 * dt)) by ring.
    apply (H_change n h0 hctrls (keys signal) l (4 * dt) (fun k => interp (grid t0 dt N) (map (c k) (grid t0 dt N)) t) (fun k => c k t)).
    intros k' I. apply interp_error; auto. }
  set (M := a * (h + 5 * L * T) + b) in *.
  assert (HB : forall t, t0 <= t <= t0 + T -> fro n n (H t) <= h + L * T).
  { intros t A. eapply Rle_trans; [apply (fro_le_sub n n (H t) (H t0))|]. fold h.
    assert (fro n n (msub (H t) (H t0)) <= L * T). { eapply Rle_trans; [apply HH; lra|]. apply Rmult_le_compat_l; [lra|]. rewrite Rabs_pos_eq by lra. lra. }
    lra. }
  assert (LT : L * dt <= L * T) by (apply Rmult_le_compat_l; lra).
  assert (LT0 : 0 <= L * T) by (apply Rmult_le_pos; lra).
  assert (hP : 0 <= h) by apply fro_nonneg.
  assert (MP : 0 <= M). { unfold M. assert (0 <= a * (h + 5 * L * T)) by (apply Rmult_le_pos; lra). lra. }
  assert (GE := global_error n m g a b G dt T M L X t0 N x H s samples init Hdt Hsmall LP XP eq_refl ltac:(lia)).
  assert (GM : forall t, t0 <= t <= t0 + T -> a * fro n n (H t) + b <= M).
  { intros t A. unfold M. apply Rplus_le_compat_r. apply Rmult_le_compat_l; [lra|]. specialize (HB t A). lra. }
  specialize (GE GM HH HX DX X0).
  assert (GS : forall i j, (i < N)%nat -> (j < length (nodes s))%nat ->
     a * fro n n (hs (samples i) j) + b <= M /\ fro n n (msub (hs (samples i) j) (H (t0 + INR i * dt))) <= 5 * L * dt).
  { intros p j Hp Hj. unfold hs, samples. rewrite map_map.
    rewrite (nth_indep _ mzero (Hi (t0 + INR p * dt + 0 * dt))) by (rewrite map_length; exact Hj).
    rewrite (map_nth (fun c => Hi (t0 + INR p * dt + c * dt))). set (q := nth j (nodes s) 0).
    assert (QR : 0 <= q <= 1). { pose proof (nodes_range s) as NR. rewrite Forall_forall in NR. apply NR. apply nth_In. exact Hj. }
    set (tp := t0 + INR p * dt).
    assert (P0 : 0 <= INR p * dt) by (apply Rmult_le_pos; [apply pos_INR|lra]).
    assert (P1 : (INR p + 1) * dt <= T). { unfold T. apply Rmult_le_compat_r; [lra|]. rewrite <- S_INR. apply le_INR. lia. }
    assert (qd : 0 <= q * dt <= dt). { split; [apply Rmult_le_pos; lra|]. rewrite <- (Rmult_1_l dt) at 2. apply Rmult_le_compat_r; lra. }
    assert (T1 : t0 <= tp + q * dt <= t0 + T) by (unfold tp; lra). assert (T2 : t0 <= tp <= t0 + T) by (unfold tp; lra).
    specialize (HHi _ T1). split.
    - unfold M. apply Rplus_le_compat_r. apply Rmult_le_compat_l; [lra|].
      eapply Rle_trans; [apply (fro_le_sub n n _ (H (tp + q * dt)))|]. specialize (HB _ T1). lra.
    - eapply Rle_trans; [apply (fro_sub3 n n _ (H (tp + q * dt)))|]. 
      assert (fro n n (msub (H (tp + q * dt)) (H tp)) <= L * dt).
      { eapply Rle_trans; [apply (HH _ _ T1 T2)|]. apply Rmult_le_compat_l; [lra|]. rewrite Rabs_pos_eq by lra. lra. }
      lra. }
  specialize (GE GS (S i) ltac:(lia)). eapply Rle_trans; [exact GE|]. clear GE.
  assert (DS : 0 <= defect s <= rounding s).
  { split; [apply Rabs_pos|]. destruct s; [rewrite defect_zero by discriminate; cbn; lra..|]. apply defect_small. }
  assert (R1 : rounding s <= 1) by (destruct s; cbn [rounding pow]; lra).
  unfold error_constant. cbv zeta. fold M.
  set (w := M * M * 30 * 31 ^ 7). assert (wP : 0 <= w). { unfold w. apply Rmult_le_pos; [nra|apply pow_le; lra]. }
  set (Q := 10 * (a * (5 * L) + w)). assert (aL : 0 <= a * L) by (apply Rmult_le_pos; lra). assert (QP : 0 <= Q) by (unfold Q; lra).
  assert (MM : 0 <= M * M) by nra. set (P := a * L + M * M). assert (PP : 0 <= P) by (unfold P; lra).
  assert (E1 : exp ((M + Q * T + defect s * M) * T) <= exp ((2 * M + Q * T) * T)).
  { assert (Le : (M + Q * T + defect s * M) * T <= (2 * M + Q * T) * T).
    { apply Rmult_le_compat_r; [lra|]. assert (defect s * M <= 1 * M) by (apply Rmult_le_compat_r; lra). lra. }
    destruct Le as [Le|Le]; [left; apply exp_increasing, Le|rewrite Le; lra]. }
  assert (XT : 0 <= X * T) by (apply Rmult_le_pos; lra).
  assert (K : (Q + P) * dt + defect s * M <= (Q + a * L + M * M + M) * (dt + rounding s)).
  { assert (defect s * M <= rounding s * M) by (apply Rmult_le_compat_r; lra).
    assert (0 <= (Q + P) * rounding s) by (apply Rmult_le_pos; lra). assert (0 <= M * dt) by (apply Rmult_le_pos; lra). unfold P in *. lra. }
  assert (K0 : 0 <= (Q + P) * dt + defect s * M).
  { assert (0 <= (Q + P) * dt) by (apply Rmult_le_pos; lra). assert (0 <= defect s * M) by (apply Rmult_le_pos; lra). lra. }
  replace ((Q + a * L + M * M + M) * X * T * exp ((2 * M + Q * T) * T) * (dt + rounding s))
    with ((Q + a * L + M * M + M) * (dt + rounding s) * (X * T) * exp ((2 * M + Q * T) * T)) by ring.
  replace (((Q + P) * dt + defect s * M) * X * T) with (((Q + P) * dt + defect s * M) * (X * T)) by ring.
  apply Rmult_le_compat; [apply Rmult_le_pos; lra|left; apply exp_pos| |exact E1].
  apply Rmult_le_compat_r; lra.
Qed.
Print Assumptions C123_error_bound.

(** Convergence: for a fixed evolution, the error of all states is at most a constant times the distance of the samples. *)
Theorem C123_convergence :
  forall interp n m h0 hctrls lind k s lines (c : string -> R -> R) (l : string -> R) t0 T init x,
  piecewise_linear interp -> 0 < T -> lines <> [] ->
  (k <> Schrodinger \/ lind <> None -> m = n) -> (lind = None -> k <> Lindblad) ->
  (forall k, In k lines -> dget k hctrls <> None) ->
  (forall k, In k lines -> 0 <= l k) ->
  (forall k u v, In k lines -> t0 <= u <= t0 + T -> t0 <= v <= t0 + T -> Rabs (c k u - c k v) <= l k * Rabs (u - v)) ->
  solves n m (fun t => rhs n (equation lind k) (collapse lind) (total_H h0 hctrls lines c t)) x init t0 (t0 + T) ->
  exists C N0, 0 <= C /\ forall N signal, (N0 <= N)%nat -> keys signal = lines -> on_grid signal c t0 (T / INR N) N ->
  exists states, ode_solver interp n h0 hctrls lind signal init s k = Ok (states, grid t0 (T / INR N) N) /\ length states = N
    /\ forall i, (i < N)%nat -> fro n m (msub (nth i states mzero) (x (t0 + INR (S i) * (T / INR N)))) <= C * (T / INR N + rounding s).
Proof.
  intros interp n m h0 hctrls lind k s lines c l t0 T init x PL HT Hne Hm Hk Hh Hl LC S.
  pose proof S as [_ DX]. destruct (bounded_solution n m x _ t0 (t0 + T) ltac:(lra) DX) as (X & XP & HX).
  set (a := alpha_of (equation lind k)). set (b := beta_of n (equation lind k) (collapse lind)).
  set (L := H_speed n hctrls lines l). set (h := fro n n (total_H h0 hctrls lines c t0)).
  set (M := a * (h + 5 * L * T) + b).
  assert (LP : 0 <= L) by (apply H_speed_nonneg; exact Hl).
  assert (G : generator n m (rhs n (equation lind k) (collapse lind)) a b).
  { apply rhs_generator. intro NS. apply Hm. unfold equation in NS. destruct lind; [right; discriminate|left; exact NS]. }
  assert (aP : 0 <= a) by apply G. assert (bP : 0 <= b) by apply G. assert (hP : 0 <= h) by apply fro_nonneg.
  assert (MP : 0 <= M). { unfold M. assert (0 <= L * T) by (apply Rmult_le_pos; lra). assert (0 <= a * (h + 5 * L * T)) by (apply Rmult_le_pos; lra). lra. }
  destruct (INR_beyond (T * M + 2)) as [N0 HN0].
  exists (error_constant n a b L T h X), N0. split.
  { unfold error_constant. cbv zeta. fold M. set (w := M * M * 30 * 31 ^ 7). assert (wP : 0 <= w). { unfold w. apply Rmult_le_pos; [nra|apply pow_le; lra]. }
    assert (aL : 0 <= a * L) by (apply Rmult_le_pos; lra). assert (MM : 0 <= M * M) by nra.
    apply Rmult_le_pos; [|left; apply exp_pos]. apply Rmult_le_pos; [|lra]. apply Rmult_le_pos; lra. }
  intros N signal HN K Hg. subst lines.
  assert (NB : T * M + 2 < INR N) by (apply Rlt_le_trans with (INR N0); [lra|apply le_INR; exact HN]).
  assert (TM : 0 <= T * M) by (apply Rmult_le_pos; lra).
  assert (N2 : (2 <= N)%nat). { apply INR_le. cbn [INR]. lra. }
  assert (Hdt : 0 < T / INR N) by (apply Rdiv_lt_0_compat; lra).
  assert (ET : INR N * (T / INR N) = T) by (field; lra).
  assert (Hs : signal <> []) by (intros ->; apply Hne; reflexivity).
  assert (LK : exists hks, lookup_controls hctrls (keys signal) = Ok hks).
  { clear - Hh. induction (keys signal) as [|q qs IH]; cbn [lookup_controls]; [eauto|].
    destruct (dget q hctrls) eqn:E; [|destruct (Hh q (or_introl eq_refl)); exact E].
    destruct IH as [r ->]. { intros; apply Hh; right; assumption. } cbn [rbind]. eauto. }
  destruct LK as [hks LK].
  pose proof (C123_error_bound interp n m h0 hctrls lind k s c l t0 (T / INR N) N signal hks init x X PL N2 Hdt Hs Hm Hk LK Hg Hl) as B.
  rewrite ET in B. specialize (B LC S HX). cbv zeta in B. fold a b L h M in B.
  destruct B as (states & E1 & _ & E2 & E3).
  { replace (T / INR N * M) with (T * M / INR N) by (unfold Rdiv; ring). apply Rle_div_l; lra. }
  exists states. auto.
Qed.
Print Assumptions C123_convergence.

(** For rk4, rk38 and rk5 the error goes to zero. *)
Theorem C123_limit :
  forall interp n m h0 hctrls lind k s lines (c : string -> R -> R) (l : string -> R) t0 T init x,
  s <> Tsit5 -> piecewise_linear interp -> 0 < T -> lines <> [] ->
  (k <> Schrodinger \/ lind <> None -> m = n) -> (lind = None -> k <> Lindblad) ->
  (forall k, In k lines -> dget k hctrls <> None) ->
  (forall k, In k lines -> 0 <= l k) ->
  (forall k u v, In k lines -> t0 <= u <= t0 + T -> t0 <= v <= t0 + T -> Rabs (c k u - c k v) <= l k * Rabs (u - v)) ->
  solves n m (fun t => rhs n (equation lind k) (collapse lind) (total_H h0 hctrls lines c t)) x init t0 (t0 + T) ->
  forall eps, 0 < eps -> exists N0, forall N signal, (N0 <= N)%nat -> keys signal = lines -> on_grid signal c t0 (T / INR N) N ->
  exists states, ode_solver interp n h0 hctrls lind signal init s k = Ok (states, grid t0 (T / INR N) N) /\ length states = N
    /\ forall i, (i < N)%nat -> fro n m (msub (nth i states mzero) (x (t0 + INR (S i) * (T / INR N)))) <= eps.
Proof.
  intros interp n m h0 hctrls lind k s lines c l t0 T init x Hs PL HT Hne Hm Hk Hh Hl LC S eps He.
  destruct (C123_convergence interp n m h0 hctrls lind k s lines c l t0 T init x PL HT Hne Hm Hk Hh Hl LC S) as (C & N0 & CP & H).
  destruct (INR_beyond (C * T / eps + 1)) as [N1 HN1]. exists (Nat.max N0 N1). intros N signal HN K Hg.
  destruct (H N signal ltac:(lia) K Hg) as (states & E1 & E2 & E3). exists states. repeat split; auto.
  intros i Hi. eapply Rle_trans; [apply E3, Hi|]. replace (rounding s) with 0 by (destruct s; [reflexivity..|contradiction]).
  assert (CT : 0 <= C * T / eps) by (apply Rle_div_r; [lra|]; rewrite Rmult_0_l; apply Rmult_le_pos; lra).
  assert (NB : C * T / eps + 1 < INR N) by (apply Rlt_le_trans with (INR N1); [lra|apply le_INR; lia]).
  rewrite Rplus_0_r. replace (C * (T / INR N)) with (C * T / INR N) by (unfold Rdiv; ring). apply Rle_div_l; [lra|].
  replace (C * T) with (eps * (C * T / eps)) by (field; lra). apply Rmult_le_compat_l; lra.
Qed.
Print Assumptions C123_limit.

(** The hypotheses are met: a linear interpolation, and two levels driven by a linearly growing field. *)
Definition lin_interp (ts vs : list R) (t : R) : R :=
  let dt := nth 1 ts 0 - nth 0 ts 0 in
  let i := Nat.min (Z.to_nat (Int_part ((t - nth 0 ts 0) / dt))) (length vs - 2) in
  nth i vs 0 + (t - nth 0 ts 0 - INR i * dt) / dt * (nth (S i) vs 0 - nth i vs 0).
Lemma lin_interp_ok : piecewise_linear lin_interp.
Proof.
  intros t0 dt N vs i t Hdt Lv Hi H1 H2. unfold lin_interp.
  rewrite !grid_nth by lia. cbn [INR]. replace (t0 + 1 * dt - (t0 + 0 * dt)) with dt by ring. replace (t0 + 0 * dt) with t0 by ring.
  rewrite Lv. set (z := Int_part ((t - t0) / dt)). destruct (base_Int_part ((t - t0) / dt)) as [B1 B2]. fold z in B1, B2.
  set (u := (t - t0) / dt) in *. assert (Eu : t = t0 + u * dt) by (unfold u; field; lra).
  assert (U1 : INR i <= u). { apply Rmult_le_reg_r with dt; [lra|]. rewrite Eu in H1. lra. }
  assert (Z1 : (Z.of_nat i <= z)%Z). { apply Z.lt_succ_r. apply lt_IZR. rewrite <- INR_IZR_INZ. unfold Z.succ. rewrite plus_IZR. lra. }
  assert (P : forall j, nth j vs 0 + (t - t0 - INR j * dt) / dt * (nth (S j) vs 0 - nth j vs 0) = nth j vs 0 + (u - INR j) * (nth (S j) vs 0 - nth j vs 0)).
  { intro j. rewrite Eu. field. lra. }
  rewrite P. replace (nth i vs 0 + (t - (t0 + INR i * dt)) / dt * (nth (S i) vs 0 - nth i vs 0)) with (nth i vs 0 + (u - INR i) * (nth (S i) vs 0 - nth i vs 0)) by (rewrite Eu; field; lra).
  destruct H2 as [H2|H2].
  - assert (U2 : u <= INR i + 1). { apply Rmult_le_reg_r with dt; [lra|]. rewrite Eu, S_INR in H2. lra. }
    assert (Z2 : (z <= Z.of_nat i + 1)%Z). { apply le_IZR. rewrite plus_IZR, <- INR_IZR_INZ. lra. }
    destruct (Z.eq_dec z (Z.of_nat i)) as [->|Nz].
    + rewrite Nat2Z.id. rewrite Nat.min_l by lia. reflexivity.
    + assert (Ez : z = Z.of_nat (S i)) by lia. rewrite Ez, Nat2Z.id.
      assert (Eu1 : u = INR (S i)). { rewrite S_INR. apply Rle_antisym; [exact U2|]. rewrite Ez, <- INR_IZR_INZ, S_INR in B1. lra. }
      destruct (Nat.min_spec (S i) (N - 2)) as [[Q ->]|[Q ->]].
      * rewrite Eu1. rewrite (S_INR i). ring.
      * destruct (Nat.eq_dec (N - 2) i) as [->|Nq]; [reflexivity|]. replace (N - 2)%nat with (S i) by lia. rewrite Eu1, (S_INR i). ring.
  - replace (Nat.min (Z.to_nat z) (N - 2)) with i by lia. reflexivity.
Qed.

Definition ramp_H : mat := fun i j => match i, j with O, O => RtoC 1 | S O, S O => RtoC (-1) | _, _ => RtoC 0 end.
Definition ramp_x (t : R) : mat := fun i j => match i, j with
  | O, O => (cos (t * t / 2), - sin (t * t / 2)) | S O, S O => (cos (t * t / 2), sin (t * t / 2)) | _, _ => RtoC 0 end.
Example C123_example : forall s eps, s <> Tsit5 -> 0 < eps ->
  exists N0, forall N, (N0 <= N)%nat -> 
  exists states, ode_solver lin_interp 2 mzero [("d1"%string, ramp_H)] None
       [("d1"%string, {| ch_ts := grid 0 (1 / INR N) N; ch_values := grid 0 (1 / INR N) N |})] (ramp_x 0) s Schrodinger = Ok (states, grid 0 (1 / INR N) N)
    /\ length states = N
    /\ forall i, (i < N)%nat -> fro 2 2 (msub (nth i states mzero) (ramp_x (0 + INR (S i) * (1 / INR N)))) <= eps.
Proof.
  intros s eps Hs He.
  assert (SV : solves 2 2 (fun t => rhs 2 (equation None Schrodinger) (collapse None) (total_H mzero [("d1"%string, ramp_H)] ["d1"%string] (fun _ t => t) t))
                 ramp_x (ramp_x 0) 0 (0 + 1)).
  { split; [reflexivity|]. intros t Ht. unfold rhs, equation, total_H.
    intros [|[|i]] [|[|j]] Hi Hj; try lia; unfold mscale, mmul, madd, mzero, ramp_H, ramp_x; cbn [csum fold_right dget keys String.eqb Ascii.eqb Bool.eqb];
      unfold mscale, mmul, madd, mzero, ramp_H, cderive, Cplus, Cmult, Copp, Ci, RtoC; cbn [fst snd].
    all: split; try (auto_derive; [exact I|]; try field; ring).
    all: unfold Rdiv; auto_derive; [exact I|]; field. }
  destruct (C123_limit lin_interp 2 2 mzero [("d1"%string, ramp_H)] None Schrodinger s ["d1"%string] (fun _ t => t) (fun _ => 1) 0 1 (ramp_x 0) ramp_x Hs
    lin_interp_ok ltac:(lra) ltac:(discriminate) ltac:(auto) ltac:(intros _; discriminate)
    ltac:(intros k [<-|[]]; discriminate) ltac:(intros; lra) ltac:(intros; lra) SV eps He) as [N0 H].
  exists N0. intros N HN. apply (H N _ HN); [reflexivity|].
  intros k ch [E|[]]. injection E as <- <-. cbn [ch_ts ch_values]. split; [reflexivity|]. rewrite map_id. reflexivity.
Qed.
