(** C122: the propagators of the piecewise constant solver against the Schroedinger equation. *)
From Coq Require Import Reals Lra Lia Setoid Morphisms.
From Coquelicot Require Import Coquelicot.
From Verif Require Import Base Mat MExp RSum MDeriv HilbertModel PropModel FoldModel FoldProps EnvModel ExpModel ExpProps.
Local Open Scope list_scope.
Local Open Scope nat_scope.
Local Open Scope R_scope.
Local Notation length := List.length.

(** ** Specification *)
(** The Hamiltonian in continuous time: drift plus, for each drive line k, the field c_k(t) times its control Hamiltonian. *)
Definition hamiltonian (m : pmodel) (lines : list string) (c : string -> R -> R) (t : R) : mat :=
  madd (p_h0 m)
    (fold_right (fun k acc => match dget k (p_hctrls m) with
                              | Some h => madd (mscale (RtoC (c k t)) h) acc
                              | None => acc
                              end) mzero lines).
(** U solves i dU/dt = H(t) U from the identity at [t0] to the time [t1]. *)
Definition schroedinger (n : nat) (H U : R -> mat) (t0 t1 : R) : Prop :=
  meq n n (U t0) mid /\ forall t, t0 <= t <= t1 -> mderive n n U t (mscale (- Ci)%C (mmul n (H t) (U t))).
(** The samples of the fields in the middle of N slices of length dt from t0 on. *)
Definition sampled (signal : dict wave) (c : string -> R -> R) (t0 dt : R) (N : nat) : Prop :=
  forall k w, In (k, w) signal ->
  w_ts w = map (fun j => t0 + (INR j + / 2) * dt) (seq 0 N) /\ w_values w = map (c k) (w_ts w).
(** How fast the Hamiltonian changes, if the field c_k changes by at most l_k per unit of time. *)
Definition speed (m : pmodel) (lines : list string) (l : string -> R) : R :=
  fold_right (fun k acc => match dget k (p_hctrls m) with
                           | Some h => l k * fro (p_dim m) (p_dim m) h + acc
                           | None => acc
                           end) 0 lines.

(** ** Proofs *)
Lemma mexp_commute : forall n A, meq n n (mmul n A (mexp n A)) (mmul n (mexp n A) A).
Proof.
  intros n A i j Hi Hj. transitivity (cser (fun k => / RtoC (INR (fact k)) * mpow n A (S k) i j)%C).
  - symmetry. apply cser_unique. unfold mmul.
    eapply is_cser_ext; [|apply (is_cser_sum n (fun k l => A i l * taylor_term n A k l j)%C)].
    + intro k. cbv beta. rewrite (mpow_S_l n A k i j Hi Hj). unfold mmul, taylor_term, mscale. rewrite <- csum_scale. apply csum_ext.
      intros l Hl. ring.
    + intros l Hl. apply is_cser_scale. apply mexp_is; auto.
  - apply cser_unique. unfold mmul.
    eapply is_cser_ext; [|apply (is_cser_sum n (fun k l => A l j * taylor_term n A k i l)%C (fun l => mexp n A i l * A l j)%C)].
    + intro k. cbv beta.
      assert (E : mpow n A (S k) i j = mmul n (mpow n A k) A i j).
      { pose proof (mpow_add n A k 1 i j Hi Hj) as P. rewrite Nat.add_1_r in P. rewrite P.
        apply (mmul_proper n _ _ (reflexivity (mpow n A k)) (mpow n A 1) A); auto.
        cbn [mpow]. first [apply mmul_id_r | apply mmul_id_l]. }
      rewrite E. unfold mmul, taylor_term, mscale. rewrite <- csum_scale. apply csum_ext. intros l Hl. ring.
    + intros l Hl. rewrite (Cmult_comm (mexp n A i l)). apply is_cser_scale. apply mexp_is; auto.
Qed.

Lemma rotation_unitary : forall n H t, hermitian n H -> unitary n (mexp n (mscale (RtoC t) (mscale Ci H))).
Proof.
  intros n H t HH. rewrite (mexp_proper n _ (mscale (- Ci * RtoC (- t)) H)%C).
  - apply mexp_unitary, HH.
  - intros i j _ _. unfold mscale. rewrite RtoC_opp. ring.
Qed.

(** A solution stays unitary. *)
Lemma solution_unitary : forall n H U t0 t1, (forall t, t0 <= t <= t1 -> hermitian n (H t)) -> schroedinger n H U t0 t1 ->
  forall t, t0 <= t <= t1 -> unitary n (U t).
Proof.
  intros n H U t0 t1 HH [U0 DU] t Ht. apply isometry_unitary.
  assert (Z : fro n n (msub (mmul n (madj (U t)) (U t)) (mmul n (madj (U t0)) (U t0))) <= 0 - 0).
  { apply (mean_value n n (fun s => mmul n (madj (U s)) (U s)) (fun _ => mzero) (fun _ => 0) (fun _ => 0)); [lra| | |].
    - intros s Hs. assert (Hs' : t0 <= s <= t1) by lra. specialize (DU s Hs').
      eapply mderive_eq; [|apply (mderive_mul n n n (fun s => madj (U s)) U s); [apply mderive_adj, DU|exact DU]].
      rewrite madj_scale, madj_mmul, mmul_scale_l, mmul_scale_r. rewrite (HH s Hs' : meq n n (madj (H s)) (H s)).
      rewrite (mmul_assoc n n n n (madj (U s)) (H s) (U s)).
      intros i j _ _. unfold madd, mscale, mzero. rewrite conj_opp, conj_i. ring.
    - intros s _. apply (is_derive_const (V := R_NormedModule)).
    - intros s _. rewrite fro_zero by reflexivity. lra. }
  assert (Z0 : fro n n (msub (mmul n (madj (U t)) (U t)) (mmul n (madj (U t0)) (U t0))) = 0).
  { apply Rle_antisym; [lra|apply fro_nonneg]. }
  apply fro_zero_inv in Z0. rewrite U0 in Z0. rewrite madj_id, mmul_id_l in Z0.
  intros i j Hi Hj. specialize (Z0 i j Hi Hj). unfold msub, mzero in Z0.
  replace (mmul n (madj (U t)) (U t) i j) with (mmul n (madj (U t)) (U t) i j - mid i j + mid i j)%C by ring. rewrite Z0. ring.
Qed.

Lemma fro_sub_split : forall n A B D, fro n n (msub A D) <= fro n n (msub A B) + fro n n (msub B D).
Proof.
  intros n A B D. rewrite (fro_proper n n (msub A D) (madd (msub A B) (msub B D))); [apply fro_triangle|].
  intros i j _ _. unfold msub, madd. ring.
Qed.

(** One slice. *)
Lemma slice_error : forall n H U (L a dt : R) (Hk : mat), 0 < dt -> 0 <= L ->
  hermitian n Hk -> meq n n Hk (H (a + dt / 2)) ->
  (forall t, a <= t <= a + dt -> unitary n (U t)) ->
  (forall t, a <= t <= a + dt -> mderive n n U t (mscale (- Ci)%C (mmul n (H t) (U t)))) ->
  (forall s t, a <= s <= a + dt -> a <= t <= a + dt -> fro n n (msub (H s) (H t)) <= L * Rabs (s - t)) ->
  fro n n (msub (U (a + dt)) (mmul n (mexp n (mscale (- Ci * RtoC dt)%C Hk)) (U a))) <= L * dt * dt / 4.
Proof.
  intros n H U L a dt Hk Hdt HL HH EH UU DU LH.
  set (W := fun s => mexp n (mscale (RtoC s) (mscale Ci Hk))).
  set (D := fun s => mmul n (W s) (U s)).
  set (D' := fun s => mmul n (W s) (mmul n (mscale Ci (msub Hk (H s))) (U s))).
  assert (WU : forall s, unitary n (W s)) by (intro s; apply rotation_unitary; exact HH).
  assert (DD : forall s, a <= s <= a + dt -> mderive n n D s (D' s)).
  { intros s Hs. eapply mderive_eq; [|apply (mderive_mul n n n W U s); [apply mexp_derive|apply (DU s Hs)]].
    assert (Cm : meq n n (mmul n (mscale Ci Hk) (W s)) (mmul n (W s) (mscale Ci Hk))).
    { unfold W. destruct (Req_dec s 0) as [->|Ns].
      - rewrite (mexp_proper n _ mzero), mexp_0, mmul_id_l, mmul_id_r; [reflexivity|].
        intros i j _ _. unfold mscale, mzero. ring.
      - pose proof (mexp_commute n (mscale (RtoC s) (mscale Ci Hk))) as P. rewrite mmul_scale_l, mmul_scale_r in P.
        intros i j Hi Hj. specialize (P i j Hi Hj).
        set (x := mmul n (mscale Ci Hk) (mexp n (mscale (RtoC s) (mscale Ci Hk))) i j).
        set (y := mmul n (mexp n (mscale (RtoC s) (mscale Ci Hk))) (mscale Ci Hk) i j).
        change (RtoC s * x = RtoC s * y)%C in P.
        assert (Nc : RtoC s <> RtoC 0) by (intro E; apply RtoC_inj in E; contradiction).
        replace x with (/ RtoC s * (RtoC s * x))%C by (field; exact Nc). rewrite P. field. exact Nc. }
    fold (W s). rewrite Cm. unfold D'. rewrite <- (mmul_assoc n n n n (W s) (mscale Ci Hk) (U s)).
    rewrite <- mmul_add_l. apply mmul_proper; [reflexivity|].
    rewrite !mmul_scale_l, mmul_sub_r. intros i j _ _. unfold madd, mscale, msub. ring. }
  assert (ND : forall s, a <= s <= a + dt -> fro n n (D' s) <= L * Rabs (a + dt / 2 - s)).
  { intros s Hs. unfold D'. rewrite fro_unitary_l by apply WU. rewrite fro_unitary_r by (apply UU, Hs).
    rewrite fro_scale. replace (Cmod Ci) with 1 by (unfold Cmod, Ci; cbn [fst snd]; replace (0 ^ 2 + 1 ^ 2) with 1 by ring; symmetry; apply sqrt_1).
    rewrite Rmult_1_l, EH. apply LH; lra. }
  assert (S1 : fro n n (msub (D (a + dt / 2)) (D a)) <= - (L * (a + dt / 2 - (a + dt / 2)) ^ 2 / 2) - - (L * (a + dt / 2 - a) ^ 2 / 2)).
  { apply (mean_value n n D D' (fun s => - (L * (a + dt / 2 - s) ^ 2 / 2)) (fun s => L * (a + dt / 2 - s))); [lra| | |].
    - intros s Hs. apply DD. lra.
    - intros s _. auto_derive; [exact I|]. field.
    - intros s Hs. specialize (ND s ltac:(lra)). rewrite Rabs_pos_eq in ND by lra. exact ND. }
  assert (S2 : fro n n (msub (D (a + dt)) (D (a + dt / 2))) <= L * (a + dt - (a + dt / 2)) ^ 2 / 2 - L * (a + dt / 2 - (a + dt / 2)) ^ 2 / 2).
  { apply (mean_value n n D D' (fun s => L * (s - (a + dt / 2)) ^ 2 / 2) (fun s => L * (s - (a + dt / 2)))); [lra| | |].
    - intros s Hs. apply DD. lra.
    - intros s _. auto_derive; [exact I|]. field.
    - intros s Hs. specialize (ND s ltac:(lra)). rewrite Rabs_left1 in ND by lra.
      replace (s - (a + dt / 2)) with (- (a + dt / 2 - s)) by ring. exact ND. }
  assert (S : fro n n (msub (D (a + dt)) (D a)) <= L * dt * dt / 4).
  { eapply Rle_trans; [apply (fro_sub_split n _ (D (a + dt / 2)))|]. eapply Rle_trans; [apply Rplus_le_compat; [exact S2|exact S1]|].
    apply Req_le. field. }
  assert (E : meq n n (msub (D (a + dt)) (D a))
                (mmul n (W (a + dt)) (msub (U (a + dt)) (mmul n (mexp n (mscale (- Ci * RtoC dt)%C Hk)) (U a))))).
  { rewrite mmul_sub_l. unfold D. apply msub_proper; [reflexivity|].
    rewrite (mmul_assoc n n n n (W (a + dt))). apply mmul_proper; [|reflexivity].
    unfold W. rewrite (mexp_proper n (mscale (- Ci * RtoC dt)%C Hk) (mscale (RtoC (- dt)) (mscale Ci Hk))).
    - rewrite mexp_add. replace (a + dt + - dt) with a by ring. reflexivity.
    - intros i j _ _. unfold mscale. rewrite RtoC_opp. ring. }
  rewrite (fro_proper n n _ _ E) in S. rewrite fro_unitary_l in S by apply WU. exact S.
Qed.

Lemma slices_error : forall n H U (L t0 dt : R), 0 < dt -> 0 <= L -> forall us p, TimeOrdered (mmul n) us p ->
  (forall k, (k < length us)%nat -> exists Hk, hermitian n Hk /\ meq n n Hk (H (t0 + (INR k + / 2) * dt))
                /\ nth_error us k = Some (mexp n (mscale (- Ci * RtoC dt)%C Hk))) ->
  (forall t, t0 <= t <= t0 + INR (length us) * dt -> unitary n (U t)) ->
  schroedinger n H U t0 (t0 + INR (length us) * dt) ->
  (forall s t, t0 <= s <= t0 + INR (length us) * dt -> t0 <= t <= t0 + INR (length us) * dt ->
     fro n n (msub (H s) (H t)) <= L * Rabs (s - t)) ->
  fro n n (msub (U (t0 + INR (length us) * dt)) p) <= L * (INR (length us) * dt) * dt / 4.
Proof.
  intros n H U L t0 dt Hdt HL us p TO. induction TO as [u|us u p TO IH]; intros HS UU [U0 DU] LH.
  - cbn [List.length] in *. change (INR 1) with 1 in *. rewrite Rmult_1_l in *.
    destruct (HS 0%nat ltac:(lia)) as (Hk & HH & EH & EU). cbn in EU. injection EU as ->.
    rewrite (fro_proper n n _ (msub (U (t0 + dt)) (mmul n (mexp n (mscale (- Ci * RtoC dt)%C Hk)) (U t0)))).
    + apply (slice_error n H U L t0 dt Hk); auto. rewrite EH. cbn [INR]. replace (t0 + (0 + / 2) * dt) with (t0 + dt / 2) by field. reflexivity.
    + rewrite U0, mmul_id_r. reflexivity.
  - assert (LE : INR (length (us ++ [u])) = INR (length us) + 1).
    { rewrite app_length. cbn [List.length]. rewrite plus_INR. reflexivity. }
    rewrite LE in *. set (K := INR (length us)) in *. assert (KP : 0 <= K) by apply pos_INR.
    assert (KD : 0 <= K * dt) by (apply Rmult_le_pos; lra).
    replace (t0 + (K + 1) * dt) with (t0 + K * dt + dt) in * by ring.
    destruct (HS (length us)) as (Hk & HH & EH & EU). { rewrite app_length. cbn. lia. }
    rewrite nth_error_app2, Nat.sub_diag in EU by lia. cbn in EU. injection EU as ->.
    assert (IH' : fro n n (msub (U (t0 + K * dt)) p) <= L * (K * dt) * dt / 4).
    { apply IH.
      - intros k Hlt. destruct (HS k) as (Hk' & A & B & E). { rewrite app_length. lia. }
        exists Hk'. split; [exact A|]. split; [exact B|]. rewrite nth_error_app1 in E by exact Hlt. exact E.
      - intros t Ht. apply UU. lra.
      - split; [exact U0|]. intros t Ht. apply DU. lra.
      - intros s t Hs Ht. apply LH; lra. }
    eapply Rle_trans; [apply (fro_sub_split n _ (mmul n (mexp n (mscale (- Ci * RtoC dt)%C Hk)) (U (t0 + K * dt))))|].
    assert (A : fro n n (msub (U (t0 + K * dt + dt)) (mmul n (mexp n (mscale (- Ci * RtoC dt)%C Hk)) (U (t0 + K * dt)))) <= L * dt * dt / 4).
    { apply (slice_error n H U L (t0 + K * dt) dt Hk); auto.
      - rewrite EH. fold K. replace (t0 + (K + / 2) * dt) with (t0 + K * dt + dt / 2) by field. reflexivity.
      - intros t Ht. apply UU. lra.
      - intros t Ht. apply DU. lra.
      - intros s t Hs Ht. apply LH; lra. }
    assert (B : fro n n (msub (mmul n (mexp n (mscale (- Ci * RtoC dt)%C Hk)) (U (t0 + K * dt))) (mmul n (mexp n (mscale (- Ci * RtoC dt)%C Hk)) p))
                <= L * (K * dt) * dt / 4).
    { rewrite (fro_proper n n _ (mmul n (mexp n (mscale (- Ci * RtoC dt)%C Hk)) (msub (U (t0 + K * dt)) p))).
      - rewrite fro_unitary_l by (apply mexp_unitary, HH). exact IH'.
      - rewrite mmul_sub_l. reflexivity. }
    lra.
Qed.

(** The Hamiltonian of a slice is the continuous one at its middle. *)
Lemma slice_hamiltonian : forall m c t0 dt N signal k, sampled signal c t0 dt N -> (k < N)%nat ->
  driven_hamiltonian m signal k = hamiltonian m (keys signal) c (t0 + (INR k + / 2) * dt).
Proof.
  intros m c t0 dt N signal k HS Hk. unfold driven_hamiltonian, hamiltonian. f_equal.
  induction signal as [|[x w] signal IH]; [reflexivity|]. cbn [keys map fold_right fst snd].
  assert (E : nth k (w_values w) 0 = c x (t0 + (INR k + / 2) * dt)).
  { destruct (HS x w) as [E1 E2]; [left; reflexivity|]. rewrite E2, E1, map_map.
    rewrite (nth_indep _ 0 (c x (t0 + (INR 0 + / 2) * dt))) by (rewrite map_length, seq_length; exact Hk).
    rewrite (map_nth (fun j => c x (t0 + (INR j + / 2) * dt)) (seq 0 N) 0%nat k). rewrite seq_nth by exact Hk. reflexivity. }
  rewrite E. fold (keys signal). rewrite IH; [reflexivity|]. intros k' w' H'. apply HS. right. exact H'.
Qed.
Lemma hamiltonian_hermitian : forall m lines c t, hermitian (p_dim m) (p_h0 m) ->
  (forall k h, dget k (p_hctrls m) = Some h -> hermitian (p_dim m) h) -> hermitian (p_dim m) (hamiltonian m lines c t).
Proof.
  intros m lines c t H0 Hc. unfold hamiltonian. apply PropProofs.herm_add; [exact H0|].
  induction lines as [|k lines IH]; cbn [fold_right]; [apply PropProofs.herm_zero|].
  destruct (dget k (p_hctrls m)) as [h|] eqn:E; [|exact IH].
  apply PropProofs.herm_add; [|exact IH]. apply PropProofs.herm_scale. eapply Hc; eauto.
Qed.
Lemma hamiltonian_lipschitz : forall m lines c l s t,
  (forall k, In k lines -> Rabs (c k s - c k t) <= l k * Rabs (s - t)) ->
  fro (p_dim m) (p_dim m) (msub (hamiltonian m lines c s) (hamiltonian m lines c t)) <= speed m lines l * Rabs (s - t).
Proof.
  intros m lines c l s t HL. set (n := p_dim m). unfold hamiltonian.
  rewrite (fro_proper n n _ (msub
    (fold_right (fun k acc => match dget k (p_hctrls m) with Some h => madd (mscale (RtoC (c k s)) h) acc | None => acc end) mzero lines)
    (fold_right (fun k acc => match dget k (p_hctrls m) with Some h => madd (mscale (RtoC (c k t)) h) acc | None => acc end) mzero lines))).
  2:{ intros i j _ _. unfold msub, madd. ring. }
  induction lines as [|k lines IH]; cbn [fold_right].
  - rewrite fro_zero; [unfold speed; cbn [fold_right]; lra|]. intros i j _ _. unfold msub, mzero. ring.
  - unfold speed. cbn [fold_right]. fold (speed m lines l).
    assert (IH' := IH (fun k' H' => HL k' (or_intror H'))). clear IH.
    destruct (dget k (p_hctrls m)) as [h|] eqn:E; [|exact IH'].
    match type of IH' with fro _ _ (msub ?x ?y) <= _ => set (A := x) in *; set (B := y) in * end.
    rewrite (fro_proper n n _ (madd (mscale (RtoC (c k s - c k t)) h) (msub A B))).
    2:{ intros i j _ _. unfold msub, madd, mscale. rewrite RtoC_minus. ring. }
    eapply Rle_trans; [apply fro_triangle|]. rewrite fro_scale, Cmod_R.
    assert (Rabs (c k s - c k t) * fro n n h <= l k * Rabs (s - t) * fro n n h).
    { apply Rmult_le_compat_r; [apply fro_nonneg|]. apply HL. left. reflexivity. }
    fold n. lra.
Qed.
Lemma sampled_samples : forall signal c t0 dt N dt', sampled signal c t0 dt N -> is_step signal dt' -> samples signal = N /\ dt' = dt /\ (2 <= N)%nat.
Proof.
  intros signal c t0 dt N dt' HS (kv & r & x0 & x1 & ts & -> & E & ->).
  destruct (HS (fst kv) (snd kv)) as [E1 E2]. { rewrite <- surjective_pairing. apply in_app_iff. right. left. reflexivity. }
  assert (L : samples (r ++ [kv]) = N).
  { unfold samples. destruct r as [|kv' r]; cbn [app].
    - rewrite E2, E1, !map_length, seq_length. reflexivity.
    - destruct (HS (fst kv') (snd kv')) as [F1 F2]. { left. destruct kv'; reflexivity. }
      rewrite F2, F1, !map_length, seq_length. reflexivity. }
  split; [exact L|]. rewrite E in E1. destruct N as [|[|N]]; cbn in E1; try discriminate E1. injection E1 as -> -> _. split; [field|lia].
Qed.

(** ** C122 *)
(** The propagator of a closed system differs from the solution of the Schroedinger equation, in the Euclidean
    norm, by at most (speed of the Hamiltonian) * (duration) * (length of a slice) / 4. *)
Theorem C122_error_bound :
  forall m signal batch r c l t0 dt N U,
  p_lind m = false -> hermitian (p_dim m) (p_h0 m) ->
  (forall k h, dget k (p_hctrls m) = Some h -> hermitian (p_dim m) h) ->
  0 < dt -> sampled signal c t0 dt N ->
  (forall k s t, In k (keys signal) -> t0 <= s <= t0 + INR N * dt -> t0 <= t <= t0 + INR N * dt -> Rabs (c k s - c k t) <= l k * Rabs (s - t)) ->
  schroedinger (p_dim m) (hamiltonian m (keys signal) c) U t0 (t0 + INR N * dt) ->
  pwc_controlled m signal (folding_stack (samples signal)) batch = Ok r ->
  fro (p_dim m) (p_dim m) (msub (U (t0 + INR N * dt)) (pr_U r)) <= speed m (keys signal) l * (INR N * dt) * dt / 4.
Proof.
  intros m signal batch r c l t0 dt N U Hl H0 Hc Hdt HS HL SU HR. set (n := p_dim m) in *.
  destruct (controlled_split _ _ _ _ _ HR) as (dt' & IS & _).
  destruct (sampled_samples _ _ _ _ _ _ HS IS) as (EN & _ & N2).
  destruct (C82_time_slices m signal batch r Hl ltac:(lia) HR) as (TO & dt2 & IS2 & LU & NU).
  destruct (sampled_samples _ _ _ _ _ _ HS IS2) as (_ & -> & _). fold n in TO. rewrite EN in *.
  assert (NP : 1 <= INR N) by (change 1 with (INR 1); apply le_INR; lia).
  assert (NP' : 0 < INR N * dt) by (apply Rmult_lt_0_compat; lra).
  assert (HLH : forall s t, t0 <= s <= t0 + INR N * dt -> t0 <= t <= t0 + INR N * dt ->
     fro n n (msub (hamiltonian m (keys signal) c s) (hamiltonian m (keys signal) c t)) <= speed m (keys signal) l * Rabs (s - t)).
  { intros s t Hs Ht. apply hamiltonian_lipschitz. intros k Hk. apply HL; auto. }
  assert (SP : 0 <= speed m (keys signal) l).
  { specialize (HLH t0 (t0 + INR N * dt) ltac:(lra) ltac:(lra)).
    pose proof (fro_nonneg n n (msub (hamiltonian m (keys signal) c t0) (hamiltonian m (keys signal) c (t0 + INR N * dt)))) as P.
    rewrite Rabs_left1 in HLH by lra. apply Rmult_le_reg_r with (INR N * dt); [exact NP'|]. lra. }
  rewrite <- LU. apply (slices_error n (hamiltonian m (keys signal) c) U _ t0 dt Hdt SP (pr_dUs r) (pr_U r) TO); rewrite ?LU.
  - intros k Hk. exists (driven_hamiltonian m signal k). split; [apply driven_hermitian; auto|]. split.
    + rewrite (slice_hamiltonian m c t0 dt N signal k HS Hk). reflexivity.
    + apply NU. exact Hk.
  - intros t Ht. apply (solution_unitary n (hamiltonian m (keys signal) c) U t0 (t0 + INR N * dt)); auto.
    intros; apply hamiltonian_hermitian; auto.
  - exact SU.
  - exact HLH.
Qed.
Print Assumptions C122_error_bound.

(** The error of a population (the probability to find level i after the evolution of a normalised state) is at most
    twice as large. *)
Theorem C122_population_error :
  forall m signal batch r c l t0 dt N U (psi : mat) i,
  p_lind m = false -> hermitian (p_dim m) (p_h0 m) ->
  (forall k h, dget k (p_hctrls m) = Some h -> hermitian (p_dim m) h) ->
  0 < dt -> sampled signal c t0 dt N ->
  (forall k s t, In k (keys signal) -> t0 <= s <= t0 + INR N * dt -> t0 <= t <= t0 + INR N * dt -> Rabs (c k s - c k t) <= l k * Rabs (s - t)) ->
  schroedinger (p_dim m) (hamiltonian m (keys signal) c) U t0 (t0 + INR N * dt) ->
  pwc_controlled m signal (folding_stack (samples signal)) batch = Ok r ->
  rs (p_dim m) (fun j => Cmod (psi j 0%nat) ^ 2) = 1 -> (i < p_dim m)%nat ->
  Rabs (Cmod (mmul (p_dim m) (U (t0 + INR N * dt)) psi i 0%nat) ^ 2 - Cmod (mmul (p_dim m) (pr_U r) psi i 0%nat) ^ 2)
  <= speed m (keys signal) l * (INR N * dt) * dt / 2.
Proof.
  intros m signal batch r c l t0 dt N U psi i Hl H0 Hc Hdt HS HL SU HR HP Hi.
  pose proof (C122_error_bound m signal batch r c l t0 dt N U Hl H0 Hc Hdt HS HL SU HR) as EB.
  set (n := p_dim m) in *.
  assert (NP : 0 <= INR N * dt) by (apply Rmult_le_pos; [apply pos_INR|lra]).
  assert (UU : unitary n (U (t0 + INR N * dt))).
  { apply (solution_unitary n (hamiltonian m (keys signal) c) U t0 (t0 + INR N * dt)); auto; [|lra]. intros; apply hamiltonian_hermitian; auto. }
  assert (UP : unitary n (pr_U r)) by (exact (proj1 (C82_closed_unitary _ _ _ _ _ Hl H0 Hc HR))).
  assert (PN : nrm2 n 1 psi = 1). { unfold nrm2. rewrite <- HP. apply rs_ext. intros j _. cbn [rs]. ring. }
  assert (ONE : forall V, unitary n V -> Cmod (mmul n V psi i 0%nat) <= 1).
  { intros V HV. pose proof (unitary_norm n 1 V psi HV) as E. rewrite PN in E.
    assert (P : Cmod (mmul n V psi i 0%nat) ^ 2 <= 1).
    { rewrite <- E. unfold nrm2. eapply Rle_trans; [|apply (rs_member n (fun i => rs 1 (fun j => Cmod (mmul n V psi i j) ^ 2)) i); auto].
      - cbn [rs]. lra.
      - intros j _. apply rs_nonneg. intros. apply pow2_ge_0. }
    pose proof (Cmod_ge_0 (mmul n V psi i 0%nat)). nra. }
  set (A := U (t0 + INR N * dt)) in *. set (B := pr_U r) in *.
  assert (DIFF : Cmod (mmul n A psi i 0%nat - mmul n B psi i 0%nat)%C <= fro n n (msub A B)).
  { pose proof (fro_mul n n 1 (msub A B) psi) as M. assert (F1 : fro n 1 psi = 1) by (unfold fro; rewrite PN; apply sqrt_1).
    rewrite F1, Rmult_1_r in M. eapply Rle_trans; [|exact M].
    assert (E : (mmul n A psi i 0%nat - mmul n B psi i 0%nat)%C = mmul n (msub A B) psi i 0%nat).
    { symmetry. apply (mmul_sub_r n 1 n A B psi i 0%nat Hi). lia. }
    rewrite E. apply Rsqr_incr_0; [|apply Cmod_ge_0|apply fro_nonneg]. unfold Rsqr at 2. rewrite fro_sqr.
    unfold nrm2. eapply Rle_trans; [|apply (rs_member n (fun i => rs 1 (fun j => Cmod (mmul n (msub A B) psi i j) ^ 2)) i); auto].
    - cbn [rs]. unfold Rsqr. lra.
    - intros j _. apply rs_nonneg. intros. apply pow2_ge_0. }
  pose proof (ONE A UU) as OA. pose proof (ONE B UP) as OB.
  set (x := mmul n A psi i 0%nat) in *. set (y := mmul n B psi i 0%nat) in *.
  assert (T1 : Cmod x <= Cmod (x - y)%C + Cmod y).
  { replace x with ((x - y) + y)%C at 1 by ring. apply Cmod_triangle. }
  assert (T2 : Cmod y <= Cmod (x - y)%C + Cmod x).
  { replace y with (- (x - y) + x)%C at 1 by ring. eapply Rle_trans; [apply Cmod_triangle|]. rewrite Cmod_opp. lra. }
  pose proof (Cmod_ge_0 x). pose proof (Cmod_ge_0 y). pose proof (Cmod_ge_0 (x - y)%C).
  replace (Cmod x ^ 2 - Cmod y ^ 2) with ((Cmod x - Cmod y) * (Cmod x + Cmod y)) by ring.
  rewrite Rabs_mult, (Rabs_pos_eq (Cmod x + Cmod y)) by lra.
  assert (Rabs (Cmod x - Cmod y) <= Cmod (x - y)%C) by (apply Rabs_le; lra).
  assert (0 <= Rabs (Cmod x - Cmod y)) by apply Rabs_pos.
  assert (Rabs (Cmod x - Cmod y) * (Cmod x + Cmod y) <= Cmod (x - y)%C * 2) by (apply Rmult_le_compat; lra).
  lra.
Qed.
Print Assumptions C122_population_error.

(** Convergence: for given fields with bounded slope and a given duration, every precision is reached by all fine enough
    resolutions, whatever the batch size. *)
Theorem C122_convergence :
  forall m lines c l t0 T U eps,
  p_lind m = false -> hermitian (p_dim m) (p_h0 m) ->
  (forall k h, dget k (p_hctrls m) = Some h -> hermitian (p_dim m) h) ->
  0 < T -> 0 < eps ->
  (forall k s t, In k lines -> t0 <= s <= t0 + T -> t0 <= t <= t0 + T -> Rabs (c k s - c k t) <= l k * Rabs (s - t)) ->
  schroedinger (p_dim m) (hamiltonian m lines c) U t0 (t0 + T) ->
  exists N0, forall N signal batch r, (N0 <= N)%nat -> keys signal = lines -> sampled signal c t0 (T / INR N) N ->
  pwc_controlled m signal (folding_stack (samples signal)) batch = Ok r ->
  fro (p_dim m) (p_dim m) (msub (U (t0 + T)) (pr_U r)) < eps.
Proof.
  intros m lines c l t0 T U eps Hl H0 Hc HT He HL SU.
  set (K := speed m lines l * T * T / 4).
  destruct (archimed (K / eps)) as [Ar _].
  exists (S (Z.to_nat (up (K / eps)))). intros N signal batch r HN <- HS HR.
  assert (NP : 0 < INR N) by (apply lt_0_INR; lia).
  assert (E : INR N * (T / INR N) = T) by (field; lra).
  assert (Hdt : 0 < T / INR N) by (apply Rdiv_lt_0_compat; lra).
  pose proof (C122_error_bound m signal batch r c l t0 (T / INR N) N U Hl H0 Hc Hdt HS) as B. rewrite E in B.
  specialize (B HL SU HR). eapply Rle_lt_trans; [exact B|].
  replace (speed m (keys signal) l * T * (T / INR N) / 4) with (K / INR N) by (unfold K; field; lra).
  apply Rmult_lt_reg_r with (INR N); [exact NP|]. replace (K / INR N * INR N) with K by (field; lra).
  assert (U1 : IZR (up (K / eps)) < INR N).
  { destruct (Z.le_gt_cases 0 (up (K / eps))) as [P|P].
    - apply Rle_lt_trans with (INR (Z.to_nat (up (K / eps)))); [rewrite INR_IZR_INZ, Z2Nat.id by exact P; lra|]. apply lt_INR. lia.
    - apply Rlt_trans with 0; [apply IZR_lt; exact P|exact NP]. }
  assert (K / eps < INR N) by lra.
  apply Rmult_lt_reg_r with (/ eps); [apply Rinv_0_lt_compat, He|]. replace (eps * INR N * / eps) with (INR N) by (field; lra). exact H.
Qed.
Print Assumptions C122_convergence.

(** Without time dependence (constant fields) the result is exact at every resolution: the propagator solves the
    Schroedinger equation and is the exponential of the Hamiltonian over the whole duration. *)
Theorem C122_constant :
  forall m signal batch r c t0 dt N,
  p_lind m = false -> hermitian (p_dim m) (p_h0 m) ->
  (forall k h, dget k (p_hctrls m) = Some h -> hermitian (p_dim m) h) ->
  0 < dt -> sampled signal c t0 dt N -> (forall k s t, In k (keys signal) -> c k s = c k t) ->
  pwc_controlled m signal (folding_stack (samples signal)) batch = Ok r ->
  meq (p_dim m) (p_dim m) (pr_U r) (mexp (p_dim m) (mscale (- Ci * RtoC (INR N * dt))%C (hamiltonian m (keys signal) c t0)))
  /\ forall U, schroedinger (p_dim m) (hamiltonian m (keys signal) c) U t0 (t0 + INR N * dt) ->
     meq (p_dim m) (p_dim m) (pr_U r) (U (t0 + INR N * dt)).
Proof.
  intros m signal batch r c t0 dt N Hl H0 Hc Hdt HS HC HR. set (n := p_dim m) in *.
  assert (G : forall U, schroedinger n (hamiltonian m (keys signal) c) U t0 (t0 + INR N * dt) -> meq n n (pr_U r) (U (t0 + INR N * dt))).
  { intros U SU.
    assert (Z : speed m (keys signal) (fun _ => 0) = 0).
    { unfold speed. clear. induction (keys signal) as [|k ks IH]; [reflexivity|]. cbn [fold_right]. destruct (dget k (p_hctrls m)); [rewrite Rmult_0_l, Rplus_0_l; exact IH|exact IH]. }
    pose proof (C122_error_bound m signal batch r c (fun _ => 0) t0 dt N U Hl H0 Hc Hdt HS) as B.
    rewrite Z in B.
    assert (B' : fro n n (msub (U (t0 + INR N * dt)) (pr_U r)) <= 0).
    { eapply Rle_trans; [apply B; auto|lra]. intros k s t Hk _ _. rewrite (HC k s t Hk), Rminus_diag_eq, Rabs_R0 by reflexivity. lra. }
    assert (B0 : fro n n (msub (U (t0 + INR N * dt)) (pr_U r)) = 0) by (apply Rle_antisym; [exact B'|apply fro_nonneg]).
    apply fro_zero_inv in B0. intros i j Hi Hj. specialize (B0 i j Hi Hj). unfold msub, mzero in B0.
    set (u := U (t0 + INR N * dt) i j) in *. replace (pr_U r i j) with (u - (u - pr_U r i j))%C by ring. rewrite B0. ring. }
  split; [|exact G].
  set (A := hamiltonian m (keys signal) c t0).
  assert (HA : forall t, hamiltonian m (keys signal) c t = A).
  { intro t. unfold A, hamiltonian. f_equal. clear -HC. induction (keys signal) as [|k ks IH]; [reflexivity|]. cbn [fold_right].
    rewrite IH by (intros; apply HC; right; assumption). destruct (dget k (p_hctrls m)); [|reflexivity].
    rewrite (HC k t t0) by (left; reflexivity). reflexivity. }
  set (U := fun s : R => mmul n (mexp n (mscale (RtoC s) (mscale (- Ci)%C A))) (mexp n (mscale (RtoC (- t0)) (mscale (- Ci)%C A)))).
  assert (SU : schroedinger n (hamiltonian m (keys signal) c) U t0 (t0 + INR N * dt)).
  { split.
    - unfold U. rewrite mexp_add. replace (t0 + - t0) with 0 by ring. rewrite (mexp_proper n _ mzero); [apply mexp_0|].
      intros i j _ _. unfold mscale, mzero. ring.
    - intros t _. rewrite HA. unfold U.
      eapply mderive_eq; [|apply (mderive_mul n n n (fun s => mexp n (mscale (RtoC s) (mscale (- Ci)%C A))) (fun _ => mexp n (mscale (RtoC (- t0)) (mscale (- Ci)%C A))) t); [apply mexp_derive|apply mderive_const]].
      rewrite mmul_zero_r, madd_zero_r. rewrite <- (mmul_assoc n n n n (mscale (- Ci)%C A)). rewrite mmul_scale_l. reflexivity. }
  rewrite (G U SU). unfold U. rewrite mexp_add. replace (t0 + INR N * dt + - t0) with (INR N * dt) by ring.
  apply mexp_proper. intros i j _ _. unfold mscale. ring.
Qed.
Print Assumptions C122_constant.

(** A two-level system with a field that grows with the time, in four slices: there is a solution, the hypotheses hold,
    the bound is not zero, and it holds. *)
Definition ramp_model : pmodel :=
  {| p_dim := 2; p_h0 := mzero;
     p_hctrls := [("d"%string, fun i j => if Nat.eqb i j then (if Nat.eqb i 0 then RtoC 1 else RtoC (-1)) else RtoC 0)];
     p_lind := false; p_cols := []; p_dims := [2%nat]; p_max_ex := 0 |}.
Definition ramp (k : string) (t : R) : R := t.
Definition ramp_signal : dict wave :=
  let ts := map (fun j => 0 + (INR j + / 2) * (1 / 4)) (seq 0 4) in [("d"%string, {| w_values := map (ramp "d") ts; w_ts := ts |})].
Definition ramp_solution (t : R) : mat :=
  fun i j => if Nat.eqb i j then (if Nat.eqb i 0 then expi (- (t * t / 2)) else expi (t * t / 2)) else RtoC 0.
Example C122_example : exists r,
  pwc_controlled ramp_model ramp_signal (folding_stack (samples ramp_signal)) (Some 3%nat) = Ok r
  /\ sampled ramp_signal ramp 0 (1 / 4) 4
  /\ schroedinger 2 (hamiltonian ramp_model (keys ramp_signal) ramp) ramp_solution 0 (0 + INR 4 * (1 / 4))
  /\ 0 < speed ramp_model (keys ramp_signal) (fun _ => 1)
  /\ fro 2 2 (msub (ramp_solution (0 + INR 4 * (1 / 4))) (pr_U r)) <= speed ramp_model (keys ramp_signal) (fun _ => 1) * (INR 4 * (1 / 4)) * (1 / 4) / 4.
Proof.
  assert (HS : sampled ramp_signal ramp 0 (1 / 4) 4).
  { intros k w [E|[]]. injection E as <- <-. split; reflexivity. }
  assert (SU : schroedinger 2 (hamiltonian ramp_model (keys ramp_signal) ramp) ramp_solution 0 (0 + INR 4 * (1 / 4))).
  { split.
    - intros i j _ _. unfold ramp_solution, mid. destruct (Nat.eqb i j); [|reflexivity].
      replace (0 * 0 / 2) with 0 by field. rewrite Ropp_0, expi_0. destruct (Nat.eqb i 0); reflexivity.
    - intros t _ i j Hi Hj. unfold hamiltonian, ramp_model, ramp, ramp_solution, mmul, mscale, madd, mzero. cbn [keys ramp_signal map fst fold_right dget p_hctrls p_h0 String.eqb Ascii.eqb Bool.eqb].
      destruct i as [|[|i]]; [| |lia]; destruct j as [|[|j]]; try lia; cbn [Nat.eqb csum].
      + split; unfold expi, Cplus, Cmult, Copp, Ci, RtoC; cbn [fst snd]; auto_derive; auto; unfold Rdiv; field.
      + eapply cderive_eq; [|apply cderive_const]. ring.
      + eapply cderive_eq; [|apply cderive_const]. ring.
      + split; unfold expi, Cplus, Cmult, Copp, Ci, RtoC; cbn [fst snd]; auto_derive; auto; unfold Rdiv; field. }
  assert (SP : 0 < speed ramp_model (keys ramp_signal) (fun _ => 1)).
  { unfold speed, ramp_signal, ramp_model. cbn [keys map fst fold_right dget p_hctrls p_dim String.eqb Ascii.eqb Bool.eqb].
    assert (0 < fro 2 2 (fun i j => if Nat.eqb i j then (if Nat.eqb i 0 then RtoC 1 else RtoC (-1)) else RtoC 0)); [|lra].
    unfold fro. apply sqrt_lt_R0. unfold nrm2. cbn [rs Nat.eqb]. rewrite !Cmod_R, Rabs_R0, Rabs_R1. pose proof (pow2_ge_0 (Rabs (-1))). lra. }
  destruct (pwc_controlled ramp_model ramp_signal (folding_stack (samples ramp_signal)) (Some 3%nat)) as [r|x] eqn:E; [|exfalso; cbn in E; discriminate E].
  exists r. split; [reflexivity|]. split; [exact HS|]. split; [exact SU|]. split; [exact SP|].
  apply (C122_error_bound ramp_model ramp_signal (Some 3%nat) r ramp (fun _ => 1) 0 (1 / 4) 4 ramp_solution); auto.
  - intros i j _ _. unfold madj, ramp_model, mzero. cbn [p_h0]. apply conj_R.
  - intros k h Hk. cbn in Hk. destruct (String.eqb k "d"); [|discriminate Hk]. injection Hk as <-. intros i j _ _.
    unfold madj. rewrite (Nat.eqb_sym j i). destruct (Nat.eqb_spec i j) as [->|N]; [|apply conj_R]. destruct (Nat.eqb j 0); apply conj_R.
  - lra.
  - intros k s t _ _ _. unfold ramp. lra.
Qed.
Print Assumptions C122_example.
