(** Convergence of the Runge-Kutta solvers for linear equations of motion (used for C123). *)
From Coq Require Import Reals Lra Lia Setoid Morphisms FunctionalExtensionality.
From Coquelicot Require Import Coquelicot.
From Verif Require Import Base Mat MExp RSum MDeriv PropModel.
Local Open Scope list_scope.
Local Open Scope R_scope.
Local Notation length := List.length.

(** ** A linear equation of motion x' = g(h) x with h-dependence bounded by alpha and a rest bounded by beta *)
Record generator (n m : nat) (g : mat -> mat -> mat) (alpha beta : R) : Prop := {
  g_alpha : 0 <= alpha; g_beta : 0 <= beta;
  g_sub : forall h x y, meq n m (g h (msub x y)) (msub (g h x) (g h y));
  g_bound : forall h x, fro n m (g h x) <= (alpha * fro n n h + beta) * fro n m x;
  g_lip : forall h h' x, fro n m (msub (g h x) (g h' x)) <= alpha * fro n n (msub h h') * fro n m x }.

Lemma fro_sub_le : forall n m A B, fro n m (msub A B) <= fro n m A + fro n m B.
Proof.
  intros n m A B. rewrite (fro_proper n m _ (madd A (mscale (RtoC (-1)) B))).
  - eapply Rle_trans; [apply fro_triangle|]. rewrite fro_scale, Cmod_R, Rabs_left by lra. lra.
  - intros i j _ _. unfold msub, madd, mscale. replace (RtoC (-1)) with (- RtoC 1)%C by (rewrite <- RtoC_opp; f_equal; lra). ring.
Qed.
Lemma fro_sub3 : forall n m A B D, fro n m (msub A D) <= fro n m (msub A B) + fro n m (msub B D).
Proof.
  intros n m A B D. rewrite (fro_proper n m (msub A D) (madd (msub A B) (msub B D))); [apply fro_triangle|].
  intros i j _ _. unfold msub, madd. ring.
Qed.
Lemma fro_le_sub : forall n m A B, fro n m A <= fro n m (msub A B) + fro n m B.
Proof.
  intros n m A B. rewrite (fro_proper n m A (madd (msub A B) B)) at 1; [apply fro_triangle|].
  intros i j _ _. unfold msub, madd. ring.
Qed.

(** ** Linear combinations *)
Definition lincomb (a : list R) (ks : list mat) : mat :=
  fold_right (fun p acc => madd (mscale (RtoC (fst p)) (snd p)) acc) mzero (combine a ks).
Definition abs_sum (a : list R) : R := fold_right (fun c acc => Rabs c + acc) 0 a.
Definition plain_sum (a : list R) : R := fold_right Rplus 0 a.
Lemma abs_sum_nonneg : forall a, 0 <= abs_sum a.
Proof. induction a as [|c a IH]; cbn; [lra|]. pose proof (Rabs_pos c). fold (abs_sum a). lra. Qed.
Lemma lincomb_bound : forall n m a ks B, 0 <= B -> Forall (fun k => fro n m k <= B) ks -> fro n m (lincomb a ks) <= abs_sum a * B.
Proof.
  intros n m a. induction a as [|c a IH]; intros [|k ks] B HB F; unfold lincomb; cbn [combine fold_right fst snd].
  1-3: (rewrite fro_zero by reflexivity; apply Rmult_le_pos; [apply abs_sum_nonneg|exact HB]).
  cbn [abs_sum fold_right].
  inversion F as [|? ? F1 F2]; subst. eapply Rle_trans; [apply fro_triangle|]. rewrite fro_scale, Cmod_R.
  fold (lincomb a ks). fold (abs_sum a). specialize (IH ks B HB F2). pose proof (Rabs_pos c).
  assert (Rabs c * fro n m k <= Rabs c * B) by (apply Rmult_le_compat_l; lra). lra.
Qed.
Lemma lincomb_shift : forall n m a ks y, length a = length ks ->
  meq n m (lincomb a ks) (madd (lincomb a (map (fun k => msub k y) ks)) (mscale (RtoC (plain_sum a)) y)).
Proof.
  intros n m a. induction a as [|c a IH]; intros [|k ks] y L; try discriminate L; unfold lincomb; cbn [combine fold_right map plain_sum fst snd].
  - intros i j _ _. unfold madd, mscale, mzero. ring.
  - fold (lincomb a ks). fold (lincomb a (map (fun k => msub k y) ks)). fold (plain_sum a).
    rewrite (IH ks y) by (injection L; auto). intros i j _ _. unfold madd, mscale, msub. rewrite RtoC_plus. ring.
Qed.

(** ** The stages of an explicit Runge-Kutta method *)
Inductive Stages (f : mat -> mat -> mat) (x : mat) : list (list R * mat) -> list mat -> Prop :=
| St_nil : Stages f x [] []
| St_snoc : forall rows ks a h k, Stages f x rows ks -> k = f (madd x (lincomb a ks)) h -> Stages f x (rows ++ [(a, h)]) (ks ++ [k]).
Lemma stages_length : forall f x rows ks, Stages f x rows ks -> length rows = length ks.
Proof. intros f x rows ks H. induction H; [reflexivity|]. rewrite !app_length. cbn. lia. Qed.

Section Step.
  Variables (n m : nat) (g : mat -> mat -> mat) (alpha beta : R).
  Hypothesis G : generator n m g alpha beta.
  Variables (dt M A L : R) (x H : mat).
  Let f := fun y h => mscale (RtoC dt) (g h y).
  Hypothesis Hdt : 0 < dt. Hypothesis HA : 0 <= A. Hypothesis HM : 0 <= M. Hypothesis HdM : dt * M <= 1. Hypothesis HL : 0 <= L.
  Definition good_row (r : list R * mat) : Prop :=
    abs_sum (fst r) <= A /\ alpha * fro n n (snd r) + beta <= M /\ fro n n (msub (snd r) H) <= L * dt.

  Lemma stage_bounds : forall rows ks, Stages f x rows ks -> Forall good_row rows ->
    Forall (fun k => fro n m k <= dt * M * (1 + A) ^ length rows * fro n m x) ks
    /\ Forall (fun k => fro n m (msub k (mscale (RtoC dt) (g H x))) <= dt * dt * (alpha * L + M * M * A * (1 + A) ^ length rows) * fro n m x) ks.
  Proof.
    intros rows ks St. induction St as [|rows ks a h k St IH E]; intro F; [split; constructor|].
    apply Forall_app in F. destruct F as [F1 F2]. inversion F2 as [|? ? [R1 [R2 R3]] _]; subst. cbn [fst snd] in *.
    destruct (IH F1) as [I1 I2]. set (p := (1 + A) ^ length rows) in *. pose proof (fro_nonneg n m x) as XP. set (X := fro n m x) in *.
    assert (P1 : 1 <= p) by (apply pow_R1_Rle; lra).
    assert (LR : length (rows ++ [(a, h)]) = S (length rows)) by (rewrite app_length; cbn; lia).
    rewrite LR. cbn [pow]. fold p.
    assert (DM : 0 <= dt * M) by (apply Rmult_le_pos; lra).
    assert (B0 : 0 <= dt * M * p * X) by (repeat apply Rmult_le_pos; lra).
    pose proof (lincomb_bound n m a ks _ B0 I1) as LC. pose proof (abs_sum_nonneg a) as AP.
    set (Y := dt * M * p * X) in *.
    assert (LC' : fro n m (lincomb a ks) <= A * Y).
    { eapply Rle_trans; [exact LC|]. apply Rmult_le_compat_r; lra. }
    destruct G as [Ga Gb Gs Gbd Gl].
    assert (YX : Y <= p * X).
    { unfold Y. replace (dt * M * p * X) with (dt * M * (p * X)) by ring. rewrite <- (Rmult_1_l (p * X)) at 2.
      apply Rmult_le_compat_r; [|exact HdM]. apply Rmult_le_pos; lra. }
    assert (GH : forall y, fro n m (g h y) <= M * fro n m y).
    { intro y. eapply Rle_trans; [apply Gbd|]. apply Rmult_le_compat_r; [apply fro_nonneg|exact R2]. }
    split; apply Forall_app; split.
    - eapply Forall_impl; [|exact I1]. cbv beta. intros k Hk. eapply Rle_trans; [exact Hk|].
      apply Rmult_le_compat_r; [exact XP|]. apply Rmult_le_compat_l; [exact DM|]. nra.
    - constructor; [|constructor]. unfold f. rewrite fro_scale, Cmod_R, Rabs_pos_eq by lra.
      assert (fro n m (madd x (lincomb a ks)) <= (1 + A) * p * X).
      { eapply Rle_trans; [apply fro_triangle|]. fold X.
        assert (A * Y <= A * (p * X)) by (apply Rmult_le_compat_l; lra). assert (1 * X <= p * X) by (apply Rmult_le_compat_r; lra). lra. }
      specialize (GH (madd x (lincomb a ks))).
      assert (dt * fro n m (g h (madd x (lincomb a ks))) <= dt * (M * ((1 + A) * p * X))).
      { apply Rmult_le_compat_l; [lra|]. eapply Rle_trans; [exact GH|]. apply Rmult_le_compat_l; lra. }
      eapply Rle_trans; [eassumption|]. apply Req_le. ring.
    - eapply Forall_impl; [|exact I2]. cbv beta. intros k Hk. eapply Rle_trans; [exact Hk|].
      apply Rmult_le_compat_r; [exact XP|]. apply Rmult_le_compat_l; [nra|]. apply Rplus_le_compat_l.
      assert (0 <= M * M * A) by (apply Rmult_le_pos; [nra|lra]). apply Rmult_le_compat_l; [assumption|]. nra.
    - constructor; [|constructor]. unfold f.
      assert (E : meq n m (msub (mscale (RtoC dt) (g h (madd x (lincomb a ks)))) (mscale (RtoC dt) (g H x)))
                    (mscale (RtoC dt) (madd (msub (g h (madd x (lincomb a ks))) (g h x)) (msub (g h x) (g H x))))).
      { intros i j _ _. unfold msub, madd, mscale. ring. }
      rewrite (fro_proper n m _ _ E), fro_scale, Cmod_R, Rabs_pos_eq by lra.
      assert (T1 : fro n m (msub (g h (madd x (lincomb a ks))) (g h x)) <= M * (A * Y)).
      { rewrite (fro_proper n m _ (g h (msub (madd x (lincomb a ks)) x))) by (symmetry; apply Gs).
        eapply Rle_trans; [apply GH|]. apply Rmult_le_compat_l; [lra|].
        rewrite (fro_proper n m _ (lincomb a ks)); [exact LC'|]. intros i j _ _. unfold msub, madd. ring. }
      assert (T2 : fro n m (msub (g h x) (g H x)) <= alpha * (L * dt) * X).
      { eapply Rle_trans; [apply Gl|]. fold X. apply Rmult_le_compat_r; [exact XP|]. apply Rmult_le_compat_l; [exact Ga|exact R3]. }
      assert (T : fro n m (madd (msub (g h (madd x (lincomb a ks))) (g h x)) (msub (g h x) (g H x))) <= M * (A * Y) + alpha * (L * dt) * X).
      { eapply Rle_trans; [apply fro_triangle|]. lra. }
      assert (dt * fro n m (madd (msub (g h (madd x (lincomb a ks))) (g h x)) (msub (g h x) (g H x))) <= dt * (M * (A * Y) + alpha * (L * dt) * X)).
      { apply Rmult_le_compat_l; lra. }
      eapply Rle_trans; [eassumption|]. unfold Y.
      assert (Q : dt * dt * (M * M * A * p) * X <= dt * dt * (M * M * A * ((1 + A) * p)) * X).
      { apply Rmult_le_compat_r; [exact XP|]. apply Rmult_le_compat_l; [nra|].
        assert (0 <= M * M * A) by (apply Rmult_le_pos; [nra|lra]). apply Rmult_le_compat_l; [assumption|]. nra. }
      lra.
  Qed.

  Lemma step_error : forall rows ks b, Stages f x rows ks -> Forall good_row rows -> length b = length rows ->
    fro n m (msub (madd x (lincomb b ks)) (madd x (mscale (RtoC dt) (g H x))))
    <= (abs_sum b * (dt * dt * (alpha * L + M * M * A * (1 + A) ^ length rows)) + Rabs (plain_sum b - 1) * (dt * (alpha * fro n n H + beta))) * fro n m x.
  Proof.
    intros rows ks b St F Lb. destruct (stage_bounds rows ks St F) as [_ I2].
    set (y := mscale (RtoC dt) (g H x)) in *. set (D := dt * dt * (alpha * L + M * M * A * (1 + A) ^ length rows)) in *.
    pose proof (fro_nonneg n m x) as XP.
    destruct G as [Ga Gb Gs Gbd Gl].
    assert (DP : 0 <= D).
    { unfold D. apply Rmult_le_pos; [nra|]. assert (0 <= alpha * L) by (apply Rmult_le_pos; lra).
      assert (0 <= M * M * A * (1 + A) ^ length rows) by (apply Rmult_le_pos; [apply Rmult_le_pos; nra|apply pow_le; lra]). lra. }
    assert (E : meq n m (msub (madd x (lincomb b ks)) (madd x y))
                  (madd (lincomb b (map (fun k => msub k y) ks)) (mscale (RtoC (plain_sum b - 1)) y))).
    { assert (Lk : length b = length ks) by (rewrite Lb; apply (stages_length _ _ _ _ St)).
      pose proof (lincomb_shift n m b ks y Lk) as Q. intros i j Hi Hj. specialize (Q i j Hi Hj). unfold msub, madd, mscale in *. rewrite Q, RtoC_minus. ring. }
    rewrite (fro_proper n m _ _ E). eapply Rle_trans; [apply fro_triangle|].
    assert (B1 : fro n m (lincomb b (map (fun k => msub k y) ks)) <= abs_sum b * (D * fro n m x)).
    { apply lincomb_bound; [apply Rmult_le_pos; lra|]. clear -I2. induction I2; cbn [map]; constructor; auto. }
    rewrite fro_scale, Cmod_R. unfold y at 2. rewrite fro_scale, Cmod_R, (Rabs_pos_eq dt) by lra.
    assert (B2 : Rabs (plain_sum b - 1) * (dt * fro n m (g H x)) <= Rabs (plain_sum b - 1) * (dt * ((alpha * fro n n H + beta) * fro n m x))).
    { apply Rmult_le_compat_l; [apply Rabs_pos|]. apply Rmult_le_compat_l; [lra|]. apply Gbd. }
    lra.
  Qed.
End Step.

(** ** The exact solution over one step *)
Lemma bounded_entry : forall (x : R -> C) a b, a <= b -> (forall t, a <= t <= b -> exists d, cderive x t d) ->
  exists X, 0 <= X /\ forall t, a <= t <= b -> Cmod (x t) <= X.
Proof.
  intros x a b Hab D.
  assert (B : forall p : R -> R, (forall t, a <= t <= b -> exists d, is_derive p t d) -> exists X, 0 <= X /\ forall t, a <= t <= b -> Rabs (p t) <= X).
  { intros p Dp.
    assert (C : forall t, a <= t <= b -> continuity_pt p t).
    { intros t Ht. apply continuity_pt_filterlim. destruct (Dp t Ht) as [d Hd].
      apply (ex_derive_continuous (V := R_NormedModule) p). exists d. exact Hd. }
    destruct (continuity_ab_maj p a b Hab C) as (M1 & U1 & _). destruct (continuity_ab_min p a b Hab C) as (M2 & U2 & _).
    exists (Rabs (p M1) + Rabs (p M2)). split; [pose proof (Rabs_pos (p M1)); pose proof (Rabs_pos (p M2)); lra|].
    intros t Ht. specialize (U1 t Ht). specialize (U2 t Ht). apply Rabs_le.
    pose proof (Rle_abs (p M1)). pose proof (Rabs_pos (p M1)). pose proof (Rabs_pos (p M2)). pose proof (Rle_abs (- p M2)). rewrite Rabs_Ropp in *. lra. }
  destruct (B (fun t => fst (x t))) as (X1 & P1 & Q1). { intros t Ht. destruct (D t Ht) as (d & Hd & _). eauto. }
  destruct (B (fun t => snd (x t))) as (X2 & P2 & Q2). { intros t Ht. destruct (D t Ht) as (d & _ & Hd). eauto. }
  exists (X1 + X2). split; [lra|]. intros t Ht. eapply Rle_trans; [apply Cmod_le_sum|]. specialize (Q1 t Ht). specialize (Q2 t Ht). cbv beta in *. lra.
Qed.
Lemma bounded_rs : forall n (f : nat -> R -> R) a b, a <= b ->
  (forall i, (i < n)%nat -> exists X, 0 <= X /\ forall t, a <= t <= b -> f i t <= X) ->
  exists X, 0 <= X /\ forall t, a <= t <= b -> rs n (fun i => f i t) <= X.
Proof.
  induction n as [|n IH]; intros f a b Hab H; cbn [rs]; [exists 0; split; intros; lra|].
  destruct (IH f a b Hab) as (X & P & Q). { intros; apply H; lia. }
  destruct (H n) as (Y & P' & Q'). { lia. }
  exists (X + Y). split; [lra|]. intros t Ht. specialize (Q t Ht). specialize (Q' t Ht). lra.
Qed.
Lemma bounded_solution : forall n m (x x' : R -> mat) a b, a <= b -> (forall t, a <= t <= b -> mderive n m x t (x' t)) ->
  exists X, 0 <= X /\ forall t, a <= t <= b -> fro n m (x t) <= X.
Proof.
  intros n m x x' a b Hab D.
  destruct (bounded_rs n (fun i t => rs m (fun j => Cmod (x t i j) ^ 2)) a b Hab) as (X & P & Q).
  { intros i Hi. apply (bounded_rs m (fun j t => Cmod (x t i j) ^ 2) a b Hab). intros j Hj.
    destruct (bounded_entry (fun t => x t i j) a b Hab) as (Y & P & Q). { intros t Ht. exists (x' t i j). apply D; auto. }
    exists (Y ^ 2). split; [apply pow2_ge_0|]. intros t Ht. apply pow_incr. split; [apply Cmod_ge_0|apply Q, Ht]. }
  exists (sqrt X). split; [apply sqrt_pos|]. intros t Ht. unfold fro. apply sqrt_le_1_alt. apply Q. exact Ht.
Qed.

Section Exact.
  Variables (n m : nat) (g : mat -> mat -> mat) (alpha beta : R).
  Hypothesis G : generator n m g alpha beta.
  Variables (dt M L X t : R) (x H : R -> mat).
  Hypothesis Hdt : 0 < dt. Hypothesis HL : 0 <= L. Hypothesis HX : 0 <= X.
  Hypothesis HM : forall s, t <= s <= t + dt -> alpha * fro n n (H s) + beta <= M.
  Hypothesis HH : forall s, t <= s <= t + dt -> fro n n (msub (H s) (H t)) <= L * dt.
  Hypothesis HB : forall s, t <= s <= t + dt -> fro n m (x s) <= X.
  Hypothesis HD : forall s, t <= s <= t + dt -> mderive n m x s (g (H s) (x s)).

  Lemma exact_move : forall s, t <= s <= t + dt -> fro n m (msub (x s) (x t)) <= M * X * dt.
  Proof.
    intros s Hs. destruct G as [Ga Gb Gs Gbd Gl].
    assert (MP : 0 <= M). { eapply Rle_trans; [|apply (HM t); lra]. pose proof (fro_nonneg n n (H t)). assert (0 <= alpha * fro n n (H t)) by (apply Rmult_le_pos; lra). lra. }
    assert (E : fro n m (msub (x s) (x t)) <= M * X * s - M * X * t).
    { apply (mean_value n m x (fun r => g (H r) (x r)) (fun r => M * X * r) (fun _ => M * X)); [lra| | |].
      - intros r Hr. apply HD. lra.
      - intros r _. auto_derive; [exact I|ring].
      - intros r Hr. eapply Rle_trans; [apply Gbd|]. apply Rmult_le_compat; [|apply fro_nonneg|apply HM; lra|apply HB; lra].
        pose proof (fro_nonneg n n (H r)). assert (0 <= alpha * fro n n (H r)) by (apply Rmult_le_pos; lra). lra. }
    eapply Rle_trans; [exact E|]. rewrite <- Rmult_minus_distr_l. apply Rmult_le_compat_l; [apply Rmult_le_pos; lra|lra].
  Qed.

  Lemma exact_step : fro n m (msub (x (t + dt)) (madd (x t) (mscale (RtoC dt) (g (H t) (x t))))) <= dt * dt * (alpha * L + M * M) * X.
  Proof.
    pose proof G as G'. destruct G' as [Ga Gb Gs Gbd Gl].
    set (v := g (H t) (x t)).
    set (y := fun s => msub (x s) (mscale (RtoC (s - t)) v)).
    set (K := alpha * (L * dt) * X + M * (M * X * dt)).
    assert (E : fro n m (msub (y (t + dt)) (y t)) <= K * (t + dt) - K * t).
    { apply (mean_value n m y (fun s => msub (g (H s) (x s)) v) (fun s => K * s) (fun _ => K)); [lra| | |].
      - intros s Hs i j Hi Hj. unfold y, msub, mscale. 
        eapply cderive_ext; [|apply (cderive_plus (fun s => x s i j) (fun s => (- (RtoC (s - t) * v i j))%C) s); [apply (HD s Hs i j Hi Hj)|]].
        + intro r. cbv beta. unfold Cminus. reflexivity.
        + apply (cderive_opp (fun s => (RtoC (s - t) * v i j)%C)).
          eapply cderive_eq; [|apply (cderive_mult (fun s => RtoC (s - t)) (fun _ => v i j) s (RtoC 1)); [|apply cderive_const]].
          * ring.
          * split; cbn [fst snd RtoC]; [auto_derive; [exact I|ring]|apply (is_derive_const (V := R_NormedModule))].
      - intros s _. auto_derive; [exact I|ring].
      - intros s Hs. eapply Rle_trans; [apply (fro_sub3 n m _ (g (H s) (x t)))|]. unfold K. rewrite Rplus_comm. apply Rplus_le_compat.
        + unfold v. eapply Rle_trans; [apply Gl|]. apply Rmult_le_compat.
          * apply Rmult_le_pos; [lra|apply fro_nonneg].
          * apply fro_nonneg.
          * apply Rmult_le_compat_l; [exact Ga|]. apply HH. exact Hs.
          * apply HB. lra.
        + rewrite (fro_proper n m _ (g (H s) (msub (x s) (x t)))) by (symmetry; apply Gs).
          eapply Rle_trans; [apply Gbd|]. apply Rmult_le_compat; [|apply fro_nonneg|apply HM; exact Hs|apply exact_move; exact Hs].
          pose proof (fro_nonneg n n (H s)). assert (0 <= alpha * fro n n (H s)) by (apply Rmult_le_pos; lra). lra. }
    rewrite (fro_proper n m _ (msub (y (t + dt)) (y t))).
    - eapply Rle_trans; [exact E|]. unfold K. apply Req_le. ring.
    - intros i j _ _. unfold y, msub, madd, mscale. replace (t + dt - t) with dt by ring. replace (t - t) with 0 by ring. ring.
  Qed.
End Exact.

(** ** Accumulation *)
Lemma accumulate : forall (E : nat -> R) (a b dt : R) N, 0 <= a -> 0 <= b -> 0 < dt -> E 0%nat <= 0 ->
  (forall i, (i < N)%nat -> E (S i) <= (1 + a * dt) * E i + b * dt) ->
  forall i, (i <= N)%nat -> E i <= b * (INR i * dt) * exp (a * (INR i * dt)).
Proof.
  intros E a b dt N Ha Hb Hdt H0 HS i. induction i as [|i IH]; intro Hi.
  - cbn [INR]. replace (b * (0 * dt)) with 0 by ring. lra.
  - specialize (IH ltac:(lia)). specialize (HS i ltac:(lia)). rewrite S_INR. set (k := INR i) in *.
    assert (KP : 0 <= k) by apply pos_INR.
    set (e := exp (a * (k * dt))) in *. assert (EP : 1 <= e).
    { unfold e. rewrite <- exp_0. destruct (Req_dec (a * (k * dt)) 0) as [->|N0]; [lra|]. left. apply exp_increasing.
      assert (0 <= a * (k * dt)) by (apply Rmult_le_pos; [lra|apply Rmult_le_pos; lra]). lra. }
    replace (exp (a * ((k + 1) * dt))) with (exp (a * dt) * e) by (unfold e; rewrite <- exp_plus; f_equal; ring).
    assert (X1 : 1 + a * dt <= exp (a * dt)) by (apply exp_ineq1_le).
    assert (AD : 0 <= a * dt) by (apply Rmult_le_pos; lra).
    assert (KD : 0 <= k * dt) by (apply Rmult_le_pos; lra).
    assert (BK : 0 <= b * (k * dt) * e) by (repeat apply Rmult_le_pos; lra).
    assert (S1 : (1 + a * dt) * E i <= (1 + a * dt) * (b * (k * dt) * e)) by (apply Rmult_le_compat_l; lra).
    assert (S2 : (1 + a * dt) * (b * (k * dt) * e) <= exp (a * dt) * (b * (k * dt) * e)) by (apply Rmult_le_compat_r; lra).
    assert (BD : 0 <= b * dt) by (apply Rmult_le_pos; lra).
    assert (S3 : b * dt <= b * dt * (exp (a * dt) * e)).
    { rewrite <- (Rmult_1_r (b * dt)) at 1. apply Rmult_le_compat_l; [exact BD|]. nra. }
    replace (b * ((k + 1) * dt) * (exp (a * dt) * e)) with (exp (a * dt) * (b * (k * dt) * e) + b * dt * (exp (a * dt) * e)) by ring. lra.
Qed.

(** ** The four solvers as tableaus: coefficients and index of the sample read by each stage, and the weights *)
Definition tableau (s : solver) : list (list R * nat) :=
  match s with
  | RK4 => [([], 0%nat); ([/ 2], 1%nat); ([0; / 2], 1%nat); ([0; 0; 1], 2%nat)]
  | RK38 => [([], 0%nat); ([/ 3], 1%nat); ([- / 3; 1], 2%nat); ([1; - (1); 1], 3%nat)]
  | RK5 => [([], 0%nat); ([1 / 5], 1%nat); ([3 / 40; 9 / 40], 2%nat); ([44 / 45; - (56 / 15); 32 / 9], 3%nat);
            ([19372 / 6561; - (25360 / 2187); 64448 / 6561; - (212 / 729)], 4%nat);
            ([9017 / 3168; - (355 / 33); 46732 / 5247; 49 / 176; - (5103 / 18656)], 5%nat);
            ([35 / 384; 0; 500 / 1113; 125 / 192; - (2187 / 6784); 11 / 84], 5%nat)]
  | Tsit5 => [([], 0%nat); ([0.161], 1%nat); ([- 0.008480655492356989; 0.335480655492357], 2%nat);
              ([2.8971530571054935; - (6.359448489975075); 4.3622954328695815], 3%nat);
              ([5.325864828439257; - (11.748883564062828); 7.4955393428898365; - (0.09249506636175525)], 4%nat);
              ([5.86145544294642; - (12.92096931784711); 8.159367898576159; - 0.071584973281401; - (0.028269050394068383)], 5%nat);
              ([0.09646076681806523; 0.01; 0.4798896504144996; 1.379008574103742; - (3.290069515436081); 2.324710524099774], 5%nat)]
  end.
Definition weights (s : solver) : list R :=
  match s with
  | RK4 => [/ 6; / 3; / 3; / 6]
  | RK38 => [/ 8; 3 / 8; 3 / 8; / 8]
  | RK5 => [5179 / 57600; 0; 7571 / 16695; 393 / 640; - (92097 / 339200); 187 / 2100; 1 / 40]
  | Tsit5 => [0.09468075576583945; 0.009183565540343254; 0.4877705284247616; 1.234297566930479; - (2.7077123499835256); 1.866628418170587; 1 / 66]
  end.
Definition rows_of (s : solver) (h : list mat) : list (list R * mat) := map (fun r => (fst r, hs h (snd r))) (tableau s).

Ltac mext := apply functional_extensionality; intro; apply functional_extensionality; intro;
  unfold lincomb, madd, msub, mscale, mopp, mzero; cbn [combine fold_right fst snd];
  rewrite ?RtoC_opp; try ring.
Ltac stage := match goal with |- Stages ?f ?x ?r ?k =>
   let r' := eval cbn [removelast] in (removelast r) in let k' := eval cbn [removelast] in (removelast k) in
   let ra := eval cbn [last fst] in (fst (last r ([], mzero))) in let rh := eval cbn [last snd] in (snd (last r ([], mzero))) in
   let kk := eval cbn [last] in (last k mzero) in
   refine (St_snoc f x r' k' ra rh kk _ _) end.
Tactic Notation "nextk" ident(f) ident(k) ident(E) := match goal with |- context [f ?a ?b] => lazymatch a with context [f _ _] => fail | _ => remember (f a b) as k eqn:E end end.
Ltac stages := repeat (stage; [|match goal with E : ?k = _ |- ?k = _ => rewrite E; apply (f_equal2 _); [mext|reflexivity] end]); try apply St_nil.

Lemma RtoC_fold : forall a b, (RtoC a * RtoC b)%C = RtoC (a * b).
Proof. intros. symmetry. apply RtoC_mult. Qed.
Lemma solver_tableau : forall s f x h, exists ks, Stages f x (rows_of s h) ks /\ solver_fun s f x h = madd x (lincomb (weights s) ks).
Proof.
  intros s f x h. destruct s; cbn [solver_fun]; unfold rows_of, tableau; cbn [map fst snd weights].
  - unfold rk4; cbv zeta. nextk f k1 E1. nextk f k2 E2. nextk f k3 E3. nextk f k4 E4. exists [k1; k2; k3; k4]. split; [stages|].
    replace (/ 3) with (/ 6 * 2) by lra. mext. rewrite !RtoC_mult. ring.
  - unfold rk38; cbv zeta. nextk f k1 E1. nextk f k2 E2. nextk f k3 E3. nextk f k4 E4. exists [k1; k2; k3; k4]. split; [stages|].
    replace (3 / 8) with (/ 8 * 3) by lra. mext. rewrite !RtoC_mult. ring.
  - unfold rk5; cbv zeta. nextk f k1 E1. nextk f k2 E2. nextk f k3 E3. nextk f k4 E4. nextk f k5 E5. nextk f k6 E6. nextk f k7 E7.
    exists [k1; k2; k3; k4; k5; k6; k7]. split; [stages|]. mext.
  - unfold tsit5; cbv zeta. nextk f k1 E1. nextk f k2 E2. nextk f k3 E3. nextk f k4 E4. nextk f k5 E5. nextk f k6 E6. nextk f k7 E7.
    exists [k1; k2; k3; k4; k5; k6; k7]. split; [stages|]. mext.
Qed.

Lemma row_sums : forall s, Forall (fun r => abs_sum (fst r) <= 30) (tableau s).
Proof.
  intros s. destruct s; unfold tableau; repeat constructor; cbn [fst abs_sum fold_right];
    unfold Rabs; repeat destruct Rcase_abs; lra.
Qed.
(** How much the weights fail to add up to one: the decimals of tsit5 are rounded. *)
Definition defect (s : solver) : R := Rabs (plain_sum (weights s) - 1).
Lemma weight_sums : forall s, abs_sum (weights s) <= 10.
Proof. intros s. destruct s; cbn [weights abs_sum fold_right]; unfold Rabs; repeat destruct Rcase_abs; lra. Qed.
Lemma defect_zero : forall s, s <> Tsit5 -> defect s = 0.
Proof. intros s H. unfold defect. replace (plain_sum (weights s) - 1) with 0; [apply Rabs_R0|]. destruct s; [..|contradiction]; cbn [weights plain_sum fold_right]; field. Qed.
Lemma defect_small : forall s, defect s <= / 10 ^ 13.
Proof.
  intros s. destruct s; try (rewrite defect_zero by discriminate; assert (0 < 10 ^ 13) by (apply pow_lt; lra); left; apply Rinv_0_lt_compat; assumption).
  unfold defect; cbn [weights plain_sum fold_right pow]. unfold Rabs; destruct Rcase_abs; lra.
Qed.

