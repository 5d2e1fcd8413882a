(** The global error of a Runge-Kutta run (used for C123). *)
From Coq Require Import Reals Lra Lia Setoid Morphisms.
From Coquelicot Require Import Coquelicot.
From Verif Require Import Base Mat MExp RSum MDeriv PropModel SampleProofs OdeConvProofs.
Local Open Scope list_scope.
Local Open Scope R_scope.
Local Notation length := List.length.

(** ** Global error of a run whose samples are close to the Hamiltonian *)
Lemma tableau_index : forall s, Forall (fun r => (snd r < length (nodes s))%nat) (tableau s).
Proof. intros s. destruct s; repeat constructor. Qed.
Lemma nodes_range : forall s, Forall (fun c => 0 <= c <= 1) (nodes s).
Proof. intros s. destruct s; unfold nodes; repeat apply Forall_cons; try apply Forall_nil; lra. Qed.
Lemma tableau_length : forall s, (length (tableau s) <= 7)%nat /\ length (weights s) = length (tableau s).
Proof. intros s. destruct s; cbn; split; lia. Qed.

Section Global.
  Variables (n m : nat) (g : mat -> mat -> mat) (alpha beta : R).
  Hypothesis G : generator n m g alpha beta.
  Variables (dt T M L X t0 : R) (N : nat) (x H : R -> mat) (s : solver) (h : nat -> list mat) (init : mat).
  Let f := fun y h => mscale (RtoC dt) (g h y).
  Hypothesis Hdt : 0 < dt. Hypothesis HdM : dt * M <= 1. Hypothesis HL : 0 <= L. Hypothesis HX : 0 <= X. Hypothesis HT : INR N * dt = T.
  Hypothesis HN : (1 <= N)%nat.
  Hypothesis HM : forall t, t0 <= t <= t0 + T -> alpha * fro n n (H t) + beta <= M.
  Hypothesis HH : forall t t', t0 <= t <= t0 + T -> t0 <= t' <= t0 + T -> fro n n (msub (H t) (H t')) <= L * Rabs (t - t').
  Hypothesis HB : forall t, t0 <= t <= t0 + T -> fro n m (x t) <= X.
  Hypothesis HD : forall t, t0 <= t <= t0 + T -> mderive n m x t (g (H t) (x t)).
  Hypothesis H0 : meq n m (x t0) init.
  Hypothesis Hs : forall i j, (i < N)%nat -> (j < length (nodes s))%nat ->
    alpha * fro n n (hs (h i) j) + beta <= M /\ fro n n (msub (hs (h i) j) (H (t0 + INR i * dt))) <= 5 * L * dt.
  Let Q := 10 * (alpha * (5 * L) + M * M * 30 * 31 ^ 7).
  Let P := alpha * L + M * M.

  Lemma global_error : forall i, (i <= N)%nat ->
    fro n m (msub (state_after (solver_fun s f) h i init) (x (t0 + INR i * dt)))
    <= ((Q + P) * dt + defect s * M) * X * T * exp ((M + Q * T + defect s * M) * T).
  Proof.
    pose proof G as G'. destruct G' as [Ga Gb Gs Gbd Gl].
    assert (TP : 0 < T). { rewrite <- HT. apply Rmult_lt_0_compat; [apply lt_0_INR; lia|lra]. }
    assert (dT : dt <= T). { rewrite <- HT. assert (1 <= INR N) by (change 1 with (INR 1); apply le_INR; lia). nra. }
    assert (MP : 0 <= M). { eapply Rle_trans; [|apply (HM t0); lra]. pose proof (fro_nonneg n n (H t0)). assert (0 <= alpha * fro n n (H t0)) by (apply Rmult_le_pos; lra). lra. }
    assert (DP : 0 <= defect s) by apply Rabs_pos.
    assert (PP : 0 <= P). { unfold P. assert (0 <= alpha * L) by (apply Rmult_le_pos; lra). nra. }
    assert (Q0 : 0 <= alpha * (5 * L) + M * M * 30 * 31 ^ 7).
    { assert (0 <= alpha * (5 * L)) by (apply Rmult_le_pos; lra). assert (0 <= M * M * 30 * 31 ^ 7) by (apply Rmult_le_pos; [nra|apply pow_le; lra]). lra. }
    assert (QP : 0 <= Q) by (unfold Q; lra).
    set (E := fun i => fro n m (msub (state_after (solver_fun s f) h i init) (x (t0 + INR i * dt)))).
    set (b := ((Q + P) * dt + defect s * M) * X). set (a := M + Q * T + defect s * M).
    assert (dM : 0 <= defect s * M) by (apply Rmult_le_pos; lra).
    assert (bP : 0 <= b). { unfold b. apply Rmult_le_pos; [|lra]. assert (0 <= (Q + P) * dt) by (apply Rmult_le_pos; lra). lra. }
    assert (aP : 0 <= a). { unfold a. assert (0 <= Q * T) by (apply Rmult_le_pos; lra). lra. }
    assert (IN : forall i, (i <= N)%nat -> 0 <= INR i * dt <= T).
    { intros i Hi. split; [apply Rmult_le_pos; [apply pos_INR|lra]|]. rewrite <- HT. apply Rmult_le_compat_r; [lra|apply le_INR; lia]. }
    assert (ES : forall i, (i < N)%nat -> E (S i) <= (1 + a * dt) * E i + b * dt).
    { intros i Hi. unfold E. cbn [state_after]. set (y := state_after (solver_fun s f) h i init). rewrite S_INR.
      pose proof (IN i ltac:(lia)) as [I0 _]. pose proof (IN (S i) ltac:(lia)) as [_ I1]. rewrite S_INR in I1.
      set (t := t0 + INR i * dt). replace (t0 + (INR i + 1) * dt) with (t + dt) by (unfold t; ring).
      assert (TR : forall r, t <= r <= t + dt -> t0 <= r <= t0 + T) by (unfold t; intros r Hr; lra).
      assert (EX : fro n m (msub (x (t + dt)) (madd (x t) (mscale (RtoC dt) (g (H t) (x t))))) <= dt * dt * P * X).
      { apply (exact_step n m g alpha beta G dt M L X t x H); auto.
        intros r Hr. eapply Rle_trans; [apply HH; apply TR; lra|]. apply Rmult_le_compat_l; [lra|]. rewrite Rabs_pos_eq by lra. lra. }
      destruct (solver_tableau s f y (h i)) as (ks & St & ->).
      destruct (tableau_length s) as [TL WL].
      assert (SE : fro n m (msub (madd y (lincomb (weights s) ks)) (madd y (mscale (RtoC dt) (g (H t) y)))) <= (Q * (dt * dt) + defect s * (dt * M)) * fro n m y).
      { eapply Rle_trans.
        - apply (step_error n m g alpha beta G dt M 30 (5 * L) y (H t) ltac:(lra) ltac:(lra) ltac:(lra) ltac:(lra) ltac:(lra) (rows_of s (h i)) ks (weights s)); auto.
          + unfold rows_of. pose proof (row_sums s) as RS. pose proof (tableau_index s) as TI. rewrite Forall_forall in *.
            intros r Hr. apply in_map_iff in Hr. destruct Hr as (r0 & <- & Hr). unfold good_row. cbn [fst snd].
            split; [apply RS, Hr|]. destruct (Hs i (snd r0) Hi (TI r0 Hr)) as [A1 A2]. split; [exact A1|exact A2].
          + unfold rows_of. rewrite map_length. exact WL.
        - apply Rmult_le_compat_r; [apply fro_nonneg|]. apply Rplus_le_compat.
          + unfold Q, rows_of. rewrite map_length. pose proof (weight_sums s) as WS. pose proof (abs_sum_nonneg (weights s)) as WP.
            assert (PL : (1 + 30) ^ length (tableau s) <= 31 ^ 7). { replace (1 + 30) with 31 by ring. apply Rle_pow; [lra|exact TL]. }
            assert (PL0 : 0 <= (1 + 30) ^ length (tableau s)) by (apply pow_le; lra).
            set (w := (1 + 30) ^ length (tableau s)) in *. set (w7 := 31 ^ 7) in *.
            assert (I3 : dt * dt * (alpha * (5 * L) + M * M * 30 * w) <= dt * dt * (alpha * (5 * L) + M * M * 30 * w7)).
            { apply Rmult_le_compat_l; [nra|]. apply Rplus_le_compat_l. apply Rmult_le_compat_l; [nra|exact PL]. }
            assert (I4 : 0 <= dt * dt * (alpha * (5 * L) + M * M * 30 * w7)) by (apply Rmult_le_pos; [nra|exact Q0]).
            eapply Rle_trans; [apply Rmult_le_compat_l; [exact WP|exact I3]|].
            eapply Rle_trans; [apply Rmult_le_compat_r; [exact I4|exact WS]|]. apply Req_le. ring.
          + fold (defect s). apply Rmult_le_compat_l; [lra|]. apply Rmult_le_compat_l; [lra|]. apply HM. apply TR. lra. }
      assert (LI : fro n m (msub (madd y (mscale (RtoC dt) (g (H t) y))) (madd (x t) (mscale (RtoC dt) (g (H t) (x t))))) <= (1 + dt * M) * fro n m (msub y (x t))).
      { rewrite (fro_proper n m _ (madd (msub y (x t)) (mscale (RtoC dt) (g (H t) (msub y (x t)))))).
        - eapply Rle_trans; [apply fro_triangle|]. rewrite fro_scale, Cmod_R, Rabs_pos_eq by lra.
          assert (fro n m (g (H t) (msub y (x t))) <= M * fro n m (msub y (x t))).
          { eapply Rle_trans; [apply Gbd|]. apply Rmult_le_compat_r; [apply fro_nonneg|]. apply HM. apply TR. lra. }
          assert (dt * fro n m (g (H t) (msub y (x t))) <= dt * (M * fro n m (msub y (x t)))) by (apply Rmult_le_compat_l; lra). lra.
        - intros p q Hp Hq. specialize (Gs (H t) y (x t) p q Hp Hq). unfold madd, msub, mscale in *. rewrite Gs. ring. }
      assert (YB : fro n m y <= fro n m (msub y (x t)) + X).
      { eapply Rle_trans; [apply (fro_le_sub n m y (x t))|]. apply Rplus_le_compat_l. apply HB, TR. lra. }
      set (z := madd y (mscale (RtoC dt) (g (H t) y))) in *. set (w := madd (x t) (mscale (RtoC dt) (g (H t) (x t)))) in *.
      assert (TRI : fro n m (msub (madd y (lincomb (weights s) ks)) (x (t + dt)))
                <= fro n m (msub (madd y (lincomb (weights s) ks)) z) + (fro n m (msub z w) + fro n m (msub (x (t + dt)) w))).
      { eapply Rle_trans; [apply (fro_sub3 n m _ z)|]. apply Rplus_le_compat_l. eapply Rle_trans; [apply (fro_sub3 n m _ w)|]. apply Rplus_le_compat_l.
        apply Req_le. rewrite (fro_proper n m (msub w (x (t + dt))) (mscale (RtoC (-1)) (msub (x (t + dt)) w))).
        - rewrite fro_scale, Cmod_R, Rabs_left by lra. lra.
        - intros p q _ _. unfold msub, mscale. replace (RtoC (-1)) with (- RtoC 1)%C by (rewrite <- RtoC_opp; f_equal; lra). ring. }
      eapply Rle_trans; [exact TRI|]. eapply Rle_trans; [apply Rplus_le_compat; [exact SE|apply Rplus_le_compat; [exact LI|exact EX]]|].
      fold t. set (e := fro n m (msub y (x t))) in *. pose proof (fro_nonneg n m (msub y (x t))) as EP. fold e in EP.
      assert (QD : 0 <= Q * (dt * dt) + defect s * (dt * M)).
      { assert (0 <= Q * (dt * dt)) by (apply Rmult_le_pos; nra). assert (0 <= defect s * (dt * M)) by (apply Rmult_le_pos; [lra|nra]). lra. }
      assert (S1 : (Q * (dt * dt) + defect s * (dt * M)) * fro n m y <= (Q * (dt * dt) + defect s * (dt * M)) * (e + X)) by (apply Rmult_le_compat_l; lra).
      assert (S2 : Q * (dt * dt) * e <= Q * (T * dt) * e).
      { apply Rmult_le_compat_r; [lra|]. apply Rmult_le_compat_l; [lra|]. apply Rmult_le_compat_r; lra. }
      eapply Rle_trans; [apply Rplus_le_compat_r; exact S1|]. unfold a, b. lra. }
    intros i Hi. pose proof (accumulate E a b dt N aP bP Hdt) as AC.
    assert (E0 : E 0%nat <= 0).
    { unfold E. cbn [state_after INR]. replace (t0 + 0 * dt) with t0 by ring. rewrite fro_zero; [lra|].
      intros p q Hp Hq. unfold msub, mzero. rewrite (H0 p q Hp Hq). ring. }
    specialize (AC E0 ES i Hi). fold (E i). eapply Rle_trans; [exact AC|]. destruct (IN i Hi) as [I0 I1].
    apply Rmult_le_compat.
    - apply Rmult_le_pos; lra.
    - left; apply exp_pos.
    - apply Rmult_le_compat_l; lra.
    - destruct (Req_dec (a * (INR i * dt)) (a * T)) as [->|Ne]; [lra|]. left. apply exp_increasing.
      assert (a * (INR i * dt) <= a * T) by (apply Rmult_le_compat_l; lra). lra.
  Qed.
End Global.
