(** Properties of the gradient of model learning (C112). *)
From Coq Require Import Reals List Lia Lra String Bool.
From Coquelicot Require Import Coquelicot.
From Verif Require Import Base QuantityModel PMapModel PMapProofs LearnModel EstModel LearnRunModel LearnProps RobustProps LearnRunProps LearnGradModel.
Import ListNotations.
Local Open Scope list_scope.
Local Notation length := List.length.

(** ** The same run as without gradient *)
Lemma point_setgoal : forall simulate lgamma l x target d i s g w,
  one_point simulate lgamma l x target d i (s, g, w) =
  match nth_error (ld_sets d) i with
  | None => Err IndexError
  | Some m => rbind (set_goal simulate lgamma l target d m s x) (fun sg =>
      Ok (fst sg, g ++ [snd sg], w ++ [INR (num_seqs target (firstn (le_seqs_pp l) (ds_seqs m)))]))
  end.
Proof.
  intros. unfold one_point, set_goal. destruct (nth_error (ld_sets d) i) as [m|]; [|reflexivity].
  destruct (one_par_sim_vals simulate l s x (ld_map d) m target) as [sv|e]; [|reflexivity]. cbn [rbind].
  destruct (one_goal _ _ _ _ _ _) as [v|e]; reflexivity.
Qed.

Definition drop (a : lstate * list R * list R * list (list R)) : lstate * list R * list R := fst a.

Section Same.
  Variable sampling : nat -> list dataset -> nat -> result (list nat).
  Variable simulate : dict quantity -> dict quantity -> list (list string) -> list (list nat) -> result (list (list R)).
  Variable lgamma : R -> R.
  Variable tape : (list R -> result R) -> list R -> result (list R).

  (** [r'] is [r] without its gradients, unless a tape failed *)
  Definition follows {A B} (p : A -> B) (r : result A) (r' : result B) : Prop :=
    match r with
    | Ok a => r' = Ok (p a)
    | Err e => r' = Err e \/ exists f x, tape f x = Err e
    end.
  Lemma follows_bind : forall {A B A' B'} (p : A -> B) (p' : A' -> B') r r' f f', follows p r r' ->
    (forall a, follows p' (f a) (f' (p a))) -> follows p' (rbind r f) (rbind r' f').
  Proof.
    intros A B A' B' p p' [a|e] r' f f' H HF; cbn in *.
    - rewrite H. cbn. apply HF.
    - destruct H as [->|H]; [left; reflexivity|right; exact H].
  Qed.
  Lemma follows_point : forall l x t d i a, follows drop (grad_point simulate lgamma tape l x t d i a) (one_point simulate lgamma l x t d i (drop a)).
  Proof.
    intros l x t d i [[[s g] w] dv]. unfold drop. cbn [fst]. rewrite point_setgoal. unfold grad_point.
    destruct (nth_error (ld_sets d) i) as [m|]; [|left; reflexivity].
    destruct (set_goal simulate lgamma l t d m s x) as [sg|e]; [|left; reflexivity]. cbn [rbind].
    destruct (tape _ x) as [v|e] eqn:E; cbn; [reflexivity|]. right. eauto.
  Qed.
  Lemma follows_points : forall l x t d is a, follows drop (grad_points simulate lgamma tape l x t d is a) (all_points simulate lgamma l x t d is (drop a)).
  Proof.
    intros l x t d is. induction is as [|i is IH]; intro a; cbn [grad_points all_points]; [reflexivity|].
    eapply follows_bind; [apply follows_point|]. intro b. apply IH.
  Qed.
  Lemma follows_targets : forall l x data a, follows drop (grad_targets sampling simulate lgamma tape l x data a) (all_targets sampling simulate lgamma l x data (drop a)).
  Proof.
    intros l x data. induction data as [|[t d] data IH]; intro a; cbn [grad_targets all_targets]; [reflexivity|].
    destruct (dget t (le_batch l)) as [b|]; [|left; reflexivity]. destruct a as [[[s g] w] dv]. change (drop (s, g, w, dv)) with (s, g, w). cbv beta iota.
    destruct (select sampling s (ld_sets d) b) as [si|e]; [|left; reflexivity]. cbn [rbind].
    eapply follows_bind; [apply (follows_points l x t d (snd si) (fst si, g, w, dv))|]. intro c. apply IH.
  Qed.
  Lemma follows_run : forall l s x, follows fst (goal_run_with_grad sampling simulate lgamma tape l s x) (goal_run sampling simulate lgamma l s x).
  Proof.
    intros l s x. unfold goal_run_with_grad, goal_run. eapply follows_bind; [apply (follows_targets l x (le_data l) (s, [], [], []))|].
    intros [[[s1 g] w] dv]. unfold drop. cbn [fst]. destruct (Req_EM_T (rsum_l w) 0); [left; reflexivity|].
    destruct (get_parameters (ls_pm s1) None); cbn; [reflexivity|left; reflexivity].
  Qed.
End Same.

(** With gradients, a run selects, simulates and stores exactly what a run without gradients does and returns the same
    goal, for any sampling function (a random one included); it raises the same exception, or the one raised by the tape. *)
Theorem C112_same_run :
  forall sampling simulate lgamma tape l s x,
  match goal_run_with_grad sampling simulate lgamma tape l s x with
  | Ok (s1, g, grad) => goal_run sampling simulate lgamma l s x = Ok (s1, g) /\ length grad = length x
  | Err e => goal_run sampling simulate lgamma l s x = Err e \/ exists f y, tape f y = Err e
  end.
Proof.
  intros sampling simulate lgamma tape l s x. pose proof (follows_run sampling simulate lgamma tape l s x) as F.
  destruct (goal_run_with_grad sampling simulate lgamma tape l s x) as [[[s1 g] grad]|e] eqn:E; cbn in F; [|exact F].
  split; [exact F|]. unfold goal_run_with_grad in E. destruct (grad_targets _ _ _ _ _ _ _ _) as [[[[s2 g2] w2] d2]|]; [|discriminate E]. cbn [rbind] in E.
  destruct (Req_EM_T _ 0); [discriminate E|]. destruct (get_parameters _ None); [|discriminate E]. cbn [rbind] in E. injection E as <- <- <-.
  unfold combined_gradient. rewrite map_length, seq_length. reflexivity.
Qed.
Print Assumptions C112_same_run.

(** ** The gradient *)
(** the point [x] with its component [i] replaced by [t] *)
Definition along (x : list R) (i : nat) (t : R) : list R := firstn i x ++ t :: skipn (S i) x.
Definition value (r : result R) : R := match r with Ok v => v | Err _ => 0%R end.
Definition runs_near (f : list R -> result R) (x : list R) (i : nat) : Prop :=
  locally (nth i x 0%R) (fun t => exists v, f (along x i t) = Ok v).
(** where the recorded function is differentiable, component [i] of the answer of the tape is its derivative *)
Definition exact_tape (tape : (list R -> result R) -> list R -> result (list R)) (x : list R) (i : nat) : Prop :=
  forall f dv, tape f x = Ok dv -> runs_near f x i -> ex_derive (fun t => value (f (along x i t))) (nth i x 0%R) ->
  nth i dv 0%R = Derive (fun t => value (f (along x i t))) (nth i x 0%R).
(** the goal of each data set is differentiable in component [i] wherever it can be computed, with the parameter map in any state
    of the same setup *)
Definition smooth simulate lgamma (l : learner) (s : lstate) (x : list R) (i : nat) : Prop :=
  forall target d m s', In (target, d) (le_data l) -> In m (ld_sets d) -> alike (fun _ => True) s s' ->
  let f := fun y => rmap snd (set_goal simulate lgamma l target d m s' y) in
  runs_near f x i -> ex_derive (fun t => value (f (along x i t))) (nth i x 0%R).

Lemma along_self : forall x i, (i < length x)%nat -> along x i (nth i x 0%R) = x.
Proof.
  induction x as [|a x IH]; intros i H; cbn in H; [lia|]. destruct i as [|i]; [reflexivity|].
  unfold along in *. cbn [firstn nth skipn app]. f_equal. apply IH. lia.
Qed.

Lemma nth_map_seq : forall (F : nat -> R) n i, (i < n)%nat -> nth i (map F (seq 0 n)) 0%R = F i.
Proof.
  intros F n i H. rewrite nth_indep with (d' := F 0%nat) by (rewrite map_length, seq_length; exact H). rewrite map_nth, seq_nth by exact H. reflexivity.
Qed.

Section Line.
  Variable sampling : list dataset -> nat -> result (list nat).
  Variable simulate : dict quantity -> dict quantity -> list (list string) -> list (list nat) -> result (list (list R)).
  Variable lgamma : R -> R.
  Variable tape : (list R -> result R) -> list R -> result (list R).
  Variable l : learner.
  Variable x : list R.
  Variable opt : optmap.
  Notation set_goal := (set_goal simulate lgamma l).

  Lemma lock_setgoal : forall target d m s s' y, alike (in_map opt) s s' -> pm_opt_map (ls_pm s) = opt ->
    rrel (fun a a' => alike (fun _ => False) (fst a) (fst a') /\ snd a = snd a' /\ pm_opt_map (ls_pm (fst a)) = opt)
      (set_goal target d m s y) (set_goal target d m s' y).
  Proof.
    intros target d m s s' y A O. unfold LearnGradModel.set_goal.
    eapply rrel_bind; [apply (lock_sim simulate (in_map opt)); [exact A|intros k Hk; left; rewrite O; exact Hk]|].
    intros [a v] [a' v'] (E1 & E2 & E3). cbn [fst snd] in *. subst v'. destruct (one_goal _ _ _ _ _ _); cbn; [|reflexivity].
    split; [exact E1|]. split; [reflexivity|]. rewrite E3. exact O.
  Qed.
  Lemma setgoal_inv : forall target d m s y a g, set_goal target d m s y = Ok (a, g) ->
    exists v, one_par_sim_vals simulate l s y (ld_map d) m target = Ok (a, v).
  Proof.
    intros target d m s y a g H. unfold LearnGradModel.set_goal in H. destruct (one_par_sim_vals _ _ _ _ _ _ _) as [[a' v]|]; [|discriminate H].
    cbn [rbind fst snd] in H. destruct (one_goal _ _ _ _ _ _); [|discriminate H]. cbn in H. injection H as <- _. eauto.
  Qed.
  Lemma same_state : forall target d m s y y' a g a' g', NoDup (keys (pm_pars (ls_pm s))) -> pm_opt_map (ls_pm s) = opt ->
    set_goal target d m s y = Ok (a, g) -> set_goal target d m s y' = Ok (a', g') -> alike (in_map opt) a a'.
  Proof.
    intros target d m s y y' a g a' g' ND O H H'. apply setgoal_inv in H as [v H]. apply setgoal_inv in H' as [v' H'].
    destruct (sim_spec _ _ _ _ _ _ _ _ _ ND H) as (p & lab & _ & S1 & _ & _ & _ & I1 & _ & A1 & A2).
    destruct (sim_spec _ _ _ _ _ _ _ _ _ ND H') as (p' & lab' & _ & S1' & _ & _ & _ & I1' & _ & A1' & A2').
    assert (PP : pm_agree (in_map opt) (refresh p) (refresh p')).
    { apply pm_agree_refresh. eapply pm_agree_weaken; [|exact (pm_agree_trans _ _ _ _ _ (pm_agree_sym _ _ _ A1) A1')]. rewrite O. tauto. }
    destruct (lock_set _ _ _ (ds_params m) (Some (ld_map d)) PP) as [_ L]. rewrite S1, S1' in L. cbn [fst snd] in L. destruct (L eq_refl) as [L1 _].
    split; [|split; [congruence|]].
    - eapply pm_agree_weaken; [|exact L1]. intros k [K _]. exact K.
    - destruct A1 as (_ & _ & _ & _ & [K1 _]). destruct A2 as (_ & _ & _ & _ & [K2 _]). cbn [refresh pm_pars] in K2. rewrite <- K2. cbn. rewrite <- K1. exact ND.
  Qed.
  Lemma moves : forall target d m s y a g, NoDup (keys (pm_pars (ls_pm s))) -> pm_opt_map (ls_pm s) = opt ->
    set_goal target d m s y = Ok (a, g) -> alike (fun _ => True) s a /\ pm_opt_map (ls_pm a) = opt.
  Proof.
    intros target d m s y a g ND O H. apply setgoal_inv in H as [v H].
    destruct (sim_spec _ _ _ _ _ _ _ _ _ ND H) as (p & lab & _ & _ & _ & _ & _ & I1 & _ & A1 & A2).
    assert (A : pm_agree (fun _ => True) (ls_pm s) (ls_pm a)).
    { eapply pm_agree_weaken; [|exact (pm_agree_trans _ _ _ _ _ (pm_agree_refresh _ _ _ A1) A2)]. intros k _. exact I. }
    split; [split; [exact A|split; [congruence|exact ND]]|]. destruct A as (_ & A & _). congruence.
  Qed.
  Lemma cross : forall target d m s s' y a g a' g', alike (in_map opt) s s' -> pm_opt_map (ls_pm s) = opt ->
    set_goal target d m s x = Ok (a, g) -> set_goal target d m s' y = Ok (a', g') ->
    alike (in_map opt) a a' /\ rmap snd (set_goal target d m s y) = Ok g'.
  Proof.
    intros target d m s s' y a g a' g' A O H H'. pose proof (lock_setgoal target d m s s' y A O) as L. rewrite H' in L.
    destruct (set_goal target d m s y) as [[a2 g2]|e] eqn:E; cbn in L; [|contradiction]. destruct L as (L1 & -> & _).
    split; [|reflexivity]. eapply alike_trans; [eapply same_state; [exact (proj2 (proj2 A))|exact O|exact H|exact E]|].
    eapply alike_weaken; [|exact L1]. intros k [].
  Qed.

  Definition taped (target : string) (d : ldata) (s : lstate) (p : (list R -> result R) * list R) : Prop :=
    tape (fst p) x = Ok (snd p) /\
    exists m s', In m (ld_sets d) /\ alike (fun _ => True) s s' /\ fst p = fun y => rmap snd (set_goal target d m s' y).
  (** what a run along other points does, in terms of the recorded functions [fs] *)
  Definition retraced (fs : list ((list R -> result R) * list R)) (y : list R) (gs' : list R) (ws1 : list R) (s1 : lstate) (r : lstate * list R * list R) : Prop :=
    exists vs, Forall2 (fun p v => fst p y = Ok v) fs vs /\ snd (fst r) = gs' ++ vs /\ snd r = ws1 /\ alike (in_map opt) s1 (fst (fst r)).

  Lemma true_trans : forall a b c, alike (fun _ => True) a b -> alike (fun _ => True) b c -> alike (fun _ => True) a c.
  Proof. intros. eapply alike_trans; eauto. Qed.

  Lemma line_points : forall target d is s gs ws ds s1 gs1 ws1 ds1, NoDup (keys (pm_pars (ls_pm s))) -> pm_opt_map (ls_pm s) = opt ->
    grad_points simulate lgamma tape l x target d is (s, gs, ws, ds) = Ok (s1, gs1, ws1, ds1) ->
    exists fs, ds1 = ds ++ map snd fs /\ length ws1 = (length ws + length fs)%nat /\ Forall (taped target d s) fs /\
      alike (fun _ => True) s s1 /\ pm_opt_map (ls_pm s1) = opt /\
      forall y s' gs' r, alike (in_map opt) s s' -> all_points simulate lgamma l y target d is (s', gs', ws) = Ok r -> retraced fs y gs' ws1 s1 r.
  Proof.
    intros target d is. induction is as [|i is IH]; intros s gs ws ds s1 gs1 ws1 ds1 ND O H; cbn [grad_points] in H.
    - injection H as <- <- <- <-. exists []. cbn [map]. rewrite app_nil_r. split; [reflexivity|]. split; [cbn; lia|]. split; [constructor|].
      split; [split; [eapply pm_agree_weaken; [|repeat split; apply agree_refl]; intros k []|auto]|]. split; [exact O|].
      intros y s' gs' r A E. cbn in E. injection E as <-. exists []. split; [constructor|]. cbn [fst snd]. rewrite app_nil_r. auto.
    - unfold grad_point in H. destruct (nth_error (ld_sets d) i) as [m|] eqn:EN; [|discriminate H].
      destruct (set_goal target d m s x) as [[a g]|e] eqn:EG; [|discriminate H]. cbn [rbind fst snd] in H.
      destruct (tape _ x) as [dv|e] eqn:ET; [|discriminate H]. cbn [rbind] in H.
      destruct (moves _ _ _ _ _ _ _ ND O EG) as [MA MO].
      assert (NDa : NoDup (keys (pm_pars (ls_pm a)))).
      { destruct MA as ((_ & _ & _ & _ & [K _]) & _ & _). rewrite <- K. exact ND. }
      destruct (IH _ _ _ _ _ _ _ _ NDa MO H) as (fs & E1 & E2 & E3 & E4 & E5 & E6).
      exists ((fun y => rmap snd (set_goal target d m s y), dv) :: fs). split; [rewrite E1, <- app_assoc; reflexivity|].
      split; [rewrite E2, app_length; cbn; lia|]. split; [|split; [eapply true_trans; eauto|split; [exact E5|]]].
      + constructor.
        * split; [exact ET|]. exists m, s. split; [eapply nth_error_In; eauto|]. split; [|reflexivity].
          split; [eapply pm_agree_weaken; [|repeat split; apply agree_refl]; intros k []|auto].
        * eapply Forall_impl; [|exact E3]. intros p (P1 & m' & s' & P2 & P3 & P4). split; [exact P1|]. exists m', s'. split; [exact P2|]. split; [|exact P4].
          eapply true_trans; eauto.
      + intros y s' gs' r A E. cbn [all_points] in E. rewrite point_setgoal, EN in E.
        destruct (set_goal target d m s' y) as [[a' g']|] eqn:EG'; [|discriminate E]. cbn [rbind fst snd] in E.
        destruct (cross _ _ _ _ _ _ _ _ _ _ A O EG EG') as [C1 C2].
        destruct (E6 _ _ _ _ C1 E) as (vs & V1 & V2 & V3 & V4). exists (g' :: vs). split; [constructor; [exact C2|exact V1]|].
        split; [rewrite V2, <- app_assoc; reflexivity|]. split; assumption.
  Qed.

  Lemma line_targets : forall data s gs ws ds s1 gs1 ws1 ds1, NoDup (keys (pm_pars (ls_pm s))) -> pm_opt_map (ls_pm s) = opt ->
    grad_targets (fun _ => sampling) simulate lgamma tape l x data (s, gs, ws, ds) = Ok (s1, gs1, ws1, ds1) ->
    exists fs, ds1 = ds ++ map snd fs /\ length ws1 = (length ws + length fs)%nat /\
      Forall (fun p => exists target d, In (target, d) data /\ taped target d s p) fs /\
      forall y s' gs' r, alike (in_map opt) s s' -> all_targets (fun _ => sampling) simulate lgamma l y data (s', gs', ws) = Ok r -> retraced fs y gs' ws1 s1 r.
  Proof.
    induction data as [|[t d] data IH]; intros s gs ws ds s1 gs1 ws1 ds1 ND O H; cbn [grad_targets] in H.
    - injection H as <- <- <- <-. exists []. cbn [map]. rewrite app_nil_r. split; [reflexivity|]. split; [cbn; lia|]. split; [constructor|].
      intros y s' gs' r A E. cbn in E. injection E as <-. exists []. split; [constructor|]. cbn [fst snd]. rewrite app_nil_r. auto.
    - destruct (dget t (le_batch l)) as [b|] eqn:EB; [|discriminate H]. unfold select in H.
      destruct (sampling (ld_sets d) b) as [ind|] eqn:ES; [|discriminate H]. cbn [rbind fst snd] in H.
      match type of H with context [grad_points _ _ _ _ _ _ _ ?i (?z, _, _, _)] => set (is := i) in H; set (sa := z) in H end.
      destruct (grad_points _ _ _ _ _ _ _ is _) as [[[[s2 gs2] ws2] ds2]|] eqn:EP; [|discriminate H]. cbn [rbind] in H.
      assert (AA : alike (fun _ => True) s sa).
      { split; [eapply pm_agree_weaken; [|repeat split; apply agree_refl]; intros k []|split; [reflexivity|exact ND]]. }
      destruct (line_points t d is sa gs ws ds s2 gs2 ws2 ds2 ND O EP) as (fs & E1 & E2 & E3 & E4 & E5 & E6).
      assert (ND2 : NoDup (keys (pm_pars (ls_pm s2)))).
      { destruct E4 as ((_ & _ & _ & _ & [K _]) & _ & _). rewrite <- K. exact ND. }
      destruct (IH _ _ _ _ _ _ _ _ ND2 E5 H) as (fs' & F1 & F2 & F3 & F4).
      exists (fs ++ fs'). split; [rewrite F1, E1, map_app, app_assoc; reflexivity|]. split; [rewrite F2, E2, app_length; lia|]. split.
      + apply Forall_app. split.
        * eapply Forall_impl; [|exact E3]. intros p P. exists t, d. split; [left; reflexivity|exact P].
        * eapply Forall_impl; [|exact F3]. intros p (t' & d' & P0 & P1 & m' & s' & P2 & P3 & P4). exists t', d'. split; [right; exact P0|].
          split; [exact P1|]. exists m', s'. split; [exact P2|]. split; [|exact P4]. exact (true_trans _ _ _ AA (true_trans _ _ _ E4 P3)).
      + intros y s' gs' r A E. cbn [all_targets] in E. rewrite EB in E. unfold select in E. rewrite ES in E. cbn [rbind fst snd] in E.
        pose proof A as (A1 & A2 & A3). rewrite <- A2 in E. fold is in E.
        match type of E with context [all_points _ _ _ _ _ _ is (?z, _, _)] => set (sb := z) in E end.
        destruct (all_points _ _ _ _ _ _ is _) as [[[s3 gs3] ws3]|] eqn:EP'; [|discriminate E]. cbn [rbind] in E.
        assert (AB : alike (in_map opt) sa sb) by (split; [exact A1|split; [reflexivity|exact A3]]).
        destruct (E6 y sb gs' _ AB EP') as (vs & V1 & V2 & V3 & V4). cbn [fst snd] in *. subst gs3 ws3.
        destruct (F4 y s3 _ r V4 E) as (vs' & W1 & W2 & W3 & W4). exists (vs ++ vs'). split; [apply Forall2_app; assumption|].
        split; [rewrite W2, <- app_assoc; reflexivity|]. split; assumption.
  Qed.
End Line.

(** Each component of the gradient is the derivative of the goal that runs without gradients return, as that component of the
    candidate varies: not only for runs that start where this one did, but from any parameter map that
    differs from it only in parameters that every data set overwrites, such as the map a later evaluation finds. *)
Theorem C112_gradient :
  forall sampling simulate lgamma tape l s s' x i s1 g grad (P : string -> Prop),
  let goal := fun y => rmap snd (goal_run (fun _ => sampling) simulate lgamma l s' y) in
  goal_run_with_grad (fun _ => sampling) simulate lgamma tape l s x = Ok (s1, g, grad) ->
  (i < length x)%nat -> exact_tape tape x i -> smooth simulate lgamma l s x i -> runs_near goal x i -> alike P s s' ->
  (forall t d k, In (t, d) (le_data l) -> P k -> in_map (pm_opt_map (ls_pm s)) k \/ in_map (norm_map (ld_map d)) k) ->
  is_derive (fun t => value (goal (along x i t))) (nth i x 0%R) (nth i grad 0%R).
Proof.
  intros sampling simulate lgamma tape l s s' x i s1 g grad P goal H Hi HT HS HN A HP.
  assert (EQ : forall y, goal y = rmap snd (goal_run (fun _ => sampling) simulate lgamma l s y)).
  { intro y. symmetry. exact (C104_history_free sampling simulate lgamma l s s' y P A HP). }
  unfold goal_run_with_grad in H. destruct (grad_targets _ _ _ _ _ _ _ _) as [[[[s2 gs] ws] ds]|] eqn:ET; [|discriminate H]. cbn [rbind] in H.
  destruct (Req_EM_T (rsum_l ws) 0) as [|NZ]; [discriminate H|]. destruct (get_parameters (ls_pm s2) None) as [qs|] eqn:EQS; [|discriminate H]. cbn [rbind] in H.
  injection H as _ _ <-.
  pose proof A as (_ & _ & ND).
  destruct (line_targets sampling simulate lgamma tape l x (pm_opt_map (ls_pm s)) (le_data l) s [] [] [] s2 gs ws ds ND eq_refl ET) as (fs & E1 & E2 & E3 & E4).
  cbn [app length Nat.add] in E1, E2.
  assert (SELF : alike (in_map (pm_opt_map (ls_pm s))) s s).
  { split; [eapply pm_agree_weaken; [|repeat split; apply agree_refl]; intros k []|auto]. }
  assert (RT : forall y v, goal y = Ok v -> exists vs, Forall2 (fun p w => fst p y = Ok w) fs vs /\ v = g_LL_prime_combined vs ws).
  { intros y v Hv. rewrite EQ in Hv. unfold goal_run in Hv. destruct (all_targets _ _ _ _ _ _ _) as [[[s3 gs3] ws3]|] eqn:E; [|discriminate Hv]. cbn [rbind] in Hv.
    destruct (E4 y s [] _ SELF E) as (vs & V1 & V2 & V3 & _). cbn [fst snd app] in V2, V3. subst gs3 ws3.
    destruct (Req_EM_T (rsum_l ws) 0); [discriminate Hv|]. destruct (get_parameters (ls_pm s3) None); [|discriminate Hv]. cbn in Hv. injection Hv as <-. exists vs. auto. }
  assert (VM : forall y vs, Forall2 (fun p w => fst p y = Ok w) fs vs -> vs = map (fun p => value (fst p y)) fs).
  { intros y vs F. clear -F. induction F as [|p w ps ws' Hp _ IH]; [reflexivity|]. cbn [map]. rewrite Hp. cbn [value]. f_equal. exact IH. }
  assert (NEAR : forall p, In p fs -> runs_near (fst p) x i).
  { intros p Hp. unfold runs_near. eapply filter_imp; [|exact HN]. intros t [v Hv]. destruct (RT _ _ Hv) as (vs & F & _).
    clear -F Hp. induction F as [|q w ps ws' Hq _ IH]; [destruct Hp|]. destruct Hp as [->|Hp]; [eauto|apply IH, Hp]. }
  set (gsf := map (fun p t => value (fst p (along x i t))) fs).
  apply (is_derive_ext_loc (fun t => g_LL_prime_combined (map (fun g => g t) gsf) ws)).
  { eapply filter_imp; [|exact HN]. intros t [v Hv]. rewrite Hv. cbn [value]. destruct (RT _ _ Hv) as (vs & F & ->).
    rewrite (VM _ _ F). subst gsf. rewrite map_map. reflexivity. }
  unfold combined_gradient. rewrite nth_map_seq by exact Hi.
  refine (C55_gradient gsf (map (fun g => nth i g 0%R) ds) ws (nth i x 0%R) _ _).
  - subst gsf ds. rewrite map_map.
    assert (G : forall p, In p fs -> is_derive (fun t => value (fst p (along x i t))) (nth i x 0%R) (nth i (snd p) 0%R)).
    { intros p Hp. pose proof (proj1 (Forall_forall _ _) E3 p Hp) as (t & d & Hin & HTp & m & s3 & Hm & Hs3 & Hf).
      assert (D : ex_derive (fun t => value (fst p (along x i t))) (nth i x 0%R)).
      { rewrite Hf. apply (HS t d m s3 Hin Hm Hs3). rewrite <- Hf. apply NEAR, Hp. }
      rewrite (HT _ _ HTp (NEAR p Hp) D). apply Derive_correct, D. }
    clear -G. induction fs as [|p fs IH]; cbn [map]; constructor; [apply G; left; reflexivity|]. apply IH. intros q Hq. apply G. right. exact Hq.
  - subst gsf. rewrite map_length. symmetry. exact E2.
Qed.
Print Assumptions C112_gradient.

(** ** The hypotheses hold for a concrete run *)
Local Open Scope R_scope.
Local Open Scope string_scope.
Definition derive_tape (f : list R -> result R) (x : list R) : result (list R) :=
  Ok (map (fun i => Derive (fun t => value (f (along x i t))) (nth i x 0)) (seq 0 (length x))).
Lemma derive_tape_exact : forall x i, (i < length x)%nat -> exact_tape derive_tape x i.
Proof.
  intros x i Hi f dv H _ _. unfold derive_tape in H. injection H as <-.
  rewrite nth_map_seq by exact Hi. reflexivity.
Qed.
Lemma ex_alike : forall m g h s', alike (fun _ => True) (ex_init m g h) s' -> exists m' g' h', ex_s m' g' h' false s'.
Proof.
  intros m g h s' ((A1 & A2 & A3 & A4 & [K A5]) & I1 & _). cbn [ex_init ls_pm ls_inverse] in *. cbn [ex_p pm_model_ids pm_opt_map pm_update pm_has_model pm_pars] in *.
  destruct (ls_pm s') as [pars ids opt upd has n] eqn:E. cbn [pm_model_ids pm_opt_map pm_update pm_has_model pm_pars] in *. subst ids opt upd has.
  assert (SH : forall a q, shape (ex_v a) q -> exists b, q = ex_v b).
  { intros a q [S1 S2]. destruct q as [p o sc v u sy]. cbn in *. destruct v as [|b [|? ?]]; cbn in S2; try discriminate. exists b.
    unfold ex_v in *. unfold with_value in S1. cbn in S1. injection S1 as -> -> -> -> ->. reflexivity. }
  destruct pars as [|[k1 q1] [|[k2 q2] [|[k3 q3] [|? ?]]]]; cbn in K; try discriminate. injection K as <- <- <-.
  pose proof (A5 "m") as B1. pose proof (A5 "g") as B2. pose proof (A5 "h") as B3. cbn in B1, B2, B3.
  destruct (SH _ _ (proj1 B1)) as [m' ->]. destruct (SH _ _ (proj1 B2)) as [g' ->]. destruct (SH _ _ (proj1 B3)) as [h' ->].
  exists m', g', h'. split; [exists n; exact E|]. symmetry. exact I1.
Qed.
Definition ex_d : ldata := {| ld_sets := [ex_set 1; ex_set 1]; ld_map := [[PStr "h"]] |}.
Lemma ex_setgoal : forall m g h s t, ex_s m g h false s -> -1 <= t <= 1 ->
  exists s', set_goal ex_sim (fun x => x) (ex_l ex_d1) "t" ex_d (ex_set 1) s [t] = Ok (s', ex_g (ex_prob t 0)) /\ ex_s t g 0 false s'.
Proof.
  intros m g h s t HS Ht.
  destruct (ex_goal ex_d1 "t" ex_d 0 1 m g h false s t [] [] "h" HS Ht ltac:(lra) eq_refl ltac:(discriminate) (or_introl eq_refl) (or_intror (conj eq_refl eq_refl)))
    as (s2 & E & S2). rewrite point_setgoal in E. cbn [nth_error ex_d ld_sets] in E. fold ex_d in E.
  destruct (set_goal ex_sim _ _ _ _ _ s [t]) as [[a v]|]; [|discriminate E]. cbn [rbind fst snd app] in E. injection E as <- EV.
  cbn [String.eqb Ascii.eqb Bool.eqb] in EV, S2. replace (1 - 1) with 0 in * by ring. exists a. split; [rewrite EV; reflexivity|exact S2].
Qed.
Lemma ex_near : locally (1 / 2) (fun t => -1 < t < 1).
Proof. apply (locally_interval _ (1 / 2) (-1) 1); cbn; [lra|lra|]. intros y H1 H2. cbn in *. lra. Qed.
Lemma ex_derived : is_derive (fun t => ex_g (ex_prob t 0)) (1 / 2) (112 / 9).
Proof.
  apply (is_derive_ext_loc (fun t => ((1 / 4 - (t + 1) / 4) ^ 2 / ((t + 1) / 4 * (1 - (t + 1) / 4) / 100) - 1) / 2)).
  - eapply filter_imp; [|exact ex_near]. intros t Ht. cbn beta. rewrite ex_prob_g by lra. rewrite ex_g_val by lra. reflexivity.
  - auto_derive; [|field]. apply Rgt_not_eq. lra.
Qed.
Lemma ex_value : forall f : list R -> result R, (forall t, -1 < t < 1 -> f [t] = Ok (ex_g (ex_prob t 0))) ->
  runs_near f [1 / 2] 0 /\ is_derive (fun t => value (f (along [1 / 2] 0 t))) (1 / 2) (112 / 9).
Proof.
  intros f H. split.
  - unfold runs_near. eapply filter_imp; [|exact ex_near]. intros t Ht. eexists. exact (H t Ht).
  - apply (is_derive_ext_loc (fun t => ex_g (ex_prob t 0))); [|exact ex_derived]. eapply filter_imp; [|exact ex_near].
    intros t Ht. cbn [along firstn skipn app]. rewrite (H t Ht). reflexivity.
Qed.
Example C112_example :
  let l := ex_l ex_d1 in let s := ex_init (1 / 4) 0 (1 / 2) in
  exact_tape derive_tape [1 / 2] 0 /\ smooth ex_sim (fun x => x) l s [1 / 2] 0 /\
  runs_near (fun y => rmap snd (goal_run (fun _ => ex_first) ex_sim (fun x => x) l s y)) [1 / 2] 0 /\ alike (fun _ => False) s s /\
  exists s1, goal_run_with_grad (fun _ => ex_first) ex_sim (fun x => x) derive_tape l s [1 / 2] = Ok (s1, 17 / 6, [112 / 9]).
Proof.
  cbn zeta. assert (S0 : ex_s (1 / 4) 0 (1 / 2) false (ex_init (1 / 4) 0 (1 / 2))) by (split; [exists 0%nat; reflexivity|reflexivity]).
  split; [apply derive_tape_exact; cbn; lia|]. split; [|split; [|split]].
  - intros target d m s' Hin Hm A. cbn zeta. intros _. destruct Hin as [[= <- <-]|[]]. fold ex_d.
    assert (m = ex_set 1) as -> by (destruct Hm as [<-|[<-|[]]]; reflexivity).
    destruct (ex_alike _ _ _ _ A) as (m' & g' & h' & HS). exists (112 / 9).
    apply (ex_value (fun y => rmap snd (set_goal ex_sim (fun x => x) (ex_l ex_d1) "t" ex_d (ex_set 1) s' y))).
    intros t Ht. destruct (ex_setgoal _ _ _ _ t HS ltac:(lra)) as (s2 & E & _). rewrite E. reflexivity.
  - apply ex_value. intros t Ht. destruct (ex_run1 _ _ _ _ _ t S0 ltac:(lra)) as (s1 & E & _). rewrite E. reflexivity.
  - split; [repeat split; apply agree_refl|]. split; [reflexivity|]. repeat constructor; cbn; intuition discriminate.
  - unfold goal_run_with_grad. cbn [ex_l ex_d1 le_data grad_targets]. fold ex_d. fold ex_d1. fold (ex_l ex_d1).
    change [("t", ex_d)] with ex_d1. change (dget "t" (le_batch _)) with (Some 1%nat). cbv beta iota.
    unfold select. unfold ex_first at 1. cbn [length ld_sets ex_d Nat.min seq rbind fst snd ex_init ls_inverse select_from_data grad_points grad_point nth_error]. fold ex_d.
    match goal with |- context [LearnGradModel.set_goal _ _ ?l0 _ _ _ ?z [_]] => change l0 with (ex_l ex_d1); set (sa := z) end.
    assert (SA : ex_s (1 / 4) 0 (1 / 2) false sa) by (split; [exists 0%nat; reflexivity|reflexivity]).
    destruct (ex_setgoal _ _ _ _ (1 / 2) SA ltac:(lra)) as (s2 & E & [[n2 P2] I2]). rewrite E. cbn [rbind fst snd].
    unfold derive_tape. cbn [length seq map nth rbind].
    assert (D : Derive (fun t => value (rmap snd (set_goal ex_sim (fun x => x) (ex_l ex_d1) "t" ex_d (ex_set 1) sa (along [1 / 2] 0 t)))) (1 / 2) = 112 / 9).
    { apply is_derive_unique. apply (ex_value (fun y => rmap snd (set_goal ex_sim (fun x => x) (ex_l ex_d1) "t" ex_d (ex_set 1) sa y))).
      intros t Ht. destruct (ex_setgoal _ _ _ _ t SA ltac:(lra)) as (s3 & E3 & _). rewrite E3. reflexivity. }
    rewrite D. cbn [app]. change (num_seqs "t" _) with 1%nat. cbn [INR]. destruct (Req_EM_T (rsum_l [1]) 0) as [Z|_]; [cbn in Z; lra|].
    rewrite P2, ex_get. cbn [rbind map]. exists {| ls_pm := ex_p (1 / 2) 0 0 n2; ls_model := ls_model s2; ls_inverse := ls_inverse s2; ls_eval := (ls_eval s2 + 1)%Z; ls_draws := ls_draws s2; ls_params := [numpy (ex_v (1 / 2))]; ls_goal := Some (17 / 6) |}.
    assert (GE : g_LL_prime_combined [ex_g (ex_prob (1 / 2) 0)] [1] = 17 / 6).
    { replace (ex_prob (1 / 2) 0) with (3 / 8) by (unfold ex_prob; lra). rewrite ex_g38. unfold g_LL_prime_combined. cbn [wsum rsum_l fold_right]. lra. }
    rewrite GE. unfold combined_gradient, dv_g_LL_prime. cbn [length seq map nth wsum rsum_l fold_right].
    replace ((1 * (112 / 9) + 0) / (1 + 0)) with (112 / 9) by lra. reflexivity.
Qed.
