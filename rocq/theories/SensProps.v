(** Property C109: the sensitivity analysis. *)
From Coq Require Import Reals Lra Lia.
From Verif Require Import Base QuantityModel QuantityProofs PMapModel PMapProofs OptModel OptProps LearnModel LearnProps EstModel EstProps
  RobustProps LearnRunModel LearnRunProps SensModel.
Local Open Scope list_scope.
Local Notation length := List.length.

(** ** Specification *)

(** The parameters the data files set. *)
Definition controls (l : learner) (k : string) : Prop := exists t d, In (t, d) (le_data l) /\ In k (List.concat (norm_map (ld_map d))).
(** The parameters [ids] have the value [x]. *)
Definition all_at (ids : list string) (x : R) (pars : dict quantity) : Prop :=
  forall k, In k ids -> exists q, dget k pars = Some q /\ numpy q = [x].
(** Apart from [ids] and the control parameters, [pars] is [base]. *)
Definition others (l : learner) (ids : list string) (base pars : dict quantity) : Prop :=
  forall k, ~ In k ids -> ~ controls l k -> dget k pars = dget k base.
(** A data point compares its data with a simulation in which the parameters [ids] have the
    value [x], the control parameters those of the data set, and all others those of [base]. *)
Definition compared simulate lgamma (l : learner) (mids : list string) (ids : list string) (x : R) (base : dict quantity) (p : point) : Prop :=
  let m := p_set p in let pp := le_seqs_pp l in let target := fst (p_file p) in
  nth_error (ld_sets (snd (p_file p))) (p_index p) = Some m /\
  exists pars labels vals,
    all_at ids x pars /\ others l ids base pars /\
    (forall g v k, In (g, v) (combine (norm_map (ld_map (snd (p_file p)))) (ds_params m)) -> In k g -> exists q, dget k pars = Some q /\ numpy q = v) /\
    dget target (le_labels l) = Some labels /\
    simulate (filter (fun kv => smem (fst kv) mids) pars) pars (firstn pp (ds_seqs m)) labels = Ok vals /\
    (if String.eqb target "all"
     then neg_loglkh_multinom_norm lgamma (firstn pp (ds_results m)) vals (firstn pp (ds_stds m)) (firstn pp (ds_shots m))
     else g_LL_prime (List.concat (firstn pp (ds_results m))) (List.concat vals) (List.concat (firstn pp (ds_stds m)))
                     (spread vals (firstn pp (ds_shots m)))) = Ok (p_goal p).
(** The data points a run selects. *)
Definition selected (sampling : nat -> list dataset -> nat -> result (list nat)) (l : learner) (inv : bool) (td : string * ldata) (is : list nat) : Prop :=
  exists b n ind, dget (fst td) (le_batch l) = Some b /\ sampling n (ld_sets (snd td)) b = Ok ind /\
    is = select_from_data ind (length (ld_sets (snd td))) inv.
(** [g] is the weighted mean over the selected data points. *)
Definition goal_at sampling simulate lgamma (l : learner) (mids : list string) (inv : bool) (ids : list string) (x : R) (base : dict quantity) (g : R) : Prop :=
  exists iss ps, Forall2 (selected sampling l inv) (le_data l) iss /\
    map (fun p => (p_file p, p_index p)) ps = List.concat (map (fun fi => map (pair (fst fi)) (snd fi)) (combine (le_data l) iss)) /\
    Forall (compared simulate lgamma l mids ids x base) ps /\
    (rsum_l (map (p_weight l) ps) * g = rsum_l (map (fun p => p_weight l p * p_goal p) ps))%R /\ rsum_l (map (p_weight l) ps) <> 0%R.

(** Data files whose maps name every parameter once. *)
Definition good_files (l : learner) : Prop :=
  forall t d, In (t, d) (le_data l) -> NoDup (List.concat (norm_map (ld_map d))) /\ Forall (fun g => g <> []) (norm_map (ld_map d)).

(** ** One evaluation *)
Section Goal.
  Variable sampling : nat -> list dataset -> nat -> result (list nat).
  Variable simulate : dict quantity -> dict quantity -> list (list string) -> list (list nat) -> result (list (list R)).
  Variable lgamma : R -> R.
  Variable l : learner.
  Variable s0 : lstate.
  Variable ids : list string.
  Variable x : R.
  Hypothesis SC : le_scaling l = false.
  Hypothesis ND : NoDup (keys (pm_pars (ls_pm s0))).
  Hypothesis W : wfd (pm_pars (ls_pm s0)).
  Hypothesis HM : pm_opt_map (ls_pm s0) = [ids].
  Hypothesis NI : NoDup ids.
  Hypothesis NE : ids <> [].
  Hypothesis HC : forall k, In k ids -> ~ controls l k.
  Hypothesis GF : good_files l.
  Notation mids := (pm_model_ids (ls_pm s0)).
  Notation base := (pm_pars (ls_pm s0)).
  Notation touched := (fun k => In k ids \/ controls l k).

  Definition since (s : lstate) : Prop := pm_agree touched (ls_pm s0) (ls_pm s) /\ ls_inverse s = ls_inverse s0 /\ ls_eval s = ls_eval s0.

  Lemma since_others : forall s, since s -> others l ids base (pm_pars (ls_pm s)).
  Proof.
    intros s ((_ & _ & _ & _ & A) & _) k K1 K2. pose proof (proj2 A k) as O. unfold oagree in O.
    destruct (dget k base) as [q|], (dget k (pm_pars (ls_pm s))) as [q'|]; try contradiction; [|reflexivity].
    f_equal. symmetry. apply O. tauto.
  Qed.
  Lemma at_point : forall t d m s s' vals, since s -> In (t, d) (le_data l) ->
    one_par_sim_vals simulate l s [x] (ld_map d) m t = Ok (s', vals) ->
    since s' /\ all_at ids x (pm_pars (ls_pm s'))
    /\ (forall g v k, In (g, v) (combine (norm_map (ld_map d)) (ds_params m)) -> In k g -> exists q, dget k (pm_pars (ls_pm s')) = Some q /\ numpy q = v)
    /\ exists labels, dget t (le_labels l) = Some labels /\
         simulate (filter (fun kv => smem (fst kv) mids) (pm_pars (ls_pm s'))) (pm_pars (ls_pm s')) (firstn (le_seqs_pp l) (ds_seqs m)) labels = Ok vals.
  Proof.
    intros t d m s s' vals (FS & FI & FE) Hin H. pose proof FS as (F1 & F2 & F3 & F4 & F5).
    assert (NDs : NoDup (keys (pm_pars (ls_pm s)))) by (rewrite <- (proj1 F5); exact ND).
    destruct (sim_spec _ _ _ _ _ _ _ _ _ NDs H) as (pm1 & labels & SET & SETG & HL & HS & HMo & I1 & I2 & FR & FG). rewrite SC in SET.
    pose proof FR as (R1 & R2 & R3 & R4 & R5). pose proof FG as (G1 & G2 & G3 & G4 & G5). cbn [refresh pm_model_ids pm_pars pm_opt_map] in G1, G2, G5.
    rewrite <- F2, HM in FR.
    destruct (GF t d Hin) as [N2 NE2]. assert (Ws : wfd (pm_pars (ls_pm s))) by exact (agree_wfd _ _ _ F5 W).
    split; [|split; [|split]].
    - split; [|split; congruence]. eapply pm_agree_weaken; [|exact (pm_agree_trans _ _ _ _ _ FS (pm_agree_trans _ _ _ _ _ FR FG))].
      intros k [K|[K|K]]; [exact K|left; unfold in_map in K; cbn [List.concat] in K; rewrite app_nil_r in K; exact K|]. right. exists t, d. split; [exact Hin|exact K].
    - intros k Hk. cbn [map] in SET.
      destruct (set_parameters_readback (ls_pm s) [[x]] None false pm1 Ws) as [_ RB].
      + cbn [get_opt_map]. rewrite <- F2, HM. cbn [List.concat]. rewrite app_nil_r. exact NI.
      + cbn [get_opt_map]. rewrite <- F2, HM. constructor; [exact NE|constructor].
      + exact SET.
      + cbn [get_opt_map] in RB. rewrite <- F2, HM in RB. destruct (RB ids [x] k (or_introl eq_refl) Hk) as (q & Hq & Nq). exists q. split; [|exact Nq].
        pose proof (proj2 G5 k) as O. rewrite Hq in O. unfold oagree in O. destruct (dget k (pm_pars (ls_pm s'))) as [q2|]; [|contradiction].
        f_equal. symmetry. apply O. intro K. apply (HC k Hk). exists t, d. split; [exact Hin|exact K].
    - assert (W1 : wfd (pm_pars (refresh pm1))) by exact (agree_wfd _ _ _ R5 Ws).
      destruct (set_parameters_readback (refresh pm1) (ds_params m) (Some (ld_map d)) false (ls_pm s') W1 N2 NE2 SETG) as [_ RB]. exact RB.
    - exists labels. split; [exact HL|]. rewrite <- HS, HMo. unfold model_part. rewrite F1, R1, G1. reflexivity.
  Qed.

  Lemma goal_one : forall t d i s goals weights s' goals' weights', since s -> In (t, d) (le_data l) ->
    one_point simulate lgamma l [x] t d i (s, goals, weights) = Ok (s', goals', weights') ->
    since s' /\ all_at ids x (pm_pars (ls_pm s')) /\ exists p, p_file p = (t, d) /\ p_index p = i /\ compared simulate lgamma l mids ids x base p /\
      goals' = goals ++ [p_goal p] /\ weights' = weights ++ [p_weight l p].
  Proof.
    intros t d i s goals weights s' goals' weights' S0 Hin H. unfold one_point in H.
    destruct (nth_error (ld_sets d) i) as [m|] eqn:EN; [|discriminate H].
    destruct (one_par_sim_vals simulate l s [x] (ld_map d) m t) as [[s1 vals]|] eqn:ES; [|discriminate H]. cbn [rbind fst snd] in H.
    destruct (one_goal lgamma t _ vals _ _) as [g|] eqn:EG; [|discriminate H]. cbn [rbind] in H. injection H as <- <- <-.
    destruct (at_point _ _ _ _ _ _ S0 Hin ES) as (S1 & A1 & A2 & lab & L1 & L2).
    split; [exact S1|]. split; [exact A1|]. exists (mkP (t, d) i m g). cbn [p_file p_index p_goal]. split; [reflexivity|]. split; [reflexivity|].
    split; [|split; [reflexivity|]].
    - unfold compared. cbn [p_file p_index p_set p_goal fst snd]. split; [exact EN|]. exists (pm_pars (ls_pm s1)), lab, vals.
      split; [exact A1|]. split; [apply since_others; exact S1|]. split; [exact A2|]. split; [exact L1|]. split; [exact L2|exact EG].
    - f_equal. f_equal. unfold p_weight, num_seqs. cbn [p_file p_set fst snd]. destruct (String.eqb t "all"); [|reflexivity].
      rewrite mult_INR. cbn [INR]. ring.
  Qed.
  Lemma goal_more : forall t d is s goals weights s' goals' weights', since s -> (weights = [] \/ all_at ids x (pm_pars (ls_pm s))) -> In (t, d) (le_data l) ->
    all_points simulate lgamma l [x] t d is (s, goals, weights) = Ok (s', goals', weights') ->
    since s' /\ (weights' = [] \/ all_at ids x (pm_pars (ls_pm s'))) /\ exists ps, map p_file ps = map (fun _ => (t, d)) is /\ map p_index ps = is /\ Forall (compared simulate lgamma l mids ids x base) ps /\
      goals' = goals ++ map p_goal ps /\ weights' = weights ++ map (p_weight l) ps.
  Proof.
    intros t d is. induction is as [|i is IH]; intros s goals weights s' goals' weights' FS A Hin H; cbn [all_points] in H.
    - injection H as <- <- <-. split; [exact FS|]. split; [exact A|]. exists []. rewrite !app_nil_r. repeat split. constructor.
    - destruct (one_point simulate lgamma l [x] t d i (s, goals, weights)) as [[[s1 g1] w1]|] eqn:E1; [|discriminate H].
      cbn [rbind] in H. destruct (goal_one _ _ _ _ _ _ _ _ _ FS Hin E1) as (FS1 & A1 & p & P1 & P2 & P3 & P4 & P5).
      destruct (IH _ _ _ _ _ _ FS1 (or_intror A1) Hin H) as (FS2 & A2 & ps & Q1 & Q2 & Q3 & Q4 & Q5). split; [exact FS2|]. split; [exact A2|]. exists (p :: ps).
      cbn [map]. rewrite P1, P2, Q1, Q2. repeat split; [constructor; assumption| |].
      + rewrite Q4, P4, <- app_assoc. reflexivity.
      + rewrite Q5, P5, <- app_assoc. reflexivity.
  Qed.
  Lemma goal_all : forall data s goals weights s' goals' weights', since s -> (weights = [] \/ all_at ids x (pm_pars (ls_pm s))) -> (forall td, In td data -> In td (le_data l)) ->
    all_targets sampling simulate lgamma l [x] data (s, goals, weights) = Ok (s', goals', weights') ->
    since s' /\ (weights' = [] \/ all_at ids x (pm_pars (ls_pm s'))) /\ exists iss ps, Forall2 (selected sampling l (ls_inverse s0)) data iss /\
      map (fun p => (p_file p, p_index p)) ps = List.concat (map (fun fi => map (pair (fst fi)) (snd fi)) (combine data iss)) /\
      Forall (compared simulate lgamma l mids ids x base) ps /\
      goals' = goals ++ map p_goal ps /\ weights' = weights ++ map (p_weight l) ps.
  Proof.
    induction data as [|[t d] data IH]; intros s goals weights s' goals' weights' FS A HD H; cbn [all_targets] in H.
    - injection H as <- <- <-. split; [exact FS|]. split; [exact A|]. exists [], []. rewrite !app_nil_r. repeat split; constructor.
    - destruct (dget t (le_batch l)) as [b|] eqn:EB; [|discriminate H]. unfold select in H.
      destruct (sampling (ls_draws s) (ld_sets d) b) as [ind|] eqn:EI; [|discriminate H]. cbn [rbind fst snd] in H.
      match type of H with rbind (all_points _ _ _ _ _ _ ?is0 (?s10, _, _)) _ = _ => set (is := is0) in H; set (s1 := s10) in H end.
      assert (FS1 : since s1) by exact FS.
      destruct (all_points simulate lgamma l [x] t d is (s1, goals, weights)) as [[[s2 g2] w2]|] eqn:E1; [|discriminate H].
      cbn [rbind] in H.
      destruct (goal_more _ _ _ _ _ _ _ _ _ FS1 A (HD _ (or_introl eq_refl)) E1) as (FS2 & A2 & ps & Q1 & Q2 & Q3 & Q4 & Q5).
      destruct (IH _ _ _ _ _ _ FS2 A2 (fun td Hin => HD td (or_intror Hin)) H) as (FS3 & A3 & iss & ps' & R1 & R2 & R3 & R4 & R5).
      split; [exact FS3|]. split; [exact A3|]. exists (is :: iss), (ps ++ ps'). split; [|split; [|split; [|split]]].
      + constructor; [|exact R1]. exists b, (ls_draws s), ind. cbn [fst snd]. repeat split; auto. subst is. destruct FS as [_ [-> _]]. reflexivity.
      + rewrite map_app. cbn [combine map List.concat fst snd]. rewrite R2. f_equal. clear -Q1 Q2. revert Q1 Q2. generalize is as js. clear is.
        induction ps as [|p ps IHp]; intros [|j js] A B; cbn in *; try discriminate; [reflexivity|]. injection A as A1 A2. injection B as B1 B2.
        rewrite A1, B1. f_equal. apply IHp; assumption.
      + apply Forall_app. split; assumption.
      + rewrite R4, Q4, map_app, app_assoc. reflexivity.
      + rewrite R5, Q5, map_app, app_assoc. reflexivity.
  Qed.
  Lemma goal_spec : forall s' g, goal_run sampling simulate lgamma l s0 [x] = Ok (s', g) ->
    goal_at sampling simulate lgamma l mids (ls_inverse s0) ids x base g
    /\ pm_agree touched (ls_pm s0) (ls_pm s') /\ ls_inverse s' = ls_inverse s0 /\ all_at ids x (pm_pars (ls_pm s'))
    /\ ls_params s' = [[x]] /\ ls_goal s' = Some g.
  Proof.
    intros s' g H. unfold goal_run in H.
    destruct (all_targets sampling simulate lgamma l [x] (le_data l) (s0, [], [])) as [[[s1 gs] ws]|] eqn:E; [|discriminate H].
    assert (FS : since s0) by (split; [|split; reflexivity]; eapply pm_agree_weaken; [|repeat split; apply agree_refl]; intros k []).
    destruct (goal_all _ _ _ _ _ _ _ FS (or_introl eq_refl) (fun td K => K) E) as (FS1 & A & iss & ps & A1 & A2 & A3 & A4 & A5).
    cbn [rbind] in H. destruct (Req_EM_T (rsum_l ws) 0) as [Z|Z]; [discriminate H|].
    destruct A as [->|A]; [exfalso; apply Z; reflexivity|].
    destruct (get_parameters (ls_pm s1) None) as [qs|] eqn:EQ; [|discriminate H]. cbn [rbind] in H. injection H as <- <-. cbn [ls_goal ls_eval ls_pm ls_params ls_inverse app] in *.
    destruct FS1 as (B1 & B2 & B3). split; [|split; [exact B1|split; [exact B2|split; [exact A|split; [|reflexivity]]]]].
    - exists iss, ps. split; [exact A1|]. split; [exact A2|]. split; [exact A3|]. subst gs ws. split; [|exact Z].
      unfold g_LL_prime_combined. set (w := rsum_l (map (p_weight l) ps)) in *.
      replace (wsum (map (p_weight l) ps) (map p_goal ps)) with (rsum_l (map (fun p => p_weight l p * p_goal p)%R ps)); [field; exact Z|].
      clear. induction ps as [|p ps IH]; [reflexivity|]. cbn [map wsum rsum_l fold_right]. rewrite <- IH. reflexivity.
    - unfold get_parameters in EQ. cbn [get_opt_map] in EQ. destruct B1 as (_ & B1 & _). rewrite <- B1, HM in EQ. cbn [mapM] in EQ.
      destruct ids as [|k r]; [congruence|]. cbn [leader] in EQ. destruct (A k (or_introl eq_refl)) as (q & Hq & Nq). rewrite Hq in EQ. cbn [rbind snd] in EQ.
      injection EQ as <-. cbn [map]. rewrite Nq. reflexivity.
  Qed.
End Goal.

(** ** Sweeps *)
Lemma others_trans : forall l ids a b c, others l ids a b -> others l ids b c -> others l ids a c.
Proof. intros l ids a b c H1 H2 k K1 K2. rewrite H2, H1 by assumption. reflexivity. Qed.
Lemma goal_rebase : forall sampling simulate lgamma l mids inv ids x b b' g, others l ids b b' ->
  goal_at sampling simulate lgamma l mids inv ids x b' g -> goal_at sampling simulate lgamma l mids inv ids x b g.
Proof.
  intros sampling simulate lgamma l mids inv ids x b b' g O (iss & ps & A1 & A2 & A3 & A4 & A5). exists iss, ps.
  split; [exact A1|]. split; [exact A2|]. split; [|split; assumption]. eapply Forall_impl; [|exact A3].
  intros p (B1 & pars & labels & vals & C1 & C2 & C3). split; [exact B1|]. exists pars, labels, vals. split; [exact C1|]. split; [|exact C3].
  eapply others_trans; eauto.
Qed.

(** The points of one sweep: the initial point, the probes, and as many equidistant points
    as asked for between the bounds, which are widened to contain the probes. *)
Definition sweep_points (o : sens_options) (lo hi x0 : R) (xs : list R) : Prop :=
  let probes := match sn_probe o with Some p => p | None => [] end in
  let n := match sn_points o with Some n => n | None => 100%nat end in
  exists lo' hi' grid, xs = x0 :: probes ++ grid /\ length grid = n
  /\ (forall i, (i < n)%nat -> nth i grid 0%R = (lo' + INR i * ((hi' - lo') / INR (n - 1)))%R)
  /\ (lo' <= lo)%R /\ (hi <= hi')%R /\ Forall (fun p => lo' <= p <= hi')%R probes /\ (sn_probe o = None -> lo' = lo /\ hi' = hi).
(** One sweep of [ids], with everything else as in [base]; it leaves [base']. *)
Definition sweep_of sampling simulate lgamma (l : learner) (o : sens_options) (bounds : list (R * R)) (inits : list R) (mids : list string) (inv : bool)
           (i : nat) (ids : list string) (base base' : dict quantity) (w : swept) : Prop :=
  exists lo hi x0 xs, nth_error bounds i = Some (lo, hi) /\ nth_error inits i = Some x0 /\ sweep_points o lo hi x0 xs
  /\ sw_name w = String.concat "" ids
  /\ Forall2 (fun x e => fst e = [[x]] /\ goal_at sampling simulate lgamma l mids inv ids x base (snd e)) xs (sw_log w)
  /\ (exists es e, sw_log w = es ++ [e] /\ sw_params w = fst e /\ sw_goal w = Some (snd e))
  /\ all_at ids (last xs 0%R) base' /\ others l ids base base'.

Lemma join_concat : forall ids, join_ids ids = String.concat "" ids.
Proof.
  induction ids as [|a ids IH]; [reflexivity|]. cbn [join_ids fold_right]. unfold join_ids in IH. rewrite IH. destruct ids; cbn [String.concat append].
  - induction a as [|c a IHa]; [reflexivity|]. cbn. rewrite IHa. reflexivity.
  - reflexivity.
Qed.
Lemma last_cons_ne : forall {A} (l : list A) x d, l <> [] -> last (x :: l) d = last l d.
Proof. intros A [|y l] x d H; [congruence|reflexivity]. Qed.

Definition unscaled (l : learner) : learner := mkL (le_data l) (le_batch l) (le_labels l) (le_seqs_pp l) false.

Section Sweeps.
  Variable sampling : nat -> list dataset -> nat -> result (list nat).
  Variable simulate : dict quantity -> dict quantity -> list (list string) -> list (list nat) -> result (list (list R)).
  Variable lgamma : R -> R.
  Variable l : learner.
  Hypothesis SC : le_scaling l = false.
  Hypothesis GF : good_files l.

  (** a state in a run that began with [s0] *)
  Definition sound (mids : list string) (inv : bool) (s : lstate) : Prop :=
    NoDup (keys (pm_pars (ls_pm s))) /\ wfd (pm_pars (ls_pm s)) /\ pm_model_ids (ls_pm s) = mids /\ ls_inverse s = inv.
  Definition good_ids (ids : list string) : Prop := ids <> [] /\ NoDup ids /\ forall k, In k ids -> ~ controls l k.

  Lemma fct_spec : forall mids inv ids x st st', sound mids inv (se_s st) -> good_ids ids -> pm_opt_map (ls_pm (se_s st)) = [ids] ->
    sens_fct sampling simulate lgamma l st [x] = Ok st' ->
    exists g, goal_at sampling simulate lgamma l mids inv ids x (pm_pars (ls_pm (se_s st))) g /\ se_log st' = se_log st ++ [([[x]], g)]
    /\ sound mids inv (se_s st') /\ pm_opt_map (ls_pm (se_s st')) = [ids]
    /\ all_at ids x (pm_pars (ls_pm (se_s st'))) /\ others l ids (pm_pars (ls_pm (se_s st))) (pm_pars (ls_pm (se_s st')))
    /\ ls_params (se_s st') = [[x]] /\ ls_goal (se_s st') = Some g
    /\ (se_best st' <= se_best st)%R /\ (se_best st' <= g)%R /\ ((se_best st <= g)%R -> se_file st' = se_file st /\ se_best st' = se_best st).
  Proof.
    intros mids inv ids x st st' (ND & W & M & IN) (NE & NI & HC) HM H. unfold sens_fct in H.
    destruct (get_parameters (ls_pm (se_s st)) None) as [qs|]; [|discriminate]. cbn [rbind] in H.
    destruct (goal_run sampling simulate lgamma l (se_s st) [x]) as [[s1 g]|] eqn:E; [|discriminate]. cbn [rbind] in H.
    destruct (goal_spec sampling simulate lgamma l (se_s st) ids x SC ND W HM NI NE HC GF s1 g E) as (G1 & G2 & G3 & G4 & G5 & G6).
    pose proof G2 as (P1 & P2 & P3 & P4 & P5).
    assert (SD : sound mids inv s1).
    { split; [rewrite <- (proj1 P5); exact ND|]. split; [exact (agree_wfd _ _ _ P5 W)|]. split; congruence. }
    assert (OT : others l ids (pm_pars (ls_pm (se_s st))) (pm_pars (ls_pm s1))).
    { intros k K1 K2. pose proof (proj2 P5 k) as O. unfold oagree in O.
      destruct (dget k (pm_pars (ls_pm (se_s st)))) as [q|], (dget k (pm_pars (ls_pm s1))) as [q'|]; try contradiction; [|reflexivity].
      f_equal. symmetry. apply O. tauto. }
    exists g. rewrite M, IN in G1. unfold Rltb in H. destruct (Rlt_dec g (se_best st)) as [Lt|Lt].
    - destruct (store_status (ls_pm s1) (ls_params s1)) as [f|]; [|discriminate]. cbn [rbind] in H. injection H as <-. cbn [se_s se_best se_log se_file].
      split; [exact G1|]. split; [rewrite G5; reflexivity|]. split; [exact SD|]. split; [congruence|]. split; [exact G4|]. split; [exact OT|]. split; [exact G5|]. split; [exact G6|].
      split; [lra|]. split; [lra|]. intro; lra.
    - injection H as <-. cbn [se_s se_best se_log se_file].
      split; [exact G1|]. split; [rewrite G5; reflexivity|]. split; [exact SD|]. split; [congruence|]. split; [exact G4|]. split; [exact OT|]. split; [exact G5|]. split; [exact G6|].
      split; [lra|]. split; [lra|]. auto.
  Qed.
  Lemma calls_spec : forall mids inv ids xs st st', sound mids inv (se_s st) -> good_ids ids -> pm_opt_map (ls_pm (se_s st)) = [ids] ->
    sens_calls sampling simulate lgamma l st (map (fun x => AVec [x]) xs) = Ok st' ->
    exists es, se_log st' = se_log st ++ es
    /\ Forall2 (fun x e => fst e = [[x]] /\ goal_at sampling simulate lgamma l mids inv ids x (pm_pars (ls_pm (se_s st))) (snd e)) xs es
    /\ sound mids inv (se_s st') /\ pm_opt_map (ls_pm (se_s st')) = [ids] /\ others l ids (pm_pars (ls_pm (se_s st))) (pm_pars (ls_pm (se_s st')))
    /\ (xs <> [] -> all_at ids (last xs 0%R) (pm_pars (ls_pm (se_s st'))) /\ exists es' e, es = es' ++ [e] /\ ls_params (se_s st') = fst e /\ ls_goal (se_s st') = Some (snd e))
    /\ (se_best st' <= se_best st)%R /\ Forall (fun e => se_best st' <= snd e)%R es
    /\ (Forall (fun e => se_best st <= snd e)%R es -> se_file st' = se_file st).
  Proof.
    intros mids inv ids xs. induction xs as [|x xs IH]; intros st st' SD GI HM H; cbn [map sens_calls] in H.
    - injection H as <-. exists []. rewrite app_nil_r. split; [reflexivity|]. split; [constructor|]. split; [exact SD|]. split; [exact HM|].
      split; [intros k _ _; reflexivity|]. split; [congruence|]. split; [lra|]. split; [constructor|reflexivity].
    - destruct (sens_fct sampling simulate lgamma l st [x]) as [st1|] eqn:E; [|discriminate]. cbn [rbind] in H.
      destruct (fct_spec _ _ _ _ _ _ SD GI HM E) as (g & A1 & A2 & A3 & A4 & A5 & A6 & A7 & A8 & A9 & A10 & A11).
      destruct (IH _ _ A3 GI A4 H) as (es & B1 & B2 & B3 & B4 & B5 & B6 & B7 & B8 & B9).
      exists (([[x]], g) :: es). split; [rewrite B1, A2, <- app_assoc; reflexivity|]. split.
      { constructor; [split; [reflexivity|exact A1]|]. eapply Forall2_impl; [|exact B2]. intros y e [C1 C2]. split; [exact C1|]. eapply goal_rebase; [|exact C2]. exact A6. }
      split; [exact B3|]. split; [exact B4|]. split; [eapply others_trans; eauto|]. split.
      { intros _. destruct xs as [|y ys].
        - inversion B2; subst. cbn [map sens_calls] in H. injection H as <-. split; [exact A5|]. exists [], ([[x]], g). split; [reflexivity|]. split; assumption.
        - destruct (B6 ltac:(discriminate)) as (C1 & es' & e & C2 & C3). split; [exact C1|]. exists (([[x]], g) :: es'), e. rewrite C2. split; [reflexivity|exact C3]. }
      split; [lra|]. split; [constructor; [cbn [snd]; lra|exact B8]|].
      intro F. inversion F as [|? ? F1 F2]; subst. cbn [snd] in F1. destruct (A11 F1) as (D1 & D2). rewrite <- D1. apply B9. rewrite D2. exact F2.
  Qed.
  Lemma sweep_calls : forall o lo hi x0 cs e, sweep [x0] (mkSO (sn_points o) [(lo, hi)] None true (sn_probe o)) = (cs, e) -> e = None ->
    exists xs, cs = map (fun x => AVec [x]) xs /\ sweep_points o lo hi x0 xs /\ xs <> [].
  Proof.
    intros o lo hi x0 cs e H ->. set (so := mkSO (sn_points o) [(lo, hi)] None true (sn_probe o)) in *.
    destruct (sn_probe o) as [[|p ps]|] eqn:Ep.
    { exfalso. unfold sweep, so in H. cbn in H. discriminate. }
    all: destruct (C58_sweep x0 [] so lo hi [] eq_refl) as (l0 & l1 & l2 & lo' & hi' & E & E0 & F1 & F2 & A1 & A2 & A3 & A4);
      [cbn; congruence|exact I|]; rewrite H in E; injection E as ->; cbn [so_init so_probe so] in E0, F1, A3, A4; rewrite ?Ep in *.
    all: assert (CP : forall xs ys, Forall2 (calls_point so) xs ys -> ys = map (fun x => AVec [x]) xs)
      by (intros xs ys F; induction F as [|x a xs ys C F IH]; [reflexivity|]; cbn [map]; rewrite <- IH; f_equal; unfold calls_point in C; cbn [so_wrapper so] in C; exact C).
    all: rewrite (CP _ _ F1), (CP _ _ F2), E0.
    all: destruct (C58_linspace lo' hi' (points_of so)) as (L1 & L2 & _).
    - exists (x0 :: (p :: ps) ++ linspace lo' hi' (points_of so)). split; [cbn [map app]; rewrite map_app; reflexivity|]. split; [|discriminate].
      unfold sweep_points. rewrite Ep. exists lo', hi', (linspace lo' hi' (points_of so)). split; [reflexivity|]. split; [exact L1|]. split; [exact L2|]. auto.
    - exists (x0 :: linspace lo' hi' (points_of so)). split; [reflexivity|]. split; [|discriminate].
      unfold sweep_points. rewrite Ep. exists lo', hi', (linspace lo' hi' (points_of so)). split; [reflexivity|]. split; [exact L1|]. split; [exact L2|]. auto.
  Qed.
  Lemma one_spec : forall mids inv o bounds i ids st st' w, sound mids inv (se_s st) -> good_ids ids ->
    one_sweep sampling simulate lgamma l o bounds i ids st = Ok (st', w) ->
    exists inits, sn_init o = Some inits
    /\ sweep_of sampling simulate lgamma l o bounds inits mids inv i ids (pm_pars (ls_pm (se_s st))) (pm_pars (ls_pm (se_s st'))) w
    /\ sound mids inv (se_s st')
    /\ (se_best st' <= se_best st)%R /\ Forall (fun e => se_best st' <= snd e)%R (sw_log w)
    /\ (Forall (fun e => se_best st <= snd e)%R (sw_log w) -> sw_file w = None).
  Proof.
    intros mids inv o bounds i ids st st' w SD GI H. unfold one_sweep in H. cbv zeta in H.
    destruct (nth_error bounds i) as [[lo hi]|] eqn:Eb; [|discriminate]. destruct (get_opt_units _) as [us|]; [|discriminate]. cbn [rbind] in H.
    destruct (sn_init o) as [inits|] eqn:Ei; [|discriminate]. destruct (nth_error inits i) as [x0|] eqn:Ex; [|discriminate].
    destruct (sweep [x0] _) as [cs e] eqn:Es. destruct (sens_calls _ _ _ _ _ cs) as [st1|] eqn:Ec; [|discriminate]. cbn [rbind] in H.
    destruct e; [discriminate|]. injection H as <- <-.
    destruct (sweep_calls _ _ _ _ _ _ Es eq_refl) as (xs & -> & SP & NX).
    destruct (calls_spec mids inv ids xs (mkSE (set_map (se_s st) [ids]) (se_best st) [] None) st1 SD GI eq_refl Ec) as (es & B1 & B2 & B3 & B4 & B5 & B6 & B7 & B8 & B9).
    cbn [se_log se_best se_file se_s set_map ls_pm with_opt_map pm_pars app] in *. subst es. destruct (B6 NX) as (C1 & C2).
    exists inits. split; [reflexivity|]. split.
    { exists lo, hi, x0, xs. split; [exact Eb|]. split; [exact Ex|]. split; [exact SP|]. cbn [sw_name sw_log sw_params sw_goal].
      split; [apply join_concat|]. split; [exact B2|]. split; [exact C2|]. split; [exact C1|exact B5]. }
    split; [exact B3|]. split; [exact B7|]. split; [exact B8|exact B9].
  Qed.
  Lemma sweeps_spec : forall mids inv o bounds map i st st' ws, sound mids inv (se_s st) -> Forall good_ids map ->
    sweeps sampling simulate lgamma l o bounds i map st = Ok (st', ws) ->
    length ws = length map /\ sound mids inv (se_s st') /\
    exists bases, length bases = length map /\ pm_pars (ls_pm (se_s st')) = last (pm_pars (ls_pm (se_s st)) :: bases) []
    /\ (forall j ids w, nth_error map j = Some ids -> nth_error ws j = Some w -> exists inits, sn_init o = Some inits /\
         sweep_of sampling simulate lgamma l o bounds inits mids inv (i + j) ids (nth j (pm_pars (ls_pm (se_s st)) :: bases) []) (nth j bases []) w)
    /\ (forall j w, nth_error ws j = Some w -> (Forall (fun e => se_best st <= snd e)%R (sw_log w) -> sw_file w = None)
         /\ forall h v e, (h < j)%nat -> nth_error ws h = Some v -> In e (sw_log v) -> Forall (fun e' => snd e <= snd e')%R (sw_log w) -> sw_file w = None).
  Proof.
    intros mids inv o bounds map. induction map as [|ids map IH]; intros i st st' ws SD G H; cbn [sweeps] in H.
    - injection H as <- <-. split; [reflexivity|]. split; [exact SD|]. exists []. split; [reflexivity|]. split; [reflexivity|]. split; intros [|j]; discriminate.
    - inversion G as [|? ? G1 G2]; subst. destruct (one_sweep sampling simulate lgamma l o bounds i ids st) as [[st1 w]|] eqn:E1; [|discriminate]. cbn [rbind fst snd] in H.
      destruct (sweeps sampling simulate lgamma l o bounds (S i) map st1) as [[st2 ws2]|] eqn:E2; [|discriminate]. cbn [rbind fst snd] in H. injection H as <- <-.
      destruct (one_spec _ _ _ _ _ _ _ _ _ SD G1 E1) as (inits & I1 & S1 & SD1 & L1 & L2 & L3).
      destruct (IH _ _ _ _ SD1 G2 E2) as (Len & SD2 & bases & B1 & B2 & B3 & B4).
      split; [cbn [length]; rewrite Len; reflexivity|]. split; [exact SD2|]. exists (pm_pars (ls_pm (se_s st1)) :: bases).
      split; [cbn [length]; rewrite B1; reflexivity|]. split; [rewrite last_cons_ne by discriminate; exact B2|]. split.
      + intros [|j] ids' w' H1 H2; cbn [nth_error nth] in *.
        * injection H1 as <-. injection H2 as <-. exists inits. split; [exact I1|]. rewrite Nat.add_0_r. exact S1.
        * rewrite <- Nat.add_succ_comm. exact (B3 j ids' w' H1 H2).
      + intros [|j] w' H1; cbn [nth_error] in H1.
        * injection H1 as <-. split; [exact L3|]. intros h v e Hh; lia.
        * destruct (B4 j w' H1) as (C1 & C2). split.
          { intro F. apply C1. eapply Forall_impl; [|exact F]. cbv beta. intros; lra. }
          intros [|h] v e Hh Hv He F; cbn [nth_error] in Hv.
          { injection Hv as <-. apply C1. rewrite Forall_forall in L2. specialize (L2 e He). eapply Forall_impl; [|exact F]. cbv beta. intros; lra. }
          { eapply C2; eauto. lia. }
  Qed.
End Sweeps.

(** ** C109 *)

(** A sensitivity analysis that finishes has swept every requested parameter over its points;
    each point is logged with the goal of exactly this value of the parameter, and
    sweep_end holds its name and the last of these entries.  The other parameters have the
    values the previous sweep left. *)
Theorem C109_sweeps :
  forall sampling simulate lgamma l o bounds map s st ws,
  let pars := pm_pars (ls_pm s) in
  NoDup (keys pars) -> wfd pars -> good_files l ->
  Forall (fun ids => ids <> [] /\ NoDup ids /\ forall k, In k ids -> ~ controls l k) map ->
  sensitivity sampling simulate lgamma l o bounds map s = Ok (st, ws) ->
  length ws = length map /\
  exists inits bases, sn_init o = Some inits /\ length bases = length map
  /\ pm_pars (ls_pm (se_s st)) = last (pars :: bases) []
  /\ forall j ids w, nth_error map j = Some ids -> nth_error ws j = Some w ->
       sweep_of sampling simulate lgamma l o bounds inits (pm_model_ids (ls_pm s)) (ls_inverse s) j ids (nth j (pars :: bases) []) (nth j bases []) w.
Proof.
  intros sampling simulate lgamma l o bounds map s st ws pars ND W GF GI H. unfold sensitivity, sens_init in H.
  destruct map as [|ids0 map0]; [discriminate|]. cbn [rbind fst snd] in H. fold (unscaled l) in H. set (map := ids0 :: map0) in *.
  assert (SD : sound (pm_model_ids (ls_pm s)) (ls_inverse s) (set_map s [ids0])) by (split; [exact ND|split; [exact W|split; reflexivity]]).
  destruct (sweeps_spec sampling simulate lgamma (unscaled l) eq_refl GF _ _ o bounds map 0 (mkSE (set_map s [ids0]) sentinel [] None) _ _ SD GI H) as (Len & _ & bases & B1 & B2 & B3 & _).
  split; [exact Len|].
  assert (HI : exists inits, sn_init o = Some inits).
  { destruct ws as [|w ws]; [discriminate Len|]. destruct (B3 0%nat ids0 w eq_refl eq_refl) as (inits & HI & _). eauto. }
  destruct HI as (inits & HI). exists inits, bases. split; [exact HI|]. split; [exact B1|]. split; [exact B2|].
  intros j ids w H1 H2. destruct (B3 j ids w H1 H2) as (inits' & HI' & SW). assert (inits' = inits) by congruence. subst inits'. exact SW.
Qed.
Print Assumptions C109_sweeps.

(** Finding: a parameter is not put back after its sweep.  Every later parameter is swept with the
    earlier ones at the last point of their sweeps (the upper bound), not at the values they had
    when the analysis began. *)
Theorem C109_leftover_refuted :
  forall sampling simulate lgamma l o bounds map s st ws,
  NoDup (keys (pm_pars (ls_pm s))) -> wfd (pm_pars (ls_pm s)) -> good_files l ->
  Forall (fun ids => ids <> [] /\ NoDup ids /\ forall k, In k ids -> ~ controls l k) map ->
  sensitivity sampling simulate lgamma l o bounds map s = Ok (st, ws) ->
  forall i j ids ids' v w e es, (i < j)%nat -> nth_error map i = Some ids -> nth_error map j = Some ids' ->
  (forall h g k, (i < h <= j)%nat -> nth_error map h = Some g -> In k g -> ~ In k ids) ->
  nth_error ws i = Some v -> nth_error ws j = Some w -> sw_log v = es ++ [e] ->
  exists x base, fst e = [[x]] /\ all_at ids x base /\
    Forall (fun e' => exists y, fst e' = [[y]] /\ goal_at sampling simulate lgamma l (pm_model_ids (ls_pm s)) (ls_inverse s) ids' y base (snd e')) (sw_log w).
Proof.
  intros sampling simulate lgamma l o bounds map s st ws ND W GF GI H i j ids ids' v w e es Hij Hi Hj DIS Hv Hw EL.
  destruct (C109_sweeps _ _ _ _ _ _ _ _ _ _ ND W GF GI H) as (Len & inits & bases & I1 & B1 & _ & B3).
  destruct (B3 i ids v Hi Hv) as (lo & hi & x0 & xs & _ & _ & _ & _ & F & _ & AL & _). rewrite EL in F.
  apply Forall2_app_inv_r in F as (xs1 & xs2 & F1 & F2 & ->). inversion F2 as [|x e0 xs3 z [Fx _] F3]; subst. inversion F3; subst.
  rewrite last_last in AL. exists x. exists (nth j (pm_pars (ls_pm s) :: bases) []). split; [exact Fx|].
  assert (ST : forall d, (i + d < j)%nat -> all_at ids x (nth (i + d) bases [])).
  { induction d as [|d IH]; intro Hd; [rewrite Nat.add_0_r; exact AL|].
    assert (LT : (i + S d < length map)%nat) by (assert (j < length map)%nat by (apply nth_error_Some; congruence); lia).
    destruct (nth_error map (i + S d)) as [g|] eqn:Eg; [|apply nth_error_None in Eg; lia].
    destruct (nth_error ws (i + S d)) as [u|] eqn:Eu; [|apply nth_error_None in Eu; lia].
    destruct (B3 _ _ _ Eg Eu) as (_ & _ & _ & _ & _ & _ & _ & _ & _ & _ & _ & OT).
    replace (nth (i + S d) (pm_pars (ls_pm s) :: bases) []) with (nth (i + d) bases []) in OT by (rewrite Nat.add_succ_r; reflexivity).
    specialize (IH ltac:(lia)). intros k Hk. destruct (IH k Hk) as (q & Q1 & Q2). exists q. split; [|exact Q2]. rewrite (OT k); [exact Q1| |].
    - intro K. exact (DIS (i + S d)%nat g k ltac:(lia) Eg K Hk).
    - rewrite Forall_forall in GI. exact (proj2 (proj2 (GI ids (nth_error_In _ _ Hi))) k Hk). }
  split.
  { destruct j as [|j]; [lia|]. cbn [nth]. replace j with (i + (j - i))%nat by lia. apply ST. lia. }
  destruct (B3 j ids' w Hj Hw) as (_ & _ & _ & ys & _ & _ & _ & _ & F' & _).
  clear -F'. induction F' as [|y e ys es [E1 E2] F' IH]; constructor; eauto.
Qed.
Print Assumptions C109_leftover_refuted.

(** Finding: the best goal is remembered across sweeps.  A sweep none of whose points beats an
    earlier sweep leaves no best point in its directory. *)
Theorem C109_best_file_refuted :
  forall sampling simulate lgamma l o bounds map s st ws,
  NoDup (keys (pm_pars (ls_pm s))) -> wfd (pm_pars (ls_pm s)) -> good_files l ->
  Forall (fun ids => ids <> [] /\ NoDup ids /\ forall k, In k ids -> ~ controls l k) map ->
  sensitivity sampling simulate lgamma l o bounds map s = Ok (st, ws) ->
  forall i j v w e, (i < j)%nat -> nth_error ws i = Some v -> nth_error ws j = Some w -> In e (sw_log v) ->
  (forall e', In e' (sw_log w) -> (snd e <= snd e')%R) -> sw_file w = None.
Proof.
  intros sampling simulate lgamma l o bounds map s st ws ND W GF GI H i j v w e Hij Hv Hw He HL. unfold sensitivity, sens_init in H.
  destruct map as [|ids0 map0]; [discriminate|]. cbn [rbind fst snd] in H. fold (unscaled l) in H. set (map := ids0 :: map0) in *.
  assert (SD : sound (pm_model_ids (ls_pm s)) (ls_inverse s) (set_map s [ids0])) by (split; [exact ND|split; [exact W|split; reflexivity]]).
  destruct (sweeps_spec sampling simulate lgamma (unscaled l) eq_refl GF _ _ o bounds map 0 (mkSE (set_map s [ids0]) sentinel [] None) _ _ SD GI H) as (_ & _ & bases & _ & _ & _ & B4).
  apply (proj2 (B4 j w Hw) i v e Hij Hv He). apply Forall_forall. exact HL.
Qed.
Print Assumptions C109_best_file_refuted.

(** Finding: the option init_point is not optional.  Without it no sweep starts: KeyError. *)
Theorem C109_init_point_refuted :
  forall sampling simulate lgamma l o bounds map s, sn_init o = None -> map <> [] ->
  (~ exists st ws, sensitivity sampling simulate lgamma l o bounds map s = Ok (st, ws))
  /\ (bounds <> [] -> (exists us, get_opt_units (ls_pm (set_map s [hd [] map])) = Ok us) -> sensitivity sampling simulate lgamma l o bounds map s = Err KeyError).
Proof.
  intros sampling simulate lgamma l o bounds map s HI NE. split.
  2:{ intros NB [us HU]. unfold sensitivity, sens_init. destruct map as [|ids map]; [congruence|]. cbn [rbind fst snd sweeps hd] in *. unfold one_sweep. cbv zeta.
      destruct bounds as [|bd bounds]; [congruence|]. cbn [nth_error se_s].
      change (ls_pm (set_map (set_map s [ids]) [ids])) with (ls_pm (set_map s [ids])). rewrite HU. cbn [rbind]. rewrite HI. reflexivity. }
  intros (st & ws & H). unfold sensitivity, sens_init in H.
  destruct map as [|ids map]; [congruence|]. cbn [rbind fst snd sweeps] in H. unfold one_sweep in H. cbv zeta in H.
  destruct (nth_error bounds 0); [|discriminate]. destruct (get_opt_units _); [|discriminate]. cbn [rbind] in H. rewrite HI in H. discriminate.
Qed.
Print Assumptions C109_init_point_refuted.

(** ** A concrete analysis *)
Local Open Scope string_scope.
Local Open Scope R_scope.
Definition sx_p (a b : R) (k : string) (n : nat) : pmap := mkPM [("a", ex_v a); ("b", ex_v b)] ["a"; "b"] [[k]] true true n.
Definition sx_sim (model pars : dict quantity) (seqs : list (list string)) (labels : list (list nat)) : result (list (list R)) :=
  Ok (map (fun _ => [ex_prob (ex_val pars "a") (ex_val pars "b")]) seqs).
Definition sx_set : dataset := {| ds_params := []; ds_seqs := [["rx90p[0]"]]; ds_results := [[1 / 4]]; ds_stds := [[1]]; ds_shots := [100] |}.
Definition sx_l : learner :=
  {| le_data := [("t", {| ld_sets := [sx_set]; ld_map := [] |})]; le_batch := [("t", 1%nat)]; le_labels := [("t", [[0%nat]])]; le_seqs_pp := 5; le_scaling := false |}.
Definition sx_s (a b : R) (k : string) (s : lstate) : Prop := (exists n, ls_pm s = sx_p a b k n) /\ ls_inverse s = false.
Definition sx_init (a b : R) : lstate :=
  {| ls_pm := sx_p a b "a" 0; ls_model := []; ls_inverse := false; ls_eval := 0; ls_draws := 0; ls_params := []; ls_goal := None |}.
Definition sx_a (k : string) (x a : R) : R := if String.eqb k "a" then x - 1 else a.
Definition sx_b (k : string) (x b : R) : R := if String.eqb k "b" then x - 1 else b.

Lemma sx_assign : forall a b k n x, k = "a" \/ k = "b" -> 0 <= x <= 2 ->
  exists n', set_parameters (sx_p a b k n) [[x]] None false = (sx_p (sx_a k x a) (sx_b k x b) k n', None).
Proof.
  intros a b k n x [-> | ->] Hx; unfold set_parameters, sx_p; cbn -[set_value ex_v Rminus]; unfold set_one; cbn -[set_value ex_v Rminus];
    rewrite ex_set_value by exact Hx; eexists; reflexivity.
Qed.
Lemma sx_run : forall a b k s x, sx_s a b k s -> k = "a" \/ k = "b" -> 0 <= x <= 2 ->
  exists s', goal_run (fun _ => ex_first) sx_sim (fun x => x) sx_l s [x] = Ok (s', ex_g (ex_prob (sx_a k x a) (sx_b k x b))) /\ sx_s (sx_a k x a) (sx_b k x b) k s'
  /\ ls_params s' = [[x]].
Proof.
  intros a b k s x [[n Hn] Hi] Hk Hx. unfold goal_run. cbn [sx_l le_data all_targets]. fold sx_l. change (dget "t" (le_batch sx_l)) with (Some 1%nat). cbv beta iota.
  unfold select. unfold ex_first at 1. cbn [length ld_sets Nat.min seq rbind fst snd]. rewrite Hi. cbn [select_from_data all_points]. unfold one_point.
  cbn [ld_sets nth_error]. unfold one_par_sim_vals. cbn [sx_l le_scaling ls_pm map]. rewrite Hn.
  destruct (sx_assign a b k n x Hk Hx) as (n' & ->). cbn [assign_pm fst snd rbind]. unfold update_model. cbn [ls_pm sx_p pm_has_model rbind].
  assert (ST : exists n3, set_parameters (refresh (sx_p (sx_a k x a) (sx_b k x b) k n')) (ds_params sx_set) (Some []) false = (sx_p (sx_a k x a) (sx_b k x b) k n3, None))
    by (eexists; reflexivity).
  destruct ST as (n3 & ST). cbn [ld_map]. rewrite ST. cbn [assign_pm fst snd rbind]. change (dget "t" (le_labels sx_l)) with (Some [[0%nat]]). cbv beta iota.
  unfold sx_sim. cbn [sx_l le_seqs_pp sx_set ds_seqs ds_results ds_stds ds_shots firstn map rbind fst snd ls_pm].
  change (ex_val (pm_pars (sx_p (sx_a k x a) (sx_b k x b) k n3)) "a") with (sx_a k x a). change (ex_val (pm_pars (sx_p (sx_a k x a) (sx_b k x b) k n3)) "b") with (sx_b k x b).
  unfold one_goal. cbn [String.eqb Ascii.eqb Bool.eqb]. unfold g_LL_prime, mean_of. cbn [List.concat app spread repeat length zip3 map fst snd rbind num_seqs String.eqb Ascii.eqb Bool.eqb].
  match goal with |- context [mean_l ?l] => assert (GE : mean_l l = ex_g (ex_prob (sx_a k x a) (sx_b k x b))) end.
  { unfold ex_g, mean_l. cbn [map rsum_l fold_right length INR]. rewrite Rplus_0_r. unfold Rdiv at 1. rewrite Rinv_1, Rmult_1_r. reflexivity. }
  rewrite GE. cbn [INR rbind app ls_pm fst snd]. destruct (Req_EM_T (rsum_l [1]) 0) as [Z|_]; [cbn in Z; lra|].
  assert (GQ : exists q, get_parameters (sx_p (sx_a k x a) (sx_b k x b) k n3) None = Ok [q] /\ numpy q = [x]).
  { destruct Hk as [-> | ->]; eexists; (split; [reflexivity|]); unfold numpy, get_value, ex_v; cbn; do 2 f_equal; lra. }
  destruct GQ as (q & GQ1 & GQ2). rewrite GQ1. cbn [rbind map]. rewrite GQ2.
  assert (GC : g_LL_prime_combined [ex_g (ex_prob (sx_a k x a) (sx_b k x b))] [1] = ex_g (ex_prob (sx_a k x a) (sx_b k x b))).
  { unfold g_LL_prime_combined. cbn [wsum rsum_l fold_right]. rewrite !Rplus_0_r, Rmult_1_l. unfold Rdiv. rewrite Rinv_1, Rmult_1_r. reflexivity. }
  rewrite GC. eexists. split; [reflexivity|]. split; [|reflexivity]. split; [exists n3; reflexivity|reflexivity].
Qed.
Lemma sx_fct : forall a b k st x, sx_s a b k (se_s st) -> k = "a" \/ k = "b" -> 0 <= x <= 2 ->
  exists st', sens_fct (fun _ => ex_first) sx_sim (fun x => x) sx_l st [x] = Ok st' /\ sx_s (sx_a k x a) (sx_b k x b) k (se_s st') /\
    se_log st' = (se_log st ++ [([[x]], ex_g (ex_prob (sx_a k x a) (sx_b k x b)))])%list.
Proof.
  intros a b k st x HS Hk Hx. unfold sens_fct.
  assert (GQ : exists q, get_parameters (ls_pm (se_s st)) None = Ok [q]) by (destruct HS as [[n ->] _]; destruct Hk as [-> | ->]; eexists; reflexivity).
  destruct GQ as (q & ->). cbn [rbind]. destruct (sx_run a b k (se_s st) x HS Hk Hx) as (s1 & -> & S1 & S2). cbn [rbind]. rewrite S2. destruct (Rltb _ _).
  - assert (SS : exists f, store_status (ls_pm s1) [[x]] = Ok f) by (destruct S1 as [[n ->] _]; destruct Hk as [-> | ->]; eexists; reflexivity).
    destruct SS as (f & ->). cbn [rbind]. eexists. split; [reflexivity|]. split; [exact S1|reflexivity].
  - eexists. split; [reflexivity|]. split; [exact S1|reflexivity].
Qed.
(** three points: the initial point 1 and both ends of the interval from 1/2 to 3/2 *)
Lemma sx_one : forall a b k i st, sx_s a b k (set_map (se_s st) [[k]]) -> k = "a" \/ k = "b" -> (i < 2)%nat ->
  exists st' w, one_sweep (fun _ => ex_first) sx_sim (fun x => x) sx_l (mkSN (Some 2%nat) None (Some [1; 1])) [(1 / 2, 3 / 2); (1 / 2, 3 / 2)] i [k] st = Ok (st', w)
    /\ sx_s (sx_a k (3 / 2) a) (sx_b k (3 / 2) b) k (se_s st')
    /\ sw_log w = map (fun x => ([[x]], ex_g (ex_prob (sx_a k x a) (sx_b k x b)))) [1; 1 / 2; 3 / 2].
Proof.
  intros a b k i st HS Hk Hi. unfold one_sweep. cbv zeta. cbn [sn_init sn_points sn_probe].
  assert (EB : nth_error [(1 / 2, 3 / 2); (1 / 2, 3 / 2)] i = Some (1 / 2, 3 / 2)) by (destruct i as [|[|i]]; [reflexivity|reflexivity|lia]).
  assert (EI : nth_error [1; 1] i = Some 1) by (destruct i as [|[|i]]; [reflexivity|reflexivity|lia]). rewrite EB, EI.
  assert (EU : exists us, get_opt_units (ls_pm (set_map (se_s st) [[k]])) = Ok us) by (destruct HS as [[n ->] _]; destruct Hk as [-> | ->]; eexists; reflexivity).
  destruct EU as (us & ->). cbn [rbind]. 
  assert (ES : sweep [1] (mkSO (Some 2%nat) [(1 / 2, 3 / 2)] None true None) = (map (fun x => AVec [x]) [1; 1 / 2; 3 / 2], None)).
  { unfold sweep. cbn. replace (1 / 2 + 0 * ((3 / 2 - 1 / 2) / 1)) with (1 / 2) by lra. replace (1 / 2 + 1 * ((3 / 2 - 1 / 2) / 1)) with (3 / 2) by lra. reflexivity. }
  rewrite ES. cbn [map sens_calls].
  destruct (sx_fct a b k (mkSE (set_map (se_s st) [[k]]) (se_best st) [] None) 1 HS Hk ltac:(lra)) as (st1 & -> & S1 & L1). cbn [rbind].
  destruct (sx_fct _ _ k st1 (1 / 2) S1 Hk ltac:(lra)) as (st2 & -> & S2 & L2). cbn [rbind].
  destruct (sx_fct _ _ k st2 (3 / 2) S2 Hk ltac:(lra)) as (st3 & -> & S3 & L3). cbn [rbind].
  eexists _, _. split; [reflexivity|]. rewrite L2, L1 in L3. cbn [sw_log se_log app] in *. rewrite L3.
  destruct Hk as [-> | ->]; unfold sx_a, sx_b in *; cbn [String.eqb Ascii.eqb Bool.eqb] in *; split; try exact S3; reflexivity.
Qed.

(** Two parameters, which multiply.  Swept after "a", the parameter "b" shows the goal 17/6 at its
    initial value; swept alone it shows -1/2 there. *)
Example C109_example :
  let o := mkSN (Some 2%nat) None (Some [1; 1]) in let bounds := [(1 / 2, 3 / 2); (1 / 2, 3 / 2)] in
  let run := sensitivity (fun _ => ex_first) sx_sim (fun x => x) sx_l o bounds in
  let s := sx_init 0 0 in
  NoDup (keys (pm_pars (ls_pm s))) /\ wfd (pm_pars (ls_pm s)) /\ good_files sx_l /\
  Forall (fun ids => ids <> [] /\ NoDup ids /\ forall k, In k ids -> ~ controls sx_l k) [["a"]; ["b"]] /\
  (exists st v w e, run [["a"]; ["b"]] s = Ok (st, [v; w]) /\ sw_log w = ([[1]], 17 / 6) :: e) /\
  (exists st w e, run [["b"]] s = Ok (st, [w]) /\ sw_log w = ([[1]], - (1 / 2)) :: e).
Proof.
  cbn zeta. split; [repeat constructor; cbn; intuition discriminate|]. split.
  { intros k q. cbn. repeat (destruct (String.eqb _ _); [intros [= <-]; split; cbn; lra|]). discriminate. }
  split. { intros t d [[= <- <-]|[]]. cbn. split; constructor. }
  assert (NC : forall k, ~ controls sx_l k).
  { intros k (t & d & [[= <- <-]|[]] & K). exact K. }
  split. { repeat constructor; try discriminate; try (cbn; intuition congruence); intros; apply NC. }
  split.
  - unfold sensitivity, sens_init. cbn [rbind fst snd sweeps]. change (mkL _ _ _ _ false) with sx_l.
    destruct (sx_one 0 0 "a" 0 (mkSE (set_map (sx_init 0 0) [["a"]]) sentinel [] None)) as (st1 & v & -> & S1 & L1);
      [split; [exists 0%nat; reflexivity|reflexivity]|left; reflexivity|lia|]. cbn [rbind fst snd].
    destruct (sx_one (3 / 2 - 1) 0 "b" 1 st1) as (st2 & w & -> & S2 & L2); [|right; reflexivity|lia|].
    { destruct S1 as [[n S1] S1']. split; [exists n|exact S1']. unfold set_map. cbn [ls_pm]. rewrite S1. reflexivity. }
    cbn [rbind fst snd]. eexists _, v, w, _. split; [reflexivity|]. rewrite L2. cbn [map]. f_equal. f_equal.
    rewrite <- ex_g38. f_equal. unfold ex_prob, sx_a, sx_b. cbn. lra.
  - unfold sensitivity, sens_init. cbn [rbind fst snd sweeps]. change (mkL _ _ _ _ false) with sx_l.
    destruct (sx_one 0 0 "b" 0 (mkSE (set_map (sx_init 0 0) [["b"]]) sentinel [] None)) as (st1 & w & -> & S1 & L1);
      [split; [exists 0%nat; reflexivity|reflexivity]|right; reflexivity|lia|]. cbn [rbind fst snd].
    eexists _, w, _. split; [reflexivity|]. rewrite L1. cbn [map]. f_equal. f_equal.
    rewrite <- ex_g14. f_equal. unfold ex_prob, sx_a, sx_b. cbn. lra.
Qed.
