(** Property C106: what a calibration measures, records and leaves behind. *)
From Coq Require Import Reals Lra Lia.
From Verif Require Import Base QuantityModel QuantityProofs PMapModel PMapProofs OptModel OptProps LearnRunModel CalibModel.
Local Open Scope list_scope.
Local Open Scope nat_scope.
Local Notation length := List.length.

(** ** Specification *)

(** The vectors an algorithm asks to be evaluated, in order. *)
Definition asked_of (ev : oevent) : list (list R) := match ev with EFun x | EGrad x => [x] | ELookup _ => [] end.
Definition asked (evs : list oevent) : list (list R) := List.concat (map asked_of evs).

(** [vs] are the physical values the vector [x] stands for: one slice of [x] per group of parameters, folded into
    [-1, 1] and mapped linearly to the limits of the group's first parameter. *)
Definition stands_for (pm : pmap) (x : list R) (vs : list (list R)) : Prop :=
  exists xs, x = List.concat xs /\ slices (pm_pars pm) (pm_opt_map pm) xs /\
    Forall2 (fun gx v => exists k g' q, fst gx = k :: g' /\ dget k (pm_pars pm) = Some q
                         /\ v = map (fun y => (q_scale q * (opt_fold y + 1) / 2 + q_offset q) / q_pref q)%R (snd gx))
            (combine (pm_opt_map pm) xs) vs.

(** What happened at one call of the evaluation function. *)
Record call : Type := mkCall { ca_x : list R; ca_params : list quantity; ca_answer : answer }.
(** The calls are numbered from 0; each was made with the parameters its vector stands for and got its own answer. *)
Definition faithful (eval_func : nat -> list quantity -> result answer) (pm : pmap) (cs : list call) : Prop :=
  forall i c, nth_error cs i = Some c ->
    eval_func i (ca_params c) = Ok (ca_answer c) /\ stands_for pm (ca_x c) (map numpy (ca_params c)).
(** The data set entry and the log entry of a call. *)
Definition as_dataset (c : call) : dataset :=
  mkDS (map numpy (ca_params c)) (an_seqs (ca_answer c)) (an_results (ca_answer c)) (an_stds (ca_answer c)) (an_shots (ca_answer c)).
Definition as_record (c : call) : prec :=
  mkP (ca_params c) (an_seqs (ca_answer c)) (an_results (ca_answer c)) (an_stds (ca_answer c)) (an_shots (ca_answer c)).

(** Vectors of the right length. *)
Definition fitting (pm : pmap) (ev : oevent) : Prop := forall x, In x (asked_of ev) -> good_vector pm x.

(** ** Proof *)
Definition raw (l : list prec) : option pfile := match l with [] => None | _ => Some (PRaw l) end.
Lemma log_pickle_raw : forall l r, log_pickle (raw l) r = raw (l ++ [r]).
Proof. intros [|a l] r; reflexivity. Qed.

Definition reached (pm0 : pmap) (e : entry) : Prop :=
  (exists qs, get_parameters (le_at e) None = Ok qs /\ map numpy qs = le_params e)
  /\ exists pm xs, good pm /\ pm_opt_map pm = pm_opt_map pm0 /\ same_shapes (pm_pars pm0) (pm_pars pm)
       /\ slices (pm_pars pm) (pm_opt_map pm) xs /\ assigned pm (le_at e) xs.

Section Run.
Variable eval_func : nat -> list quantity -> result answer.
Variable gradf : nat -> list R -> option (list fl).
Variable show : list R -> string.
Variable pm0 : pmap.

Definition recorded (cs : list call) (st : cstate) : Prop :=
  c_pickle st = raw (map as_record cs) /\ c_eval st = length cs /\ faithful eval_func pm0 cs.
Record cinv (cs : list call) (st : cstate) : Prop := {
  ci_rec : recorded cs st; ci_calls : c_calls st = length cs;
  ci_good : good (o_pmap (c_opt st)); ci_map : pm_opt_map (o_pmap (c_opt st)) = pm_opt_map pm0;
  ci_shape : same_shapes (pm_pars pm0) (pm_pars (o_pmap (c_opt st)));
  ci_file : forall f, o_file (c_opt st) = Some f -> vf_opt_map f = pm_opt_map pm0;
  ci_log : Forall (reached pm0) (o_log (c_opt st));
  ci_goals : map (fun e => (le_params e, le_goal e)) (o_log (c_opt st))
             = map (fun c => (map numpy (ca_params c), an_goal (ca_answer c))) cs
}.

Lemma faithful_snoc : forall cs c, faithful eval_func pm0 cs ->
  eval_func (length cs) (ca_params c) = Ok (ca_answer c) -> stands_for pm0 (ca_x c) (map numpy (ca_params c)) -> faithful eval_func pm0 (cs ++ [c]).
Proof.
  intros cs c F E S i c' H. destruct (Nat.lt_ge_cases i (length cs)) as [L|L].
  - rewrite nth_error_app1 in H by exact L. exact (F i c' H).
  - rewrite nth_error_app2 in H by exact L. assert (i = length cs).
    { destruct (i - length cs) as [|k] eqn:K; [lia|]. destruct k; discriminate. }
    subst i. rewrite Nat.sub_diag in H. cbn in H. injection H as <-. auto.
Qed.

Lemma stands : forall pm x pm', good pm -> pm_opt_map pm = pm_opt_map pm0 -> same_shapes (pm_pars pm0) (pm_pars pm) ->
  forall xs, x = List.concat xs -> slices (pm_pars pm) (pm_opt_map pm) xs -> assigned pm pm' xs ->
  exists qs, get_parameters pm' None = Ok qs /\ stands_for pm0 x (map numpy qs).
Proof.
  intros pm x pm' G Eo Sh xs Ex Hs A. destruct (assigned_values pm pm' xs G Hs A) as (qs & Eq & F). exists qs. split; [exact Eq|].
  exists xs. split; [exact Ex|]. split; [rewrite <- Eo; eapply shapes_slices; [apply shapes_sym; exact Sh|exact Hs]|].
  rewrite Eo in F. eapply Forall2_impl; [|exact F]. intros gx v (k & g' & q & Eg & Hq & ->).
  destruct (shapes_get _ _ _ _ (shapes_sym _ _ Sh) Hq) as (q' & Hq' & E). exists k, g', q'. split; [exact Eg|]. split; [exact Hq'|].
  rewrite <- (physical_shape q q' _ E). unfold physical. rewrite map_map. reflexivity.
Qed.

Lemma goal_spec : forall cs st x st' res, cinv cs st -> good_vector pm0 x -> calib_goal eval_func st x = (st', res) ->
  match res with
  | Err _ => recorded cs st'
  | Ok (pars, g) => exists c pm xs qs, ca_x c = x /\ pars = map numpy (ca_params c) /\ g = an_goal (ca_answer c)
      /\ eval_func (length cs) (ca_params c) = Ok (ca_answer c) /\ stands_for pm0 x pars
      /\ st' = mkCS (with_pmap (c_opt st) pm) (S (length cs)) (S (length cs)) (raw (map as_record (cs ++ [c])))
      /\ x = List.concat xs /\ slices (pm_pars (o_pmap (c_opt st))) (pm_opt_map (o_pmap (c_opt st))) xs /\ assigned (o_pmap (c_opt st)) pm xs
      /\ get_parameters pm None = Ok qs /\ map numpy qs = pars
  end.
Proof.
  intros cs st x st' res I (xs & Ex & Hs) H. pose proof I as [(R1 & R2 & R3) Ic Ig Im Ish If Il Igo].
  assert (Hs' : slices (pm_pars (o_pmap (c_opt st))) (pm_opt_map (o_pmap (c_opt st))) xs) by (rewrite Im; eapply shapes_slices; eauto).
  destruct (scaled_assigned (o_pmap (c_opt st)) _ Ig Hs') as (pm1 & E1 & A1). rewrite <- Ex in E1.
  unfold calib_goal in H. rewrite E1 in H. destruct (stands _ x pm1 Ig Im Ish xs Ex Hs' A1) as (qs & Eq & SF). rewrite Eq in H.
  destruct (eval_func (c_calls st) qs) as [a|e] eqn:Ev.
  - assert (Hres : res = Ok (map numpy qs, an_goal a)) by congruence. subst res.
    exists (mkCall x qs a), pm1, xs, qs. cbn [ca_x ca_params ca_answer]. split; [reflexivity|]. split; [reflexivity|]. split; [reflexivity|].
    split; [rewrite <- Ic; exact Ev|]. split; [exact SF|]. split; [|auto]. rewrite R1, R2, Ic in H. rewrite log_pickle_raw in H.
    rewrite map_app. injection H as <-. reflexivity.
  - assert (Hres : res = Err e) by congruence. subst res.
    assert (Hst : st' = mkCS (with_pmap (c_opt st) pm1) (c_eval st) (S (c_calls st)) (c_pickle st)) by congruence. subst st'. split; [exact R1|]. split; assumption.
Qed.

Lemma log_fields : forall o e o' x, log_parameters o e = (o', x) ->
  o_pmap o' = o_pmap o /\ (x = None -> o_log o' = o_log o ++ [e]
    /\ forall f, o_file o' = Some f -> o_file o = Some f \/ vf_opt_map f = pm_opt_map (o_pmap o)).
Proof.
  intros o e o' x H. unfold log_parameters in H. destruct (le_goal e) as [g|]; [destruct (Rltb g (o_best o))|].
  - destruct (store_status (o_pmap o) (le_params e)) as [f|] eqn:Ef.
    + injection H as <- <-. split; [reflexivity|]. intros _. split; [reflexivity|]. cbn. intros f' E. injection E as <-. right.
      unfold store_status in Ef. destruct (get_opt_units (o_pmap o)); [|discriminate]. injection Ef as <-. reflexivity.
    + injection H as <- <-. split; [reflexivity|discriminate].
  - injection H as <- <-. split; [reflexivity|]. intros _. split; [reflexivity|]. cbn. auto.
  - injection H as <- <-. split; [reflexivity|]. intros _. split; [reflexivity|]. cbn. auto.
Qed.

(** writing the log after an evaluation *)
Lemma log_cinv : forall cs c st e st' err,
  recorded (cs ++ [c]) st -> c_calls st = length (cs ++ [c]) -> good (o_pmap (c_opt st)) -> pm_opt_map (o_pmap (c_opt st)) = pm_opt_map pm0 ->
  same_shapes (pm_pars pm0) (pm_pars (o_pmap (c_opt st))) -> (forall f, o_file (c_opt st) = Some f -> vf_opt_map f = pm_opt_map pm0) ->
  Forall (reached pm0) (o_log (c_opt st)) ->
  map (fun e => (le_params e, le_goal e)) (o_log (c_opt st)) = map (fun c => (map numpy (ca_params c), an_goal (ca_answer c))) cs ->
  reached pm0 e -> le_params e = map numpy (ca_params c) -> le_goal e = an_goal (ca_answer c) ->
  calib_log st e = (st', err) -> recorded (cs ++ [c]) st' /\ (err = None -> cinv (cs ++ [c]) st').
Proof.
  intros cs c st e st' err Rc Hc G Em Sh Hf Hl Hg Re Ep Eg H. unfold calib_log in H.
  destruct (log_parameters (c_opt st) e) as [o x] eqn:L. injection H as <- <-. destruct (log_fields _ _ _ _ L) as (Hp & Hx).
  split; [exact Rc|]. intro N. destruct (Hx N) as (Hlog & Hfile). split; cbn [c_opt c_calls]; try rewrite Hp; auto.
  - intros f E. destruct (Hfile f E) as [E1|E1]; [auto|]. congruence.
  - rewrite Hlog. apply Forall_app. split; [exact Hl|]. repeat constructor; apply Re.
  - rewrite Hlog, !map_app, Hg. cbn [map]. rewrite Ep, Eg. reflexivity.
Qed.

Lemma step_cinv : forall cs st ev st' err, cinv cs st -> fitting pm0 ev -> calib_step eval_func gradf show st ev = (st', err) ->
  exists cs', recorded (cs ++ cs') st' /\ (exists rest, asked_of ev = map ca_x cs' ++ rest)
     /\ (err = None -> cinv (cs ++ cs') st' /\ asked_of ev = map ca_x cs').
Proof.
  intros cs st ev st' err I Fi H. pose proof I as [R0 Ic Ig Im Ish If Il Igo].
  assert (Stop : recorded cs st' -> err <> None -> exists cs', recorded (cs ++ cs') st' /\ (exists rest, asked_of ev = map ca_x cs' ++ rest)
     /\ (err = None -> cinv (cs ++ cs') st' /\ asked_of ev = map ca_x cs')).
  { intros Hr He. exists []. rewrite app_nil_r. split; [exact Hr|]. split; [exists (asked_of ev); reflexivity|]. contradiction. }
  destruct ev as [x|x|x]; cbn [calib_step] in H.
  - unfold calib_fct in H. destruct (get_parameters (o_pmap (c_opt st)) None) as [q0|e0] eqn:Eg0.
    2:{ apply Stop; assert (err = Some e0) by congruence; assert (st' = st) by congruence; subst; [exact R0|discriminate]. }
    assert (GV : good_vector pm0 x) by (apply Fi; left; reflexivity).
    destruct (calib_goal eval_func st x) as [st1 res] eqn:Eg. pose proof (goal_spec _ _ _ _ _ I GV Eg) as S. destruct res as [[pars g]|e].
    2:{ apply Stop; assert (err = Some e) by congruence; assert (st' = st1) by congruence; subst; [exact S|discriminate]. }
    destruct S as (c & pm1 & xs & qs & Ex & -> & -> & Ev & SF & -> & Exs & Hs & A1 & Eq & Eqv).
    pose proof (assigned_good _ _ _ Ig Hs A1) as G1. pose proof (assigned_shapes _ _ _ Hs A1) as S1. pose proof (proj1 A1) as Eo1.
    cbn [c_opt with_pmap o_pmap] in H.
    assert (RC : forall o, recorded (cs ++ [c]) (mkCS o (S (length cs)) (S (length cs)) (raw (map as_record (cs ++ [c]))))).
    { intro o. split; [reflexivity|]. split; [cbn [c_eval]; rewrite app_length; cbn; lia|]. apply faithful_snoc; [apply R0|exact Ev|rewrite Ex; exact SF]. }
    eapply log_cinv in H; [destruct H as [L1 L2]|apply RC|cbn [c_calls]; rewrite app_length; cbn; lia|exact G1|cbn [c_opt with_pmap o_pmap]; congruence
      |exact (shapes_trans _ _ _ Ish S1)|exact If|exact Il|exact Igo|split; [exists qs; cbn [le_at le_params]; auto|]; exists (o_pmap (c_opt st)), xs; auto|reflexivity|reflexivity].
    exists [c]. split; [exact L1|]. split; [exists []; cbn; congruence|]. intro N. split; [exact (L2 N)|]. cbn. congruence.
  - assert (GV : good_vector pm0 x) by (apply Fi; left; reflexivity). unfold calib_grad in H.
    destruct (calib_goal eval_func st x) as [st1 res] eqn:Eg. pose proof (goal_spec _ _ _ _ _ I GV Eg) as S. destruct res as [[pars g]|e].
    2:{ apply Stop; assert (err = Some e) by congruence; assert (st' = st1) by congruence; subst; [exact S|discriminate]. }
    destruct S as (c & pm1 & xs & qs & Ex & -> & -> & Ev & SF & -> & Exs & Hs & A1 & Eq & Eqv).
    pose proof (assigned_good _ _ _ Ig Hs A1) as G1. pose proof (assigned_shapes _ _ _ Hs A1) as S1. pose proof (proj1 A1) as Eo1.
    assert (RC : forall o, recorded (cs ++ [c]) (mkCS o (S (length cs)) (S (length cs)) (raw (map as_record (cs ++ [c]))))).
    { intro o. split; [reflexivity|]. split; [cbn [c_eval]; rewrite app_length; cbn; lia|]. apply faithful_snoc; [apply R0|exact Ev|rewrite Ex; exact SF]. }
    assert (Stop2 : forall o, st' = mkCS o (S (length cs)) (S (length cs)) (raw (map as_record (cs ++ [c]))) -> err <> None ->
       exists cs', recorded (cs ++ cs') st' /\ (exists rest, asked_of (EGrad x) = map ca_x cs' ++ rest)
       /\ (err = None -> cinv (cs ++ cs') st' /\ asked_of (EGrad x) = map ca_x cs')).
    { intros o -> He. exists [c]. split; [apply RC|]. split; [exists []; cbn; congruence|]. contradiction. }
    destruct (gradf (c_calls st) x) as [gr|]; [|eapply Stop2; assert (err = Some AttributeError) by congruence; [|subst; discriminate]; symmetry; assert (Hst : (mkCS (with_pmap (c_opt st) pm1) (S (length cs)) (S (length cs)) (raw (map as_record (cs ++ [c])))) = st') by congruence; exact Hst].
    cbn [c_opt with_pmap with_grads o_pmap c_eval c_calls c_pickle o_grads] in H.
    assert (Hs1 : slices (pm_pars pm1) (pm_opt_map pm1) xs) by (rewrite Eo1; eapply shapes_slices; eauto).
    destruct (scaled_assigned pm1 _ G1 Hs1) as (pm2 & E2 & A2). rewrite <- Exs in E2. rewrite E2 in H.
    pose proof (assigned_good _ _ _ G1 Hs1 A2) as G2. pose proof (assigned_shapes _ _ _ Hs1 A2) as S2. pose proof (proj1 A2) as Eo2.
    pose proof (assigned_again _ _ _ _ Hs A1 A2) as Eag. rewrite Eag, Eq in H.
    eapply log_cinv in H; [destruct H as [L1 L2]|apply RC|cbn [c_calls]; rewrite app_length; cbn; lia|exact G2|cbn [c_opt with_pmap with_grads o_pmap]; congruence
      |exact (shapes_trans _ _ _ (shapes_trans _ _ _ Ish S1) S2)|exact If|exact Il|exact Igo|split; [exists qs; cbn [le_at le_params]; auto|]; exists (o_pmap (c_opt st)), xs; auto|exact Eqv|reflexivity].
    exists [c]. split; [exact L1|]. split; [exists []; cbn; congruence|]. intro N. split; [exact (L2 N)|]. cbn. congruence.
  - unfold lookup_gradient in H. exists []. rewrite app_nil_r. destruct (dget (show x) (o_grads (c_opt st))).
    + assert (err = None) by congruence. subst err. assert (Hst : st' = mkCS (with_grads (c_opt st) (ddel (show x) (o_grads (c_opt st)))) (c_eval st) (c_calls st) (c_pickle st)) by congruence.
      subst st'. split; [exact R0|]. split; [exists []; reflexivity|]. intros _. split; [|reflexivity]. split; auto.
    + assert (err = Some KeyError) by congruence. assert (Hst : st' = mkCS (c_opt st) (c_eval st) (c_calls st) (c_pickle st)) by congruence. subst st' err.
      split; [exact R0|]. split; [exists []; reflexivity|]. discriminate.
Qed.

Lemma run_cinv : forall evs cs st st' err, cinv cs st -> Forall (fitting pm0) evs -> calib_run eval_func gradf show st evs = (st', err) ->
  exists cs', recorded (cs ++ cs') st' /\ (exists rest, asked evs = map ca_x cs' ++ rest)
     /\ (err = None -> cinv (cs ++ cs') st' /\ asked evs = map ca_x cs').
Proof.
  induction evs as [|ev evs IH]; intros cs st st' err I Fi H; cbn [calib_run] in H.
  - injection H as <- <-. exists []. rewrite app_nil_r. split; [apply I|]. split; [exists []; reflexivity|]. auto.
  - inversion Fi as [|? ? F1 F2]; subst. destruct (calib_step eval_func gradf show st ev) as [st1 [e|]] eqn:E;
      destruct (step_cinv _ _ _ _ _ I F1 E) as (c1 & Rc & (rest & Hr) & Hn); unfold asked in *; cbn [map List.concat].
    + injection H as <- <-. exists c1. split; [exact Rc|]. split; [|discriminate]. eexists. rewrite Hr, <- app_assoc. reflexivity.
    + destruct (Hn eq_refl) as [I1 Ha]. destruct (IH _ _ _ _ I1 F2 H) as (c2 & Rc2 & (rest2 & Hr2) & Hn2). exists (c1 ++ c2).
      rewrite app_assoc. split; [exact Rc2|]. rewrite map_app, Ha, Hr2. split; [eexists; rewrite <- app_assoc; reflexivity|].
      intro N. destruct (Hn2 N) as [I2 Ha2]. split; [exact I2|]. rewrite <- Hr2, Ha2. reflexivity.
Qed.

Lemma step_ctracked : forall st ev st' x, tracked (c_opt st) -> calib_step eval_func gradf show st ev = (st', x) -> tracked (c_opt st').
Proof.
  intros st ev st' x T H.
  assert (G : forall v st1 res, calib_goal eval_func st v = (st1, res) -> exists pm, c_opt st1 = with_pmap (c_opt st) pm).
  { intros v st1 res E. unfold calib_goal in E. destruct (set_parameters_scaled (o_pmap (c_opt st)) v None) as [pm [e|]]; [injection E as <- _; cbn; eauto|].
    destruct (get_parameters pm None) as [qs|e]; [|injection E as <- _; cbn; eauto]. destruct (eval_func (c_calls st) qs); injection E as <- _; cbn; eauto. }
  assert (L : forall st1 e, tracked (c_opt st1) -> calib_log st1 e = (st', x) -> tracked (c_opt st')).
  { intros st1 e T1 E. unfold calib_log in E. destruct (log_parameters (c_opt st1) e) as [o y] eqn:El. injection E as <- <-. cbn. eapply log_tracked; eauto. }
  destruct ev as [v|v|v]; cbn [calib_step] in H.
  - unfold calib_fct in H. destruct (get_parameters (o_pmap (c_opt st)) None); [|injection H as <- <-; exact T].
    destruct (calib_goal eval_func st v) as [st1 res] eqn:E. destruct (G _ _ _ E) as (pm & Ho).
    assert (T1 : tracked (c_opt st1)) by (rewrite Ho; exact T). destruct res as [[pars g]|e]; [eauto|injection H as <- <-; exact T1].
  - unfold calib_grad in H. destruct (calib_goal eval_func st v) as [st1 res] eqn:E. destruct (G _ _ _ E) as (pm & Ho).
    assert (T1 : tracked (c_opt st1)) by (rewrite Ho; exact T). destruct res as [[pars g]|e]; [|injection H as <- <-; exact T1].
    destruct (gradf (c_calls st) v); [|injection H as <- <-; exact T1]. cbn zeta in H.
    destruct (set_parameters_scaled _ v None) as [pm2 [e|]]; [injection H as <- <-; exact T1|].
    destruct (get_parameters pm2 None); [|injection H as <- <-; exact T1]. eapply L; [|exact H]. exact T1.
  - unfold lookup_gradient in H. destruct (dget (show v) (o_grads (c_opt st))); injection H as <- <-; exact T.
Qed.
Lemma run_ctracked : forall evs st st' x, tracked (c_opt st) -> calib_run eval_func gradf show st evs = (st', x) -> tracked (c_opt st').
Proof.
  induction evs as [|ev evs IH]; intros st st' x T H; cbn [calib_run] in H; [injection H as <- <-; exact T|].
  destruct (calib_step eval_func gradf show st ev) as [st1 [e|]] eqn:E; [injection H as <- <-|]; eauto using step_ctracked.
Qed.
End Run.

(** Setting the parameters with the current map is loading a file with that map. *)
Lemma set_as_load : forall pm f, vf_opt_map f = pm_opt_map pm -> set_parameters pm (vf_params f) None false = load_values pm f false.
Proof. intros pm f E. unfold load_values, set_parameters. cbn [get_opt_map]. rewrite norm_map_str, E. reflexivity. Qed.

Lemma start_cinv : forall eval_func pm, good pm -> cinv eval_func pm [] (calib_start (calib_init pm)).
Proof.
  intros ev pm G. split; cbn; auto; try discriminate; [|intro; reflexivity].
  split; [reflexivity|]. split; [reflexivity|]. intros i c H. destruct i; discriminate.
Qed.
Lemma scaled_ok : forall pm, good pm -> exists v, get_parameters_scaled pm None = Ok v.
Proof. intros pm G. destruct (get_parameters_leaders pm (good_groups _ G)) as (qs & E & _). unfold get_parameters_scaled. rewrite E. cbn. eauto. Qed.

(** Turning the first best log entry into the first best call. *)
Lemma best_call : forall log cs e, first_best log e ->
  map (fun e => (le_params e, le_goal e)) log = map (fun c => (map numpy (ca_params c), an_goal (ca_answer c))) cs ->
  exists l1 c l2 g, cs = l1 ++ c :: l2 /\ an_goal (ca_answer c) = Some g /\ (g < sentinel)%R /\ le_params e = map numpy (ca_params c) /\
    (forall c' g', In c' l1 -> an_goal (ca_answer c') = Some g' -> (g < g')%R) /\
    (forall c' g', In c' l2 -> an_goal (ca_answer c') = Some g' -> (g <= g')%R).
Proof.
  intros log cs e (l1 & l2 & g & -> & Hg & Hs & H1 & H2) E. rewrite map_app in E. cbn [map] in E. symmetry in E.
  apply map_eq_app in E. destruct E as (k1 & k' & -> & E1 & E2). apply map_eq_cons in E2. destruct E2 as (c & k2 & -> & Ec & E2).
  injection Ec as Ep Eg. exists k1, c, k2, g. split; [reflexivity|]. split; [congruence|]. split; [exact Hs|]. split; [congruence|].
  assert (Tr : forall l k, map (fun c => (map numpy (ca_params c), an_goal (ca_answer c))) k = map (fun e => (le_params e, le_goal e)) l ->
     forall c', In c' k -> exists e', In e' l /\ le_goal e' = an_goal (ca_answer c')).
  { clear. induction l as [|a l IH]; intros [|b k] E c' Hi; try discriminate; [destruct Hi|]. cbn in E. injection E as _ Eb E.
    destruct Hi as [<-|Hi]; [exists a; split; [left; reflexivity|auto]|]. destruct (IH k E c' Hi) as (e' & A & B). exists e'. split; [right; exact A|exact B]. }
  split; intros c' g' Hi Hg'; [destruct (Tr _ _ E1 _ Hi) as (e' & A & B)|destruct (Tr _ _ E2 _ Hi) as (e' & A & B)]; [eapply H1|eapply H2]; eauto; congruence.
Qed.

(** A calibration that ends normally: every vector the algorithm asked for was measured once, in order, with the
    parameters it stands for; data set and log hold exactly these measurements; the parameters left behind are those
    of the first measurement with the smallest goal. *)
Theorem C106_calibration :
  forall eval_func gradf show pm evs st,
  good pm -> Forall (fitting pm) evs ->
  calibrate eval_func gradf show (calib_init pm) evs = (st, None) ->
  exists cs, map ca_x cs = asked evs /\ faithful eval_func pm cs /\ c_eval st = length cs
   /\ read_pickle (c_pickle st) = Ok (mkLD (map as_dataset cs) (map (map PStr) (pm_opt_map pm)))
   /\ map (fun e => (le_params e, le_goal e)) (o_log (c_opt st)) = map (fun c => (map numpy (ca_params c), an_goal (ca_answer c))) cs
   /\ exists l1 c l2 g qs, cs = l1 ++ c :: l2 /\ an_goal (ca_answer c) = Some g
        /\ (forall c' g', In c' l1 -> an_goal (ca_answer c') = Some g' -> (g < g')%R)
        /\ (forall c' g', In c' l2 -> an_goal (ca_answer c') = Some g' -> (g <= g')%R)
        /\ get_parameters (o_pmap (c_opt st)) None = Ok qs /\ map numpy qs = map numpy (ca_params c).
Proof.
  intros eval_func gradf show pm evs st G Fi H. unfold calibrate in H. cbn [calib_start calib_init c_opt o_pmap opt_init] in H.
  destruct (scaled_ok pm G) as (v & Ev). rewrite Ev in H.
  change (mkCS _ _ _ None) with (calib_start (calib_init pm)) in H.
  destruct (calib_run eval_func gradf show (calib_start (calib_init pm)) evs) as [st1 [e|]] eqn:Er; [discriminate|].
  destruct (run_cinv eval_func gradf show pm evs [] _ _ _ (start_cinv eval_func pm G) Fi Er) as (cs & _ & _ & Hn).
  destruct (Hn eq_refl) as [I Ha]. cbn [app] in I. pose proof I as [(R1 & R2 & R3) Ic Ig Im Ish If Il Igo].
  assert (T : tracked (c_opt st1)).
  { eapply run_ctracked; [|exact Er]. split; [reflexivity|]. intros e g []. }
  unfold calib_best in H. destruct (o_file (c_opt st1)) as [f|] eqn:Ef; [|discriminate].
  unfold tracked in T. rewrite Ef in T. destruct T as (e & FB & Hp & _).
  assert (Hin : In e (o_log (c_opt st1))) by (destruct FB as (l1 & l2 & g & -> & _); apply in_or_app; right; left; reflexivity).
  rewrite Forall_forall in Il. destruct (Il e Hin) as ((qb & Eqb & Evb) & pm1 & xs & Gp & Eo & Sp & Hsl & As).
  destruct (reload pm1 (le_at e) (o_pmap (c_opt st1)) xs (le_params e) f Gp Hsl As) as (pm3 & E3 & qs & Eqs & Evs); eauto.
  { congruence. }
  { eapply shapes_trans; [apply shapes_sym; exact Sp|exact Ish]. }
  { rewrite (If f eq_refl). congruence. }
  rewrite set_as_load in H by (rewrite (If f eq_refl); congruence). rewrite E3 in H.
  assert (Em3 : pm_opt_map pm3 = pm_opt_map pm).
  { unfold load_values in E3. apply set_parameters_inv in E3. cbn zeta in E3. destruct E3 as [[_ [E _]]|[_ [d [_ [_ [_ [Ho _]]]]]]]; [discriminate|congruence]. }
  destruct (best_call _ _ _ FB Igo) as (l1 & c & l2 & g & Hcs & Hg & _ & Hpar & H1 & H2).
  unfold calib_dataset, set_pm in H. cbn [c_pickle c_opt with_pmap o_pmap c_eval c_calls] in H. rewrite R1 in H.
  assert (Hraw : exists l, raw (map as_record cs) = Some (PRaw l) /\ l = map as_record cs) by (rewrite Hcs, map_app; cbn [map]; destruct (map as_record l1); cbn; eauto).
  destruct Hraw as (l & Hraw & ->). rewrite Hraw in H. injection H as <-. exists cs. split; [symmetry; exact Ha|]. split; [exact R3|]. split; [exact R2|].
  split; [cbn [c_pickle read_pickle]; rewrite Em3, map_map; reflexivity|]. split; [exact Igo|].
  exists l1, c, l2, g, qs. cbn [c_opt with_pmap o_pmap]. repeat (split; [assumption|]). congruence.
Qed.
Print Assumptions C106_calibration.

(** Nothing measured is lost: whatever stops a calibration, the file holds all completed measurements, in order. *)
Theorem C106_interrupted :
  forall eval_func gradf show pm evs st e,
  good pm -> Forall (fitting pm) evs ->
  calibrate eval_func gradf show (calib_init pm) evs = (st, Some e) ->
  exists cs rest, asked evs = map ca_x cs ++ rest /\ faithful eval_func pm cs /\ c_eval st = length cs
   /\ c_pickle st = match cs with [] => None | _ => Some (PRaw (map as_record cs)) end.
Proof.
  intros eval_func gradf show pm evs st e G Fi H. unfold calibrate in H. cbn [calib_start calib_init c_opt o_pmap opt_init] in H.
  destruct (scaled_ok pm G) as (v & Ev). rewrite Ev in H.
  change (mkCS _ _ _ None) with (calib_start (calib_init pm)) in H.
  destruct (calib_run eval_func gradf show (calib_start (calib_init pm)) evs) as [st1 err] eqn:Er.
  destruct (run_cinv eval_func gradf show pm evs [] _ _ _ (start_cinv eval_func pm G) Fi Er) as (cs & (R1 & R2 & R3) & (rest & Hr) & _). cbn [app] in *.
  assert (K : c_pickle st = c_pickle st1 /\ c_eval st = c_eval st1).
  { destruct err as [e1|]; [injection H as <- _; auto|]. unfold calib_best in H. destruct (o_file (c_opt st1)) as [f|]; [|injection H as <- _; auto].
    destruct (set_parameters (o_pmap (c_opt st1)) (vf_params f) None false) as [pm3 [e3|]]; [injection H as <- _; auto|].
    unfold calib_dataset in H. cbn [set_pm c_pickle c_eval c_opt c_calls] in H. destruct (c_pickle st1) as [[l|l om]|] eqn:Ep; try discriminate. injection H as <- _. cbn. auto. }
  destruct K as [K1 K2]. exists cs, rest. split; [exact Hr|]. split; [exact R3|]. split; [congruence|]. rewrite K1, R1. destruct cs; reflexivity.
Qed.
Print Assumptions C106_interrupted.

(** A search without gradients whose measurements all succeed with a goal below the sentinel ends normally. *)
Theorem C106_succeeds :
  forall eval_func gradf show pm xs,
  good pm -> Forall (good_vector pm) xs -> xs <> [] ->
  (forall i qs, exists a g, eval_func i qs = Ok a /\ an_goal a = Some g /\ (g < sentinel)%R) ->
  snd (calibrate eval_func gradf show (calib_init pm) (map EFun xs)) = None.
Proof.
  intros eval_func gradf show pm xs G Gx NE HE.
  assert (Fi : Forall (fitting pm) (map EFun xs)).
  { apply Forall_map. eapply Forall_impl; [|exact Gx]. intros x Hx y [<-|[]]. exact Hx. }
  assert (Run : forall ys cs st, cinv eval_func pm cs st -> Forall (good_vector pm) ys -> exists st', calib_run eval_func gradf show st (map EFun ys) = (st', None)).
  { induction ys as [|y ys IH]; intros cs st I Gy; cbn [map calib_run]; [eauto|]. inversion Gy as [|? ? Gy1 Gy2]; subst.
    destruct (calib_step eval_func gradf show st (EFun y)) as [st1 err] eqn:E.
    assert (err = None).
    { cbn [calib_step] in E. unfold calib_fct in E.
      destruct (get_parameters_leaders _ (good_groups _ (ci_good _ _ _ _ I))) as (q0 & Eq0 & _). rewrite Eq0 in E.
      destruct (calib_goal eval_func st y) as [st2 res] eqn:Eg. pose proof (goal_spec _ _ _ _ _ _ _ I Gy1 Eg) as S.
      destruct res as [[pars g]|e].
      - destruct S as (c & pm1 & xs1 & qs & _ & _ & _ & _ & _ & -> & _ & Hs & A1 & Eq & _). unfold calib_log in E. cbn [c_opt with_pmap o_pmap] in E.
        match type of E with (let '(_, _) := log_parameters ?o ?en in _) = _ => assert (L : snd (log_parameters o en) = None) end.
        { unfold log_parameters. cbn [le_goal le_params]. destruct g as [g|]; [|reflexivity]. destruct (Rltb g _); [|reflexivity].
          unfold store_status, get_opt_units. cbn [with_pmap o_pmap]. rewrite Eq. reflexivity. }
        destruct (log_parameters _ _) as [o x]. cbn in L. subst x. congruence.
      - exfalso. unfold calib_goal in Eg. destruct Gy1 as (ss & Ey & Hs).
        pose proof I as [_ Ic Ig Im Ish _ _ _].
        assert (Hs' : slices (pm_pars (o_pmap (c_opt st))) (pm_opt_map (o_pmap (c_opt st))) ss) by (rewrite Im; eapply shapes_slices; eauto).
        destruct (scaled_assigned (o_pmap (c_opt st)) _ Ig Hs') as (pm1 & E1 & A1). rewrite <- Ey in E1. rewrite E1 in Eg.
        destruct (assigned_values _ _ _ Ig Hs' A1) as (qs & Eq & _). rewrite Eq in Eg. destruct (HE (c_calls st) qs) as (a & g & Ea & _). rewrite Ea in Eg. discriminate. }
    subst err. destruct (step_cinv eval_func gradf show pm cs st (EFun y) st1 None I ltac:(intros z [<-|[]]; exact Gy1) E) as (c1 & _ & _ & Hn).
    destruct (Hn eq_refl) as [I1 _]. eapply IH; eauto. }
  destruct (Run xs [] _ (start_cinv eval_func pm G) Gx) as (st1 & Er).
  destruct (run_cinv eval_func gradf show pm (map EFun xs) [] _ _ _ (start_cinv eval_func pm G) Fi Er) as (cs & _ & _ & Hn).
  destruct (Hn eq_refl) as [I Ha]. cbn [app] in I. pose proof I as [(R1 & R2 & R3) Ic Ig Im Ish If Il Igo].
  assert (T : tracked (c_opt st1)).
  { eapply run_ctracked; [|exact Er]. split; [reflexivity|]. intros e g []. }
  assert (Ax : asked (map EFun xs) = xs) by (clear; unfold asked; induction xs as [|x xs IH]; [reflexivity|]; cbn in *; rewrite IH; reflexivity).
  assert (exists c cs', cs = c :: cs') as (c0 & cs0 & Ecs) by (destruct cs; [rewrite Ax in Ha; cbn in Ha; contradiction|eauto]).
  destruct (R3 0 c0 ltac:(rewrite Ecs; reflexivity)) as [Ec0 _].
  destruct (HE 0 (ca_params c0)) as (a0 & g0 & Ea0 & Hg0 & Hs0).
  unfold calibrate. cbn [calib_start calib_init c_opt o_pmap opt_init]. destruct (scaled_ok pm G) as (v & Ev). rewrite Ev.
  change (mkCS _ _ _ None) with (calib_start (calib_init pm)). rewrite Er.
  unfold calib_best. unfold tracked in T. destruct (o_file (c_opt st1)) as [f|] eqn:Ef.
  2:{ exfalso. destruct T as [_ T]. rewrite Ecs in Igo. destruct (o_log (c_opt st1)) as [|e0 l0]; [discriminate|]. cbn in Igo. injection Igo as _ Eg0 _.
      specialize (T e0 g0 (or_introl eq_refl)). rewrite Eg0 in T. assert (a0 = ca_answer c0) by congruence. subst a0. specialize (T Hg0). lra. }
  destruct T as (e & FB & Hp & _).
  assert (Hin : In e (o_log (c_opt st1))) by (destruct FB as (l1 & l2 & g & -> & _); apply in_or_app; right; left; reflexivity).
  rewrite Forall_forall in Il. destruct (Il e Hin) as ((qb & Eqb & Evb) & pm1 & xs1 & Gp & Eo & Sp & Hsl & As).
  destruct (reload pm1 (le_at e) (o_pmap (c_opt st1)) xs1 (le_params e) f Gp Hsl As) as (pm3 & E3 & qs & Eqs & Evs); eauto.
  { congruence. }
  { eapply shapes_trans; [apply shapes_sym; exact Sp|exact Ish]. }
  { rewrite (If f eq_refl). congruence. }
  rewrite set_as_load by (rewrite (If f eq_refl); congruence). rewrite E3. unfold calib_dataset. cbn [set_pm c_pickle]. rewrite R1, Ecs. reflexivity.
Qed.
Print Assumptions C106_succeeds.

(** A run that fits: two measurements of one parameter, one of them outside [-1, 1]. *)
Lemma o_vector : forall y, good_vector o_pm [y].
Proof. intro y. exists [[y]]. split; [reflexivity|]. repeat constructor; [discriminate|]. intros k [<-|[]]. exists o_q. split; reflexivity. Qed.
Example C106_example : good o_pm /\ Forall (fitting o_pm) (map EFun [[1%R]; [2%R]])
  /\ exists st, calibrate (fun _ _ => Ok (mkA (Some 0%R) [[(1/2)%R]] [[(1/10)%R]] [["rx90p"%string]] [100%R])) (fun _ _ => None) (fun _ => EmptyString)
       (calib_init o_pm) (map EFun [[1%R]; [2%R]]) = (st, None).
Proof.
  split; [exact o_good|]. split; [repeat constructor; intros y [<-|[]]; apply o_vector|].
  match goal with |- exists st, ?c = _ => pose proof (surjective_pairing c) as E; assert (N : snd c = None) end.
  { apply C106_succeeds; [exact o_good|repeat constructor; apply o_vector|discriminate|]. intros i qs. eexists. exists 0%R. split; [reflexivity|]. split; [reflexivity|]. unfold sentinel. lra. }
  rewrite N in E. eauto.
Qed.

(** Finding: running the same calibration object a second time in a new log directory keeps the best goal of the first
    run, so without an improvement no best point is written there, the run ends with an exception although all
    measurements succeeded, and the file it leaves cannot be read for model learning. *)
Theorem C106_second_run_refuted :
  exists eval_func gradf show pm x st1, good pm /\ good_vector pm x
   /\ (forall i qs, exists a g, eval_func i qs = Ok a /\ an_goal a = Some g /\ (g < sentinel)%R)
   /\ calibrate eval_func gradf show (calib_init pm) [EFun x] = (st1, None)
   /\ let r2 := calibrate eval_func gradf show st1 [EFun x] in
      snd r2 = Some FileNotFound /\ read_pickle (c_pickle (fst r2)) = Err KeyError.
Proof.
  set (a := mkA (Some 0%R) [] [] [] []). exists (fun _ _ => Ok a), (fun _ _ => None), (fun _ => EmptyString), o_pm, [0%R].
  assert (S : set_parameters_scaled o_pm [0%R] None = (o_pm, None)).
  { change (set_parameters_scaled o_pm [0%R] None) with (with_pars o_pm [("a"%string, with_value o_q [opt_fold 0])], @None exn).
    rewrite opt_fold_id by lra. reflexivity. }
  assert (P : get_parameters o_pm None = Ok [o_q]) by reflexivity.
  assert (N : numpy o_q = [0%R]) by (unfold numpy, get_value; cbn; f_equal; field).
  assert (L0 : Rltb 0 sentinel = true) by (unfold Rltb; destruct (Rlt_dec 0 sentinel) as [L|L]; [reflexivity|exfalso; apply L; unfold sentinel; lra]).
  assert (L1 : Rltb 0 0 = false) by (unfold Rltb; destruct (Rlt_dec 0 0) as [L|L]; [exfalso; lra|reflexivity]).
  assert (SP : set_parameters o_pm [[0%R]] None false = (o_pm, None)).
  { unfold set_parameters. cbn. unfold set_value. cbn. unfold set_value_strict. cbn. destruct (Req_EM_T 4 0); [lra|]. unfold scaled_entry. cbn.
    replace (2 * (0 * 1 - -2) / 4 - 1)%R with 0%R by field.
    destruct (entry_oob 0) eqn:O; [exfalso; apply entry_oob_spec in O; pose proof tol_pos; rewrite Rabs_R0 in O; lra|]. reflexivity. }
  set (e := mkE [[0%R]] (Some 0%R) None o_pm). set (rec := mkP [o_q] [] [] [] []).
  exists (mkCS (mkO o_pm [] 0%R (Some [[0%R]]) (Some (mkVF [["a"%string]] ["V"%string] [[0%R]])) [e]) 1 1 (Some (PDict [rec] [["a"%string]]))).
  split; [exact o_good|]. split; [apply o_vector|]. split; [intros; exists a, 0%R; split; [reflexivity|]; split; [reflexivity|]; unfold sentinel; lra|].
  assert (Sc : get_parameters_scaled o_pm None = Ok [0%R]) by reflexivity.
  split.
  - unfold calibrate. change (calib_start (calib_init o_pm)) with (mkCS (opt_init o_pm) 0 0 None). cbn [c_opt opt_init o_pmap]. rewrite Sc.
    cbn [calib_run calib_step]. unfold calib_fct, calib_goal. cbn [c_opt o_pmap opt_init]. rewrite P, S, P. cbn [map]. rewrite N. unfold calib_log, log_parameters.
    cbn [c_opt with_pmap o_pmap o_best le_goal an_goal opt_init]. unfold a at 1. cbn [an_goal]. rewrite L0. cbn [le_params].
    unfold store_status, get_opt_units. cbn [o_pmap with_pmap]. rewrite P. cbn [rbind map]. unfold calib_best. cbn [o_file c_opt vf_params o_pmap]. rewrite SP. reflexivity.
  - cbn zeta. unfold calibrate. match goal with |- context [calib_start ?s] => change (calib_start s) with (mkCS (mkO o_pm [] 0%R (Some [[0%R]]) None []) 1 1 None) end.
    cbn [c_opt o_pmap]. rewrite Sc. cbn [calib_run calib_step]. unfold calib_fct, calib_goal. cbn [c_opt o_pmap opt_init]. rewrite P, S, P. cbn [map]. unfold calib_log, log_parameters.
    cbn [c_opt with_pmap o_pmap o_best le_goal an_goal]. unfold a. cbn [an_goal]. rewrite L1. cbn. split; reflexivity.
Qed.
Print Assumptions C106_second_run_refuted.
