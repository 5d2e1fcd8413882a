(** Property C113: what an OptimalControl calls, and which library functions it can call. *)
From Coq Require Import Reals List Lia String Bool.
From Verif Require Import Base GoalModel.
Import ListNotations.
Local Open Scope list_scope.
Local Open Scope string_scope.
Local Notation length := List.length.

(** ** Keyword arguments *)
(** what Python asks of a call with the keyword arguments [given] *)
Definition accepts (sig : signature) (given : list string) : Prop :=
  NoDup given /\ (forall n, In n given -> exists b, In (n, b) sig) /\ (forall n, In (n, true) sig -> In n given).

Lemma is_in_spec : forall n l, is_in n l = true <-> In n l.
Proof.
  intros n l. unfold is_in. rewrite existsb_exists. split.
  - intros (m & H & E). apply String.eqb_eq in E. subst. exact H.
  - intro H. exists n. split; [exact H|apply String.eqb_refl].
Qed.
Lemma is_in_names : forall n (sig : signature), is_in n (map fst sig) = true <-> exists b, In (n, b) sig.
Proof.
  intros n sig. rewrite is_in_spec, in_map_iff. split.
  - intros ([m b] & <- & H). exists b. exact H.
  - intros [b H]. exists (n, b). split; [reflexivity|exact H].
Qed.
Lemma bind_spec : forall sig given seen, bind_names sig seen given = true <->
  (NoDup given /\ (forall n, In n given -> ~ In n seen /\ exists b, In (n, b) sig) /\ (forall n, In (n, true) sig -> In n given \/ In n seen)).
Proof.
  intros sig given. induction given as [|n given IH]; intro seen; cbn [bind_names].
  - rewrite forallb_forall. split.
    + intro H. split; [constructor|]. split; [intros n []|]. intros n Hn. right. specialize (H _ Hn). cbn in H. apply is_in_spec, H.
    + intros (_ & _ & H) [n b] Hn. cbn. destruct b; [|reflexivity]. cbn. apply is_in_spec. destruct (H n Hn) as [[]|K]; exact K.
  - rewrite !andb_true_iff, negb_true_iff, IH, is_in_names. rewrite <- not_true_iff_false, is_in_spec. split.
    + intros [[H1 H2] (H3 & H4 & H5)]. split; [constructor; [|exact H3]|split].
      * intro K. apply (proj1 (H4 n K)). left. reflexivity.
      * intros k [<-|K]; [split; assumption|]. destruct (H4 k K) as [A B]. split; [|exact B]. intro C. apply A. right. exact C.
      * intros k K. destruct (H5 k K) as [A|[<-|A]]; [left; right; exact A|left; left; reflexivity|right; exact A].
    + intros (H1 & H2 & H3). inversion H1 as [|? ? N1 N2]; subst. destruct (H2 n (or_introl eq_refl)) as [A B].
      split; [split; assumption|]. split; [exact N2|]. split.
      * intros k K. destruct (H2 k (or_intror K)) as [C D]. split; [|exact D]. intros [<-|E]; [apply N1, K|apply C, E].
      * intros k K. destruct (H3 k K) as [[<-|C]|C]; [right; left; reflexivity|left; exact C|right; right; exact C].
Qed.
(** A call is accepted exactly if no name is given twice, every name is a parameter and every parameter without default is given. *)
Theorem C113_keywords : forall sig given, bind_names sig [] given = true <-> accepts sig given.
Proof.
  intros sig given. rewrite bind_spec. unfold accepts. split; intros (A & B & C); (split; [exact A|split]).
  - intros n H. apply B, H.
  - intros n H. destruct (C n H) as [K|[]]. exact K.
  - intros n H. split; [intros []|apply B, H].
  - intros n H. left. apply C, H.
Qed.
Print Assumptions C113_keywords.

Section Props.
  Context {P St U W : Type}.
  Variable body : string -> dict (arg P St U W) -> result R.
  Variable assign : W -> list R -> result W.
  Variable propagators : W -> result P.
  Variables all_states final_state : string -> string -> W -> result St.
  Notation goal := (goal_function assign propagators all_states final_state).
  Notation fid_arg := (fid_arg P St U W).
  Notation oc := (oc P St U W).
  Notation arg := (arg P St U W).

(** ** The fidelity function *)
(** A name stands for the library function of that name, or of that name with the prefix lindbladian_ if the model is an open
    system; if there is none, an exception is raised.  A function is used as it is, whatever the model. *)
Theorem C113_fidelity : forall (lindbladian : bool) (f : fid_arg),
  match f with
  | FFun g => set_fid_func body lindbladian f = Ok g
  | FName n =>
      let full := ((if lindbladian then "lindbladian_" else "") ++ n)%string in
      match set_fid_func body lindbladian f with
      | Ok g => ff_name g = full /\ In (full, ff_sig g) fidelities /\ ff_body g = body full
      | Err e => e = C3Error /\ ~ In full (keys fidelities)
      end
  end.
Proof.
  intros lindbladian [n|g]; [|reflexivity]. cbn zeta. unfold set_fid_func, lookup_fid.
  replace (if lindbladian then "lindbladian_" ++ n else n)%string with ((if lindbladian then "lindbladian_" else "") ++ n)%string by (destruct lindbladian; reflexivity).
  destruct (dget _ fidelities) as [sig|] eqn:E.
  - cbn [ff_name ff_sig ff_body]. split; [reflexivity|]. split; [apply dget_Some_in, E|reflexivity].
  - split; [reflexivity|]. apply dget_None_notin, E.
Qed.

(** ** What the fidelity function is given *)
Definition mine (o : oc) (index : list nat) (w1 : W) (k : string) (v : arg) : Prop :=
  (k = "index" /\ v = AIndex index) \/ (k = "dims" /\ v = ADims w1) \/ (k = "n_eval" /\ v = AEval (oc_eval o + 1)) \/
  (exists u, In (k, u) (oc_kwargs o) /\ v = AUser u).
(** A goal is the fidelity function on the propagators (or the states of the ODE solver) computed after the candidate has been
    assigned, with the instructions, the index, the dimensions, the number of the evaluation and the user's keyword arguments, and
    nothing else.  The evaluation counter is all that changes in the optimiser. *)
Theorem C113_goal : forall (o : oc) index w x w1 o1 g,
  goal o index w x = Ok (w1, o1, g) ->
  assign w x = Ok w1 /\ o1 = mkOC (oc_algorithm o) (oc_fid o) (oc_callbacks o) (oc_mode o) (oc_kwargs o) (oc_subspace o) (oc_eval o + 1) /\
  exists args, accepts (ff_sig (oc_fid o)) (keys args) /\ ff_body (oc_fid o) args = Ok g /\
    match m_kind (oc_mode o) with
    | GRun => exists p, propagators w1 = Ok p /\ forall k v, In (k, v) args <->
        ((k = "propagators" /\ v = APropagators p) \/ (k = "instructions" /\ v = AInstructions w1) \/ mine o index w1 k v)
    | kind => exists s, (match kind with GOdeFinal => final_state | _ => all_states end)
                          (match m_solver (oc_mode o) with Some sv => sv | None => "" end) (m_step (oc_mode o)) w1 = Ok s /\
        forall k v, In (k, v) args <-> ((k = "states" /\ v = AStates s) \/ mine o index w1 k v)
    end.
Proof.
  intros o index w x w1 o1 g H. unfold goal_function in H. destruct (assign w x) as [w'|] eqn:EA; [|discriminate H]. cbn [rbind] in H.
  set (user := map (fun kv => (fst kv, AUser (snd kv))) (oc_kwargs o)) in H.
  set (common := [("index", AIndex index); ("dims", ADims w'); ("n_eval", AEval (oc_eval o + 1))]) in H.
  assert (MINE : forall k v, In (k, v) (common ++ user) <-> mine o index w' k v).
  { intros k v. rewrite in_app_iff. unfold mine, common, user. cbn [In]. rewrite in_map_iff. split.
    - intros [[E|[E|[E|[]]]]|([k' u] & E & K)]; try (injection E as <- <-); try tauto. right; right; right. exists u. auto.
    - intros [[-> ->]|[[-> ->]|[[-> ->]|(u & K & ->)]]]; try tauto. right. exists (k, u). auto. }
  destruct (m_kind (oc_mode o)) eqn:EK.
  - destruct (propagators w') as [p|] eqn:EP; [|discriminate H]. cbn [rbind] in H. unfold call in H.
    destruct (bind_names _ [] _) eqn:EB in H; [|discriminate H]. destruct (ff_body (oc_fid o) _) as [g'|] eqn:EG in H; [|discriminate H]. cbn [rbind] in H. injection H as <- <- <-.
    split; [reflexivity|]. split; [reflexivity|]. eexists. split; [apply C113_keywords; exact EB|]. split; [exact EG|]. exists p. split; [exact EP|].
    intros k v. rewrite in_app_iff, MINE. cbn [In]. split.
    + intros [[E|[E|[]]]|K]; try (injection E as <- <-); tauto.
    + intros [[-> ->]|[[-> ->]|K]]; tauto.
  - destruct (all_states _ _ w') as [s|] eqn:EP; [|discriminate H]. cbn [rbind] in H. unfold call in H.
    destruct (bind_names _ [] _) eqn:EB in H; [|discriminate H]. destruct (ff_body (oc_fid o) _) as [g'|] eqn:EG in H; [|discriminate H]. cbn [rbind] in H. injection H as <- <- <-.
    split; [reflexivity|]. split; [reflexivity|]. eexists. split; [apply C113_keywords; exact EB|]. split; [exact EG|]. exists s. split; [exact EP|].
    intros k v. rewrite in_app_iff, MINE. cbn [In]. split.
    + intros [[E|[]]|K]; try (injection E as <- <-); tauto.
    + intros [[-> ->]|K]; tauto.
  - destruct (final_state _ _ w') as [s|] eqn:EP; [|discriminate H]. cbn [rbind] in H. unfold call in H.
    destruct (bind_names _ [] _) eqn:EB in H; [|discriminate H]. destruct (ff_body (oc_fid o) _) as [g'|] eqn:EG in H; [|discriminate H]. cbn [rbind] in H. injection H as <- <- <-.
    split; [reflexivity|]. split; [reflexivity|]. eexists. split; [apply C113_keywords; exact EB|]. split; [exact EG|]. exists s. split; [exact EP|].
    intros k v. rewrite in_app_iff, MINE. cbn [In]. split.
    + intros [[E|[]]|K]; try (injection E as <- <-); tauto.
    + intros [[-> ->]|K]; tauto.
Qed.

(** ** Which library functions can be called *)
Definition plain_sets : list string :=
  ["unitary_infid_set"; "average_infid_set"; "average_infid_seq"; "lindbladian_unitary_infid_set"; "lindbladian_average_infid_set"].
Lemma user_keys : forall kw : dict U, map fst (map (fun kv => (fst kv, @AUser P St U W (snd kv))) kw) = keys kw.
Proof. intro kw. rewrite map_map. reflexivity. Qed.

Lemma none_more : forall (sig : signature) given (ks : list string), (forall n b, In (n, b) sig -> In n given) ->
  accepts sig (given ++ ks) -> ks = [].
Proof.
  intros sig given ks H (N & A & _). destruct ks as [|k ks]; [reflexivity|]. exfalso.
  destruct (A k) as [b B]; [rewrite in_app_iff; right; left; reflexivity|]. apply H in B.
  apply NoDup_remove_2 in N. apply N. rewrite in_app_iff. left. exact B.
Qed.
Lemma run_names : forall n sig ks, In (n, sig) fidelities ->
  accepts sig (["propagators"; "instructions"; "index"; "dims"; "n_eval"] ++ ks) <->
  ((In n plain_sets /\ ks = []) \/ (n = "state_transfer_infid_set" /\ NoDup ks /\ In "psi_0" ks /\ forall k, In k ks -> k = "psi_0" \/ k = "proj")).
Proof.
  assert (NO : forall (sig : signature) ks, ~ (exists b, In ("instructions", b) sig) ->
    ~ accepts sig (["propagators"; "instructions"; "index"; "dims"; "n_eval"] ++ ks)).
  { intros sig ks H (_ & A & _). apply H, A. cbn. tauto. }
  assert (YES : forall (sig : signature) ks, (forall n b, In (n, b) sig -> In n ["propagators"; "instructions"; "index"; "dims"; "n_eval"]) ->
    (forall n, In n ["propagators"; "instructions"; "index"; "dims"; "n_eval"] -> exists b, In (n, b) sig) ->
    (accepts sig (["propagators"; "instructions"; "index"; "dims"; "n_eval"] ++ ks) <-> ks = [])).
  { intros sig ks H1 H2. split; [apply none_more; exact H1|]. intros ->. rewrite app_nil_r.
    split; [repeat constructor; cbn; intuition discriminate|]. split; [exact H2|]. intros m M. exact (H1 m true M). }
  intros n sig ks H. cbn [fidelities In] in H.
  repeat (destruct H as [H|H]; [injection H as <- <-|]); [| | | | | | | | | | | | | | | | | | | | |destruct H];
    try (split; [intro K; exfalso; revert K; apply NO; intros [b B]; cbn in B; intuition discriminate
                |intros [[K _]|[K _]]; [cbn in K; intuition discriminate|discriminate K]]);
    try (rewrite YES; [split; [intros ->; left; cbn; tauto|intros [[_ K]|[K _]]; [exact K|discriminate K]]
                      |intros m b M; cbn in M; repeat (destruct M as [M|M]; [injection M as <- <-; cbn; tauto|]); destruct M
                      |intros m M; cbn in M; repeat (destruct M as [M|M]; [subst m; eexists; cbn; tauto|]); destruct M]).
  split.
  - intros (N & A & B). right. split; [reflexivity|]. pose proof N as N'.
    change (NoDup (["propagators"; "instructions"; "index"; "dims"; "n_eval"] ++ ks)) in N'.
    split; [|split].
    + repeat (apply NoDup_cons_iff in N' as [_ N']). exact N'.
    + specialize (B "psi_0"). destruct B as [K|[K|[K|[K|[K|K]]]]]; try discriminate K; [cbn; tauto|exact K].
    + intros k K. destruct (A k) as [b M]; [rewrite in_app_iff; right; exact K|]. cbn in M.
      assert (NE : forall j, In j ["propagators"; "instructions"; "index"; "dims"; "n_eval"] -> j <> k).
      { intros j J ->. apply in_split in K as (l1 & l2 & ->). rewrite app_assoc in N. apply NoDup_remove_2 in N. apply N. rewrite !in_app_iff. left. left. exact J. }
      repeat (destruct M as [M|M]; [injection M as <- <-; try (left; reflexivity); try (right; reflexivity); exfalso; refine (NE _ _ eq_refl); cbn; tauto|]). destruct M.
  - intros [[K _]|(_ & N & B & A)]; [cbn in K; intuition discriminate|].
    assert (NE : forall j, In j ["propagators"; "instructions"; "index"; "dims"; "n_eval"] -> ~ In j ks).
    { intros j J K. destruct (A j K) as [-> | ->]; cbn in J; intuition discriminate. }
    split; [|split].
    + cbn [app]. repeat (constructor; [cbn [In]; intro K; repeat (destruct K as [K|K]; [discriminate K|]); revert K; apply NE; cbn; tauto|]). exact N.
    + intros m M. rewrite in_app_iff in M. destruct M as [M|M]; [|destruct (A m M) as [-> | ->]; eexists; cbn; tauto].
      cbn in M; repeat (destruct M as [M|M]; [subst m; eexists; cbn; tauto|]); destruct M.
    + intros m M. cbn in M. rewrite in_app_iff. repeat (destruct M as [M|M]; [first [discriminate M | injection M as <-; first [right; exact B | left; cbn; tauto]]|]). destruct M.
Qed.
Lemma ode_names : forall n sig ks, In (n, sig) fidelities ->
  accepts sig (["states"; "index"; "dims"; "n_eval"] ++ ks) <-> (n = "state_transfer_from_states" /\ ks = ["params"]).
Proof.
  assert (NO : forall (sig : signature) ks, ~ (exists b, In ("states", b) sig) ->
    ~ accepts sig (["states"; "index"; "dims"; "n_eval"] ++ ks)).
  { intros sig ks H (_ & A & _). apply H, A. cbn. tauto. }
  intros n sig ks H. cbn [fidelities In] in H.
  repeat (destruct H as [H|H]; [injection H as <- <-|]); [| | | | | | | | | | | | | | | | | | | | |destruct H];
    try (split; [intro K; exfalso; revert K; apply NO; intros [b B]; cbn in B; intuition discriminate|intros [K _]; discriminate K]).
  split.
  - intros (N & A & B). split; [reflexivity|].
    assert (NE : forall k, In k ks -> k = "params").
    { intros k K. destruct (A k) as [b M]; [rewrite in_app_iff; right; exact K|]. cbn in M.
      assert (NE : forall j, In j ["states"; "index"; "dims"; "n_eval"] -> j <> k).
      { intros j J ->. apply in_split in K as (l1 & l2 & ->). rewrite app_assoc in N. apply NoDup_remove_2 in N. apply N. rewrite !in_app_iff. left. left. exact J. }
      repeat (destruct M as [M|M]; [injection M as <- <-; try reflexivity; exfalso; refine (NE _ _ eq_refl); cbn; tauto|]). destruct M. }
    cbn [app] in N. repeat (apply NoDup_cons_iff in N as [_ N]).
    assert (B' : In "params" ks). { destruct (B "params") as [K|[K|[K|[K|K]]]]; try discriminate K; [cbn; tauto|exact K]. }
    destruct ks as [|a [|b ks]]; [destruct B'|f_equal; apply NE; left; reflexivity|]. exfalso.
    rewrite (NE a), (NE b) in N by (cbn; tauto). inversion N as [|? ? N1 _]; subst. apply N1. left. reflexivity.
  - intros [_ ->]. split; [repeat constructor; cbn; intuition discriminate|]. split.
    + intros m M. cbn in M; repeat (destruct M as [M|M]; [subst m; eexists; cbn; tauto|]); destruct M.
    + intros m M. cbn in M. repeat (destruct M as [M|M]; [first [discriminate M | injection M as <-; cbn; tauto]|]). destruct M.
Qed.

Lemma init_inv : forall lindbladian n cbs alg kw sub solver step final (o : oc),
  init body lindbladian (FName n) cbs alg kw sub solver step final = Ok o ->
  exists sig, In (((if lindbladian then "lindbladian_" else "") ++ n)%string, sig) fidelities /\
    oc_fid o = mkFid ((if lindbladian then "lindbladian_" else "") ++ n)%string sig (body ((if lindbladian then "lindbladian_" else "") ++ n)%string) /\
    oc_kwargs o = kw /\ oc_mode o = set_goal_function solver step final.
Proof.
  intros lindbladian n cbs alg kw sub solver step final o H. unfold init in H. destruct (set_algorithm alg); [|discriminate H]. cbn [rbind] in H.
  pose proof (C113_fidelity lindbladian (FName n)) as F. cbn zeta in F. destruct (set_fid_func body lindbladian (FName n)) as [g|]; [|discriminate H]. cbn [rbind] in H.
  destruct (set_callback_fids _ _ _ _) as [cs [e|]]; [discriminate H|]. injection H as <-. cbn [oc_fid oc_kwargs oc_mode].
  destruct F as (F1 & F2 & F3). exists (ff_sig g). split; [exact F2|]. split; [|split; reflexivity]. destruct g as [gn gs gb]. cbn in *. congruence.
Qed.

(** With propagators: the named functions that can be evaluated, and the keyword arguments they need.  In an open system
    the name is used without its prefix.  For all others the call raises TypeError. *)
Theorem C113_usable : forall (lindbladian : bool) n cbs alg kw sub step final (o : oc) index w x w1 p,
  init body lindbladian (FName n) cbs alg kw sub None step final = Ok o -> assign w x = Ok w1 -> propagators w1 = Ok p ->
  let possible :=
    (In n (if lindbladian then ["unitary_infid_set"; "average_infid_set"]
           else ["unitary_infid_set"; "average_infid_set"; "average_infid_seq"; "lindbladian_unitary_infid_set"; "lindbladian_average_infid_set"]) /\ kw = []) \/
    (lindbladian = false /\ n = "state_transfer_infid_set" /\ NoDup (keys kw) /\ In "psi_0" (keys kw) /\ forall k, In k (keys kw) -> k = "psi_0" \/ k = "proj") in
  (possible -> exists args, goal o index w x = rbind (body (ff_name (oc_fid o)) args) (fun g =>
     Ok (w1, mkOC (oc_algorithm o) (oc_fid o) (oc_callbacks o) (oc_mode o) (oc_kwargs o) (oc_subspace o) (oc_eval o + 1), g))) /\
  (~ possible -> goal o index w x = Err TypeError).
Proof.
  intros lindbladian n cbs alg kw sub step final o index w x w1 p HI HA HP possible.
  destruct (init_inv _ _ _ _ _ _ _ _ _ _ HI) as (sig & S1 & S2 & S3 & S4).
  pose proof (run_names _ _ (keys kw) S1) as RN.
  assert (EQ : ((In ((if lindbladian then "lindbladian_" else "") ++ n)%string plain_sets /\ keys kw = []) \/
    (((if lindbladian then "lindbladian_" else "") ++ n)%string = "state_transfer_infid_set" /\ NoDup (keys kw) /\ In "psi_0" (keys kw) /\ forall k, In k (keys kw) -> k = "psi_0" \/ k = "proj")) <-> possible).
  { assert (KN : keys kw = [] <-> kw = []) by (destruct kw as [|[? ?] ?]; cbn; split; intro; try reflexivity; discriminate).
    subst possible. destruct lindbladian.
    - assert (IN : In ("lindbladian_" ++ n)%string plain_sets <-> In n ["unitary_infid_set"; "average_infid_set"]).
      { cbn [plain_sets In append]. split.
        - intros [K|[K|[K|[K|[K|[]]]]]]; try discriminate K; injection K as <-; tauto.
        - intros [<-|[<-|[]]]; tauto. }
      rewrite IN, KN. cbn [append]. split; [intros [K|[K _]]; [tauto|discriminate K]|intros [K|[K _]]; [tauto|discriminate K]].
    - cbn [append]. rewrite KN. unfold plain_sets. intuition. }
  rewrite EQ in RN. unfold goal_function. rewrite HA, S4, S3, S2. cbn [rbind set_goal_function m_kind ff_name]. rewrite HP. cbn [rbind]. unfold call. cbn [ff_sig ff_body].
  match goal with |- context [bind_names sig [] ?ks] => assert (EK : ks = (["propagators"; "instructions"; "index"; "dims"; "n_eval"] ++ keys kw)%list) end.
  { unfold keys. cbn [app map fst]. rewrite user_keys. reflexivity. }
  rewrite EK. clear EK. split.
  - intro K. apply RN, C113_keywords in K. rewrite K. eexists. reflexivity.
  - intro K. destruct (bind_names sig [] _) eqn:E; [|reflexivity]. exfalso. apply K, RN, C113_keywords, E.
Qed.

(** With the ODE solver: only one named function can be evaluated, and only if the model is a closed system. *)
Theorem C113_usable_ode : forall (lindbladian : bool) n cbs alg kw sub solver step final (o : oc) index w x w1 g o1,
  init body lindbladian (FName n) cbs alg kw sub (Some (Some solver)) step final = Ok o ->
  goal o index w x = Ok (w1, o1, g) ->
  lindbladian = false /\ n = "state_transfer_from_states" /\ keys kw = ["params"].
Proof.
  intros lindbladian n cbs alg kw sub solver step final o index w x w1 g o1 HI HG.
  destruct (init_inv _ _ _ _ _ _ _ _ _ _ HI) as (sig & S1 & S2 & S3 & S4).
  assert (AC : accepts sig (["states"; "index"; "dims"; "n_eval"] ++ keys kw)).
  { unfold goal_function in HG. destruct (assign w x) as [w'|]; [|discriminate HG]. rewrite S4, S3, S2 in HG. cbn [rbind set_goal_function m_kind m_solver m_step] in HG.
    destruct (match final with Some b => b | None => false end).
    - destruct (final_state _ _ w') as [s|]; [|discriminate HG]. cbn [rbind] in HG. unfold call in HG. cbn [ff_sig ff_body] in HG.
      destruct (bind_names sig [] _) eqn:E in HG; [|discriminate HG]. apply C113_keywords in E. unfold keys in E. cbn [app map fst] in E. rewrite user_keys in E. exact E.
    - destruct (all_states _ _ w') as [s|]; [|discriminate HG]. cbn [rbind] in HG. unfold call in HG. cbn [ff_sig ff_body] in HG.
      destruct (bind_names sig [] _) eqn:E in HG; [|discriminate HG]. apply C113_keywords in E. unfold keys in E. cbn [app map fst] in E. rewrite user_keys in E. exact E. }
  apply (ode_names _ _ _ S1) in AC as [E K]. destruct lindbladian; [discriminate E|]. split; [reflexivity|]. split; [exact E|exact K].
Qed.

(** ** Callbacks *)
Theorem C113_callbacks : forall (lindbladian : bool) cbs alg fid kw sub solver step final (o : oc),
  init body lindbladian fid cbs alg kw sub solver step final = Ok o ->
  exists ns, cbs = map (fun n => FName n) ns /\
    Forall2 (fun n g => ff_name g = ((if lindbladian then "lindbladian_" else "") ++ n)%string /\ In (ff_name g, ff_sig g) fidelities /\ ff_body g = body (ff_name g)) ns (oc_callbacks o).
Proof.
  intros lindbladian cbs alg fid kw sub solver step final o H. unfold init in H. destruct (set_algorithm alg); [|discriminate H]. cbn [rbind] in H.
  destruct (set_fid_func body lindbladian fid) as [g|]; [|discriminate H]. cbn [rbind] in H.
  destruct (set_callback_fids body lindbladian cbs []) as [cs [e|]] eqn:E; [discriminate H|]. injection H as <-. cbn [oc_callbacks].
  assert (ADD : forall cbs acc cs, add_callbacks body cbs acc = (cs, None) -> exists ns new, cbs = map (fun n => FName n) ns /\ cs = (acc ++ new)%list /\
    Forall2 (fun n g => ff_name g = n /\ In (ff_name g, ff_sig g) fidelities /\ ff_body g = body (ff_name g)) ns new).
  { clear. induction cbs as [|[n|f] cbs IH]; intros acc cs H; cbn [add_callbacks] in H.
    - injection H as <-. exists [], []. rewrite app_nil_r. auto.
    - destruct (lookup_fid body n) as [g|] eqn:L; [|discriminate H]. destruct (IH _ _ H) as (ns & new & -> & -> & F). exists (n :: ns), (g :: new).
      split; [reflexivity|]. split; [rewrite <- app_assoc; reflexivity|]. constructor; [|exact F]. unfold lookup_fid in L.
      destruct (dget n fidelities) as [sig|] eqn:D; [|discriminate L]. injection L as <-. cbn [ff_name ff_sig ff_body]. split; [reflexivity|]. split; [apply dget_Some_in, D|reflexivity].
    - discriminate H. }
  unfold set_callback_fids in E. destruct lindbladian.
  - destruct (prefixed cbs) as [cbs'|] eqn:EP; [|discriminate E]. destruct (ADD _ _ _ E) as (ns' & new & E1 & E2 & F). cbn [app] in E2. subst cs.
    assert (PF : forall cbs cbs' : list fid_arg, prefixed cbs = Ok cbs' -> exists ns, cbs = map (fun n => FName n) ns /\ cbs' = map (fun n => FName ("lindbladian_" ++ n)%string) ns).
    { clear. induction cbs as [|[n|f] cbs IH]; intros cbs' H; cbn [prefixed] in H.
      - injection H as <-. exists []. auto.
      - destruct (prefixed cbs) as [r|] eqn:E; [|discriminate H]. cbn [rbind] in H. injection H as <-. destruct (IH r eq_refl) as (ns & -> & ->). exists (n :: ns). auto.
      - discriminate H. }
    destruct (PF _ _ EP) as (ns & -> & E3). exists ns. split; [reflexivity|]. rewrite E1 in E3. clear -F E3. revert ns E3. induction F as [|a b la lb Hab F IH]; intros [|n ns] E3; cbn [map] in E3; try discriminate; [constructor|].
    injection E3 as E4 E5. constructor; [|apply IH, E5]. subst a. exact Hab.
  - destruct (ADD _ _ _ E) as (ns & new & E1 & E2 & F). cbn [app] in E2. subst cs. exists ns. split; [exact E1|exact F].
Qed.
(** Finding: the documentation describes callback_fids as a list of callables to be evaluated and stored, but a callable is
    refused, and the callbacks have no influence on any goal or on what a run leaves behind: nothing evaluates them. *)
Theorem C113_callbacks_refuted :
  (forall lindbladian cbs f rest alg fid kw sub solver step final, cbs = FFun f :: rest ->
    exists e, init body lindbladian fid cbs alg kw sub solver step final = Err e) /\
  (forall (o : oc) cbs index w x,
    let forget (r : result (W * oc * R)) := rbind r (fun a => Ok (fst (fst a), oc_eval (snd (fst a)), snd a)) in
    forget (goal o index w x) =
    forget (goal (mkOC (oc_algorithm o) (oc_fid o) cbs (oc_mode o) (oc_kwargs o) (oc_subspace o) (oc_eval o)) index w x)).
Proof.
  split.
  - intros lindbladian cbs f rest alg fid kw sub solver step final ->. destruct (init body lindbladian fid (FFun f :: rest) alg kw sub solver step final) as [o|e] eqn:E; [|eauto].
    destruct (C113_callbacks _ _ _ _ _ _ _ _ _ _ E) as ([|n ns] & K & _); discriminate K.
  - intros o cbs index w x forget. unfold goal_function. cbn [oc_mode oc_fid oc_kwargs oc_subspace oc_eval oc_algorithm oc_callbacks].
    destruct (assign w x) as [w1|]; [|reflexivity]. cbn [rbind]. destruct (match m_kind (oc_mode o) with GRun => _ | GOde => _ | GOdeFinal => _ end) as [first|]; [|reflexivity].
    cbn [rbind]. destruct (call _ _); reflexivity.
Qed.
(** Finding: two thirds of the registered fidelity functions can be selected by name but never evaluated, with any keyword
    arguments and any goal function; and with an open-system model no named function can be used with the ODE solver. *)
Theorem C113_unusable_refuted :
  (forall n cbs alg kw sub solver step final (o : oc) index w x w1 o1 g,
    In n ["state_transfer_infid"; "unitary_infid"; "lindbladian_unitary_infid"; "average_infid"; "lindbladian_average_infid"; "epc_analytical";
          "lindbladian_epc_analytical"; "populations"; "population"; "RB"; "lindbladian_RB_left"; "lindbladian_RB_right"; "leakage_RB"; "orbit_infid"] ->
    In n (keys fidelities) /\
    (init body false (FName n) cbs alg kw sub (Some solver) step final = Ok o -> goal o index w x <> Ok (w1, o1, g))) /\
  (forall n cbs alg kw sub solver step final (o : oc) index w x w1 o1 g,
    init body true (FName n) cbs alg kw sub (Some (Some solver)) step final = Ok o -> goal o index w x <> Ok (w1, o1, g)).
Proof.
  split.
  - intros n cbs alg kw sub solver step final o index w x w1 o1 g Hn.
    split; [cbn in Hn; repeat (destruct Hn as [<-|Hn]; [cbn; tauto|]); destruct Hn|]. intros HI HG. destruct solver as [sv|].
    + apply (C113_usable_ode _ _ _ _ _ _ _ _ _ _ _ _ _ _ _ _ HI) in HG as (_ & -> & _). cbn in Hn. intuition discriminate.
    + assert (HI' : init body false (FName n) cbs alg kw sub None step final = Ok o) by exact HI.
      pose proof (C113_goal o index w x w1 o1 g HG) as (A & _ & args & _ & _ & K). destruct (init_inv _ _ _ _ _ _ _ _ _ _ HI) as (_ & _ & _ & _ & M).
      rewrite M in K. cbn in K. destruct K as (p & EP & _).
      pose proof (C113_usable false n cbs alg kw sub step final o index w x w1 p HI' A EP) as [_ NP]. rewrite NP in HG; [discriminate HG|].
      intros [[K _]|(_ & -> & _)]; cbn in *; intuition (subst; discriminate).
  - intros n cbs alg kw sub solver step final o index w x w1 o1 g HI HG.
    apply (C113_usable_ode _ _ _ _ _ _ _ _ _ _ _ _ _ _ _ _ HI) in HG as (K & _). discriminate K.
Qed.
End Props.
Print Assumptions C113_fidelity.
Print Assumptions C113_goal.
Print Assumptions C113_usable.
Print Assumptions C113_usable_ode.
Print Assumptions C113_callbacks.
Print Assumptions C113_callbacks_refuted.
Print Assumptions C113_unusable_refuted.

(** ** The goal function in use *)
(** The goal is computed from propagators unless an ODE solver is named, and then from the final state only if that is asked for. *)
Theorem C113_mode : forall solver step final,
  let m := set_goal_function (Some solver) (Some step) (Some final) in
  m_solver m = solver /\ m_step m = step /\ m_final m = final /\
  (m_kind m = GRun <-> solver = None) /\ (m_kind m = GOde <-> solver <> None /\ final = false) /\ (m_kind m = GOdeFinal <-> solver <> None /\ final = true).
Proof.
  intros solver step final m. subst m. unfold set_goal_function. cbn. repeat (split; [reflexivity|]).
  destruct solver as [s|], final; cbn; intuition (try discriminate; try congruence).
Qed.
Print Assumptions C113_mode.
(** Finding: [set_goal_function] also resets what it is not told: asking an optimiser that uses the ODE solver for the
    final state only switches it back to propagators, and giving it another solver resets the step function. *)
Theorem C113_mode_reset_refuted :
  m_kind (set_goal_function None None (Some true)) = GRun /\
  forall solver, m_step (set_goal_function (Some solver) None None) = "schrodinger".
Proof. split; reflexivity. Qed.
Print Assumptions C113_mode_reset_refuted.

(** ** The subspace *)
Lemma position_spec : forall names n, match position names n with
  | Ok k => nth_error names k = Some n /\ forall j, (j < k)%nat -> nth_error names j <> Some n
  | Err e => e = ValueError /\ ~ In n names
  end.
Proof.
  induction names as [|m names IH]; intro n; cbn [position]; [split; [reflexivity|intros []]|].
  destruct (String.eqb_spec m n) as [->|N].
  - split; [reflexivity|]. intros j H. lia.
  - specialize (IH n). destruct (position names n) as [k|e]; cbn [rbind].
    + destruct IH as [A B]. split; [exact A|]. intros [|j] H; cbn; [intro K; injection K as K; contradiction|apply B; lia].
    + destruct IH as [-> B]. split; [reflexivity|]. intros [K|K]; [contradiction|exact (B K)].
Qed.
(** The index handed to the fidelity function holds, for each name in fid_subspace in order, the first position at which the model lists it;
    a name that is not in the model raises ValueError. *)
Theorem C113_subspace : forall names subspace,
  match subspace_index names subspace with
  | Ok idx => Forall2 (fun n k => nth_error names k = Some n /\ forall j, (j < k)%nat -> nth_error names j <> Some n) subspace idx
  | Err e => e = ValueError /\ exists n, In n subspace /\ ~ In n names
  end.
Proof.
  intros names subspace. induction subspace as [|n rest IH]; cbn [subspace_index]; [constructor|].
  pose proof (position_spec names n) as S1. destruct (position names n) as [k|e]; cbn [rbind].
  - destruct (subspace_index names rest) as [ks|e]; cbn [rbind]; [constructor; assumption|]. destruct IH as [-> (m & M1 & M2)]. split; [reflexivity|]. exists m. split; [right; exact M1|exact M2].
  - destruct S1 as [-> S2]. split; [reflexivity|]. exists n. split; [left; reflexivity|exact S2].
Qed.
Print Assumptions C113_subspace.

(** ** The algorithm *)
(** An algorithm is taken from the library by name, L-BFGS by default; every registered one accepts the arguments [optimize_controls] passes (the goal, its gradient and the lookup of it, and the options), except oneplusone. *)
Theorem C113_algorithm : forall a,
  match set_algorithm a with
  | Ok n => (a = Some n \/ (a = None /\ n = "lbfgs")) /\ (n <> "oneplusone" -> exists given, algorithm_call n = Ok given /\ forall k, In k given <-> In k ["fun"; "fun_grad"; "grad_lookup"; "options"])
  | Err e => e = KeyError /\ exists n, a = Some n /\ ~ In n (keys algorithms)
  end.
Proof.
  intros [n|]; cbn [set_algorithm].
  - destruct (dget n algorithms) as [sig|] eqn:E.
    + split; [left; reflexivity|]. intro N. unfold algorithm_call. rewrite E. apply dget_Some_in in E. cbn [algorithms In] in E.
      repeat (destruct E as [E|E]; [injection E as E1 <-; first [(eexists; split; [reflexivity|intro k; reflexivity]) | (exfalso; apply N; symmetry; exact E1)]|]). destruct E.
    + split; [reflexivity|]. exists n. split; [reflexivity|apply dget_None_notin, E].
  - split; [right; auto|intro N; eexists; split; [reflexivity|intro k; reflexivity]].
Qed.
Print Assumptions C113_algorithm.
(** Finding: oneplusone is registered as an algorithm but cannot be called. *)
Theorem C113_oneplusone_refuted : set_algorithm (Some "oneplusone") = Ok "oneplusone" /\ algorithm_call "oneplusone" = Err TypeError.
Proof. split; reflexivity. Qed.
Print Assumptions C113_oneplusone_refuted.

(** an optimiser of a state transfer: its one user argument reaches the fidelity function *)
Example C113_example :
  let body := fun n (args : dict (arg nat nat nat nat)) =>
    match dget "psi_0" args, dget "propagators" args, dget "n_eval" args with
    | Some (AUser u), Some (APropagators p), Some (AEval k) => Ok (INR (u + p) + IZR k)%R
    | _, _, _ => Err KeyError
    end in
  exists o, init body false (FName "state_transfer_infid_set") [FName "unitary_infid"] (Some "cmaes") [("psi_0", 3)] ["Q1"] None None None = Ok o /\
    oc_algorithm o = "cmaes" /\ map ff_name (oc_callbacks o) = ["unitary_infid"] /\
    subspace_index ["Q0"; "Q1"] (oc_subspace o) = Ok [1] /\
    exists o1, goal_function (fun w x => Ok (w + length x)) (fun w => Ok (2 * w)) (fun _ _ _ => Err KeyError) (fun _ _ _ => Err KeyError) o [1] 5 [0%R] =
      Ok (6, o1, (INR 15 + IZR 1)%R) /\ oc_eval o1 = 1%Z.
Proof. eexists. split; [reflexivity|]. split; [reflexivity|]. split; [reflexivity|]. split; [reflexivity|]. eexists. split; reflexivity. Qed.
