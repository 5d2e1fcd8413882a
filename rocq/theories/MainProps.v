(** Property C114: what the command line does with a configuration. *)
From Coq Require Import List Lia String Bool.
From Verif Require Import Base GoalModel GoalProps MainModel.
Import ListNotations.
Local Open Scope string_scope.
Local Open Scope list_scope.
Local Notation length := List.length.

(** ** Specification *)
(** the keys that run_cfg takes out of the configuration itself *)
Definition handled : list string :=
  ["optim_type"; "propagation_method"; "model"; "generator"; "instructions"; "exp_cfg"; "opt_gates"; "gateset_opt_map"; "exp_opt_map"].
(** what is left for the constructor of the optimiser *)
Definition rest (cfg : dict cval) : dict cval := filter (fun p => negb (is_in (fst p) handled)) cfg.
Definition types : list (string * optim) :=
  [("C1", OControl); ("C2", OCalib); ("C3", OLearn); ("C3_confirm", OLearn); ("confirm", OLearn); ("SET", OSens)].
Definition opt_ev (f : cval -> event) (o : option cval) : list event := match o with Some v => [f v] | None => [] end.

(** a configuration that can work for the optimiser [o] *)
Definition usable (cfg : dict cval) (o : optim) : Prop :=
  (In "instructions" (keys cfg) \/ In "exp_cfg" (keys cfg))
  /\ accepts (ctor o) (keys (rest cfg) ++ ["pmap"])
  /\ (o = OControl -> forall v, dget "initial_point" cfg = Some v -> exists s, v = VStr s)
  /\ (o = OLearn -> In "state_labels" (keys cfg)).

(** the steps up to the constructor *)
Definition experiment_steps (cfg : dict cval) : list event :=
  let prop := dget "propagation_method" cfg in
  opt_ev EReadModel (dget "model" cfg) ++ opt_ev EReadGenerator (dget "generator" cfg)
  ++ match dget "instructions" cfg with Some v => [EReadInstructions v; ENewExp prop] | None => [] end
  ++ match dget "exp_cfg" cfg with Some v => [ENewExp prop; EReadExp v] | None => [] end.
Definition map_steps (cfg : dict cval) : list event :=
  [EOptGates (dget "opt_gates" cfg)] ++ opt_ev EOptMap (dget "gateset_opt_map" cfg) ++ opt_ev EOptMap (dget "exp_opt_map" cfg).
(** all steps of a run that works: a path in initial_point is read by the constructor and again after it *)
Definition steps (o : optim) (cfg : dict cval) (debug : bool) : list event :=
  experiment_steps cfg ++ map_steps cfg
  ++ match dget "initial_point" cfg with Some (VStr "") => [] | Some v => [ELoad v] | None => [] end
  ++ [EBuild o (rest cfg)]
  ++ opt_ev ELoad (dget "initial_point" cfg)
  ++ (if debug then [] else [ERun o]).

(** ** Removing keys *)
Section Keys.
  Context {V : Type}.
  Lemma ddel_filter : forall k (d : dict V), NoDup (keys d) -> ddel k d = filter (fun p => negb (String.eqb (fst p) k)) d.
  Proof.
    intros k d. induction d as [|[k' v] d IH]; intro N; [reflexivity|]. cbn [ddel filter fst]. unfold keys in N. cbn [map fst] in N. inversion N as [|? ? N1 N2]; subst.
    rewrite (String.eqb_sym k k'). destruct (String.eqb k' k) eqn:E; cbn [negb].
    - apply String.eqb_eq in E. subst k'. clear -N1. induction d as [|[k' v'] d IH]; [reflexivity|]. cbn [filter fst]. destruct (String.eqb k' k) eqn:E; cbn [negb].
      + apply String.eqb_eq in E. subst. exfalso. apply N1. left. reflexivity.
      + f_equal. apply IH. intro H. apply N1. right. exact H.
    - f_equal. apply IH. exact N2.
  Qed.
  Lemma filter_filter : forall A (f g : A -> bool) l, filter f (filter g l) = filter (fun x => g x && f x) l.
  Proof. intros A f g l. induction l as [|x l IH]; [reflexivity|]. cbn [filter]. destruct (g x) eqn:E; cbn [filter andb]; rewrite IH; reflexivity. Qed.
  Lemma dels_filter : forall ks (d : dict V), NoDup (keys d) ->
    fold_left (fun d k => ddel k d) ks d = filter (fun p => negb (is_in (fst p) ks)) d.
  Proof.
    intro ks. induction ks as [|k ks IH]; intros d N; cbn [fold_left].
    - unfold is_in. cbn [existsb negb]. clear. induction d as [|p d IH]; [reflexivity|]. cbn [filter]. f_equal. exact IH.
    - rewrite IH; [|apply keys_ddel_nodup; exact N]. rewrite (ddel_filter k d N), filter_filter. apply filter_ext. intros [n v]. cbn [fst]. unfold is_in. cbn [existsb]. rewrite negb_orb. reflexivity.
  Qed.
  Lemma dget_filter : forall (f : string -> bool) k (d : dict V), f k = true -> dget k (filter (fun p => f (fst p)) d) = dget k d.
  Proof.
    intros f k d F. induction d as [|[k' v] d IH]; [reflexivity|]. cbn [filter fst dget]. destruct (String.eqb k k') eqn:E.
    - apply String.eqb_eq in E. subst k'. rewrite F. cbn [dget]. rewrite String.eqb_refl. reflexivity.
    - destruct (f k'); [|exact IH]. cbn [dget]. rewrite E. exact IH.
  Qed.
  Lemma keys_filter : forall (f : string -> bool) (d : dict V) k, In k (keys (filter (fun p => f (fst p)) d)) <-> In k (keys d) /\ f k = true.
  Proof.
    intros f d k. unfold keys. rewrite !in_map_iff. split.
    - intros ([k' v] & <- & H). apply filter_In in H. destruct H as [H F]. split; [|exact F]. exists (k', v). split; [reflexivity|exact H].
    - intros [([k' v] & <- & H) F]. exists (k', v). split; [reflexivity|]. apply filter_In. split; [exact H|exact F].
  Qed.
End Keys.

Lemma rest_get : forall cfg k, ~ In k handled -> dget k (rest cfg) = dget k cfg.
Proof.
  intros cfg k H. unfold rest. apply (dget_filter (fun k => negb (is_in k handled))). apply negb_true_iff. rewrite <- not_true_iff_false, is_in_spec. exact H.
Qed.
Lemma rest_keys : forall cfg k, In k (keys (rest cfg)) <-> In k (keys cfg) /\ ~ In k handled.
Proof.
  intros cfg k. unfold rest. rewrite (keys_filter (fun k => negb (is_in k handled))). rewrite negb_true_iff, <- not_true_iff_false, is_in_spec. reflexivity.
Qed.

(** ** Steps in sequence *)
Section Run.
  Variable oracle : list event -> event -> option exn.
  (** after [tr], no step of [l] raises *)
  Definition clean (tr l : list event) : Prop := forall pre e post, l = pre ++ e :: post -> oracle (tr ++ pre) e = None.
  (** the program does the steps [l] and then ends with [r], or ends with an exception at the first step that raises *)
  Definition does {A} (p : prog A) (l : list event) (r : result A) : Prop := forall tr,
    (clean tr l /\ p tr = (tr ++ l, r))
    \/ (exists pre e post y x, l = pre ++ e :: post /\ clean tr pre /\ oracle (tr ++ pre) e = Some y /\ p tr = (tr ++ pre ++ [e], Err x)).

  Lemma clean_nil : forall tr, clean tr [].
  Proof. intros tr pre e post H. destruct pre; discriminate H. Qed.
  Lemma clean_app : forall tr l l', clean tr (l ++ l') <-> clean tr l /\ clean (tr ++ l) l'.
  Proof.
    intros tr l l'. split.
    - intro H. split.
      + intros pre e post E. apply (H pre e (post ++ l')). rewrite E, <- app_assoc. reflexivity.
      + intros pre e post E. rewrite <- app_assoc. apply (H (l ++ pre) e post). rewrite E, <- app_assoc. reflexivity.
    - intros [H1 H2] pre e post E.
      assert (K : (exists m, l = pre ++ e :: m) \/ (exists m, pre = l ++ m /\ l' = m ++ e :: post)).
      { clear -E. revert pre E. induction l as [|a l IH]; intros pre E.
        - right. exists pre. split; [reflexivity|exact E].
        - destruct pre as [|b pre]; cbn [app] in E; injection E as -> E.
          + left. exists l. reflexivity.
          + destruct (IH pre E) as [[m ->]|(m & -> & ->)]; [left; exists m; reflexivity|right; exists m; split; reflexivity]. }
      destruct K as [[m ->]|(m & -> & ->)]; [apply (H1 pre e m eq_refl)|]. rewrite app_assoc. apply (H2 m e post eq_refl).
  Qed.
  Lemma does_ret : forall A (a : A), does (ret a) [] (Ok a).
  Proof. intros A a tr. left. split; [apply clean_nil|]. unfold ret. rewrite app_nil_r. reflexivity. Qed.
  Lemma does_raise : forall A (x : exn), does (raise (A:=A) x) [] (Err x).
  Proof. intros A x tr. left. split; [apply clean_nil|]. unfold raise. rewrite app_nil_r. reflexivity. Qed.
  Lemma clean_one : forall tr e, clean tr [e] <-> oracle tr e = None.
  Proof.
    intros tr e. split.
    - intro H. specialize (H [] e [] eq_refl). rewrite app_nil_r in H. exact H.
    - intros E pre f post H. destruct pre as [|a pre]; cbn [app] in H; injection H as -> H; [rewrite app_nil_r; exact E|destruct pre; discriminate H].
  Qed.
  Lemma does_step : forall e, does (step oracle e) [e] (Ok tt).
  Proof.
    intros e tr. unfold step. destruct (oracle tr e) as [x|] eqn:E.
    - right. exists [], e, [], x, x. rewrite app_nil_r. split; [reflexivity|]. split; [apply clean_nil|]. split; [exact E|reflexivity].
    - left. split; [apply clean_one; exact E|reflexivity].
  Qed.
  Lemma does_bind : forall A B (p : prog A) (f : A -> prog B) l a l' r, does p l (Ok a) -> does (f a) l' r -> does (bind p f) (l ++ l') r.
  Proof.
    intros A B p f l a l' r Hp Hf tr. unfold bind. destruct (Hp tr) as [[C E]|(pre & e & post & y & x & El & C & O & E)]; rewrite E.
    - destruct (Hf (tr ++ l)) as [[C' E']|(pre & e & post & y & x & El & C' & O & E')]; rewrite E'.
      + left. split; [apply clean_app; split; assumption|]. rewrite app_assoc. reflexivity.
      + right. exists (l ++ pre), e, post, y, x. split; [rewrite El, <- app_assoc; reflexivity|]. split; [apply clean_app; split; assumption|].
        split; [rewrite app_assoc; exact O|]. rewrite <- !app_assoc. reflexivity.
    - right. exists pre, e, (post ++ l'), y, x. split; [rewrite El, <- app_assoc; reflexivity|]. split; [exact C|]. split; [exact O|reflexivity].
  Qed.
  Lemma does_bind_err : forall A B (p : prog A) (f : A -> prog B) l x, does p l (Err x) -> does (bind p f) l (Err x).
  Proof.
    intros A B p f l x Hp tr. unfold bind. destruct (Hp tr) as [[C E]|(pre & e & post & y & x' & El & C & O & E)]; rewrite E.
    - left. split; [exact C|reflexivity].
    - right. exists pre, e, post, y, x'. split; [exact El|]. split; [exact C|]. split; [exact O|reflexivity].
  Qed.
  Lemma does_opt : forall f o, does (match o with Some v => step oracle (f v) | None => ret tt end) (opt_ev f o) (Ok tt).
  Proof. intros f [v|]; [apply does_step|apply does_ret]. Qed.
  Lemma does_caught : forall v, does (fun tr => match step oracle (ELoad v) tr with (tr1, Err FileNotFound) => (tr1, Err C3Error) | r => r end) [ELoad v] (Ok tt).
  Proof.
    intros v tr. unfold step. destruct (oracle tr (ELoad v)) as [x|] eqn:E.
    - right. exists [], (ELoad v), [], x, (match x with FileNotFound => C3Error | x => x end). rewrite app_nil_r. split; [reflexivity|]. split; [apply clean_nil|]. split; [exact E|]. destruct x; reflexivity.
    - left. split; [apply clean_one; exact E|reflexivity].
  Qed.

  Definition cut (n : nat) (cfg : dict cval) : dict cval := fold_left (fun d k => ddel k d) (firstn n handled) cfg.
  Lemma cut_get : forall n cfg k, NoDup (keys cfg) -> ~ In k (firstn n handled) -> dget k (cut n cfg) = dget k cfg.
  Proof.
    intros n cfg k N H. unfold cut. rewrite dels_filter; [|exact N]. apply (dget_filter (fun k => negb (is_in k (firstn n handled)))).
    apply negb_true_iff. rewrite <- not_true_iff_false, is_in_spec. exact H.
  Qed.
  Ltac notin := let K := fresh in cbn [firstn handled In]; intro K; repeat (destruct K as [K|K]; [discriminate K|]); exact K.
  Definition has_exp (cfg : dict cval) : bool := match dget "instructions" cfg, dget "exp_cfg" cfg with None, None => false | _, _ => true end.

  Lemma does_setup : forall cfg, NoDup (keys cfg) ->
    does (setup oracle (cut 1 cfg)) (experiment_steps cfg ++ if has_exp cfg then [] else [ENewExp (dget "propagation_method" cfg)])
         (if has_exp cfg then Ok (cut 6 cfg) else Err KeyError).
  Proof.
    intros cfg N. unfold setup, pop. cbv beta iota zeta.
    change (ddel "propagation_method" (cut 1 cfg)) with (cut 2 cfg). change (ddel "model" (cut 2 cfg)) with (cut 3 cfg).
    change (ddel "generator" (cut 3 cfg)) with (cut 4 cfg). change (ddel "instructions" (cut 4 cfg)) with (cut 5 cfg). change (ddel "exp_cfg" (cut 5 cfg)) with (cut 6 cfg).
    rewrite (cut_get 1 cfg "propagation_method" N) by notin. rewrite (cut_get 2 cfg "model" N) by notin. rewrite (cut_get 3 cfg "generator" N) by notin.
    rewrite (cut_get 4 cfg "instructions" N) by notin. rewrite (cut_get 5 cfg "exp_cfg" N) by notin.
    assert (M : dget "model" (cut 6 cfg) = None).
    { apply dget_None_notin. unfold cut. rewrite dels_filter; [|exact N]. intro K. apply (keys_filter (fun k => negb (is_in k (firstn 6 handled)))) in K. destruct K as [_ K]. discriminate K. }
    rewrite M. unfold experiment_steps. cbv zeta. rewrite <- !app_assoc.
    eapply does_bind; [apply (does_opt EReadModel)|]. eapply does_bind; [apply (does_opt EReadGenerator)|].
    unfold has_exp. destruct (dget "instructions" cfg) as [vi|]; destruct (dget "exp_cfg" cfg) as [ve|]; cbn [app].
    - apply (does_bind _ _ _ _ [EReadInstructions vi; ENewExp (dget "propagation_method" cfg)] tt).
      + apply (does_bind _ _ _ _ [EReadInstructions vi] tt [ENewExp _]); apply does_step.
      + apply (does_bind _ _ _ _ [ENewExp (dget "propagation_method" cfg); EReadExp ve] tt []); [|apply does_ret]. apply (does_bind _ _ _ _ [ENewExp _] tt [_]); apply does_step.
    - apply (does_bind _ _ _ _ [EReadInstructions vi; ENewExp (dget "propagation_method" cfg)] tt []).
      + apply (does_bind _ _ _ _ [EReadInstructions vi] tt [ENewExp _]); apply does_step.
      + apply (does_bind _ _ _ _ [] tt []); apply does_ret.
    - apply (does_bind _ _ _ _ [] tt); [apply does_ret|].
      apply (does_bind _ _ _ _ [ENewExp (dget "propagation_method" cfg); EReadExp ve] tt []); [|apply does_ret]. apply (does_bind _ _ _ _ [ENewExp _] tt [_]); apply does_step.
    - apply (does_bind _ _ _ _ [] tt); [apply does_ret|]. apply (does_bind _ _ _ _ [] tt); [apply does_ret|].
      apply (does_bind _ _ _ _ [ENewExp _] tt []); [apply does_step|apply does_raise].
  Qed.
  Lemma does_maps : forall cfg, NoDup (keys cfg) -> does (maps oracle (cut 6 cfg)) (map_steps cfg) (Ok (rest cfg)).
  Proof.
    intros cfg N. unfold maps, pop. cbv beta iota zeta.
    change (ddel "opt_gates" (cut 6 cfg)) with (cut 7 cfg). change (ddel "gateset_opt_map" (cut 7 cfg)) with (cut 8 cfg). change (ddel "exp_opt_map" (cut 8 cfg)) with (cut 9 cfg).
    rewrite (cut_get 6 cfg "opt_gates" N) by notin. rewrite (cut_get 7 cfg "gateset_opt_map" N) by notin. rewrite (cut_get 8 cfg "exp_opt_map" N) by notin.
    replace (cut 9 cfg) with (rest cfg) by (unfold cut; rewrite dels_filter; [reflexivity|exact N]).
    unfold map_steps. apply (does_bind _ _ _ _ [_] tt); [apply does_step|]. eapply does_bind; [apply (does_opt EOptMap)|].
    rewrite <- (app_nil_r (opt_ev EOptMap _)). eapply does_bind; [apply (does_opt EOptMap)|apply does_ret].
  Qed.

  (** whether the constructor takes the configuration, the steps it does and how it ends *)
  Definition accepted (o : optim) (cfg : dict cval) : bool := bind_names (ctor o) [] (keys (rest cfg) ++ ["pmap"]).
  Definition point_ok (o : optim) (cfg : dict cval) : bool := match o, dget "initial_point" cfg with OControl, Some (VStr _) | OControl, None => true | OControl, _ => false | _, _ => true end.
  Definition labels_ok (o : optim) (cfg : dict cval) : bool := match o, dget "state_labels" cfg with OLearn, None => false | _, _ => true end.
  Definition first_load (o : optim) (cfg : dict cval) : list event :=
    match o, dget "initial_point" cfg with OControl, Some (VStr s) => if String.eqb s "" then [] else [ELoad (VStr s)] | _, _ => [] end.

  Lemma does_build : forall o cfg, does (build oracle o (rest cfg))
    (if accepted o cfg then if point_ok o cfg then first_load o cfg ++ [EBuild o (rest cfg)] else [] else [])
    (if accepted o cfg then if point_ok o cfg then if labels_ok o cfg then Ok tt else Err AttributeError else Err TypeError else Err TypeError).
  Proof.
    intros o cfg. unfold build, accepted. destruct (bind_names _ _ _); [|apply does_raise].
    assert (L : does (ctor_load oracle o (rest cfg)) (if point_ok o cfg then first_load o cfg else []) (if point_ok o cfg then Ok tt else Err TypeError)).
    { unfold ctor_load, point_ok, first_load. rewrite rest_get by notin.
      destruct o; destruct (dget "initial_point" cfg) as [[s|l|n]|]; try apply does_ret; try apply does_raise. destruct (String.eqb s ""); [apply does_ret|apply does_step]. }
    destruct (point_ok o cfg).
    - eapply does_bind; [exact L|]. rewrite <- (app_nil_r [_]). eapply does_bind; [apply does_step|].
      unfold labels_ok. rewrite rest_get by notin. destruct o; destruct (dget "state_labels" cfg); try apply does_ret. apply does_raise.
    - apply does_bind_err. exact L.
  Qed.
  (** the initial point can only be given to an OptimalControl, and adjust_exp to none *)
  Lemma accepted_point : forall o cfg, accepted o cfg = true -> In "initial_point" (keys cfg) -> o = OControl.
  Proof.
    intros o cfg H I. unfold accepted in H. apply C113_keywords in H. destruct H as (_ & H & _).
    assert (R : In "initial_point" (keys (rest cfg))) by (apply rest_keys; split; [exact I|notin]).
    destruct (H _ (proj2 (in_app_iff _ _ _) (or_introl R))) as [b K]. clear -K. destruct o; [reflexivity|exfalso..]; cbn [ctor In] in K; repeat (destruct K as [K|K]; [discriminate K|]); exact K.
  Qed.
  Lemma accepted_adjust : forall o cfg, accepted o cfg = true -> ~ In "adjust_exp" (keys cfg).
  Proof.
    intros o cfg H I. unfold accepted in H. apply C113_keywords in H. destruct H as (_ & H & _).
    assert (R : In "adjust_exp" (keys (rest cfg))) by (apply rest_keys; split; [exact I|notin]).
    destruct (H _ (proj2 (in_app_iff _ _ _) (or_introl R))) as [b K]. clear -K. destruct o; cbn [ctor In] in K; repeat (destruct K as [K|K]; [discriminate K|]); exact K.
  Qed.

  Definition planned (o : optim) (cfg : dict cval) (debug : bool) : list event :=
    if has_exp cfg then
      experiment_steps cfg ++ map_steps cfg ++
      (if accepted o cfg then if point_ok o cfg then
         first_load o cfg ++ [EBuild o (rest cfg)] ++
         (if labels_ok o cfg then opt_ev ELoad (dget "initial_point" cfg) ++ (if debug then [] else [ERun o]) else [])
       else [] else [])
    else experiment_steps cfg ++ [ENewExp (dget "propagation_method" cfg)].
  Definition outcome (o : optim) (cfg : dict cval) : result unit :=
    if has_exp cfg then
      if accepted o cfg then if point_ok o cfg then if labels_ok o cfg then Ok tt else Err AttributeError else Err TypeError else Err TypeError
    else Err KeyError.
  Lemma does_run : forall cfg debug ty o, NoDup (keys cfg) -> dget "optim_type" cfg = Some (VStr ty) -> In (ty, o) types ->
    does (run_cfg oracle cfg debug) (planned o cfg debug) (outcome o cfg).
  Proof.
    intros cfg debug ty o N T I. unfold run_cfg, pop. rewrite T. change (ddel "optim_type" cfg) with (cut 1 cfg).
    assert (D : dget ty optim_lib = Some o).
    { cbn [types In] in I. repeat (destruct I as [I|I]; [injection I as <- <-; reflexivity|]). destruct I. }
    rewrite D. unfold planned, outcome. pose proof (does_setup cfg N) as S. destruct (has_exp cfg).
    - rewrite app_nil_r in S. eapply does_bind; [exact S|]. eapply does_bind; [apply does_maps; exact N|].
      pose proof (does_build o cfg) as BD. destruct (accepted o cfg) eqn:A; [|apply does_bind_err; exact BD].
      destruct (point_ok o cfg) eqn:PO; [|apply does_bind_err; exact BD].
      destruct (labels_ok o cfg) eqn:LO.
      + rewrite app_assoc. eapply does_bind; [exact BD|].
        assert (Q : does (initial oracle (rest cfg)) (opt_ev ELoad (dget "initial_point" cfg)) (Ok tt)).
        { unfold initial. rewrite rest_get by notin. destruct (dget "initial_point" cfg) as [v|] eqn:IP; [|apply does_ret].
          assert (o = OControl) as -> by (eapply accepted_point; [exact A|]; apply dget_in_keys; exists v; exact IP).
          unfold point_ok in PO. rewrite IP in PO. destruct v as [s|l|n]; [|discriminate PO..].
          cbn [load_all opt_ev]. apply (does_bind _ _ _ _ [ELoad (VStr s)] tt []); [apply does_caught|apply does_ret]. }
        eapply does_bind; [exact Q|]. apply (does_bind _ _ _ _ [] tt).
        * unfold adjust. assert (Z : dget "adjust_exp" (rest cfg) = None).
          { rewrite rest_get by notin. apply dget_None_notin. eapply accepted_adjust. exact A. }
          cbv beta. rewrite Z. cbn [types In] in I. repeat (destruct I as [I|I]; [injection I as <- <-; apply does_ret|]). destruct I.
        * destruct debug; [apply does_ret|apply does_step].
      + apply does_bind_err. rewrite app_nil_r. exact BD.
    - apply does_bind_err. exact S.
  Qed.
End Run.

(** ** Theorems *)
Lemma usable_spec : forall cfg o, usable cfg o <-> has_exp cfg = true /\ accepted o cfg = true /\ point_ok o cfg = true /\ labels_ok o cfg = true.
Proof.
  intros cfg o. unfold usable, accepted. rewrite C113_keywords.
  assert (E : (In "instructions" (keys cfg) \/ In "exp_cfg" (keys cfg)) <-> has_exp cfg = true).
  { unfold has_exp. rewrite !dget_in_keys. destruct (dget "instructions" cfg) as [a|]; destruct (dget "exp_cfg" cfg) as [b|].
    - split; [reflexivity|]. intros _. left. exists a. reflexivity.
    - split; [reflexivity|]. intros _. left. exists a. reflexivity.
    - split; [reflexivity|]. intros _. right. exists b. reflexivity.
    - split; [intros [[v K]|[v K]]; discriminate K|discriminate]. }
  assert (P : (o = OControl -> forall v, dget "initial_point" cfg = Some v -> exists s, v = VStr s) <-> point_ok o cfg = true).
  { unfold point_ok. split.
    - intro H. destruct o; try reflexivity. destruct (dget "initial_point" cfg) as [v|]; [|reflexivity]. destruct (H eq_refl v eq_refl) as [s ->]. reflexivity.
    - intros H -> v K. rewrite K in H. destruct v as [s|l|n]; [exists s; reflexivity|discriminate H..]. }
  assert (L : (o = OLearn -> In "state_labels" (keys cfg)) <-> labels_ok o cfg = true).
  { unfold labels_ok. rewrite dget_in_keys. split.
    - intro H. destruct o; try reflexivity. destruct (H eq_refl) as [v ->]. reflexivity.
    - intros H ->. destruct (dget "state_labels" cfg) as [v|]; [exists v; reflexivity|discriminate H]. }
  rewrite E, P, L. reflexivity.
Qed.
Lemma planned_usable : forall cfg o debug, usable cfg o -> planned o cfg debug = steps o cfg debug.
Proof.
  intros cfg o debug U. apply usable_spec in U. destruct U as (H & A & P & L). unfold planned, steps. rewrite H, A, P, L. f_equal. f_equal.
  unfold first_load. destruct (dget "initial_point" cfg) as [v|] eqn:IP.
  - assert (o = OControl) as -> by (eapply accepted_point; [exact A|]; apply dget_in_keys; exists v; exact IP).
    unfold point_ok in P. rewrite IP in P. destruct v as [s|l|n]; [|discriminate P..]. destruct (String.eqb s "") eqn:S.
    + apply String.eqb_eq in S. subst s. reflexivity.
    + destruct s as [|a s]; [discriminate S|reflexivity].
  - destruct o; reflexivity.
Qed.
Lemma in_snoc_run : forall (l : list event) o, (forall q, ~ In (ERun q) l) -> forall pre e post q, l ++ [ERun o] = pre ++ e :: post -> In (ERun q) (pre ++ [e]) -> pre = l /\ e = ERun o /\ q = o.
Proof.
  intros l. induction l as [|a l IH]; intros o H pre e post q E I.
  - destruct pre as [|b pre]; cbn [app] in E; injection E as <- E.
    + destruct I as [I|[]]. injection I as <-. split; [reflexivity|]. split; reflexivity.
    + destruct pre; discriminate E.
  - destruct pre as [|b pre]; cbn [app] in E; injection E as <- E.
    + destruct I as [I|[]]. exfalso. apply (H q). left. exact I.
    + destruct I as [I|I]; [exfalso; apply (H q); left; exact I|]. destruct (IH o (fun q K => H q (or_intror K)) pre e post q E I) as (-> & -> & ->). split; [reflexivity|split; reflexivity].
Qed.
Ltac no_run := repeat match goal with
  | H : In _ (_ ++ _) |- _ => apply in_app_iff in H; destruct H as [H|H]
  | H : In _ (_ :: _) |- _ => destruct H as [H|H]; [try discriminate H|]
  | H : In _ [] |- _ => destruct H
  | H : In _ (opt_ev _ ?o) |- _ => destruct o; cbn [opt_ev] in H
  | H : In _ (match ?o with _ => _ end) |- _ => destruct o
  end.
Definition late (e : event) : Prop := match e with EBuild _ _ | ELoad _ | EAdjust _ | ERun _ => True | _ => False end.
Lemma early : forall cfg e, In e (experiment_steps cfg ++ map_steps cfg) -> ~ late e.
Proof. intros cfg e H. unfold experiment_steps, map_steps in H. cbv zeta in H. no_run; try subst e; intros []. Qed.
Lemma early_exp : forall cfg e, In e (experiment_steps cfg ++ [ENewExp (dget "propagation_method" cfg)]) -> ~ late e.
Proof. intros cfg e H. unfold experiment_steps in H. cbv zeta in H. no_run; try subst e; intros []. Qed.

Section Props.
  Variable oracle : list event -> event -> option exn.
  Notation run_cfg := (run_cfg oracle).
  Notation clean := (clean oracle).
  Lemma known_type : forall cfg debug tr, run_cfg cfg debug [] = (tr, Ok tt) -> exists ty o, dget "optim_type" cfg = Some (VStr ty) /\ In (ty, o) types.
  Proof.
    intros cfg debug tr H. unfold MainModel.run_cfg, pop in H. destruct (dget "optim_type" cfg) as [[ty|l|n]|]; [|discriminate H..].
    destruct (dget ty optim_lib) as [o|] eqn:D; [|discriminate H]. exists ty, o. split; [reflexivity|]. apply dget_Some_in in D. exact D.
  Qed.
  Lemma types_fun : forall ty o o', In (ty, o) types -> In (ty, o') types -> o = o'.
  Proof.
    intros ty o o' A B. cbn [types In] in A, B. repeat (destruct A as [A|A]; [injection A as <- <-; repeat (destruct B as [B|B]; [try discriminate B; injection B as <-; reflexivity|]); destruct B|]). destruct A.
  Qed.

(** A configuration works exactly if it names one of the six types, says how to build the experiment, leaves for the optimiser
    exactly arguments that its constructor takes and none that it needs out, gives a path as initial point and (for model learning) the
    state labels, and no step raises.  It then does these steps in this order. *)
Theorem C114_success : forall cfg debug tr, NoDup (keys cfg) ->
  (run_cfg cfg debug [] = (tr, Ok tt) <->
   exists ty o, In (ty, o) types /\ dget "optim_type" cfg = Some (VStr ty) /\ usable cfg o /\ tr = steps o cfg debug
     /\ forall pre e post, tr = pre ++ e :: post -> oracle pre e = None).
Proof.
  intros cfg debug tr N. split.
  - intro H. destruct (known_type cfg debug tr H) as (ty & o & T & I). exists ty, o. split; [exact I|]. split; [exact T|].
    destruct (does_run oracle cfg debug ty o N T I []) as [[C E]|(pre & e & post & y & x & _ & _ & _ & E)]; rewrite E in H; [|discriminate H].
    injection H as <- O. assert (U : usable cfg o).
    { apply usable_spec. unfold outcome in O. destruct (has_exp cfg); [|discriminate O]. destruct (accepted o cfg); [|discriminate O]. destruct (point_ok o cfg); [|discriminate O]. destruct (labels_ok o cfg); [|discriminate O]. repeat split. }
    split; [exact U|]. split; [apply planned_usable; exact U|]. intros pre e post K. apply (C pre e post K).
  - intros (ty & o & I & T & U & -> & C). destruct (does_run oracle cfg debug ty o N T I []) as [[_ E]|(pre & e & post & y & x & P & _ & O & _)].
    + rewrite E. cbn [app]. rewrite (planned_usable cfg o debug U). f_equal. apply usable_spec in U. destruct U as (H & A & B & L). unfold outcome. rewrite H, A, B, L. reflexivity.
    + exfalso. rewrite (planned_usable cfg o debug U) in P. cbn [app] in O. rewrite (C pre e post P) in O. discriminate O.
Qed.

(** The optimiser runs at most once and last, not with [debug], and only when everything before has worked. *)
Theorem C114_run_last : forall cfg debug tr r o, NoDup (keys cfg) -> run_cfg cfg debug [] = (tr, r) -> In (ERun o) tr ->
  debug = false /\ usable cfg o /\ tr = steps o cfg true ++ [ERun o] /\ (forall q, ~ In (ERun q) (steps o cfg true))
  /\ (forall pre e post, steps o cfg true = pre ++ e :: post -> oracle pre e = None)
  /\ (r = Ok tt <-> oracle (steps o cfg true) (ERun o) = None).
Proof.
  intros cfg debug tr r o N H R.
  assert (K : exists ty q, dget "optim_type" cfg = Some (VStr ty) /\ In (ty, q) types).
  { unfold MainModel.run_cfg, pop in H. destruct (dget "optim_type" cfg) as [[ty|l|n]|]; [|injection H as <- <-; destruct R..].
    destruct (dget ty optim_lib) as [q|] eqn:D; [|injection H as <- <-; destruct R]. exists ty, q. split; [reflexivity|]. apply dget_Some_in in D. exact D. }
  destruct K as (ty & q & T & I).
  assert (SUB : In (ERun o) (planned q cfg debug)).
  { destruct (does_run oracle cfg debug ty q N T I []) as [[_ E]|(pre & e & post & y & x & P & _ & _ & E)]; rewrite E in H; injection H as <- _; cbn [app] in R.
    - exact R.
    - rewrite P. apply in_app_iff in R. apply in_app_iff. destruct R as [R|[R|[]]]; [left; exact R|right; left; exact R]. }
  assert (U : usable cfg q).
  { apply usable_spec. unfold planned in SUB. destruct (has_exp cfg); [|exfalso; apply (early_exp _ _ SUB); exact Logic.I].
    rewrite app_assoc in SUB. apply in_app_iff in SUB. destruct SUB as [SUB|SUB]; [exfalso; apply (early _ _ SUB); exact Logic.I|].
    destruct (accepted q cfg); [|destruct SUB]. destruct (point_ok q cfg); [|destruct SUB]. destruct (labels_ok q cfg); [repeat split|exfalso].
    unfold first_load in SUB. destruct q; no_run. }
  assert (NR : forall p, ~ In (ERun p) (steps q cfg true)).
  { intros p K. unfold steps in K. rewrite app_assoc in K. apply in_app_iff in K. destruct K as [K|K]; [apply (early _ _ K); exact Logic.I|]. no_run. }
  rewrite (planned_usable cfg q debug U) in SUB.
  assert (D : debug = false). { destruct debug; [exfalso; apply (NR o SUB)|reflexivity]. }
  subst debug. assert (S : steps q cfg false = steps q cfg true ++ [ERun q]).
  { unfold steps. rewrite app_nil_r, <- !app_assoc. reflexivity. }
  destruct (does_run oracle cfg false ty q N T I []) as [[C E]|(pre & e & post & y & x & P & C & O & E)]; rewrite E in H.
  - rewrite (planned_usable cfg q false U), S in *. injection H as <- <-. cbn [app] in R. apply in_app_iff in R. destruct R as [R|[R|[]]]; [exfalso; apply (NR o R)|]. injection R as ->.
    split; [reflexivity|]. split; [exact U|]. split; [reflexivity|]. split; [exact NR|]. apply clean_app in C. destruct C as [C1 C2]. split; [intros pre e post K; apply (C1 pre e post K)|].
    apply clean_one in C2. split; [intros _; exact C2|]. intros _. apply usable_spec in U. destruct U as (H & A & B & L). unfold outcome. rewrite H, A, B, L. reflexivity.
  - rewrite (planned_usable cfg q false U), S in P. injection H as <- <-. cbn [app] in R.
    destruct (in_snoc_run _ _ NR _ _ _ _ P R) as (-> & -> & ->). split; [reflexivity|]. split; [exact U|]. split; [reflexivity|]. split; [exact NR|].
    split; [intros pre e post' K; apply (C pre e post' K)|]. cbn [app] in O. split; [discriminate|]. intro K. rewrite K in O. discriminate O.
Qed.

(** A key that is neither read by run_cfg nor an argument of the optimiser, for example a misspelt one, or a missing argument, stops the run before an optimiser exists: nothing is loaded and nothing is run. *)
Theorem C114_arguments : forall cfg debug tr r ty o, NoDup (keys cfg) -> dget "optim_type" cfg = Some (VStr ty) -> In (ty, o) types ->
  ((exists k, In k (keys cfg) /\ ~ In k handled /\ (forall b, ~ In (k, b) (ctor o)))
   \/ (exists k, In (k, true) (ctor o) /\ k <> "pmap" /\ ~ In k (keys cfg)) \/ In "pmap" (keys cfg)) ->
  run_cfg cfg debug [] = (tr, r) -> (exists x, r = Err x) /\ (forall e, In e tr -> ~ late e)
  /\ ((forall pre e, oracle pre e = None) -> In "instructions" (keys cfg) \/ In "exp_cfg" (keys cfg) -> r = Err TypeError).
Proof.
  intros cfg debug tr r ty o N T I BAD H.
  assert (A : accepted o cfg = false).
  { apply not_true_iff_false. intro A. apply C113_keywords in A. destruct A as (A1 & A2 & A3). destruct BAD as [(k & K1 & K2 & K3)|[(k & K1 & K2 & K3)|K1]].
    - destruct (A2 k) as [b B]; [|apply (K3 b B)]. apply in_app_iff. left. apply rest_keys. split; assumption.
    - specialize (A3 k K1). apply in_app_iff in A3. destruct A3 as [A3|[A3|[]]]; [|apply K2; symmetry; exact A3]. apply rest_keys in A3. apply K3, A3.
    - assert (R : In "pmap" (keys (rest cfg))).
      { apply rest_keys. split; [exact K1|]. intro J. cbn [handled In] in J. repeat (destruct J as [J|J]; [discriminate J|]). exact J. }
      clear -A1 R. induction (keys (rest cfg)) as [|a l IH]; [destruct R|]. cbn [app] in A1. inversion A1 as [|? ? A2 A3]; subst. destruct R as [->|R]; [apply A2; apply in_app_iff; right; left; reflexivity|apply IH; assumption]. }
  assert (PL : forall e, In e (planned o cfg debug) -> ~ late e).
  { intros e K. unfold planned in K. rewrite A in K. destruct (has_exp cfg); [|apply (early_exp _ _ K)]. rewrite app_nil_r in K. apply (early _ _ K). }
  assert (OC : exists x, outcome o cfg = Err x).
  { unfold outcome. rewrite A. destruct (has_exp cfg); eexists; reflexivity. }
  destruct (does_run oracle cfg debug ty o N T I []) as [[C E]|(pre & e & post & y & x & P & C & O & E)]; rewrite E in H; injection H as <- <-; cbn [app].
  - split; [exact OC|]. split; [exact PL|]. intros _ HE. unfold outcome. rewrite A.
    assert (HX : has_exp cfg = true).
    { unfold has_exp. rewrite !dget_in_keys in HE. destruct HE as [[v ->]|[v ->]]; [reflexivity|]. destruct (dget "instructions" cfg); reflexivity. }
    rewrite HX. reflexivity.
  - split; [exists x; reflexivity|]. split; [|intros Q; rewrite Q in O; discriminate O]. intros f K. apply PL. rewrite P. apply in_app_iff in K. apply in_app_iff.
    destruct K as [K|[K|[]]]; [left; exact K|right; left; exact K].
Qed.

(** What each kind of optimiser needs in the configuration. *)
Definition needed (o : optim) : list string :=
  match o with
  | OControl => ["fid_func"; "fid_subspace"]
  | OCalib => ["eval_func"; "algorithm"]
  | OLearn => ["sampling"; "batch_sizes"; "datafiles"]
  | OSens => ["sampling"; "batch_sizes"; "datafiles"; "state_labels"; "sweep_map"; "sweep_bounds"; "algorithm"]
  end.
Theorem C114_needed : forall cfg debug tr r ty o k, NoDup (keys cfg) -> dget "optim_type" cfg = Some (VStr ty) -> In (ty, o) types ->
  In k (needed o) -> ~ In k (keys cfg) ->
  run_cfg cfg debug [] = (tr, r) -> (exists x, r = Err x) /\ (forall e, In e tr -> ~ late e)
  /\ ((forall pre e, oracle pre e = None) -> In "instructions" (keys cfg) \/ In "exp_cfg" (keys cfg) -> r = Err TypeError).
Proof.
  intros cfg debug tr r ty o k N T I K NK H. apply (C114_arguments cfg debug tr r ty o N T I); [|exact H]. right. left. exists k.
  destruct o; cbn [needed In ctor] in *; repeat (destruct K as [<-|K]; [split; [tauto|]; split; [discriminate|exact NK]|]); destruct K.
Qed.

(** Without a known type nothing is done at all. *)
Theorem C114_type : forall cfg debug,
  (dget "optim_type" cfg = None -> run_cfg cfg debug [] = ([], Err KeyError))
  /\ (forall ty, dget "optim_type" cfg = Some (VStr ty) -> ~ In ty ["C1"; "C2"; "C3"; "C3_confirm"; "confirm"; "SET"] -> run_cfg cfg debug [] = ([], Err C3Error)).
Proof.
  intros cfg debug. unfold MainModel.run_cfg, pop. split.
  - intros ->. reflexivity.
  - intros ty -> H. destruct (dget ty optim_lib) as [o|] eqn:D; [|reflexivity]. exfalso. apply H. apply dget_Some_in in D. apply (in_map fst) in D. exact D.
Qed.

(** Finding: with neither instructions nor exp_cfg, run_cfg announces a quick setup, which cannot work: the model it needs has been taken out of the configuration, and KeyError follows. *)
Theorem C114_quick_refuted : forall cfg debug tr r, NoDup (keys cfg) -> ~ In "instructions" (keys cfg) -> ~ In "exp_cfg" (keys cfg) ->
  run_cfg cfg debug [] = (tr, r) -> (exists x, r = Err x) /\ (forall e, In e tr -> ~ late e)
  /\ ((forall pre e, oracle pre e = None) -> forall ty o, dget "optim_type" cfg = Some (VStr ty) -> In (ty, o) types -> r = Err KeyError).
Proof.
  intros cfg debug tr r N NI NE H.
  assert (HX : has_exp cfg = false).
  { unfold has_exp. apply dget_None_notin in NI, NE. rewrite NI, NE. reflexivity. }
  destruct (dget "optim_type" cfg) as [[ty|l|n]|] eqn:T.
  2-4: unfold MainModel.run_cfg, pop in H; rewrite T in H; injection H as <- <-; (split; [eexists; reflexivity|]; split; [intros e []|]; intros _ ty o K; discriminate K).
  destruct (dget ty optim_lib) as [o|] eqn:D.
  2:{ unfold MainModel.run_cfg, pop in H. rewrite T, D in H. injection H as <- <-. split; [eexists; reflexivity|]. split; [intros e []|]. intros _ ty' o K I. injection K as <-. exfalso.
      assert (D' : exists v, dget ty optim_lib = Some v) by (apply dget_in_keys; apply (in_map fst) in I; exact I). destruct D' as [v D']. rewrite D in D'. discriminate D'. }
  assert (I : In (ty, o) types) by (apply dget_Some_in in D; exact D).
  assert (OC : outcome o cfg = Err KeyError) by (unfold outcome; rewrite HX; reflexivity).
  assert (PL : forall e, In e (planned o cfg debug) -> ~ late e).
  { intros e K. unfold planned in K. rewrite HX in K. apply (early_exp _ _ K). }
  destruct (does_run oracle cfg debug ty o N T I []) as [[C E]|(pre & e & post & y & x & P & C & O & E)]; rewrite E in H; injection H as <- <-; cbn [app].
  - rewrite OC. split; [eexists; reflexivity|]. split; [exact PL|]. intros _ ty' o' _ _. reflexivity.
  - split; [eexists; reflexivity|]. split; [|intros Q; rewrite Q in O; discriminate O]. intros f K. apply PL. rewrite P. apply in_app_iff in K. apply in_app_iff.
    destruct K as [K|[K|[]]]; [left; exact K|right; left; exact K].
Qed.

(** Finding: the setting adjust_exp, which run_cfg reads for C1, is also passed to the constructor, which does not know it: no configuration with it works. *)
Theorem C114_adjust_refuted : forall cfg debug, NoDup (keys cfg) -> In "adjust_exp" (keys cfg) -> exists x, snd (run_cfg cfg debug []) = Err x.
Proof.
  intros cfg debug N A. destruct (run_cfg cfg debug []) as [tr [[]|x]] eqn:E; [|exists x; reflexivity]. exfalso.
  apply (C114_success cfg debug tr N) in E. destruct E as (ty & o & _ & _ & U & _). apply usable_spec in U. apply (accepted_adjust o cfg (proj1 (proj2 U)) A).
Qed.

(** Finding: initial_point works only for C1 and only as one path, although run_cfg has a branch for lists and for the other types; the path is loaded twice. *)
Theorem C114_initial_refuted : forall cfg debug tr, NoDup (keys cfg) -> run_cfg cfg debug [] = (tr, Ok tt) -> forall v, dget "initial_point" cfg = Some v ->
  dget "optim_type" cfg = Some (VStr "C1") /\ exists s, v = VStr s
  /\ (s <> "" -> exists a b c, tr = a ++ [ELoad v] ++ b ++ [ELoad v] ++ c).
Proof.
  intros cfg debug tr N E v IP. apply (C114_success cfg debug tr N) in E. destruct E as (ty & o & I & T & U & -> & _). pose proof U as U'. apply usable_spec in U. destruct U as (_ & A & P & _).
  assert (o = OControl) as -> by (eapply accepted_point; [exact A|]; apply dget_in_keys; exists v; exact IP).
  split.
  - rewrite T. cbn [types In] in I. repeat (destruct I as [I|I]; [try discriminate I; injection I as <-; reflexivity|]). destruct I.
  - destruct U' as (_ & _ & S & _). destruct (S eq_refl v IP) as [s ->]. exists s. split; [reflexivity|]. intro NE.
    unfold steps. rewrite IP. cbn [opt_ev]. destruct s as [|a s]; [exfalso; apply NE; reflexivity|].
    exists (experiment_steps cfg ++ map_steps cfg), [EBuild OControl (rest cfg)], (if debug then [] else [ERun OControl]). rewrite <- !app_assoc. reflexivity.
Qed.

(** Finding: the types confirm and C3_confirm do exactly what C3 does. *)
Theorem C114_confirm_refuted : forall cfg debug ty, In ty ["C3_confirm"; "confirm"] -> dget "optim_type" cfg = Some (VStr ty) ->
  run_cfg cfg debug [] = run_cfg (dset "optim_type" (VStr "C3") cfg) debug [].
Proof.
  intros cfg debug ty I T. unfold MainModel.run_cfg, pop. rewrite T, dget_dset_same.
  replace (ddel "optim_type" (dset "optim_type" (VStr "C3") cfg)) with (ddel "optim_type" cfg).
  - destruct I as [<-|[<-|[]]]; reflexivity.
  - clear -T. induction cfg as [|[k v] cfg IH]; [discriminate T|]. cbn [dget dset ddel] in *. destruct (String.eqb "optim_type" k) eqn:E; cbn [ddel]; rewrite E; [reflexivity|]. f_equal. apply IH. exact T.
Qed.

(** Finding: state_labels has a default in ModelLearning, but without it the constructor raises. *)
Theorem C114_labels_refuted : forall cfg debug ty, NoDup (keys cfg) -> In (ty, OLearn) types -> dget "optim_type" cfg = Some (VStr ty) -> ~ In "state_labels" (keys cfg) ->
  In ("state_labels", false) (ctor OLearn) /\ exists x, snd (run_cfg cfg debug []) = Err x.
Proof.
  intros cfg debug ty N I T S. split; [cbn [ctor In]; tauto|]. destruct (run_cfg cfg debug []) as [tr [[]|x]] eqn:E; [|exists x; reflexivity]. exfalso.
  apply (C114_success cfg debug tr N) in E. destruct E as (ty' & o & I' & T' & U & _). rewrite T in T'. injection T' as <-. rewrite (types_fun _ _ _ I' I) in U. apply S. apply U. reflexivity.
Qed.
End Props.

(** a configuration for optimal control with an initial point and both maps: eight steps and then the run *)
Definition ex_cfg : dict cval :=
  [("optim_type", VStr "C1"); ("propagation_method", VStr "pwc"); ("exp_cfg", VOther 0); ("opt_gates", VList [VStr "rx90p[0]"]); ("gateset_opt_map", VOther 1);
   ("exp_opt_map", VOther 2); ("fid_func", VStr "unitary_infid_set"); ("fid_subspace", VList [VStr "Q1"]); ("algorithm", VStr "lbfgs"); ("initial_point", VStr "best.c3log")].
Example C114_example :
  NoDup (keys ex_cfg) /\ usable ex_cfg OControl
  /\ run_cfg (fun _ _ => None) ex_cfg false [] =
     ([ENewExp (Some (VStr "pwc")); EReadExp (VOther 0); EOptGates (Some (VList [VStr "rx90p[0]"])); EOptMap (VOther 1); EOptMap (VOther 2); ELoad (VStr "best.c3log");
       EBuild OControl (rest ex_cfg); ELoad (VStr "best.c3log"); ERun OControl], Ok tt)
  /\ run_cfg (fun _ e => match e with ELoad _ => Some FileNotFound | _ => None end) ex_cfg false [] =
     ([ENewExp (Some (VStr "pwc")); EReadExp (VOther 0); EOptGates (Some (VList [VStr "rx90p[0]"])); EOptMap (VOther 1); EOptMap (VOther 2); ELoad (VStr "best.c3log")], Err FileNotFound)
  /\ run_cfg (fun _ _ => None) (("alogrithm", VStr "lbfgs") :: ex_cfg) true [] =
     ([ENewExp (Some (VStr "pwc")); EReadExp (VOther 0); EOptGates (Some (VList [VStr "rx90p[0]"])); EOptMap (VOther 1); EOptMap (VOther 2)], Err TypeError).
Proof.
  split; [|split; [|split; [reflexivity|split; reflexivity]]].
  - unfold ex_cfg, keys. cbn [map fst]. repeat (constructor; [cbn [In]; intro K; repeat (destruct K as [K|K]; [discriminate K|]); exact K|]). constructor.
  - apply usable_spec. repeat split.
Qed.
Print Assumptions C114_success.
Print Assumptions C114_run_last.
Print Assumptions C114_arguments.
Print Assumptions C114_needed.
Print Assumptions C114_type.
Print Assumptions C114_quick_refuted.
Print Assumptions C114_adjust_refuted.
Print Assumptions C114_initial_refuted.
Print Assumptions C114_confirm_refuted.
Print Assumptions C114_labels_refuted.
Print Assumptions C114_example.
