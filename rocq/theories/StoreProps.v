From Coq Require Import Ascii Lia.
From Verif Require Import Base QiskitModel QiskitProps StoreModel.
Local Open Scope string_scope.
Local Open Scope list_scope.
Local Open Scope nat_scope.
Local Notation length := List.length.

(** ** C130: the propagators stored during an optimisation *)

(** A text without slashes: what a goal and a gate name look like *)
Fixpoint no_slash (s : string) : Prop :=
  match s with EmptyString => True | String c r => c <> "/"%char /\ no_slash r end.

Lemma no_slash_app : forall a b, no_slash a -> no_slash b -> no_slash (a ++ b)%string.
Proof. induction a; cbn; intros b Ha Hb; [exact Hb|]. destruct Ha. auto. Qed.
Lemma no_slash_dotted : forall s, no_slash s -> no_slash (dotted s).
Proof.
  induction s as [|c s IH]; cbn; intro H; [exact I|]. destruct H. split; [|auto].
  destruct (Ascii.eqb c ":"); [discriminate|auto].
Qed.
Lemma digits_no_slash : forall s, digits s -> no_slash s.
Proof.
  induction s as [|c s IH]; cbn; intro H; [exact I|]. destruct H as [H1 H2]. split; [|auto].
  intros ->. discriminate H1.
Qed.
Lemma app_inv_head_s : forall a x y : string, (a ++ x)%string = (a ++ y)%string -> x = y.
Proof. induction a; cbn; intros x y H; [exact H|]. injection H as H. auto. Qed.

Lemma str_length_app : forall a b : string, String.length (a ++ b) = String.length a + String.length b.
Proof. induction a; intro b; cbn; [reflexivity|]. rewrite IHa. reflexivity. Qed.

Lemma dirname_no_slash : forall x, no_slash x -> dirname x = EmptyString.
Proof.
  induction x as [|c x IH]; cbn; intro H; [reflexivity|]. destruct H as [H1 H2]. rewrite (IH H2).
  destruct (Ascii.eqb_spec c "/"); [contradiction|reflexivity].
Qed.
Lemma dirname_app : forall a x, no_slash x -> dirname (a ++ String "/" x)%string = (a ++ "/")%string.
Proof.
  induction a as [|c a IH]; intros x H; cbn.
  - rewrite (dirname_no_slash x H). reflexivity.
  - rewrite (IH x H). destruct a; reflexivity.
Qed.
Lemma strip_slash : forall a, strip (a ++ "/")%string = a.
Proof.
  induction a as [|c a IH]; [reflexivity|]. cbn [append strip]. rewrite IH. destruct a; reflexivity.
Qed.

Lemma slashed_app : forall a, slashed (a ++ "/")%string = true.
Proof.
  intro a. unfold slashed. rewrite strip_slash. destruct (String.eqb_spec a (a ++ "/")%string) as [E|]; [|reflexivity].
  exfalso. assert (L : forall s : string, s <> (s ++ "/")%string).
  { induction s as [|c s IH]; cbn; [discriminate|]. intro H. injection H as H. auto. }
  exact (L a E).
Qed.
Lemma prefix_refl : forall s, prefix s s = true.
Proof. induction s as [|c s IH]; [reflexivity|]. cbn. destruct (ascii_dec c c); [exact IH|congruence]. Qed.
Lemma txt_not_pickle : forall r, (r ++ ".txt")%string <> "Us.pickle".
Proof.
  intros r H. do 6 (destruct r as [|? r]; [cbn in H; congruence|]). cbn in H.
  do 4 (destruct r as [|? r]; [cbn in H; congruence|]). cbn in H. congruence.
Qed.

Section C130.
Context {M : Type}.
Implicit Types (fs : fsys M) (e : exper M) (d : dict M) (st : ostate M).

(** The folder of evaluation [n] with goal [g] *)
Definition folder (logdir : string) (n : nat) (g : string) : string :=
  (logdir ++ "unitaries/eval_" ++ str_nat n ++ "_" ++ g ++ "/")%string.

Lemma folder_eq : forall l n g x, (folder l n g ++ x)%string =
  ((l ++ "unitaries/eval_") ++ str_nat n ++ String "_" (g ++ String "/" x))%string.
Proof. intros l n g x. unfold folder. rewrite !append_assoc. reflexivity. Qed.
Lemma folder_eq' : forall l n g x, (folder l n g ++ x)%string =
  ((l ++ "unitaries") ++ String "/" ("eval_" ++ str_nat n ++ "_" ++ g ++ String "/" x))%string.
Proof. intros l n g x. unfold folder. rewrite !append_assoc. reflexivity. Qed.

Lemma folder_inj : forall l n g x n' g' x',
  (folder l n g ++ x)%string = (folder l n' g' ++ x')%string -> n = n'.
Proof.
  intros l n g x n' g' x' H. rewrite !folder_eq in H. apply app_inv_head_s in H.
  apply str_nat_inj. apply (digits_split (str_nat n) (str_nat n') "_" "_" _ _ (str_nat_digits n) (str_nat_digits n') eq_refl eq_refl H).
Qed.

Lemma dirname_folder : forall l n g x, no_slash x -> dirname (folder l n g ++ x)%string = folder l n g.
Proof.
  intros l n g x H. unfold folder at 1. rewrite !append_assoc.
  replace (l ++ "unitaries/eval_" ++ str_nat n ++ "_" ++ g ++ "/" ++ x)%string
    with ((l ++ "unitaries/eval_" ++ str_nat n ++ "_" ++ g) ++ String "/" x)%string
    by (rewrite !append_assoc; reflexivity).
  rewrite (dirname_app _ _ H). unfold folder. rewrite !append_assoc. reflexivity.
Qed.
Lemma parent_folder : forall l n g, no_slash g -> dirname (strip (folder l n g)) = (l ++ "unitaries/")%string.
Proof.
  intros l n g H. unfold folder.
  replace (l ++ "unitaries/eval_" ++ str_nat n ++ "_" ++ g ++ "/")%string
    with ((l ++ "unitaries/eval_" ++ str_nat n ++ "_" ++ g) ++ "/")%string
    by (rewrite !append_assoc; reflexivity).
  rewrite strip_slash.
  replace (l ++ "unitaries/eval_" ++ str_nat n ++ "_" ++ g)%string
    with ((l ++ "unitaries") ++ String "/" ("eval_" ++ str_nat n ++ "_" ++ g))%string
    by (rewrite !append_assoc; reflexivity).
  rewrite dirname_app. { rewrite append_assoc. reflexivity. }
  repeat apply no_slash_app; [cbn; repeat split; discriminate|apply digits_no_slash, str_nat_digits|cbn; repeat split; discriminate|exact H].
Qed.

(** The text file that a dictionary of propagators leaves at a path: the last key wins *)
Fixpoint text_at (f : string) (d : dict M) (p : string) : option M :=
  match d with
  | [] => None
  | (k, m) :: r => match text_at f r p with
                   | Some m' => Some m'
                   | None => if String.eqb p (f ++ dotted k ++ ".txt") then Some m else None
                   end
  end.

Lemma savetxts_ok : forall d fs l n g, f_dir fs (folder l n g) = true -> Forall no_slash (keys d) ->
  exists fs', savetxts fs (folder l n g) d = (fs', None) /\ f_dir fs' = f_dir fs /\
    forall p, f_file fs' p = match text_at (folder l n g) d p with Some m => Some (Text m) | None => f_file fs p end.
Proof.
  induction d as [|[k m] d IH]; intros fs l n g Hd Hk; cbn [savetxts].
  - exists fs. cbn. auto.
  - cbn [keys map fst] in Hk. inversion Hk as [|? ? H1 H2]; subst. unfold write.
    rewrite dirname_folder by (apply no_slash_app; [apply no_slash_dotted, H1|cbn; repeat split; discriminate]).
    unfold isdir. rewrite Hd, Bool.orb_true_r.
    destruct (IH (mkF (f_dir fs) (fun q => if String.eqb q (folder l n g ++ dotted k ++ ".txt") then Some (Text m) else f_file fs q)) l n g)
      as (fs' & E1 & E2 & E3); [exact Hd|exact H2|].
    exists fs'. split; [exact E1|]. split; [exact E2|]. intro p. rewrite E3. cbn [f_file text_at].
    destruct (text_at (folder l n g) d p); [reflexivity|]. destruct (String.eqb p _); reflexivity.
Qed.

Definition eager (d : dict M) : dict (tensor M) := map (fun kv => (fst kv, Eager (snd kv))) d.
Lemma concrete_eager : forall d, concrete (eager d) = Some d.
Proof. induction d as [|[k m] d IH]; [reflexivity|]. change (eager ((k, m) :: d)) with ((k, Eager m) :: eager d). cbn [concrete]. rewrite IH. reflexivity. Qed.
Lemma eager_dset : forall k m d, dset k (Eager m) (eager d) = eager (dset k m d).
Proof.
  induction d as [|[k' m'] d IH]; [reflexivity|]. unfold eager in *. cbn [map dset fst snd]. destruct (String.eqb k k'); cbn [map fst snd]; [reflexivity|].
  rewrite IH. reflexivity.
Qed.
Lemma eager_dupd : forall b a, dupd (eager a) (eager b) = eager (dupd a b).
Proof.
  unfold dupd. induction b as [|[k m] b IH]; intro a; [reflexivity|]. change (eager ((k, m) :: b)) with ((k, Eager m) :: eager b). cbn [fold_left fst snd]. rewrite eager_dset. apply IH.
Qed.

(** One call of store_Udict: the folder, the pickle and the texts, nothing else *)
Theorem C130_one : forall fs e n d goal,
  e_counter e = Some n -> e_props e = eager d -> f_dir fs (e_logdir e ++ "unitaries/") = true ->
  no_slash goal -> Forall no_slash (keys d) ->
  exists fs', store_Udict fs e goal = (fs', None) /\
    (forall q, f_dir fs' q = true <-> q = folder (e_logdir e) n goal \/ f_dir fs q = true) /\
    f_file fs' (folder (e_logdir e) n goal ++ "Us.pickle") = Some (Pickle d) /\
    (forall k m, text_at (folder (e_logdir e) n goal) d (folder (e_logdir e) n goal ++ dotted k ++ ".txt") = Some m ->
       f_file fs' (folder (e_logdir e) n goal ++ dotted k ++ ".txt") = Some (Text m)) /\
    (forall p, p <> (folder (e_logdir e) n goal ++ "Us.pickle")%string ->
       (forall k, In k (keys d) -> p <> (folder (e_logdir e) n goal ++ dotted k ++ ".txt")%string) ->
       f_file fs' p = f_file fs p).
Proof.
  intros fs e n d goal Hn Hp Hu Hg Hk. unfold store_Udict. rewrite Hn, Hp, concrete_eager.
  fold (folder (e_logdir e) n goal). set (F := folder (e_logdir e) n goal).
  assert (S1 : exists fs1, (if f_dir fs F then (fs, None) else mkdir fs F) = (fs1, None) /\ f_file fs1 = f_file fs /\
     forall q, f_dir fs1 q = true <-> q = F \/ f_dir fs q = true).
  { destruct (f_dir fs F) eqn:E.
    - exists fs. split; [reflexivity|]. split; [reflexivity|]. intro q. split; [auto|]. intros [->|H]; auto.
    - unfold mkdir. rewrite E. unfold F at 1. rewrite (parent_folder _ _ _ Hg). unfold isdir. rewrite Hu, Bool.orb_true_r.
      eexists. split; [reflexivity|]. split; [reflexivity|]. intro q. cbn [f_dir].
      rewrite Bool.orb_true_iff, String.eqb_eq. reflexivity. }
  destruct S1 as (fs1 & -> & E2 & E3). unfold write.
  assert (D : dirname (F ++ "Us.pickle") = F) by (unfold F; apply dirname_folder; cbn; repeat split; discriminate).
  rewrite D. assert (HF : f_dir fs1 F = true) by (apply E3; auto). unfold isdir. rewrite HF, Bool.orb_true_r.
  destruct (savetxts_ok d (mkF (f_dir fs1) (fun q => if String.eqb q (F ++ "Us.pickle") then Some (Pickle d) else f_file fs1 q))
    (e_logdir e) n goal HF Hk) as (fs' & G1 & G2 & G3). fold F in G1, G3.
  exists fs'. split; [exact G1|]. split; [intro q; rewrite G2; cbn [f_dir]; apply E3|]. split; [|split].
  - rewrite G3. cbn [f_file]. rewrite String.eqb_refl.
    assert (T : text_at F d (F ++ "Us.pickle") = None); [|rewrite T; reflexivity].
    clear. induction d as [|[k m] d IH]; [reflexivity|]. cbn [text_at]. rewrite IH.
    destruct (String.eqb_spec (F ++ "Us.pickle") (F ++ dotted k ++ ".txt")) as [E|]; [|reflexivity].
    apply app_inv_head_s in E. symmetry in E. destruct (txt_not_pickle _ E).
  - intros k m T. rewrite G3, T. reflexivity.
  - intros p P1 P2. rewrite G3. cbn [f_file].
    assert (T : text_at F d p = None).
    { revert P2. clear. induction d as [|[k m] d IH]; intro P2; [reflexivity|]. cbn [text_at].
      rewrite IH by (intros k' I'; apply P2; right; exact I').
      destruct (String.eqb_spec p (F ++ dotted k ++ ".txt")) as [E|]; [|reflexivity]. exfalso. apply (P2 k); [left; reflexivity|exact E]. }
    rewrite T. destruct (String.eqb_spec p (F ++ "Us.pickle")); [contradiction|]. rewrite E2. reflexivity.
Qed.

(** Propagators the experiment holds after each evaluation: those computed in it, or, when
    the experiment keeps old propagators, all computed so far *)
Fixpoint held (overwrite : bool) (old : dict M) (evs : list (dict M * string)) : list (dict M) :=
  match evs with
  | [] => []
  | (d, _) :: r => let d' := if overwrite then d else dupd old d in d' :: held overwrite d' r
  end.

Lemma held_keys : forall ow evs old, Forall no_slash (keys old) -> Forall (fun ev => Forall no_slash (keys (fst ev))) evs ->
  Forall (fun d => Forall no_slash (keys d)) (held ow old evs).
Proof.
  assert (K : forall b a : dict M, Forall no_slash (keys a) -> Forall no_slash (keys b) -> Forall no_slash (keys (dupd a b))).
  { unfold dupd. induction b as [|[k m] b IH]; intros a Ha Hb; [exact Ha|]. cbn. inversion Hb; subst. apply IH; [|assumption].
    clear - Ha H1. induction a as [|[k' m'] a IH]; cbn; [repeat constructor; exact H1|]. inversion Ha; subst.
    destruct (String.eqb k k'); cbn; constructor; auto. }
  induction evs as [|[d g] evs IH]; intros old H1 H2; cbn; [constructor|]. inversion H2; subst. cbn in H3.
  assert (Forall no_slash (keys (if ow then d else dupd old d))) by (destruct ow; auto).
  constructor; [assumption|]. apply IH; assumption.
Qed.

Lemma evals_ok : forall evs fs e log tr n old,
  e_counter e = Some n -> e_props e = eager old -> f_dir fs (e_logdir e ++ "unitaries/") = true ->
  Forall no_slash (keys old) -> Forall (fun ev => no_slash (snd ev) /\ Forall no_slash (keys (fst ev))) evs ->
  exists fs' e', evals (py_eval true) (mkO fs e log tr) evs = (mkO fs' e' (log ++ map snd evs) tr, None) /\
    e_counter e' = Some (n + length evs) /\ e_logdir e' = e_logdir e /\ e_enable e' = e_enable e /\ e_overwrite e' = e_overwrite e /\
    e_props e' = eager (last (held (e_overwrite e) old evs) old) /\
    (forall q, f_dir fs q = true -> f_dir fs' q = true) /\
    (forall j ev d, nth_error evs j = Some ev -> nth_error (held (e_overwrite e) old evs) j = Some d ->
       let F := folder (e_logdir e) (n + j) (snd ev) in
       f_dir fs' F = true /\ f_file fs' (F ++ "Us.pickle") = Some (Pickle d) /\
       forall k m, text_at F d (F ++ dotted k ++ ".txt") = Some m -> f_file fs' (F ++ dotted k ++ ".txt") = Some (Text m)) /\
    (forall p, (forall j ev x, nth_error evs j = Some ev -> p <> (folder (e_logdir e) (n + j) (snd ev) ++ x)%string) ->
       f_file fs' p = f_file fs p).
Proof.
  induction evs as [|[d g] evs IH]; intros fs e log tr n old Hn Hp Hu Ho Hev.
  - exists fs, e. cbn. rewrite app_nil_r, Nat.add_0_r. repeat split; auto; intros; destruct j; discriminate.
  - inversion Hev as [|? ? [Hg Hd] Hr]; subst. cbn [fst snd] in Hg, Hd. cbn [evals]. unfold py_eval at 1. cbn [fst snd o_fs o_exp o_log o_traced].
    set (e1 := set_props e _). set (d' := if e_overwrite e then d else dupd old d).
    assert (Hd' : Forall no_slash (keys d')).
    { pose proof (held_keys (e_overwrite e) [(d, g)] old Ho) as H. cbn in H. specialize (H ltac:(repeat constructor; exact Hd)).
      inversion H; subst. assumption. }
    assert (P1 : e_props e1 = eager d').
    { unfold e1, set_props, d'. cbn [e_props]. rewrite Hp. fold (eager d). destruct (e_overwrite e); [reflexivity|apply eager_dupd]. }
    unfold log_parameters. cbn [o_fs o_exp o_log o_traced].
    destruct (C130_one fs e1 n d' g Hn P1 Hu Hg Hd') as (fs1 & A1 & A2 & A3 & A4 & A5). rewrite A1.
    change (e_logdir e1) with (e_logdir e) in *.
    destruct (IH fs1 (bump e1) (log ++ [g]) tr (S n) d') as (fs' & e' & B1 & B2 & B3 & B4 & B5 & B6 & B7 & B8 & B9); auto.
    { unfold bump. cbn [e_counter]. change (e_counter e1) with (e_counter e). rewrite Hn. reflexivity. }
    { change (e_logdir (bump e1)) with (e_logdir e). apply A2. right. exact Hu. }
    change (e_logdir (bump e1)) with (e_logdir e) in *. change (e_overwrite (bump e1)) with (e_overwrite e) in *.
    change (e_enable (bump e1)) with (e_enable e) in *.
    exists fs', e'. split. { rewrite B1. cbn [map snd]. rewrite <- app_assoc. reflexivity. }
    split. { rewrite B2. cbn [length]. f_equal. lia. }
    split; [exact B3|]. split; [exact B4|]. split; [exact B5|]. split.
    { rewrite B6. cbn [held]. fold d'. destruct (held (e_overwrite e) d' evs) eqn:E; [reflexivity|].
      f_equal. clear. revert d0. induction l; intro d0; [reflexivity|]. cbn in *. destruct l; [reflexivity|]. apply (IHl a). }
    split. { intros q Hq. apply B7. apply A2. right. exact Hq. }
    assert (Far : forall x j ev y, nth_error evs j = Some ev -> (folder (e_logdir e) n g ++ x)%string <> (folder (e_logdir e) (S n + j) (snd ev) ++ y)%string).
    { intros x j ev y _ E. apply folder_inj in E. lia. }
    split.
    + intros j ev dd Hj Hh. destruct j as [|j].
      * cbn in Hj, Hh. injection Hj as <-. injection Hh as <-. fold d'. cbn [snd]. rewrite Nat.add_0_r. cbv zeta. split; [|split].
        -- apply B7. apply A2. left. reflexivity.
        -- rewrite B9 by (intros; apply Far; assumption). exact A3.
        -- intros k m T. rewrite B9 by (intros; apply Far; assumption). apply A4. exact T.
      * cbn in Hj, Hh. fold d' in Hh. specialize (B8 j ev dd Hj Hh). replace (n + S j) with (S n + j) by lia. exact B8.
    + intros p Hp'. rewrite B9.
      * apply A5.
        -- intro E. apply (Hp' 0 (d, g) "Us.pickle"); [reflexivity|]. rewrite Nat.add_0_r. exact E.
        -- intros k _ E. apply (Hp' 0 (d, g) (dotted k ++ ".txt")%string); [reflexivity|]. rewrite Nat.add_0_r. exact E.
      * intros j ev x Hj. replace (S n + j) with (n + S j) by lia. apply Hp'. exact Hj.
Qed.

Lemma set_enable_ok : forall fs e logdir, f_dir fs (logdir ++ "unitaries/") = false ->
  exists fs', set_enable fs e true logdir false = (fs', mkE true logdir (Some 0) (e_overwrite e) (e_props e), None) /\
    f_file fs' = f_file fs /\ f_dir fs' (logdir ++ "unitaries/") = true /\ (forall q, f_dir fs q = true -> f_dir fs' q = true).
Proof.
  intros fs e logdir H. unfold set_enable, makedirs. rewrite H. eexists. split; [reflexivity|]. split; [reflexivity|]. cbn [f_dir]. split.
  - rewrite prefix_refl. assert (S1 : slashed (logdir ++ "unitaries/") = true).
    { replace (logdir ++ "unitaries/")%string with ((logdir ++ "unitaries") ++ "/")%string by (rewrite append_assoc; reflexivity). apply slashed_app. }
    rewrite S1. reflexivity.
  - intros q Hq. rewrite Hq, Bool.orb_true_r. reflexivity.
Qed.

(** A run whose goal function is executed as Python: evaluation [j] (from 0) has the folder
    [<logdir>unitaries/eval_<j>_<goal>/] with the propagators of that evaluation in Us.pickle
    and in one text file per gate, every evaluation is in the log, and no other file changes. *)
Theorem C130_stored : forall fs e old log tr logdir evs,
  e_props e = eager old -> Forall no_slash (keys old) ->
  f_dir fs (logdir ++ "unitaries/") = false ->
  Forall (fun ev => no_slash (snd ev) /\ Forall no_slash (keys (fst ev))) evs ->
  exists fs' e', optimize py_eval true (mkO fs e log tr) logdir evs = (mkO fs' e' (log ++ map snd evs) tr, None) /\
    e_counter e' = Some (length evs) /\
    (forall j d g h, nth_error evs j = Some (d, g) -> nth_error (held (e_overwrite e) old evs) j = Some h ->
       let F := (logdir ++ "unitaries/eval_" ++ str_nat j ++ "_" ++ g ++ "/")%string in
       f_dir fs' F = true /\ f_file fs' (F ++ "Us.pickle") = Some (Pickle h) /\
       forall a k m b, h = a ++ (k, m) :: b -> (forall k', In k' (keys b) -> dotted k' <> dotted k) ->
         f_file fs' (F ++ dotted k ++ ".txt") = Some (Text m)) /\
    (forall p, (forall x, p <> (logdir ++ "unitaries/eval_" ++ x)%string) -> f_file fs' p = f_file fs p) /\
    (forall q, f_dir fs q = true -> f_dir fs' q = true).
Proof.
  intros fs e old log tr logdir evs Hp Ho Hu Hev. unfold optimize. cbn [o_fs o_exp o_log o_traced].
  destruct (set_enable_ok fs e logdir Hu) as (fs1 & -> & A1 & A2 & A3).
  destruct (evals_ok evs fs1 (mkE true logdir (Some 0) (e_overwrite e) (e_props e)) log tr 0 old eq_refl Hp A2 Ho Hev)
    as (fs' & e' & B1 & B2 & _ & _ & _ & _ & B7 & B8 & B9).
  cbn [e_logdir e_overwrite] in *. exists fs', e'. split; [exact B1|]. split; [exact B2|]. split; [|split].
  - intros j d g h Hj Hh. specialize (B8 j (d, g) h Hj Hh). cbn [snd Nat.add] in B8. cbv zeta in *.
    destruct B8 as (C1 & C2 & C3). fold (folder logdir j g). split; [exact C1|]. split; [exact C2|].
    intros a k m b -> Hb. apply C3. clear - Hb. set (F := folder logdir j g). induction a as [|[k0 m0] a IH]; cbn [app text_at].
    + assert (T : text_at F b (F ++ dotted k ++ ".txt") = None).
      { induction b as [|[k1 m1] b IH]; [reflexivity|]. cbn [text_at]. rewrite IH by (intros; apply Hb; right; assumption).
        destruct (String.eqb_spec (F ++ dotted k ++ ".txt") (F ++ dotted k1 ++ ".txt")) as [E|]; [|reflexivity].
        exfalso. apply app_inv_head_s in E. apply (Hb k1); [left; reflexivity|].
        clear - E. revert E. generalize (dotted k) as x, (dotted k1) as y. induction x as [|c x IH]; intros y E; destruct y as [|c' y]; [reflexivity| | |].
        - exfalso. apply (f_equal String.length) in E. rewrite !str_length_app in E. cbn in E. lia.
        - exfalso. apply (f_equal String.length) in E. rewrite !str_length_app in E. cbn in E. lia.
        - cbn in E. injection E as -> E. rewrite (IH _ E). reflexivity. }
      rewrite T, String.eqb_refl. reflexivity.
    + rewrite IH. reflexivity.
  - intros p Hp'. rewrite B9, A1. { reflexivity. } intros j ev x _. unfold folder. rewrite !append_assoc. apply Hp'.
  - intros q Hq. apply B7, A3, Hq.
Qed.
Print Assumptions C130_stored.

(** With the default setting the pickle of an evaluation holds exactly its propagators *)
Theorem C130_default : forall old evs, held true old evs = map fst evs.
Proof. intros old evs. revert old. induction evs as [|[d g] evs IH]; intro old; [reflexivity|]. cbn. rewrite IH. reflexivity. Qed.

(** Otherwise it holds, for every gate, the propagator of the last evaluation that computed it *)
Theorem C130_kept : forall evs old j h k, nth_error (held false old evs) j = Some h ->
  (forall d g, In (d, g) evs -> NoDup (keys d)) ->
  dget k h = fold_left (fun v ev => match dget k (fst ev) with Some m => Some m | None => v end) (firstn (S j) evs) (dget k old).
Proof.
  assert (U : forall (b a : dict M) k, NoDup (keys b) -> dget k (dupd a b) = match dget k b with Some m => Some m | None => dget k a end).
  { unfold dupd. induction b as [|[k' m'] b IH]; intros a k H; [reflexivity|]. cbn [fold_left fst snd dget]. inversion H; subst.
    rewrite IH by assumption. destruct (String.eqb_spec k k') as [->|N].
    - assert (Z : dget k' b = None).
      { clear - H2. induction b as [|[k m] b IH]; [reflexivity|]. cbn. destruct (String.eqb_spec k' k) as [->|]; [exfalso; apply H2; left; reflexivity|].
        apply IH. intro I'. apply H2. right. exact I'. }
      rewrite Z. apply dget_dset_same.
    - destruct (dget k b); [reflexivity|]. apply dget_dset_other. exact N. }
  induction evs as [|[d g] evs IH]; intros old j h k Hj Hn; [destruct j; discriminate|]. cbn [held] in Hj. destruct j as [|j].
  - cbn in Hj. injection Hj as <-. cbn. apply U. apply (Hn d g). left. reflexivity.
  - cbn in Hj. rewrite (IH _ _ _ k Hj) by (intros; eapply Hn; right; eassumption). cbn [firstn fold_left fst].
    rewrite U by (apply (Hn d g); left; reflexivity). reflexivity.
Qed.
Print Assumptions C130_kept.

(** Two evaluations never share a folder, whatever their goals *)
Theorem C130_own_folder : forall logdir i j g g' x x', i <> j ->
  (logdir ++ "unitaries/eval_" ++ str_nat i ++ "_" ++ g ++ "/" ++ x)%string <>
  (logdir ++ "unitaries/eval_" ++ str_nat j ++ "_" ++ g' ++ "/" ++ x')%string.
Proof.
  intros logdir i j g g' x x' N E. apply N. apply (folder_inj logdir i g x j g' x'). unfold folder. rewrite !append_assoc. exact E.
Qed.

(** Without store_unitaries nothing is written and every evaluation is logged *)
Theorem C130_disabled : forall f fs e log tr logdir evs, f = py_eval \/ f = tf_eval ->
  exists st', optimize f false (mkO fs e log tr) logdir evs = (st', None) /\ o_fs st' = fs /\ o_log st' = log ++ map snd evs.
Proof.
  intros f fs e log tr logdir evs Hf. unfold optimize. cbn [set_enable o_fs o_exp o_log o_traced].
  set (e' := mkE false logdir (e_counter e) (e_overwrite e) (e_props e)). clearbody e'. revert e' log tr.
  induction evs as [|[d g] evs IH]; intros e' log tr; cbn [evals].
  - eexists. split; [reflexivity|]. cbn. rewrite app_nil_r. auto.
  - destruct Hf as [->| ->].
    + unfold py_eval at 1, log_parameters. cbn [fst snd o_fs o_exp o_log o_traced].
      destruct (IH (set_props e' (map (fun kv => (fst kv, Eager (snd kv))) d)) (log ++ [g]) tr) as (st' & E1 & E2 & E3).
      exists st'. split; [exact E1|]. split; [exact E2|]. rewrite E3, <- app_assoc. reflexivity.
    + unfold tf_eval at 1, log_parameters. cbn [fst snd o_fs o_exp o_log o_traced]. destruct tr; cbn [o_fs o_exp o_log o_traced].
      * destruct (IH e' (log ++ [g]) true) as (st' & E1 & E2 & E3).
        exists st'. split; [exact E1|]. split; [exact E2|]. rewrite E3, <- app_assoc. reflexivity.
      * destruct (IH (set_props e' (map (fun kv => (fst kv, Symbolic)) d)) (log ++ [g]) true) as (st' & E1 & E2 & E3).
        exists st'. split; [exact E1|]. split; [exact E2|]. rewrite E3, <- app_assoc. reflexivity.
Qed.
Print Assumptions C130_disabled.

(** store_Udict without set_enable_store_unitaries(True, ...) raises, and writes nothing *)
Theorem C130_not_enabled : forall fs e goal, e_counter e = None -> store_Udict fs e goal = (fs, Some NoCounterErr).
Proof. intros fs e goal H. unfold store_Udict. rewrite H. reflexivity. Qed.

(** Finding: OptimalControl compiles its goal function. While it is traced the experiment is
    given symbolic tensors, so storing unitaries raises at the first evaluation of every
    run of a new optimiser: a broken Us.pickle is left, nothing is logged. *)
Theorem C130_compiled_refuted : forall fs e log logdir d g evs,
  f_dir fs (logdir ++ "unitaries/") = false -> e_overwrite e = true -> d <> [] -> no_slash g ->
  exists fs' e', optimize tf_eval true (mkO fs e log false) logdir ((d, g) :: evs) = (mkO fs' e' log true, Some PickleErr) /\
    f_file fs' (folder logdir 0 g ++ "Us.pickle") = Some Broken /\
    forall p, p <> (folder logdir 0 g ++ "Us.pickle")%string -> f_file fs' p = f_file fs p.
Proof.
  intros fs e log logdir d g evs Hu Hw Hd Hg. unfold optimize. cbn [o_fs o_exp o_log o_traced].
  destruct (set_enable_ok fs e logdir Hu) as (fs1 & -> & A1 & A2 & A3). cbn [evals]. unfold tf_eval at 1. cbn [o_traced o_fs o_exp o_log fst snd].
  unfold log_parameters, store_Udict, set_props. cbn [o_fs o_exp o_log o_traced e_counter e_props e_overwrite e_logdir e_enable]. rewrite Hw.
  fold (folder logdir 0 g). set (F := folder logdir 0 g).
  assert (S1 : exists fs2, (if f_dir fs1 F then (fs1, None) else mkdir fs1 F) = (fs2, None) /\ f_file fs2 = f_file fs1 /\ f_dir fs2 F = true).
  { destruct (f_dir fs1 F) eqn:E.
    - exists fs1. auto.
    - unfold mkdir. rewrite E. unfold F at 1. rewrite (parent_folder _ _ _ Hg). unfold isdir. rewrite A2, Bool.orb_true_r.
      eexists. split; [reflexivity|]. split; [reflexivity|]. cbn [f_dir]. rewrite String.eqb_refl. reflexivity. }
  destruct S1 as (fs2 & -> & E2 & E3). destruct d as [|[k m] d]; [congruence|]. cbn [map fst snd concrete]. unfold write.
  assert (D : dirname (F ++ "Us.pickle") = F) by (unfold F; apply dirname_folder; cbn; repeat split; discriminate).
  rewrite D. unfold isdir. rewrite E3, Bool.orb_true_r. do 2 eexists. split; [reflexivity|]. cbn [f_file]. rewrite String.eqb_refl. split; [reflexivity|].
  intros p Hp. destruct (String.eqb_spec p (F ++ "Us.pickle")); [contradiction|]. rewrite E2, A1. reflexivity.
Qed.
Print Assumptions C130_compiled_refuted.

(** Finding: a second run in the same log directory (setup_log=False, or a directory set by
    the user) raises FileExistsError before anything is evaluated. *)
Theorem C130_rerun_refuted : forall f fs e log tr logdir evs evs' st',
  f_dir fs (logdir ++ "unitaries/") = false ->
  (f = py_eval \/ f = tf_eval) ->
  optimize f true (mkO fs e log tr) logdir evs = (st', None) ->
  exists st'', optimize f true st' logdir evs' = (st'', Some FileExistsErr) /\ o_fs st'' = o_fs st' /\ o_log st'' = o_log st'.
Proof.
  intros f fs e log tr logdir evs evs' st' Hu Hf H. unfold optimize in *. cbn [o_fs o_exp o_log o_traced] in H.
  destruct (set_enable_ok fs e logdir Hu) as (fs1 & E & A1 & A2 & A3). rewrite E in H. clear E.
  assert (K : f_dir (o_fs st') (logdir ++ "unitaries/") = true).
  { assert (Kw : forall fs p c q, f_dir fs q = true -> f_dir (fst (write fs p c)) q = true).
    { intros fs0 p c q Hq. unfold write. destruct (isdir fs0 (dirname p)); exact Hq. }
    assert (Kt : forall d fs F q, f_dir fs q = true -> f_dir (fst (savetxts fs F d)) q = true).
    { induction d as [|[k m] d IH]; intros fs0 F q Hq; cbn [savetxts]; [exact Hq|].
      pose proof (Kw fs0 (F ++ dotted k ++ ".txt")%string (Text m) q Hq) as W. destruct (write fs0 _ (Text m)) as [fs2 [er|]]; cbn [fst] in *; auto. }
    assert (Ks : forall fs e g q, f_dir fs q = true -> f_dir (fst (store_Udict fs e g)) q = true).
    { intros fs0 e0 g q Hq. unfold store_Udict. destruct (e_counter e0); [|exact Hq]. set (F := (e_logdir e0 ++ _)%string).
      assert (Km : f_dir (fst (if f_dir fs0 F then (fs0, None) else mkdir fs0 F)) q = true).
      { destruct (f_dir fs0 F) eqn:E; [exact Hq|]. unfold mkdir. rewrite E. destruct (isdir fs0 _); cbn [fst f_dir]; [|exact Hq]. rewrite Hq, Bool.orb_true_r. reflexivity. }
      destruct (if f_dir fs0 F then (fs0, None) else mkdir fs0 F) as [fs2 [er|]]; cbn [fst] in Km; [exact Km|].
      destruct (concrete (e_props e0)) as [dd|].
      - pose proof (Kw fs2 (F ++ "Us.pickle")%string (Pickle dd) q Km) as W. destruct (write fs2 _ (Pickle dd)) as [fs3 [er|]]; cbn [fst] in *; [exact W|]. apply Kt. exact W.
      - pose proof (Kw fs2 (F ++ "Us.pickle")%string Broken q Km) as W. destruct (write fs2 _ Broken) as [fs3 [er|]]; cbn [fst] in *; exact W. }
    assert (Kl : forall st g q, f_dir (o_fs st) q = true -> f_dir (o_fs (fst (log_parameters true st g))) q = true).
    { intros st0 g q Hq. unfold log_parameters. pose proof (Ks (o_fs st0) (o_exp st0) g q Hq) as W. destruct (store_Udict _ _ _) as [fs2 [er|]]; exact W. }
    set (st1 := mkO fs1 _ log tr) in H. assert (H1 : f_dir (o_fs st1) (logdir ++ "unitaries/") = true) by exact A2. clearbody st1.
    revert st1 H H1. induction evs as [|[d g] evs IH]; intros st1 H H1; cbn [evals] in H.
    - injection H as <-. exact H1.
    - destruct (f true st1 (d, g)) as [st2 [er|]] eqn:E; [discriminate H|]. apply (IH st2 H).
      assert (Z : f_dir (o_fs (fst (f true st1 (d, g)))) (logdir ++ "unitaries/") = true); [|rewrite E in Z; exact Z].
      destruct Hf as [->| ->]; unfold py_eval, tf_eval; apply Kl; [exact H1|]. destruct (o_traced st1); exact H1. }
  unfold set_enable, makedirs. rewrite K. eexists. split; [reflexivity|]. cbn. auto.
Qed.
Print Assumptions C130_rerun_refuted.

(** Finding: gates whose names differ only in ':' and '.' share their text file. *)
Theorem C130_collision_refuted : forall fs e goal m1 m2,
  e_counter e = Some 0 -> e_props e = [("a:b", Eager m1); ("a.b", Eager m2)]%string ->
  f_dir fs (e_logdir e ++ "unitaries/") = true -> no_slash goal ->
  exists fs', store_Udict fs e goal = (fs', None) /\
    f_file fs' (folder (e_logdir e) 0 goal ++ "a.b.txt") = Some (Text m2).
Proof.
  intros fs e goal m1 m2 Hc Hp Hu Hg.
  destruct (C130_one fs e 0 [("a:b", m1); ("a.b", m2)]%string goal Hc Hp Hu Hg) as (fs' & E & _ & _ & T & _).
  { repeat constructor; discriminate. }
  exists fs'. split; [exact E|]. apply (T "a.b"%string m2). cbn [text_at]. rewrite String.eqb_refl. reflexivity.
Qed.

(** Finding: a gate whose name contains a slash makes the run fail, after the pickle of the
    first evaluation was written. *)
Theorem C130_slash_name_refuted : forall fs e n goal k m rest x y,
  e_counter e = Some n -> e_props e = eager ((k, m) :: rest) -> k = (x ++ String "/" y)%string -> no_slash y ->
  f_dir fs (e_logdir e ++ "unitaries/") = true -> no_slash goal ->
  f_dir fs (folder (e_logdir e) n goal) = false -> f_dir fs (folder (e_logdir e) n goal ++ dotted x ++ "/") = false ->
  exists fs', store_Udict fs e goal = (fs', Some NoSuchDirErr) /\
    f_file fs' (folder (e_logdir e) n goal ++ "Us.pickle") = Some (Pickle ((k, m) :: rest)).
Proof.
  intros fs e n goal k m rest x y Hc Hp -> Hy Hu Hg H0 H1. unfold store_Udict. rewrite Hc, Hp, concrete_eager.
  fold (folder (e_logdir e) n goal). set (F := folder (e_logdir e) n goal) in *. rewrite H0. unfold mkdir. rewrite H0. unfold F at 1. rewrite (parent_folder _ _ _ Hg).
  unfold isdir. rewrite Hu, Bool.orb_true_r. unfold write.
  assert (D : dirname (F ++ "Us.pickle") = F) by (unfold F; apply dirname_folder; cbn; repeat split; discriminate).
  rewrite D. unfold isdir at 1. cbn [f_dir]. rewrite String.eqb_refl, Bool.orb_true_r. cbn [savetxts]. unfold write.
  assert (D2 : dirname (F ++ dotted (x ++ String "/" y) ++ ".txt") = (F ++ dotted x ++ "/")%string).
  { assert (E : forall x, dotted (x ++ String "/" y) = (dotted x ++ String "/" (dotted y))%string).
    { clear. induction x as [|c x IH]; [reflexivity|]. cbn. rewrite IH. reflexivity. }
    rewrite E. replace (F ++ (dotted x ++ String "/" (dotted y)) ++ ".txt")%string with ((F ++ dotted x) ++ String "/" (dotted y ++ ".txt"))%string
      by (rewrite !append_assoc; reflexivity).
    rewrite dirname_app by (apply no_slash_app; [apply no_slash_dotted, Hy|cbn; repeat split; discriminate]). rewrite append_assoc. reflexivity. }
  rewrite D2. unfold isdir. cbn [f_dir]. rewrite H1.
  assert (N : forall a b : string, String.eqb (a ++ b ++ "/") "" = false). { intros [|c a] [|c' b]; reflexivity. }
  rewrite N. assert (N2 : String.eqb (F ++ dotted x ++ "/") F = false).
  { destruct (String.eqb_spec (F ++ dotted x ++ "/") F) as [E|]; [|reflexivity]. exfalso. apply (f_equal String.length) in E.
    rewrite !str_length_app in E. cbn in E. lia. }
  rewrite N2. cbn [orb]. eexists. split; [reflexivity|]. cbn [f_file]. rewrite String.eqb_refl. reflexivity.
Qed.
Print Assumptions C130_slash_name_refuted.

(** Finding: a log directory written without a slash at its end stores beside it. *)
Theorem C130_slash_refuted : forall fs e log tr evs,
  e_props e = [] -> f_dir fs "/data/rununitaries/" = false ->
  Forall (fun ev => no_slash (snd ev) /\ Forall no_slash (keys (fst ev))) evs ->
  exists fs' e', optimize py_eval true (mkO fs e log tr) "/data/run" evs = (mkO fs' e' (log ++ map snd evs) tr, None) /\
    (forall x, f_file fs' ("/data/run/" ++ x) = f_file fs ("/data/run/" ++ x)) /\
    forall j d g h, nth_error evs j = Some (d, g) -> nth_error (held (e_overwrite e) [] evs) j = Some h ->
      f_file fs' ("/data/rununitaries/eval_" ++ str_nat j ++ "_" ++ g ++ "/Us.pickle") = Some (Pickle h).
Proof.
  intros fs e log tr evs Hp Hu Hev.
  destruct (C130_stored fs e [] log tr "/data/run"%string evs Hp (Forall_nil _) Hu Hev) as (fs' & e' & A1 & _ & A3 & A4 & _).
  exists fs', e'. split; [exact A1|]. split.
  - intro x. apply A4. intros y E. cbn in E. discriminate E.
  - intros j d g h Hj Hh. specialize (A3 j d g h Hj Hh). cbv zeta in A3. destruct A3 as (_ & A3 & _). rewrite <- A3. f_equal.
    rewrite !append_assoc. reflexivity.
Qed.

(** Finding: log_best_unitary replaces the stored best parameters by printed matrices. *)
Theorem C130_best_unitary_refuted : forall fs logdir logname, no_slash logname ->
  f_dir fs (logdir ++ "/") = true ->
  exists fs', log_best_unitary fs (logdir ++ "/") logname = (fs', None) /\
    f_file fs' ((logdir ++ "/") ++ "best_point_" ++ logname) = Some (Foreign 1) /\
    forall p, p <> ((logdir ++ "/") ++ "best_point_" ++ logname)%string -> f_file fs' p = f_file fs p.
Proof.
  intros fs logdir logname Hn Hd. unfold log_best_unitary, write.
  assert (D : dirname ((logdir ++ "/") ++ "best_point_" ++ logname) = (logdir ++ "/")%string).
  { rewrite append_assoc. apply (dirname_app logdir ("best_point_" ++ logname)%string).
    apply no_slash_app; [cbn; repeat split; discriminate|exact Hn]. }
  rewrite D. unfold isdir. rewrite Hd, Bool.orb_true_r. eexists. split; [reflexivity|]. cbn [f_file]. rewrite String.eqb_refl. split; [reflexivity|].
  intros p Hp. destruct (String.eqb_spec p ((logdir ++ "/") ++ "best_point_" ++ logname)); [contradiction|reflexivity].
Qed.

End C130.

(** Three evaluations, the first and the last with the same goal *)
Example C130_example :
  let fs := mkF (fun q => String.eqb q "/d/r/") (fun p => if String.eqb p "/d/r/model.cfg" then Some (Foreign 7) else None) in
  let e := mkE false "" None true [] in
  let evs := [([("rx90p[0]", 1); ("ry90p[0]", 2)], "0.5"); ([("rx90p[0]", 3)], "0.25"); ([("rx90p[0]", 4)], "0.5")]%string in
  let r := optimize py_eval true (mkO fs e [] false) "/d/r/" evs in
  snd r = None /\ o_log (fst r) = ["0.5"; "0.25"; "0.5"]%string /\
  f_file (o_fs (fst r)) "/d/r/unitaries/eval_0_0.5/Us.pickle" = Some (Pickle [("rx90p[0]", 1); ("ry90p[0]", 2)]%string) /\
  f_file (o_fs (fst r)) "/d/r/unitaries/eval_0_0.5/ry90p[0].txt" = Some (Text 2) /\
  f_file (o_fs (fst r)) "/d/r/unitaries/eval_2_0.5/Us.pickle" = Some (Pickle [("rx90p[0]", 4)]%string) /\
  f_file (o_fs (fst r)) "/d/r/unitaries/eval_2_0.5/ry90p[0].txt" = None /\
  f_file (o_fs (fst r)) "/d/r/model.cfg" = Some (Foreign 7) /\
  snd (optimize tf_eval true (mkO fs e [] false) "/d/r/" evs) = Some PickleErr /\
  snd (optimize py_eval true (fst r) "/d/r/" evs) = Some FileExistsErr.
Proof. vm_compute. repeat split. Qed.
