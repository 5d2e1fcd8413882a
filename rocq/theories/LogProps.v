(** C117: every run has a log directory of its own. *)
From Verif Require Import Base LogModel.
Local Open Scope string_scope.
Local Open Scope list_scope.
Local Notation length := List.length.

(** ** Specification *)

(** the directory a process has made *)
Definition made (pr : proc) : option path :=
  match pr_state pr with
  | PRemove p => Some p
  | PLink p _ => Some p
  | PDone p _ => Some p
  | _ => None
  end.
(** where the directory of a run belongs: <data>/<name>/<time>, or <name>/<time> for an absolute name *)
Definition place (data : path) (run : rname) (stamp : string) : path :=
  match run with Relative r => [stamp] ++ r ++ data | Absolute r => [stamp] ++ r end.
(** all processes are about to call log_setup *)
Definition fresh (l : list proc) : Prop := forall pr, In pr l -> pr_state pr = PStart.

(** ** Lemmas *)
Lemma put_same : forall fs p n, put fs p n p = n.
Proof. intros. unfold put. destruct (path_dec p p); congruence. Qed.
Lemma put_other : forall fs p n q, q <> p -> put fs p n q = fs q.
Proof. intros fs p n q H. unfold put. destruct (path_dec q p); congruence. Qed.

(** only adds directories *)
Definition grows (fs fs' : fsys) : Prop := forall q, fs' q = fs q \/ (fs q = None /\ fs' q = Some Dir).
Lemma grows_refl : forall fs, grows fs fs. Proof. intros fs q. auto. Qed.
Lemma grows_trans : forall a b c, grows a b -> grows b c -> grows a c.
Proof. intros a b c H1 H2 q. destruct (H1 q) as [E|[E1 E2]], (H2 q) as [F|[F1 F2]]; [left|right|right|right]; split || idtac; congruence. Qed.
Lemma mkdir_ok : forall fs p fs', mkdir fs p = FOk fs' -> fs p = None /\ fs' = put fs p (Some Dir).
Proof.
  intros fs p fs' H. unfold mkdir in H. destruct (fs p); [discriminate|]. destruct (follow fs (tl p)) as [[]|]; try discriminate. injection H as <-. auto.
Qed.
Lemma mkdir_grows : forall fs p fs', mkdir fs p = FOk fs' -> grows fs fs'.
Proof.
  intros fs p fs' H. destruct (mkdir_ok _ _ _ H) as [E ->]. intro q. destruct (path_dec q p) as [->|N]; [right; split; [exact E|apply put_same]|left; apply put_other, N].
Qed.
Lemma makedirs_ok : forall p fs fs', makedirs fs p = FOk fs' -> grows fs fs' /\ fs p = None /\ fs' p = Some Dir.
Proof.
  induction p as [|c h IH]; intros fs fs' H; cbn [makedirs] in H; [discriminate|].
  assert (K : forall fs0, grows fs fs0 -> mkdir fs0 (c :: h) = FOk fs' -> grows fs fs' /\ fs (c :: h) = None /\ fs' (c :: h) = Some Dir).
  { intros fs0 G M. destruct (mkdir_ok _ _ _ M) as [E ->]. split; [apply (grows_trans _ fs0); [exact G|]; apply (mkdir_grows _ _ _ M)|].
    split; [|apply put_same]. destruct (G (c :: h)) as [F|[F _]]; congruence. }
  destruct (exists_at fs h); [apply (K fs (grows_refl fs) H)|].
  destruct (makedirs fs h) as [f|[]] eqn:Em; try discriminate; [|apply (K fs (grows_refl fs) H)].
  apply (K f); [apply (IH _ _ Em)|exact H].
Qed.

Lemma set_state_nth : forall l n s i, nth_error (set_state n s l) i =
  if Nat.eqb i n then option_map (fun pr => mkProc (pr_data pr) (pr_run pr) s) (nth_error l i) else nth_error l i.
Proof.
  induction l as [|pr l IH]; intros n s i; cbn [set_state].
  - destruct n, i; cbn; try reflexivity; destruct (Nat.eqb i n); reflexivity.
  - destruct n as [|n]; destruct i as [|i]; cbn [nth_error Nat.eqb]; try reflexivity. apply IH.
Qed.

(** what one turn does to the file system: nothing, new directories, the link removed or made *)
Inductive effect (data : path) (s' : pstate) (fs fs' : fsys) : Prop :=
| eff_grow : grows fs fs' -> effect data s' fs fs'
| eff_remove : fs (recent data) <> Some Dir -> fs' = put fs (recent data) None -> effect data s' fs fs'
| eff_link p w : s' = PDone p w -> fs (recent data) = None -> fs' = put fs (recent data) (Some (Link p)) -> effect data s' fs fs'.

Lemma step_effect : forall fs pr ev fs' s', step fs pr ev = (fs', s') -> effect (pr_data pr) s' fs fs'.
Proof.
  intros fs pr ev fs' s' H. unfold step in H. destruct (pr_state pr) as [| | |p|p|p|p w|p w|e];
    try (injection H as <- <-; apply eff_grow, grows_refl).
  - destruct (ev_denied ev); [injection H as <- <-; apply eff_grow, grows_refl|].
    destruct (makedirs fs (pr_data pr)) as [f|e] eqn:E; injection H as <- <-; apply eff_grow; [apply (makedirs_ok _ _ _ E)|apply grows_refl].
  - destruct (ev_denied ev); [injection H as <- <-; apply eff_grow, grows_refl|].
    destruct (makedirs fs p) as [f|e] eqn:E; injection H as <- <-; apply eff_grow; [apply (makedirs_ok _ _ _ E)|apply grows_refl].
  - unfold remove in H. destruct (fs (recent (pr_data pr))) as [[|t|]|] eqn:E; try (injection H as <- <-; apply eff_grow, grows_refl);
      (destruct (ev_denied ev); injection H as <- <-; [apply eff_grow, grows_refl|apply eff_remove; [congruence|reflexivity]]).
  - destruct (fs (recent (pr_data pr))) as [n|] eqn:E; [injection H as <- <-; apply eff_grow, grows_refl|].
    destruct (ev_denied ev); [injection H as <- <-; apply eff_grow, grows_refl|]. unfold symlink in H. rewrite E in H.
    destruct (follow fs (tl (recent (pr_data pr)))) as [[]|]; injection H as <- <-; try (apply eff_grow, grows_refl).
    apply (eff_link _ _ _ _ p w); [reflexivity|exact E|reflexivity].
Qed.

(** directories stay *)
Lemma effect_dir : forall data s' fs fs' q, effect data s' fs fs' -> fs q = Some Dir -> fs' q = Some Dir.
Proof.
  intros data s' fs fs' q H Hq. destruct H as [G|N ->|p w _ N ->].
  - destruct (G q) as [E|[E _]]; congruence.
  - rewrite put_other; [exact Hq|]. intros ->. congruence.
  - rewrite put_other; [exact Hq|]. intros ->. congruence.
Qed.

(** the directory a process gets in one turn *)
Lemma step_made : forall fs pr ev fs' s' p, step fs pr ev = (fs', s') -> made (mkProc (pr_data pr) (pr_run pr) s') = Some p ->
  made pr = Some p \/ (pr_state pr = PMake p /\ fs p = None /\ fs' p = Some Dir).
Proof.
  intros fs pr ev fs' s' p H M. unfold step, made in *. destruct (pr_state pr) as [| | |q|q|q|q w|q w|e]; cbn [pr_state] in M.
  - injection H as <- <-. destruct (isdir fs (pr_data pr)); discriminate.
  - destruct (ev_denied ev); [injection H as <- <-; discriminate|]. destruct (makedirs fs (pr_data pr)); injection H as <- <-; discriminate.
  - injection H as <- <-. discriminate.
  - injection H as <- <-. destruct (exists_at fs q); discriminate.
  - destruct (ev_denied ev); [injection H as <- <-; discriminate|].
    destruct (makedirs fs q) as [f|e] eqn:E; injection H as <- <-; [|discriminate]. injection M as <-. right. destruct (makedirs_ok _ _ _ E) as (_ & A & B). auto.
  - left. destruct (remove fs (recent (pr_data pr))) as [f|[]]; [destruct (ev_denied ev)| | | | |]; injection H as <- <-; try discriminate; exact M.
  - left. destruct (fs (recent (pr_data pr))); [injection H as <- <-; exact M|]. destruct (ev_denied ev); [injection H as <- <-; exact M|].
    destruct (symlink fs q (recent (pr_data pr))) as [f|[]]; injection H as <- <-; exact M.
  - injection H as <- <-. left. exact M.
  - injection H as <- <-. discriminate.
Qed.

(** the directory a process has in mind is its own path at a stamp it read *)
Definition aims (pr : proc) : option path :=
  match pr_state pr with PCheck p => Some p | PMake p => Some p | _ => made pr end.
Lemma step_aims : forall fs pr ev fs' s' p, step fs pr ev = (fs', s') -> aims (mkProc (pr_data pr) (pr_run pr) s') = Some p ->
  aims pr = Some p \/ p = run_dir (pr_data pr) (pr_run pr) (ev_stamp ev).
Proof.
  intros fs pr ev fs' s' p H M. unfold step, aims, made in *. destruct (pr_state pr) as [| | |q|q|q|q w|q w|e]; cbn [pr_state] in M.
  - injection H as <- <-. destruct (isdir fs (pr_data pr)); discriminate.
  - destruct (ev_denied ev); [injection H as <- <-; discriminate|]. destruct (makedirs fs (pr_data pr)); injection H as <- <-; discriminate.
  - injection H as <- <-. injection M as <-. right. reflexivity.
  - injection H as <- <-. left. destruct (exists_at fs q); [discriminate|exact M].
  - left. destruct (ev_denied ev); [injection H as <- <-; discriminate|]. destruct (makedirs fs q) as [f|e]; injection H as <- <-; [exact M|discriminate].
  - left. destruct (remove fs (recent (pr_data pr))) as [f|[]]; [destruct (ev_denied ev)| | | | |]; injection H as <- <-; try discriminate; exact M.
  - left. destruct (fs (recent (pr_data pr))); [injection H as <- <-; exact M|]. destruct (ev_denied ev); [injection H as <- <-; exact M|].
    destruct (symlink fs q (recent (pr_data pr))) as [f|[]]; injection H as <- <-; exact M.
  - injection H as <- <-. left. exact M.
  - injection H as <- <-. discriminate.
Qed.

(** ** The invariant of all schedules *)
Record inv (fs0 : fsys) (evs : list event) (sys : system) : Prop := mkInv {
  i_dirs : forall q, fs0 q = Some Dir -> fst sys q = Some Dir;
  i_keep : forall q n, fs0 q = Some n -> (forall pr, In pr (snd sys) -> q <> recent (pr_data pr)) -> fst sys q = Some n;
  i_made : forall i pr p, nth_error (snd sys) i = Some pr -> made pr = Some p -> fst sys p = Some Dir;
  i_new : forall i pr p, nth_error (snd sys) i = Some pr -> made pr = Some p -> fs0 p = None \/ exists j pj, nth_error (snd sys) j = Some pj /\ p = recent (pr_data pj);
  i_diff : forall i j pi pj p, nth_error (snd sys) i = Some pi -> nth_error (snd sys) j = Some pj -> made pi = Some p -> made pj = Some p -> i = j;
  i_aims : forall i pr p, nth_error (snd sys) i = Some pr -> aims pr = Some p ->
             exists ev, In ev evs /\ ev_pid ev = i /\ p = run_dir (pr_data pr) (pr_run pr) (ev_stamp ev);
  i_link : forall q t, fst sys q = Some (Link t) -> fs0 q = Some (Link t) \/ exists i pr, nth_error (snd sys) i = Some pr /\ made pr = Some t /\ q = recent (pr_data pr)
}.

Lemma turn_inv : forall fs0 evs sys ev, inv fs0 evs sys -> inv fs0 (evs ++ [ev]) (turn sys ev).
Proof.
  intros fs0 evs [fs l] ev H. unfold turn. cbn [fst snd]. destruct (nth_error l (ev_pid ev)) as [pr|] eqn:En.
  2:{ destruct H as [a b c d e f g]. constructor; cbn [fst snd] in *; try assumption.
      intros i pr p Hi Ha. destruct (f i pr p Hi Ha) as (ev' & I & E). exists ev'. split; [apply in_or_app; left; exact I|exact E]. }
  destruct (step fs pr ev) as [fs' s'] eqn:Es. destruct H as [Hd Hk Hm Hn Hx Ha Hl]. cbn [fst snd] in *.
  pose proof (step_effect _ _ _ _ _ Es) as Ef.
  set (pr' := mkProc (pr_data pr) (pr_run pr) s').
  assert (Nth : forall i q, nth_error (set_state (ev_pid ev) s' l) i = Some q ->
            (i = ev_pid ev /\ q = pr') \/ (i <> ev_pid ev /\ nth_error l i = Some q)).
  { intros i q Hq. rewrite set_state_nth in Hq. destruct (Nat.eqb_spec i (ev_pid ev)) as [->|N]; [left; split; [reflexivity|]; rewrite En in Hq; injection Hq as <-; reflexivity|right; auto]. }
  assert (Back : forall i q, nth_error l i = Some q -> exists q', nth_error (set_state (ev_pid ev) s' l) i = Some q' /\ pr_data q' = pr_data q).
  { intros i q Hq. rewrite set_state_nth, Hq. destruct (Nat.eqb_spec i (ev_pid ev)) as [->|N]; eexists; split; reflexivity. }
  assert (Frame : forall q n, fs q = Some n -> q <> recent (pr_data pr) -> fs' q = Some n).
  { intros q n Hq N. destruct Ef as [G|_ ->|p w _ _ ->]; [destruct (G q) as [E|[E _]]; congruence|rewrite put_other by exact N; exact Hq|rewrite put_other by exact N; exact Hq]. }
  constructor; cbn [fst snd].
  - intros q Hq. apply (effect_dir _ _ _ _ _ Ef), Hd, Hq.
  - intros q n Hq Hr. apply Frame.
    + apply Hk; [exact Hq|]. intros p Hp. destruct (In_nth_error _ _ Hp) as (i & Hi). destruct (Back i p Hi) as (p' & Hp' & E). rewrite <- E. apply Hr. apply (nth_error_In _ _ Hp').
    + destruct (Back _ _ En) as (p' & Hp' & E). rewrite <- E. apply Hr, (nth_error_In _ _ Hp').
  - intros i q p Hq Hmq. destruct (Nth i q Hq) as [[-> ->]|[N Hq']].
    + destruct (step_made _ _ _ _ _ p Es Hmq) as [M|(_ & _ & M)]; [apply (effect_dir _ _ _ _ _ Ef), (Hm _ _ _ En M)|exact M].
    + apply (effect_dir _ _ _ _ _ Ef), (Hm _ _ _ Hq' Hmq).
  - intros i q p Hq Hmq.
    assert (K : (fs0 p = None \/ exists j pj, nth_error l j = Some pj /\ p = recent (pr_data pj)) ->
                fs0 p = None \/ exists j pj, nth_error (set_state (ev_pid ev) s' l) j = Some pj /\ p = recent (pr_data pj)).
    { intros [K|(j & pj & Hj & Ej)]; [left; exact K|]. right. destruct (Back j pj Hj) as (p' & Hp' & E). exists j, p'. split; [exact Hp'|]. rewrite E. exact Ej. }
    apply K. destruct (Nth i q Hq) as [[-> ->]|[N Hq']]; [|apply (Hn _ _ _ Hq' Hmq)].
    destruct (step_made _ _ _ _ _ p Es Hmq) as [M|(_ & M & _)]; [apply (Hn _ _ _ En M)|].
    destruct (fs0 p) as [n|] eqn:E0; [|left; reflexivity]. right.
    destruct (in_dec path_dec p (map (fun x => recent (pr_data x)) l)) as [I|I].
    + apply in_map_iff in I. destruct I as (x & <- & Ix). destruct (In_nth_error _ _ Ix) as (j & Hj). exists j, x. auto.
    + exfalso. assert (C : fs p = Some n); [|congruence]. apply Hk; [exact E0|]. intros x Hx' ->. apply I, in_map_iff. exists x. auto.
  - intros i j qi qj p Hi Hj Mi Mj. destruct (Nth i qi Hi) as [[-> ->]|[Ni Hi']], (Nth j qj Hj) as [[-> ->]|[Nj Hj']].
    + reflexivity.
    + exfalso. destruct (step_made _ _ _ _ _ p Es Mi) as [M|(_ & M & _)]; [apply Nj; symmetry; apply (Hx _ _ _ _ _ En Hj' M Mj)|]. pose proof (Hm _ _ _ Hj' Mj). congruence.
    + exfalso. destruct (step_made _ _ _ _ _ p Es Mj) as [M|(_ & M & _)]; [apply Ni; apply (Hx _ _ _ _ _ Hi' En Mi M)|]. pose proof (Hm _ _ _ Hi' Mi). congruence.
    + apply (Hx _ _ _ _ _ Hi' Hj' Mi Mj).
  - intros i q p Hq Haq. destruct (Nth i q Hq) as [[-> ->]|[N Hq']].
    + destruct (step_aims _ _ _ _ _ p Es Haq) as [M|M].
      * destruct (Ha _ _ _ En M) as (ev' & I & E). exists ev'. split; [apply in_or_app; left; exact I|exact E].
      * exists ev. split; [apply in_or_app; right; left; reflexivity|]. auto.
    + destruct (Ha _ _ _ Hq' Haq) as (ev' & I & E). exists ev'. split; [apply in_or_app; left; exact I|exact E].
  - intros q t Hq.
    assert (Mono : forall i x p, nth_error l i = Some x -> made x = Some p -> exists x', nth_error (set_state (ev_pid ev) s' l) i = Some x' /\ pr_data x' = pr_data x /\ (made x' = Some p \/ exists e, s' = PFail e /\ i = ev_pid ev)).
    { intros i x p Hi Mx. rewrite set_state_nth, Hi. destruct (Nat.eqb_spec i (ev_pid ev)) as [->|N]; [|exists x; auto].
      exists pr'. rewrite En in Hi. injection Hi as <-. split; [reflexivity|]. split; [reflexivity|].
      clear - Es Mx. unfold pr', made in *. cbn [pr_state]. unfold step in Es. destruct (pr_state pr) as [| | |z|z|z|z w|z w|e]; try discriminate; injection Mx as <-.
      - destruct (remove fs (recent (pr_data pr))) as [f|[]]; [destruct (ev_denied ev)| | | | |]; injection Es as <- <-; eauto.
      - destruct (fs (recent (pr_data pr))); [injection Es as <- <-; auto|]. destruct (ev_denied ev); [injection Es as <- <-; auto|].
        destruct (symlink fs z (recent (pr_data pr))) as [f|[]]; injection Es as <- <-; auto.
      - injection Es as <- <-. auto. }
    assert (Old : fs q = Some (Link t) -> fs0 q = Some (Link t) \/ exists i x, nth_error (set_state (ev_pid ev) s' l) i = Some x /\ made x = Some t /\ q = recent (pr_data x)).
    { intro E. destruct (Hl q t E) as [L|(i & x & Hi & Mx & Eq)]; [left; exact L|]. right.
      destruct (Mono i x t Hi Mx) as (x' & Hx' & Ed & [M|(e & Ef' & ->)]); [exists i, x'; rewrite Ed; auto|].
      exfalso. rewrite En in Hi. injection Hi as <-. clear - Es Mx E Eq Ef'. subst q s'. unfold made in Mx. unfold step in Es. destruct (pr_state pr) as [| | |z|z|z|z w|z w|e0]; try discriminate; injection Mx as <-.
      - unfold remove in Es. rewrite E in Es. destruct (ev_denied ev); discriminate.
      - rewrite E in Es. discriminate. }
    destruct Ef as [G|_ E|p w E N E2].
    + destruct (G q) as [F|[_ F]]; [apply Old; congruence|congruence].
    + subst fs'. destruct (path_dec q (recent (pr_data pr))) as [->|N]; [rewrite put_same in Hq; discriminate|]. rewrite put_other in Hq by exact N. apply Old, Hq.
    + subst fs'. destruct (path_dec q (recent (pr_data pr))) as [->|N']; [|rewrite put_other in Hq by exact N'; apply Old, Hq].
      rewrite put_same in Hq. injection Hq as ->. right. exists (ev_pid ev), pr'. split; [rewrite set_state_nth, En, Nat.eqb_refl; reflexivity|].
      split; [unfold made, pr'; cbn [pr_state]; rewrite E; reflexivity|reflexivity].
Qed.

Lemma schedule_inv : forall fs0 l evs, fresh l -> inv fs0 evs (schedule (fs0, l) evs).
Proof.
  intros fs0 l evs Hf. induction evs as [|ev evs IH] using rev_ind.
  - constructor; cbn; try (intros i pr p Hi M; exfalso; apply nth_error_In, Hf in Hi; unfold aims, made in M; rewrite Hi in M; discriminate); auto.
    intros i j pi pj p Hi Hj Mi _. exfalso. apply nth_error_In, Hf in Hi. unfold made in Mi. rewrite Hi in Mi. discriminate.
  - unfold schedule in *. rewrite fold_left_app. cbn [fold_left]. apply turn_inv, IH.
Qed.

(** the time stamp written by strftime is never the word "recent" *)
Definition stamped (evs : list event) : Prop := forall ev, In ev evs -> ev_stamp ev <> "recent".
Lemma run_dir_not_recent : forall data run st d, st <> "recent" -> run_dir data run st <> recent d.
Proof. intros data [r|r] st d H E; cbn in E; injection E as E _; contradiction. Qed.

(** However many processes call [log_setup] at the same time, in whatever order they take turns and
    whatever the clock says: a directory returned did not exist before, exists now, is named after the
    run and a time the process read, and is returned to one process only. *)
Theorem C117_own_directory : forall fs0 l evs i pr p w,
  fresh l -> stamped evs ->
  nth_error (snd (schedule (fs0, l) evs)) i = Some pr -> pr_state pr = PDone p w ->
  fs0 p = None /\ fst (schedule (fs0, l) evs) p = Some Dir
  /\ (exists ev, In ev evs /\ ev_pid ev = i /\ p = place (pr_data pr) (pr_run pr) (ev_stamp ev))
  /\ (forall j pj wj, nth_error (snd (schedule (fs0, l) evs)) j = Some pj -> pr_state pj = PDone p wj -> j = i).
Proof.
  intros fs0 l evs i pr p w Hf Hs Hi Hd. destruct (schedule_inv fs0 l evs Hf) as [_ _ Hm Hn Hx Ha _].
  assert (M : made pr = Some p) by (unfold made; rewrite Hd; reflexivity).
  assert (A : aims pr = Some p) by (unfold aims, made; rewrite Hd; reflexivity).
  destruct (Ha i pr p Hi A) as (ev & I & E & Ep). split; [|split; [apply (Hm i pr p Hi M)|split; [exists ev; auto|]]].
  - destruct (Hn i pr p Hi M) as [N|(j & pj & Hj & Ej)]; [exact N|]. exfalso. rewrite Ep in Ej. revert Ej. apply run_dir_not_recent, Hs, I.
  - intros j pj wj Hj Dj. apply (Hx j i pj pr p Hj Hi); [unfold made; rewrite Dj; reflexivity|exact M].
Qed.
Print Assumptions C117_own_directory.

(** Nothing that was there is lost except the links "recent" of the data directories, and a directory not even there. *)
Theorem C117_nothing_lost : forall fs0 l evs q n,
  fresh l -> fs0 q = Some n ->
  n = Dir \/ (forall pr, In pr (snd (schedule (fs0, l) evs)) -> q <> recent (pr_data pr)) ->
  fst (schedule (fs0, l) evs) q = Some n.
Proof.
  intros fs0 l evs q n Hf Hq H. destruct (schedule_inv fs0 l evs Hf) as [Hd Hk _ _ _ _ _]. destruct H as [->|H]; [apply Hd, Hq|apply Hk; assumption].
Qed.
Print Assumptions C117_nothing_lost.

(** A link made meanwhile is the link "recent" of a data directory, to a directory that exists
    and that one of the processes using this data directory has made. *)
Theorem C117_recent : forall fs0 l evs q t,
  fresh l -> fst (schedule (fs0, l) evs) q = Some (Link t) -> fs0 q <> Some (Link t) ->
  exists i pr, nth_error (snd (schedule (fs0, l) evs)) i = Some pr /\ made pr = Some t /\ q = recent (pr_data pr)
  /\ fst (schedule (fs0, l) evs) t = Some Dir.
Proof.
  intros fs0 l evs q t Hf Hq Hn. destruct (schedule_inv fs0 l evs Hf) as [_ _ Hm _ _ _ Hl].
  destruct (Hl q t Hq) as [C|(i & pr & Hi & M & E)]; [contradiction|]. exists i, pr. split; [exact Hi|]. split; [exact M|]. split; [exact E|]. apply (Hm i pr t Hi M).
Qed.
Print Assumptions C117_recent.

(** ** One process *)
Definition suffix (q p : path) : Prop := exists pre, p = pre ++ q.
(** nothing but directories on the way to a path *)
Definition clear_way (fs : fsys) (p : path) : Prop := forall q, suffix q p -> fs q = None \/ fs q = Some Dir.

Lemma suffix_cons : forall q c h, suffix q (c :: h) <-> q = c :: h \/ suffix q h.
Proof.
  intros q c h. split.
  - intros ([|x pre] & E); cbn in E; [left; symmetry; exact E|]. injection E as _ E. right. exists pre. exact E.
  - intros [->|(pre & ->)]; [exists []; reflexivity|exists (c :: pre); reflexivity].
Qed.
Lemma suffix_length : forall q p, suffix q p -> length q <= length p.
Proof. intros q p (pre & ->). rewrite app_length. lia. Qed.
Lemma suffix_self : forall p, suffix p p. Proof. intro p. exists []. reflexivity. Qed.
Lemma suffix_dec : forall q p, {suffix q p} + {~ suffix q p}.
Proof.
  intros q p. induction p as [|c h IH].
  - destruct q as [|x q]; [left; exists []; reflexivity|right]. intros S. apply suffix_length in S. cbn in S. lia.
  - destruct (path_dec q (c :: h)) as [->|N]; [left; apply suffix_self|]. destruct IH as [I|I]; [left; apply suffix_cons; right; exact I|].
    right. intro S. apply suffix_cons in S. destruct S; contradiction.
Qed.

(** what is in a file system lies in directories *)
Definition tree (fs : fsys) : Prop := fs [] = Some Dir /\ forall c h, fs (c :: h) <> None -> fs h = Some Dir.
Lemma tree_suffix : forall fs p q, tree fs -> fs p = Some Dir -> suffix q p -> fs q = Some Dir.
Proof.
  intros fs p q [_ T]. induction p as [|c h IH]; intros Hp S.
  - destruct S as ([|x pre] & E); [cbn in E; subst q; exact Hp|discriminate].
  - apply suffix_cons in S. destruct S as [->|S]; [exact Hp|]. apply IH; [|exact S]. apply (T c). congruence.
Qed.
Lemma makedirs_works : forall p fs, tree fs -> clear_way fs p -> fs p = None ->
  exists fs', makedirs fs p = FOk fs' /\ (forall q, suffix q p -> fs' q = Some Dir) /\ (forall q, ~ suffix q p -> fs' q = fs q).
Proof.
  induction p as [|c h IH]; intros fs H0 Hc Hp; [destruct H0; congruence|]. cbn [makedirs].
  assert (Hh : clear_way fs h) by (intros q S; apply Hc, suffix_cons; right; exact S).
  assert (E : exists_at fs h = match fs h with Some _ => true | None => false end).
  { unfold exists_at, follow. destruct (Hh h (suffix_self h)) as [-> | ->]; reflexivity. }
  rewrite E. assert (Nsuf : ~ suffix (c :: h) h) by (intro S; apply suffix_length in S; cbn in S; lia).
  destruct (Hh h (suffix_self h)) as [Eh|Eh]; rewrite Eh.
  - destruct (IH fs H0 Hh Eh) as (f & -> & A & B). unfold mkdir, follow. cbn [tl]. rewrite (B _ Nsuf), Hp, (A h (suffix_self h)).
    eexists. split; [reflexivity|]. split.
    + intros q S. apply suffix_cons in S. destruct S as [->|S]; [apply put_same|]. rewrite put_other; [apply A, S|]. intros ->. contradiction.
    + intros q S. rewrite put_other; [apply B; intro C; apply S, suffix_cons; right; exact C|]. intros ->. apply S, suffix_self.
  - unfold mkdir, follow. cbn [tl]. rewrite Hp, Eh. eexists. split; [reflexivity|].
    assert (All : forall q, suffix q h -> fs q = Some Dir).
    { intros q S. apply (tree_suffix fs h); assumption. }
    split.
    + intros q S. apply suffix_cons in S. destruct S as [->|S]; [apply put_same|]. rewrite put_other; [apply All, S|]. intros ->. contradiction.
    + intros q S. apply put_other. intros ->. apply S, suffix_self.
Qed.

Lemma grows_exists : forall fs fs' p, grows fs fs' -> exists_at fs p = true -> exists_at fs' p = true.
Proof.
  intros fs fs' p G H. unfold exists_at, follow in *. destruct (fs p) as [n|] eqn:E; [|discriminate].
  destruct (G p) as [F|[F _]]; [|congruence]. rewrite F, E. destruct n as [|t|]; try exact H. destruct (fs t) eqn:Et; [|discriminate].
  destruct (G t) as [Gt|[Gt _]]; [rewrite Gt, Et; reflexivity|congruence].
Qed.

(** a turn of the only process, the clock showing [st], nothing refused *)
Definition tick (st : string) : event := mkEv 0 st false.
Definition only (data : path) (run : rname) (s : pstate) : list proc := [mkProc data run s].

Lemma waits : forall busy fs data run, (forall b, In b busy -> exists_at fs (run_dir data run b) = true) ->
  schedule (fs, only data run PStamp) (flat_map (fun b => [tick b; tick b]) busy) = (fs, only data run PStamp).
Proof.
  induction busy as [|b busy IH]; intros fs data run H; [reflexivity|]. cbn [flat_map app]. unfold schedule in *. cbn [fold_left].
  unfold turn at 3. cbn [snd only ev_pid tick nth_error fst step pr_state pr_data pr_run ev_stamp set_state].
  unfold turn at 2. cbn [snd only ev_pid tick nth_error fst step pr_state pr_data pr_run ev_stamp set_state].
  rewrite (H b (or_introl eq_refl)). apply IH. intros b' Hb. apply H. right. exact Hb.
Qed.

Lemma finishes : forall fs data run st, let dir := run_dir data run st in
  tree fs -> fs data = Some Dir -> clear_way fs dir -> fs dir = None -> fs (recent data) <> Some Dir -> ~ suffix (recent data) dir ->
  exists fs', schedule (fs, only data run PStamp) (repeat (tick st) 5) = (fs', only data run (PDone dir 0))
  /\ fs' dir = Some Dir /\ fs' (recent data) = Some (Link dir)
  /\ (forall q, q <> recent data -> ~ suffix q dir -> fs' q = fs q).
Proof.
  intros fs data run st dir T Hd Hc Hn Hr Hs.
  destruct (makedirs_works dir fs T Hc Hn) as (f & Em & A & B).
  assert (Ex : exists_at fs dir = false) by (unfold exists_at, follow; rewrite Hn; reflexivity).
  assert (Fd : f data = Some Dir) by (destruct (suffix_dec data dir) as [S|S]; [apply A, S|rewrite (B _ S); exact Hd]).
  assert (Nd : data <> recent data) by (intro C; apply (f_equal (@length string)) in C; cbn in C; lia).
  assert (Ndir : dir <> recent data) by (intro C; apply Hs; rewrite C; apply suffix_self).
  unfold schedule. cbn [repeat fold_left].
  unfold turn at 5. cbn [snd only ev_pid tick nth_error fst step pr_state pr_data pr_run ev_stamp set_state].
  unfold turn at 4. cbn [snd only ev_pid tick nth_error fst step pr_state pr_data pr_run ev_stamp set_state]. fold dir. rewrite Ex.
  unfold turn at 3. cbn [snd only ev_pid tick nth_error fst step pr_state pr_data pr_run ev_stamp ev_denied set_state]. rewrite Em.
  unfold turn at 2. cbn [snd only ev_pid tick nth_error fst step pr_state pr_data pr_run ev_stamp ev_denied set_state].
  assert (G : exists g, (match remove f (recent data) with
                 | FOk fs' => (fs', PLink dir 0)
                 | FErr NoSuchFile => (f, PLink dir 0)
                 | FErr Permission => (f, PLink dir 1)
                 | FErr e => (f, PFail e)
                 end) = (g, PLink dir 0) /\ g (recent data) = None /\ forall q, q <> recent data -> g q = f q).
  { unfold remove. rewrite (B _ Hs). destruct (fs (recent data)) as [[|t|]|] eqn:E; [congruence| | |].
    - eexists. split; [reflexivity|]. split; [apply put_same|intros q N; apply put_other, N].
    - eexists. split; [reflexivity|]. split; [apply put_same|intros q N; apply put_other, N].
    - exists f. split; [reflexivity|]. split; [rewrite (B _ Hs); exact E|reflexivity]. }
  destruct G as (g & -> & Gn & Go). cbn [set_state].
  unfold turn. cbn [snd only ev_pid tick nth_error fst step pr_state pr_data pr_run ev_stamp ev_denied set_state]. unfold symlink. rewrite Gn.
  cbn [tl recent]. unfold follow. rewrite (Go data Nd), Fd. eexists. split; [reflexivity|]. split; [|split].
  - rewrite put_other by exact Ndir. rewrite (Go _ Ndir). apply A, suffix_self.
  - apply put_same.
  - intros q N1 N2. rewrite put_other by exact N1. rewrite (Go q N1). apply B, N2.
Qed.

(** A process alone: it makes the data directory if it is missing, waits while the directory of the
    current second exists, takes the first second that is free, and sets the link "recent" to it. *)
Theorem C117_alone : forall fs data run busy st, let dir := place data run st in
  tree fs -> clear_way fs data -> clear_way fs dir -> fs dir = None ->
  (forall b, In b busy -> exists_at fs (place data run b) = true) ->
  fs (recent data) <> Some Dir -> ~ suffix (recent data) dir -> ~ suffix dir data ->
  exists fs' start,
    schedule (fs, only data run PStart) (start ++ flat_map (fun b => [tick b; tick b]) busy ++ repeat (tick st) 5)
      = (fs', only data run (PDone dir 0))
    /\ start = (if isdir fs data then [tick st] else [tick st; tick st])
    /\ fs' dir = Some Dir /\ fs' (recent data) = Some (Link dir)
    /\ (forall q, q <> recent data -> ~ suffix q data -> ~ suffix q dir -> fs' q = fs q).
Proof.
  intros fs data run busy st dir T Hcd Hc Hn Hb Hr Hs Hsd.
  assert (Nr : ~ suffix (recent data) data) by (intro S; apply suffix_length in S; cbn in S; lia).
  assert (St : exists f start, schedule (fs, only data run PStart) start = (f, only data run PStamp)
     /\ start = (if isdir fs data then [tick st] else [tick st; tick st])
     /\ tree f /\ grows fs f /\ f data = Some Dir /\ (forall q, ~ suffix q data -> f q = fs q) /\ (forall q, suffix q data -> f q = Some Dir)).
  { destruct (Hcd data (suffix_self data)) as [Ed|Ed]; unfold isdir, follow; rewrite Ed.
    - destruct (makedirs_works data fs T Hcd Ed) as (f & Em & A & B). exists f, [tick st; tick st]. split; [|split; [reflexivity|split; [|split; [apply (makedirs_ok _ _ _ Em)|split; [apply A, suffix_self|split; [exact B|exact A]]]]]].
      + unfold schedule. cbn [fold_left]. unfold turn at 2. cbn [snd only ev_pid tick nth_error fst step pr_state pr_data pr_run ev_stamp set_state].
        unfold isdir, follow. rewrite Ed. unfold turn. cbn [snd only ev_pid tick nth_error fst step pr_state pr_data pr_run ev_stamp ev_denied set_state]. rewrite Em. reflexivity.
      + destruct T as [T0 T1]. split; [apply A; exists data; symmetry; apply app_nil_r|]. intros c h H. destruct (suffix_dec (c :: h) data) as [S|S].
        * apply A. destruct S as (pre & E). exists (pre ++ [c]). rewrite <- app_assoc. exact E.
        * rewrite (B _ S) in H. destruct (suffix_dec h data) as [S'|S']; [apply A, S'|]. rewrite (B _ S'). apply (T1 c), H.
    - exists fs, [tick st]. split; [|split; [reflexivity|split; [exact T|split; [apply grows_refl|split; [exact Ed|split; [reflexivity|]]]]]].
      + unfold schedule. cbn [fold_left]. unfold turn. cbn [snd only ev_pid tick nth_error fst step pr_state pr_data pr_run ev_stamp set_state].
        unfold isdir, follow. rewrite Ed. reflexivity.
      + intros q S. apply (tree_suffix fs data); assumption. }
  destruct St as (f & start & Es & Est & Tf & Gf & Fd & Fo & Fs).
  assert (Fr : f (recent data) = fs (recent data)) by (apply Fo, Nr).
  destruct (finishes f data run st Tf Fd) as (fs' & E & A & B & C).
  - intros q S. destruct (suffix_dec q data) as [S'|S']; [right; apply Fs, S'|]. rewrite (Fo _ S'). apply Hc, S.
  - change (run_dir data run st) with dir. rewrite (Fo _ Hsd). exact Hn.
  - rewrite Fr. exact Hr.
  - exact Hs.
  - exists fs', start. split; [|split; [exact Est|split; [exact A|split; [exact B|]]]].
    + unfold schedule in *. rewrite fold_left_app, Es, fold_left_app.
      pose proof (waits busy f data run) as W. unfold schedule in W. rewrite W; [exact E|]. intros b Ib. apply (grows_exists fs); [exact Gf|apply Hb, Ib].
    + intros q N1 N2 N3. rewrite (C q N1 N3). apply Fo, N2.
Qed.
Print Assumptions C117_alone.

(** Finding: a run named "recent" makes its directory and then fails: the link cannot replace the directory. *)
Theorem C117_named_recent_refuted : forall fs data st,
  tree fs -> fs data = Some Dir -> fs (recent data) = None -> fs (st :: recent data) = None ->
  exists fs', schedule (fs, only data (Relative ["recent"]) PStart) (repeat (tick st) 5)
    = (fs', only data (Relative ["recent"]) (PFail IsADirectory)) /\ fs' (st :: recent data) = Some Dir.
Proof.
  intros fs data st T Hd Hr Hn.
  assert (Hc : clear_way fs (st :: recent data)).
  { intros q S. apply suffix_cons in S. destruct S as [->|S]; [left; exact Hn|]. unfold recent in S. apply suffix_cons in S. destruct S as [->|S]; [left; exact Hr|].
    right. apply (tree_suffix fs data); assumption. }
  destruct (makedirs_works (st :: recent data) fs T Hc Hn) as (f & Em & A & B).
  assert (Fr : f (recent data) = Some Dir) by (apply A; exists [st]; reflexivity).
  exists f. split; [|apply A, suffix_self]. unfold schedule. cbn [repeat fold_left].
  unfold turn at 5. cbn [snd only ev_pid tick nth_error fst step pr_state pr_data pr_run ev_stamp set_state]. unfold isdir, follow. rewrite Hd.
  unfold turn at 4. cbn [snd only ev_pid tick nth_error fst step pr_state pr_data pr_run ev_stamp set_state].
  unfold turn at 3. cbn [snd only ev_pid tick nth_error fst step pr_state pr_data pr_run ev_stamp set_state run_dir app].
  change (st :: "recent" :: data) with (st :: recent data). unfold exists_at, follow. rewrite Hn.
  unfold turn at 2. cbn [snd only ev_pid tick nth_error fst step pr_state pr_data pr_run ev_stamp ev_denied set_state]. rewrite Em.
  unfold turn. cbn [snd only ev_pid tick nth_error fst step pr_state pr_data pr_run ev_stamp ev_denied set_state]. unfold remove. rewrite Fr. reflexivity.
Qed.
Print Assumptions C117_named_recent_refuted.

(** Finding: two processes of the same name that start in the same second do not both run: the slower one
    fails with FileExistsError instead of waiting. *)
Theorem C117_race_refuted : forall fs data run st, let dir := place data run st in
  tree fs -> fs data = Some Dir -> clear_way fs dir -> fs dir = None ->
  exists evs fs' s, schedule (fs, [mkProc data run PStart; mkProc data run PStart]) evs
    = (fs', [mkProc data run s; mkProc data run (PFail FileExists)]) /\ s = PRemove dir
    /\ forall ev, In ev evs -> ev_stamp ev = st /\ ev_denied ev = false.
Proof.
  intros fs data run st dir T Hd Hc Hn. destruct (makedirs_works dir fs T Hc Hn) as (f & Em & A & B).
  assert (Ex : exists_at fs dir = false) by (unfold exists_at, follow; rewrite Hn; reflexivity).
  assert (Ef : makedirs f dir = FErr FileExists).
  { unfold dir, place in *. destruct run as [r|r].
    - cbn [app]. cbn [makedirs]. unfold exists_at, follow. rewrite (A (r ++ data)) by (exists [st]; reflexivity). unfold mkdir. rewrite A by apply suffix_self. reflexivity.
    - cbn [app]. cbn [makedirs]. unfold exists_at, follow. rewrite (A r) by (exists [st]; reflexivity). unfold mkdir. rewrite A by apply suffix_self. reflexivity. }
  pose (a := mkEv 0 st false). pose (b := mkEv 1 st false).
  exists [a; a; a; b; b; b; a; b], f, (PRemove dir). split; [|split; [reflexivity|]].
  - unfold schedule. cbn [fold_left]. unfold turn at 8. cbn [snd ev_pid a nth_error fst step pr_state pr_data pr_run ev_stamp set_state]. unfold isdir, follow. rewrite Hd.
    unfold turn at 7. cbn [snd ev_pid a nth_error fst step pr_state pr_data pr_run ev_stamp set_state]. change (run_dir data run st) with dir.
    unfold turn at 6. cbn [snd ev_pid a nth_error fst step pr_state pr_data pr_run ev_stamp set_state]. rewrite Ex.
    unfold turn at 5. cbn [snd ev_pid b nth_error fst step pr_state pr_data pr_run ev_stamp set_state]. unfold isdir, follow. rewrite Hd.
    unfold turn at 4. cbn [snd ev_pid b nth_error fst step pr_state pr_data pr_run ev_stamp set_state]. change (run_dir data run st) with dir.
    unfold turn at 3. cbn [snd ev_pid b nth_error fst step pr_state pr_data pr_run ev_stamp set_state]. rewrite Ex.
    unfold turn at 2. cbn [snd ev_pid a nth_error fst step pr_state pr_data pr_run ev_stamp ev_denied set_state]. rewrite Em.
    unfold turn. cbn [snd ev_pid b nth_error fst step pr_state pr_data pr_run ev_stamp ev_denied set_state]. rewrite Ef. reflexivity.
  - intros ev Hev. cbn in Hev. repeat (destruct Hev as [<-|Hev]; [split; reflexivity|]). destruct Hev.
Qed.
Print Assumptions C117_race_refuted.

(** If the old link may not be removed, it stays and keeps pointing to the old run, the run goes on, and one warning is given; if the new
    link may not be made, one more. *)
Theorem C117_link_denied : forall fs data run dir old w,
  (fs (recent data) = Some (Link old) ->
   schedule (fs, only data run (PRemove dir)) [mkEv 0 "" true; tick ""] = (fs, only data run (PDone dir 1)))
  /\ (fs (recent data) = None -> schedule (fs, only data run (PLink dir w)) [mkEv 0 "" true] = (fs, only data run (PDone dir (S w)))).
Proof.
  intros fs data run dir old w. split; intro H; unfold schedule; cbn [fold_left].
  - unfold turn at 2. cbn [snd only ev_pid nth_error fst step pr_state pr_data pr_run ev_denied set_state].
    unfold remove. rewrite H. unfold turn. cbn [snd only ev_pid tick nth_error fst step pr_state pr_data pr_run ev_denied set_state]. rewrite H. reflexivity.
  - unfold turn. cbn [snd only ev_pid nth_error fst step pr_state pr_data pr_run ev_denied set_state]. rewrite H. reflexivity.
Qed.
Print Assumptions C117_link_denied.

(** A directory returned lies in the data directory, below the name of the run. *)
Theorem C117_inside : forall fs0 l evs i pr p w r,
  fresh l -> nth_error (snd (schedule (fs0, l) evs)) i = Some pr -> pr_state pr = PDone p w -> pr_run pr = Relative r ->
  exists stamp, p = stamp :: r ++ pr_data pr.
Proof.
  intros fs0 l evs i pr p w r Hf Hi Hd Hr. destruct (schedule_inv fs0 l evs Hf) as [_ _ _ _ _ Ha _].
  destruct (Ha i pr p Hi) as (ev & _ & _ & ->); [unfold aims, made; rewrite Hd; reflexivity|]. rewrite Hr. exists (ev_stamp ev). reflexivity.
Qed.
Print Assumptions C117_inside.
(** Finding: but an absolute name of a run leads out of the data directory. *)
Theorem C117_absolute_refuted : forall fs0 l evs i pr p w r,
  fresh l -> nth_error (snd (schedule (fs0, l) evs)) i = Some pr -> pr_state pr = PDone p w -> pr_run pr = Absolute r ->
  ~ suffix (pr_data pr) r -> length r <> length (pr_data pr) - 1 ->
  ~ suffix (pr_data pr) p.
Proof.
  intros fs0 l evs i pr p w r Hf Hi Hd Hr Hs Hl. destruct (schedule_inv fs0 l evs Hf) as [_ _ _ _ _ Ha _].
  destruct (Ha i pr p Hi) as (ev & _ & _ & ->); [unfold aims, made; rewrite Hd; reflexivity|]. rewrite Hr. cbn [run_dir].
  intro S. apply suffix_cons in S. destruct S as [E|S]; [|contradiction]. apply Hl. rewrite E. cbn. lia.
Qed.
Print Assumptions C117_absolute_refuted.

Lemma turn_args : forall sys ev, map (fun pr => (pr_data pr, pr_run pr)) (snd (turn sys ev)) = map (fun pr => (pr_data pr, pr_run pr)) (snd sys).
Proof.
  intros [fs l] ev. unfold turn. cbn [fst snd]. destruct (nth_error l (ev_pid ev)) as [pr|]; [|reflexivity]. destruct (step fs pr ev) as [f s]. cbn [snd].
  generalize (ev_pid ev) as n. induction l as [|x l IH]; intros [|n]; cbn [set_state map]; try reflexivity. rewrite IH. reflexivity.
Qed.
(** Without a data directory, runs go below "c3logs" in the temporary directory. *)
Theorem C117_default : forall fs0 tmp r evs pr p w,
  snd (schedule (fs0, [mkProc (data_dir tmp None) (Relative r) PStart]) evs) = [pr] -> pr_state pr = PDone p w ->
  exists stamp, p = [stamp] ++ r ++ ["c3logs"] ++ tmp.
Proof.
  intros fs0 tmp r evs pr p w H Hd. set (l := [mkProc (data_dir tmp None) (Relative r) PStart]) in *.
  assert (A : map (fun pr => (pr_data pr, pr_run pr)) (snd (schedule (fs0, l) evs)) = map (fun pr => (pr_data pr, pr_run pr)) l).
  { change l with (snd (fs0, l)) at 2. generalize (fs0, l). clear. unfold schedule. induction evs as [|ev evs IH]; intro sys; cbn [fold_left]; [reflexivity|]. rewrite IH. apply turn_args. }
  rewrite H in A. cbn [map l pr_data pr_run] in A. injection A as A1 A2.
  destruct (C117_inside fs0 l evs 0 pr p w r) as (st & ->); [intros x [<-|[]]; reflexivity|rewrite H; reflexivity|exact Hd|exact A2|].
  exists st. rewrite A1. reflexivity.
Qed.
Print Assumptions C117_default.

Example C117_example :
  let fs : fsys := fun q => if path_dec q [] then Some Dir else if path_dec q ["log"] then Some Dir else None in
  let run := Relative ["opt"] in
  tree fs /\ clear_way fs ["log"] /\ clear_way fs (place ["log"] run "12") /\ ~ suffix (recent ["log"]) (place ["log"] run "12")
  /\ ~ suffix (place ["log"] run "12") ["log"] /\ fresh [mkProc ["log"] run PStart; mkProc ["log"] run PStart] /\ stamped [mkEv 0 "12" false].
Proof.
  cbn zeta. assert (K : forall q, (fun q => if path_dec q [] then Some Dir else if path_dec q ["log"] then Some Dir else None) q = None \/ (fun q => if path_dec q [] then Some Dir else if path_dec q ["log"] then Some Dir else None) q = Some Dir).
  { intro q. cbv beta. destruct (path_dec q []); [auto|]. destruct (path_dec q ["log"]); auto. }
  split; [split; [reflexivity|]|split; [intros q _; exact (K q)|split; [intros q _; exact (K q)|split; [|split; [|split]]]]].
  - intros c h H. destruct (path_dec (c :: h) []); [discriminate|]. destruct (path_dec (c :: h) ["log"]) as [E|E]; [injection E as -> ->; reflexivity|congruence].
  - clear K. intros ([|a [|b pre]] & E); [discriminate E|cbn in E; inversion E|]. apply (f_equal (@length string)) in E. cbn in E. rewrite app_length in E. cbn in E. lia.
  - intro S. apply suffix_length in S. cbn in S. lia.
  - intros pr [<-|[<-|[]]]; reflexivity.
  - intros ev [<-|[]]. discriminate.
Qed.
