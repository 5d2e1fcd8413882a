(** C118: what the TensorBoard logger writes; C119: what the log reader shows. *)
From Coq Require Import Reals Lra Ascii.
From Verif Require Import Base QuantityModel QuantityProofs LogModel LogProps LoggerModel.
Local Open Scope string_scope.
Local Open Scope list_scope.
Local Notation length := List.length.

(** ** Specification *)

(** one scalar per name, with the value of its group *)
Definition param_entries (m : list (list string)) (xs : list R) (step : nat) : list entry :=
  flat_map (fun gx => map (fun k => Scalar k (Some (snd gx)) step) (fst gx)) (combine m xs).
(** floats become scalars, lists histograms *)
Definition value_entry (step : nat) (kv : string * sval) : entry :=
  match snd kv with SFloat x => Scalar (fst kv) (Some x) step | SList l => Histogram (fst kv) l step | SOther => Histogram (fst kv) [] step end.
(** everything written for an evaluation *)
Definition all_entries (m : list (list string)) (xs : list R) (s : status) (step : nat) : list entry :=
  param_entries m xs step ++ [Scalar "goal" (st_goal s) step]
  ++ match st_gradient s with Some g => [Histogram "gradient" (map (fun x => Rmax (-3) (Rmin 3 x)) g) step] | None => [] end
  ++ map (value_entry step) (st_rest s).
(** a status the logger can write: scalar parameters, a time, nothing but floats and lists *)
Definition writable (m : list (list string)) (s : status) (xs : list R) : Prop :=
  st_params s = map SFloat xs /\ length xs = length m /\ st_time s = true /\ (forall k, ~ In (k, SOther) (st_rest s)).

(** ** Lemmas *)
Lemma write_keys_ok : forall ks x step, write_keys ks (Ok x) step = (map (fun k => Scalar k (Some x) step) ks, None).
Proof. induction ks as [|k ks IH]; intros x step; cbn [write_keys map]; [reflexivity|]. rewrite IH. reflexivity. Qed.
Lemma write_params_ok : forall m xs step, length xs = length m -> write_params m (map Ok xs) step = (param_entries m xs step, None).
Proof.
  intros m xs step L. unfold write_params. rewrite map_length, L, Nat.eqb_refl. revert xs L.
  induction m as [|ks m IH]; intros [|x xs] L; try discriminate; [reflexivity|]. cbn [map write_groups]. rewrite write_keys_ok.
  rewrite IH by (cbn in L; lia). reflexivity.
Qed.
Lemma as_float_map : forall xs, map as_float (map SFloat xs) = map Ok xs.
Proof. intro xs. rewrite map_map. reflexivity. Qed.
Lemma write_rest_ok : forall d step, (forall k, ~ In (k, SOther) d) -> write_rest d step = (map (value_entry step) d, None).
Proof.
  induction d as [|[k v] d IH]; intros step H; cbn [write_rest map]; [reflexivity|].
  assert (H' : forall k, ~ In (k, SOther) d) by (intros k' C; apply (H k'); right; exact C). rewrite (IH step H').
  destruct v; [reflexivity|reflexivity|]. exfalso. apply (H k). left. reflexivity.
Qed.
Lemma clip_spec : forall x, clip x = Rmax (-3) (Rmin 3 x).
Proof.
  intro x. unfold clip, Rltb. destruct (Rlt_dec x (-3)); [rewrite Rmin_right, Rmax_left by lra; reflexivity|].
  destruct (Rlt_dec 3 x); [rewrite Rmin_left, Rmax_right by lra; reflexivity|]. rewrite Rmin_right, Rmax_right by lra. reflexivity.
Qed.
Lemma tb_entries_ok : forall m s step xs, writable m s xs -> tb_entries m s step = (all_entries m xs s step, None).
Proof.
  intros m s step xs (Hp & L & Ht & Hr). unfold tb_entries. rewrite Hp, as_float_map, write_params_ok by exact L. rewrite Ht, write_rest_ok by exact Hr.
  unfold all_entries. rewrite <- !app_assoc. do 3 f_equal. f_equal. destruct (st_gradient s); [|reflexivity]. do 2 f_equal. apply map_ext, clip_spec.
Qed.

(** An evaluation with a goal above the best so far leaves the file alone; any other is written
    completely - every name with the value of its group, the goal, the gradient cut off at 3, all further
    floats and lists - and becomes the best. *)
Theorem C118_written : forall t step s xs, writable (tb_map t) s xs ->
  tb_log t step s =
    match st_goal s, tb_best t with
    | Some g, Level (Some b) => if Rlt_dec b g then (t, None) else (mkTB (tb_map t) (Level (Some g)) (tb_file t ++ all_entries (tb_map t) xs s step), None)
    | g, _ => (mkTB (tb_map t) (Level g) (tb_file t ++ all_entries (tb_map t) xs s step), None)
    end.
Proof.
  intros t step s xs W. unfold tb_log, worse. rewrite (tb_entries_ok _ _ _ xs W). destruct (st_goal s) as [g|]; [|reflexivity].
  destruct (tb_best t) as [|[b|]]; try reflexivity. unfold Rltb. destruct (Rlt_dec b g); reflexivity.
Qed.
Print Assumptions C118_written.

(** ** A whole run *)
Lemma tb_run_snoc : forall l t x, tb_run t (l ++ [x]) = match tb_run t l with (t', None) => tb_run t' [x] | r => r end.
Proof.
  induction l as [|[st s] l IH]; intros t x; cbn [app tb_run]; [reflexivity|]. destruct (tb_log t st s) as [t' [e|]]; [reflexivity|]. apply IH.
Qed.
(** nothing before was better *)
Definition best_so_far (goals : list R) (i : nat) : bool :=
  forallb (fun j => if Rlt_dec (nth j goals 0) (nth i goals 0) then false else true)%R (seq 0 i).
Lemma best_so_far_true : forall goals i, best_so_far goals i = true <-> (forall j, (j < i)%nat -> (nth i goals 0 <= nth j goals 0)%R).
Proof.
  intros goals i. unfold best_so_far. rewrite forallb_forall. split; intros H j Hj.
  - specialize (H j). rewrite in_seq in H. specialize (H ltac:(lia)). destruct (Rlt_dec _ _); [discriminate|]. lra.
  - rewrite in_seq in Hj. specialize (H j ltac:(lia)). destruct (Rlt_dec _ _); [lra|reflexivity].
Qed.

(** In a run with numeric goals exactly those evaluations are in the file, in order and completely,
    whose goal is not above any goal before. *)
Theorem C118_running_minimum : forall t (run : list (nat * status)) goals xs,
  tb_best t = Infinite -> length goals = length run -> length xs = length run ->
  (forall i, i < length run -> st_goal (snd (nth i run (0, mkSt [] None None true []))) = Some (nth i goals 0%R)
                            /\ writable (tb_map t) (snd (nth i run (0, mkSt [] None None true []))) (nth i xs [])) ->
  exists t', tb_run t run = (t', None) /\ tb_map t' = tb_map t
  /\ tb_file t' = tb_file t ++ flat_map (fun i => if best_so_far goals i
       then all_entries (tb_map t) (nth i xs []) (snd (nth i run (0, mkSt [] None None true []))) (fst (nth i run (0, mkSt [] None None true []))) else []) (seq 0 (length run)).
Proof.
  intros t run goals xs Hb Lg Lx H.
  assert (K : forall n, n <= length run -> exists t', tb_run t (firstn n run) = (t', None) /\ tb_map t' = tb_map t
    /\ tb_file t' = tb_file t ++ flat_map (fun i => if best_so_far goals i
         then all_entries (tb_map t) (nth i xs []) (snd (nth i run (0, mkSt [] None None true []))) (fst (nth i run (0, mkSt [] None None true []))) else []) (seq 0 n)
    /\ match n with O => tb_best t' = Infinite | S _ => exists b, tb_best t' = Level (Some b) /\ (exists j, j < n /\ nth j goals 0%R = b) /\ (forall j, (j < n)%nat -> (b <= nth j goals 0)%R) end).
  { induction n as [|n IH]; intro Hn.
    - exists t. cbn. rewrite app_nil_r. auto.
    - destruct (IH ltac:(lia)) as (t' & E & M & F & B). destruct (H n ltac:(lia)) as [Hg W].
      assert (Ef : firstn (S n) run = firstn n run ++ [nth n run (0, mkSt [] None None true [])]).
      { clear -Hn. revert n Hn. induction run as [|a run IH]; intros [|n] Hn; cbn in Hn; try lia; [reflexivity|]. cbn [firstn nth app]. f_equal. apply IH. lia. }
      rewrite Ef, tb_run_snoc, E. set (x := nth n run (0, mkSt [] None None true [])) in *. destruct x as [st s] eqn:Ex. cbn [fst snd] in *.
      cbn [tb_run]. rewrite <- M in W. rewrite (C118_written t' st s _ W), Hg. rewrite seq_S, flat_map_app. cbn [flat_map Nat.add]. fold x. rewrite app_nil_r.
      rewrite Ex. cbn [fst snd].
      destruct n as [|n].
      + rewrite B. eexists. split; [reflexivity|]. split; [exact M|]. cbn [tb_file tb_best]. rewrite F, M. cbn [flat_map seq]. rewrite app_nil_r. split; [reflexivity|].
        eexists. split; [reflexivity|]. split; [exists 0; split; [lia|reflexivity]|]. intros j Hj. replace j with 0 by lia. lra.
      + destruct B as (b & Eb & (j0 & Hj0 & Ej0) & Bm). rewrite Eb. destruct (Rlt_dec b (nth (S n)%nat goals 0%R)) as [Lt|Lt].
        * eexists. split; [reflexivity|]. split; [exact M|]. rewrite F. split.
          -- assert (N : best_so_far goals (S n) = false). { destruct (best_so_far goals (S n)) eqn:Eq; [|reflexivity]. rewrite best_so_far_true in Eq. specialize (Eq j0 Hj0). lra. }
             rewrite N, app_nil_r. reflexivity.
          -- exists b. split; [exact Eb|]. split; [exists j0; split; [lia|exact Ej0]|]. intros j Hj. destruct (Nat.eq_dec j (S n)) as [->|Nj]; [lra|apply Bm; lia].
        * eexists. split; [reflexivity|]. split; [exact M|]. cbn [tb_file tb_best]. rewrite F, M. split.
          -- assert (Y : best_so_far goals (S n) = true). { apply best_so_far_true. intros j Hj. specialize (Bm j Hj). lra. }
             rewrite Y, app_assoc. reflexivity.
          -- eexists. split; [reflexivity|]. split; [exists (S n); split; [lia|reflexivity]|]. intros j Hj. destruct (Nat.eq_dec j (S n)) as [->|Nj]; [lra|]. specialize (Bm j ltac:(lia)). lra. }
  destruct (K (length run) (Nat.le_refl _)) as (t' & E & M & F & _). rewrite firstn_all in E. exists t'. auto.
Qed.
Print Assumptions C118_running_minimum.

(** Finding: the status of an open-loop optimisation has no "time", so the first evaluation logged
    raises KeyError, after parameters, goal and gradient have been written. *)
Theorem C118_open_loop_refuted : forall m file step pars goal grad, length pars = length m ->
  tb_log (mkTB m Infinite file) step (open_loop_status pars goal grad)
  = (mkTB m (Level goal) (file ++ param_entries m pars step ++ [Scalar "goal" goal step]
       ++ match grad with Some g => [Histogram "gradient" (map (fun x => Rmax (-3) (Rmin 3 x)) g) step] | None => [] end), Some KeyError).
Proof.
  intros m file step pars goal grad L. unfold tb_log, open_loop_status, worse. cbn [tb_best st_goal tb_map].
  replace (match goal with Some _ => false | None => false end) with false by (destruct goal; reflexivity).
  unfold tb_entries. cbn [st_params st_goal st_gradient st_time st_rest]. rewrite as_float_map, write_params_ok by exact L. rewrite <- app_assoc.
  do 5 f_equal. destruct grad; [|reflexivity]. do 2 f_equal. apply map_ext, clip_spec.
Qed.
Print Assumptions C118_open_loop_refuted.

(** Finding: one evaluation with goal NaN makes the logger forget the best goal: the next evaluation is written
    as the new best, however bad. *)
Theorem C118_nan_refuted : forall t b s s' xs xs' step step' g,
  tb_best t = Level (Some b) -> writable (tb_map t) s xs -> st_goal s = None ->
  writable (tb_map t) s' xs' -> st_goal s' = Some g -> (b < g)%R ->
  exists t', tb_run t [(step, s); (step', s')] = (t', None) /\ tb_best t' = Level (Some g)
  /\ tb_file t' = tb_file t ++ all_entries (tb_map t) xs s step ++ all_entries (tb_map t) xs' s' step'
  /\ fst (tb_log t step' s') = t.
Proof.
  intros t b s s' xs xs' step step' g Hb W Hs W' Hs' Hg. cbn [tb_run]. rewrite (C118_written t step s xs W), Hs.
  rewrite (C118_written _ step' s' xs' (W' : writable (tb_map (mkTB (tb_map t) (Level None) _)) s' xs')), Hs'. cbn [tb_best tb_map tb_file].
  eexists. split; [reflexivity|]. split; [reflexivity|]. split; [cbn [tb_file]; rewrite app_assoc; reflexivity|].
  rewrite (C118_written t step' s' xs' W'), Hs', Hb. destruct (Rlt_dec b g); [reflexivity|lra].
Qed.
Print Assumptions C118_nan_refuted.

(** Finding: a parameter with several values cannot be logged although there is code for it:
    the run ends with TypeError (NotImplementedError already at the start). *)
Theorem C118_array_refuted : forall m ks m' xs l rest pars' step s,
  ks <> [] -> m = map (fun x => fst x) xs ++ ks :: m' -> st_params s = map (fun x => SFloat (snd x)) xs ++ SList l :: rest ->
  length (st_params s) = length m ->
  snd (tb_entries m s step) = Some TypeError
  /\ (length l <> 1%nat -> length pars' = length m' -> snd (tb_start m (map (fun x => [snd x]) xs ++ l :: pars')) = Some NotImplemented).
Proof.
  intros m ks m' xs l rest pars' step s Hk Hm Hp L.
  assert (G : forall (e : exn) (tl : list (result R)) st, snd (write_groups m (map (fun x => Ok (snd x)) xs ++ Err e :: tl) st) = Some e).
  { intros e tl0 st. rewrite Hm. clear - Hk. induction xs as [|x xs IH]; cbn [map app write_groups].
    - destruct ks as [|k ks]; [congruence|reflexivity].
    - rewrite write_keys_ok. destruct (write_groups _ _ st) as [es err] eqn:E. cbn [snd] in *. exact IH. }
  split.
  - unfold tb_entries. rewrite Hp. unfold write_params. rewrite map_length, <- Hp, L, Nat.eqb_refl, Hp, map_app, map_map. cbn [map as_float].
    specialize (G TypeError (map as_float rest) step). destruct (write_groups m _ step) as [es [e|]]; cbn [snd] in *; [exact G|discriminate].
  - intros Hl Lp. unfold tb_start, write_params. rewrite map_length.
    assert (El : length (map (fun x : list string * R => [snd x]) xs ++ l :: pars') = length m) by (rewrite Hm, !app_length, !map_length; cbn [length]; lia).
    rewrite El, Nat.eqb_refl, map_app, map_map. cbn [map quantity_float].
    assert (Q : quantity_float l = Err NotImplemented) by (destruct l as [|a [|b l]]; [reflexivity|cbn in Hl; lia|reflexivity]). rewrite Q.
    specialize (G NotImplemented (map quantity_float pars') 0). destruct (write_groups m _ 0) as [es err]; cbn [snd] in *. exact G.
Qed.
Print Assumptions C118_array_refuted.

(** The other errors: a different number of groups and values, and values that are neither floats nor lists
    (raised as an exception, not given as a warning). *)
Theorem C118_errors : forall m s step xs,
  (length (st_params s) <> length m -> tb_entries m s step = ([], Some C3Error))
  /\ (st_params s = map SFloat xs -> length xs = length m -> st_time s = true -> (exists k, In (k, SOther) (st_rest s)) ->
      snd (tb_entries m s step) = Some C3Error).
Proof.
  intros m s step xs. split.
  - intro H. unfold tb_entries, write_params. rewrite map_length. destruct (Nat.eqb_spec (length m) (length (st_params s))); [congruence|reflexivity].
  - intros Hp L Ht (k & Hk). unfold tb_entries. rewrite Hp, as_float_map, write_params_ok by exact L. rewrite Ht.
    assert (K : snd (write_rest (st_rest s) step) = Some C3Error).
    { clear - Hk. induction (st_rest s) as [|[k' v] d IH]; [destruct Hk|]. cbn [write_rest]. destruct v as [x|l|]; [| |reflexivity];
        (destruct Hk as [C|Hk]; [discriminate C|]); specialize (IH Hk); destruct (write_rest d step) as [es err]; exact IH. }
    destruct (write_rest (st_rest s) step) as [es err]. exact K.
Qed.
Print Assumptions C118_errors.

(** At the start every optimised name is written with its value at step 0. *)
Theorem C118_start : forall m pars, length pars = length m ->
  tb_start m (map (fun x => [x]) pars) = (mkTB m Infinite (param_entries m pars 0), None).
Proof.
  intros m pars L. unfold tb_start. rewrite map_map. cbn [quantity_float]. rewrite write_params_ok by exact L. reflexivity.
Qed.
Print Assumptions C118_start.

(** ** Changing the log directory *)
Lemma no_colons_ok : forall s i, (get i (no_colons s) = match get i s with Some c => Some (if Ascii.eqb c ":" then "_" else c)%char | None => None end).
Proof. induction s as [|c s IH]; intros [|i]; cbn [no_colons get]; try reflexivity. apply IH. Qed.

(** The new directory is the one given with every colon replaced, and nothing else in the file system changes than the
    removal of one link (or file) and of an empty directory. *)
Theorem C118_replace_logdir : forall parse cwd empty fs old loggers new fs' d ls oe e,
  replace_logdir parse cwd empty fs old loggers new = (fs', d, ls, oe, e) ->
  (exists s, d = Some s /\ (forall i, get i s = match get i new with Some c => Some (if Ascii.eqb c ":" then "_" else c)%char | None => None end))
  /\ (forall q, fs' q <> fs q -> fs' q = None /\ ((q = recent cwd /\ fs q <> Some Dir)
        \/ exists o, old = Some o /\ q = parse o /\ fs q = Some Dir)).
Proof.
  intros parse cwd empty fs old loggers new fs' d ls oe e H. unfold replace_logdir in H.
  assert (D : d = Some (no_colons new)).
  { destruct old as [o|]; [|congruence]. destruct (remove fs (recent cwd)) as [f|[]]; congruence. }
  split; [exists (no_colons new); split; [exact D|apply no_colons_ok]|]. clear D. intros q Hq.
  destruct old as [o|]; [|injection H as <- _ _ _ _; congruence].
  assert (R : forall f, (f = fs \/ (fs (recent cwd) <> Some Dir /\ f = put fs (recent cwd) None)) ->
     fs' = match f (parse o) with Some Dir => if empty f (parse o) then put f (parse o) None else f | _ => f end ->
     fs' q = None /\ ((q = recent cwd /\ fs q <> Some Dir) \/ exists o', Some o = Some o' /\ q = parse o' /\ fs q = Some Dir)).
  { intros f Hf Ef.
    assert (A : f q = fs q \/ (q = recent cwd /\ f q = None /\ fs q <> Some Dir)).
    { destruct Hf as [->|[N ->]]; [auto|]. destruct (path_dec q (recent cwd)) as [->|Nq]; [right; rewrite put_same; auto|left; apply put_other, Nq]. }
    assert (Bq : fs' q = f q \/ (q = parse o /\ fs' q = None /\ f q = Some Dir)).
    { rewrite Ef. destruct (f (parse o)) as [[|t|]|] eqn:Ep; auto. destruct (empty f (parse o)); [|auto].
      destruct (path_dec q (parse o)) as [->|Nq]; [right; rewrite put_same; auto|left; apply put_other, Nq]. }
    destruct Bq as [B|(B1 & B2 & B3)].
    - destruct A as [A|(A1 & A2 & A3)]; [congruence|]. split; [congruence|]. left. auto.
    - split; [exact B2|]. right. exists o. split; [reflexivity|]. split; [exact B1|]. destruct A as [A|(_ & A2 & _)]; congruence. }
  unfold remove in H. destruct (fs (recent cwd)) as [[|t|]|] eqn:E.
  - injection H as <- _ _ _ _. congruence.
  - injection H as <- _ _ _ _. eapply R; [|reflexivity]. right. split; [congruence|reflexivity].
  - injection H as <- _ _ _ _. eapply R; [|reflexivity]. right. split; [congruence|reflexivity].
  - injection H as <- _ _ _ _. eapply R; [|reflexivity]. left. reflexivity.
Qed.
Print Assumptions C118_replace_logdir.

(** Finding: the link removed is the one of the current directory: the link "recent" of the data directory stays and
    points to the directory that is removed. *)
Theorem C118_stale_link_refuted : forall parse cwd empty fs data old loggers new,
  data <> cwd -> fs (recent cwd) = None -> fs (recent data) = Some (Link (parse old)) -> fs (parse old) = Some Dir -> empty fs (parse old) = true ->
  exists fs' d e, replace_logdir parse cwd empty fs (Some old) loggers new = (fs', d, loggers, None, e)
  /\ fs' (recent data) = Some (Link (parse old)) /\ fs' (parse old) = None.
Proof.
  intros parse cwd empty fs data old loggers new Hd Hc Hl Ho He. unfold replace_logdir, remove. rewrite Hc. rewrite Ho, He.
  do 3 eexists. split; [reflexivity|]. split; [|apply put_same]. rewrite put_other; [exact Hl|]. intros C. rewrite C in Hl. congruence.
Qed.
Print Assumptions C118_stale_link_refuted.

(** Finding: no logger is told the new directory ([set_logdir] is named, not called); a logger without that method
    makes the call fail with AttributeError after everything was changed. *)
Theorem C118_loggers_refuted : forall parse cwd empty fs old loggers new fs' d ls oe e,
  replace_logdir parse cwd empty fs old loggers new = (fs', d, ls, oe, e) ->
  ls = loggers /\ (old <> None -> fs (recent cwd) <> Some Dir -> (e = Some AttributeError <-> exists l, In (LBase l) loggers)).
Proof.
  intros parse cwd empty fs old loggers new fs' d ls oe e H. unfold replace_logdir in H. destruct old as [o|]; [|injection H as _ _ <- _ _; split; congruence].
  assert (X : existsb (fun l => match l with LBase _ => true | LTensorBoard _ => false end) loggers = true <-> exists l, In (LBase l) loggers).
  { rewrite existsb_exists. split; [intros ([l|l] & I & E); [exists l; exact I|discriminate]|intros (l & I); exists (LBase l); auto]. }
  unfold remove in H. destruct (fs (recent cwd)) as [[|t|]|] eqn:E; injection H as _ _ <- _ <-; (split; [reflexivity|]); intros _ N;
    try congruence; rewrite <- X; destruct (existsb _ loggers); split; congruence.
Qed.
Print Assumptions C118_loggers_refuted.

Example C118_example :
  let s := mkSt [SFloat 2%R] (Some 1%R) (Some [5%R]) true [("goal_std", SFloat 0%R); ("goals", SList [1%R])] in
  writable [["a"; "b"]] s [2%R]
  /\ all_entries [["a"; "b"]] [2%R] s 3 = [Scalar "a" (Some 2%R) 3; Scalar "b" (Some 2%R) 3; Scalar "goal" (Some 1%R) 3;
       Histogram "gradient" [Rmax (-3) (Rmin 3 5)] 3; Scalar "goal_std" (Some 0%R) 3; Histogram "goals" [1%R] 3].
Proof.
  cbn zeta. split; [|reflexivity]. split; [reflexivity|]. split; [reflexivity|]. split; [reflexivity|]. intros k [C|[C|[]]]; discriminate C.
Qed.

(** ** C119: the log reader *)

(** one row for the first name of a group with value and gradient, ditto rows for the others *)
Definition rows_of (ids : list string) (p g : R) (u : string) : list row :=
  match ids with
  | [] => []
  | first :: others => (first, Some (p, u), Some (g, u)) :: map (fun i => (i, None, None)) others
  end.

Lemma table_ok : forall (m : list (list string)) i f grads ps,
  lf_params f = map SFloat ps -> (forall g, In g m -> g <> []) ->
  i + length m <= length ps -> i + length m <= length grads -> i + length m <= length (lf_units f) ->
  table_rows i m f grads = Ok (flat_map (fun k => rows_of (nth k m []) (nth (i + k) ps 0%R) (nth (i + k) grads 0%R) (nth (i + k) (lf_units f) "")) (seq 0 (length m))).
Proof.
  induction m as [|ids m IH]; intros i f grads ps Hp Hn L1 L2 L3; cbn [table_rows length seq flat_map]; [reflexivity|].
  assert (N1 : item (lf_params f) i = Ok (SFloat (nth i ps 0%R))).
  { unfold item. rewrite Hp, nth_error_map. rewrite (nth_error_nth' ps 0%R) by (cbn in L1; lia). reflexivity. }
  assert (N2 : item grads i = Ok (nth i grads 0%R)) by (unfold item; rewrite (nth_error_nth' grads 0%R) by (cbn in L2; lia); reflexivity).
  assert (N3 : item (lf_units f) i = Ok (nth i (lf_units f) "")) by (unfold item; rewrite (nth_error_nth' (lf_units f) "") by (cbn in L3; lia); reflexivity).
  rewrite N1, N2, N3. cbn [rbind printable group_rows]. destruct ids as [|first others]; [exfalso; apply (Hn []); [left; reflexivity|reflexivity]|].
  cbn [rbind]. rewrite (IH (S i) f grads ps Hp); [|intros g Hg; apply Hn; right; exact Hg|cbn in L1; lia|cbn in L2; lia|cbn in L3; lia].
  cbn [rbind nth]. rewrite Nat.add_0_r. f_equal.
  match goal with |- ?a ++ ?c = ?d ++ ?e => assert (E : c = e); [|rewrite E; reflexivity] end.
  rewrite <- seq_shift, !flat_map_concat_map, map_map. f_equal. apply map_ext. intro k. cbn [nth]. rewrite Nat.add_succ_r. reflexivity.
Qed.

(** The table of a stored point shows every optimised name once: the first of a group with the stored value, the gradient (0 if there
    is none) and the unit of its group, its equivalents with ditto marks; above it the goal and the time (-1 and 0 if not stored). *)
Theorem C119_table : forall f ps grads,
  lf_params f = map SFloat ps -> (forall g, In g (lf_map f) -> g <> []) ->
  grads = match lf_grad f with Some g => g | None => repeat 0%R (length ps) end ->
  length (lf_map f) <= length ps -> length (lf_map f) <= length grads -> length (lf_map f) <= length (lf_units f) ->
  fst (show_table f) = Ok ((match lf_goal f with Some g => g | None => (-1)%R end, match lf_time f with Some t => t | None => "0" end), flat_map (fun k => rows_of (nth k (lf_map f) []) (nth k ps 0%R) (nth k grads 0%R) (nth k (lf_units f) "")) (seq 0 (length (lf_map f)))).
Proof.
  intros f ps grads Hp Hn Hg L1 L2 L3. unfold show_table.
  assert (E : match lf_grad f with Some g => g | None => repeat 0%R (length (lf_params f)) end = grads) by (rewrite Hg, Hp, map_length; reflexivity).
  rewrite E, (table_ok (lf_map f) 0 f grads ps Hp Hn L1 L2 L3). reflexivity.
Qed.
Print Assumptions C119_table.

(** all names are shown, each as often as it is listed *)
Theorem C119_names : forall f goal time rows, fst (show_table f) = Ok ((goal, time), rows) ->
  map (fun r => fst (fst r)) rows = List.concat (lf_map f).
Proof.
  intros f goal time rows H. unfold show_table in H. destruct (table_rows 0 (lf_map f) f _) as [r|e] eqn:E; [|discriminate]. injection H as _ _ <-.
  revert E. generalize 0 as i, r as rr. generalize (match lf_grad f with Some g => g | None => repeat 0%R (length (lf_params f)) end) as grads.
  intro grads. induction (lf_map f) as [|ids m IH]; intros i rr E; cbn [table_rows] in E; [injection E as <-; reflexivity|].
  destruct (group_rows ids _ _ _) as [rows|e] eqn:Eg; [|discriminate]. cbn [rbind] in E. destruct (table_rows (S i) m f grads) as [rest|e] eqn:Er; [|discriminate].
  cbn [rbind] in E. injection E as <-. rewrite map_app. cbn [List.concat]. apply f_equal2; [|apply (IH (S i) rest Er)].
  unfold group_rows in Eg. destruct (rbind (item (lf_params f) i) printable); [|discriminate]. cbn [rbind] in Eg. destruct ids as [|i1 ids]; [discriminate|].
  destruct (item (lf_units f) i); [|discriminate]. destruct (item grads i); [|discriminate]. cbn [rbind] in Eg. injection Eg as <-. cbn [map fst]. f_equal.
  rewrite map_map. cbn [fst]. apply map_id.
Qed.
Print Assumptions C119_names.

(** Finding: watching a log file shows the content from the start for ever - the file is not read again - and from the second refresh on
    a goal of -1 at time 0 instead of those stored. *)
Theorem C119_watch_refuted : forall f goal time rows n,
  fst (show_table f) = Ok ((goal, time), rows) ->
  watch (S n) f = Ok ((goal, time), rows) :: repeat (Ok (((-1)%R, "0"), rows)) n.
Proof.
  intros f goal time rows n H.
  assert (K : forall g n, lf_goal g = None -> lf_time g = None -> table_rows 0 (lf_map g) g (match lf_grad g with Some x => x | None => repeat 0%R (length (lf_params g)) end) = Ok rows ->
     watch n g = repeat (Ok (((-1)%R, "0"), rows)) n).
  { intros g n0 Hg Ht E. induction n0 as [|k IH]; [reflexivity|]. cbn [watch repeat]. unfold show_table at 1. rewrite E, Hg, Ht. f_equal.
    destruct g as [a b c d g1 t1]. cbn in Hg, Ht. subst g1 t1. exact IH. }
  cbn [watch]. unfold show_table in *. destruct (table_rows 0 (lf_map f) f _) as [r|e] eqn:E; [|discriminate]. cbn [fst] in H. rewrite H. f_equal. injection H as _ _ <-.
  apply K; [reflexivity|reflexivity|]. cbn [lf_map lf_grad lf_params]. rewrite <- E.
  assert (P : forall m i g, table_rows i m (mkLF (lf_map f) (lf_units f) (lf_params f) (lf_grad f) None None) g = table_rows i m f g).
  { induction m as [|x m IH]; intros i g; cbn [table_rows lf_params lf_units]; [reflexivity|]. rewrite IH. reflexivity. }
  apply P.
Qed.
Print Assumptions C119_watch_refuted.

(** Finding: a point with a parameter of several values cannot be shown. *)
Theorem C119_array_refuted : forall f i ids l, nth_error (lf_map f) i = Some ids -> nth_error (lf_params f) i = Some (SList l) ->
  exists e, fst (show_table f) = Err e.
Proof.
  intros f i ids l Hm Hp. unfold show_table. set (grads := match lf_grad f with Some g => g | None => _ end).
  assert (K : forall m j, nth_error m (i - j) = Some ids -> j <= i -> exists e, table_rows j m f grads = Err e).
  { induction m as [|x m IH]; intros j Hn Hj; [destruct (i - j); discriminate|]. cbn [table_rows].
    destruct (Nat.eq_dec j i) as [->|N].
    - unfold item at 1. rewrite Hp. cbn [rbind printable group_rows]. eexists. reflexivity.
    - destruct (group_rows x _ _ _) as [rows|e]; [|eexists; reflexivity]. cbn [rbind].
      replace (i - j) with (S (i - S j)) in Hn by lia. cbn [nth_error] in Hn. destruct (IH (S j) Hn ltac:(lia)) as (e & ->). exists e. reflexivity. }
  destruct (K (lf_map f) 0) as (e & ->); [rewrite Nat.sub_0_r; exact Hm|lia|]. exists e. reflexivity.
Qed.
Print Assumptions C119_array_refuted.

(** The exact error of an incomplete file: IndexError. *)
Theorem C119_incomplete : forall f ps, lf_params f = map SFloat ps -> length ps < length (lf_map f) -> (forall g, In g (lf_map f) -> g <> []) ->
  length ps <= length (lf_units f) -> lf_grad f = None -> fst (show_table f) = Err IndexError.
Proof.
  intros f ps Hp L Hn Hu Hg. unfold show_table. rewrite Hg.
  assert (K : forall m i, length ps < i + length m -> i <= length ps -> (forall g, In g m -> g <> []) -> table_rows i m f (repeat 0%R (length (lf_params f))) = Err IndexError).
  { induction m as [|x m IH]; intros i H1 H2 H3; cbn [length] in H1; [lia|]. cbn [table_rows].
    destruct (Nat.eq_dec i (length ps)) as [->|N].
    - unfold item at 1. rewrite Hp, nth_error_map. rewrite (proj2 (nth_error_None ps (length ps))) by lia. reflexivity.
    - unfold item. rewrite Hp at 1. rewrite nth_error_map, (nth_error_nth' ps 0%R) by lia. cbn [option_map rbind printable group_rows].
      destruct x as [|a x]; [exfalso; apply (H3 []); [left; reflexivity|reflexivity]|].
      rewrite (nth_error_nth' (lf_units f) "") by lia. cbn [rbind]. rewrite (nth_error_nth' (repeat 0%R (length (lf_params f))) 0%R) by (rewrite repeat_length, Hp, map_length; lia).
      cbn [rbind]. rewrite IH; [reflexivity|lia|lia|]. intros g Hg'. apply H3. right. exact Hg'. }
  rewrite K; [reflexivity|lia|lia|exact Hn].
Qed.
Print Assumptions C119_incomplete.

Example C119_example :
  fst (show_table (mkLF [["amp"; "amp2"]] ["V"] [SFloat 2%R] None (Some 1%R) (Some "noon")))
  = Ok ((1%R, "noon"), [("amp", Some (2%R, "V"), Some (0%R, "V")); ("amp2", None, None)]).
Proof. reflexivity. Qed.
