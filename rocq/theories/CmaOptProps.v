From Coq Require Import Reals Lra Lia.
From Verif Require Import Base PMapProofs OptModel OptProps CmaOptModel ExpProps.
Local Open Scope string_scope.
Local Open Scope list_scope.
Local Notation length := List.length.

(** ** C134: options and artificial noise of the evolution strategy *)

Definition own_options : list string := ["noise"; "batch_noise"; "init_point"; "spread"; "stop_at_convergence"; "stop_at_sigma"].
Definition given (k : string) (d : dict R) (default : R) : R := match dget k d with Some v => v | None => default end.

Lemma pop_spec : forall k d, NoDup (keys d) -> fst (pop_opt k d) = dget k d /\ NoDup (keys (snd (pop_opt k d)))
  /\ forall k', dget k' (snd (pop_opt k d)) = if String.eqb k' k then None else dget k' d.
Proof.
  intros k d N. unfold pop_opt. destruct (dget k d) as [v|] eqn:E; cbn [fst snd].
  - split; [reflexivity|]. split; [apply keys_ddel_nodup, N|]. intros k'. destruct (String.eqb_spec k' k) as [->|D].
    + apply dget_ddel_same_nodup, N.
    + apply dget_ddel_other, D.
  - split; [reflexivity|]. split; [exact N|]. intros k'. destruct (String.eqb_spec k' k) as [->|D]; [exact E|reflexivity].
Qed.

(** Each option is read with its default, and taken out; everything else goes to the library *)
Theorem C134_settings : forall d, NoDup (keys d) ->
  fst (cma_read d) = {| s_noise := given "noise" d 0; s_batch := given "batch_noise" d 0;
     s_init := match dget "init_point" d with Some v => py_bool v | None => false end; s_spread := given "spread" d (/ 10);
     s_conv := option_map py_int (dget "stop_at_convergence" d); s_sigma := option_map py_int (dget "stop_at_sigma" d) |}
  /\ NoDup (keys (snd (cma_read d)))
  /\ forall k, dget k (snd (cma_read d)) = if existsb (String.eqb k) own_options then None else dget k d.
Proof.
  intros d N. unfold cma_read.
  pose proof (pop_spec "noise" d N) as (A1 & N1 & G1). destruct (pop_opt "noise" d) as [o1 d1]. cbn [fst snd] in A1, N1, G1.
  pose proof (pop_spec "batch_noise" d1 N1) as (A2 & N2 & G2). destruct (pop_opt "batch_noise" d1) as [o2 d2]. cbn [fst snd] in A2, N2, G2.
  pose proof (pop_spec "init_point" d2 N2) as (A3 & N3 & G3). destruct (pop_opt "init_point" d2) as [o3 d3]. cbn [fst snd] in A3, N3, G3.
  pose proof (pop_spec "spread" d3 N3) as (A4 & N4 & G4). destruct (pop_opt "spread" d3) as [o4 d4]. cbn [fst snd] in A4, N4, G4.
  pose proof (pop_spec "stop_at_convergence" d4 N4) as (A5 & N5 & G5). destruct (pop_opt "stop_at_convergence" d4) as [o5 d5]. cbn [fst snd] in A5, N5, G5.
  pose proof (pop_spec "stop_at_sigma" d5 N5) as (A6 & N6 & G6). destruct (pop_opt "stop_at_sigma" d5) as [o6 d6]. cbn [fst snd] in A6, N6, G6.
  rewrite G5, G4, G3, G2, G1 in A6. rewrite G4, G3, G2, G1 in A5. rewrite G3, G2, G1 in A4. rewrite G2, G1 in A3. rewrite G1 in A2.
  cbn [String.eqb Ascii.eqb Bool.eqb] in A2, A3, A4, A5, A6. cbn [fst snd]. split; [|split; [exact N6|]].
  - unfold given. rewrite <- A1, <- A2, <- A3, <- A4, <- A5, <- A6. reflexivity.
  - intros k. rewrite G6, G5, G4, G3, G2, G1. unfold own_options. cbn [existsb].
    destruct (String.eqb k "noise"), (String.eqb k "batch_noise"), (String.eqb k "init_point"), (String.eqb k "spread"), (String.eqb k "stop_at_convergence"), (String.eqb k "stop_at_sigma"); reflexivity.
Qed.
Print Assumptions C134_settings.

(** Finding: the options are taken out of the dictionary the optimiser keeps, so a second run
    of the same optimiser uses the defaults, whatever was asked for. *)
Theorem C134_second_run_refuted : forall d, NoDup (keys d) ->
  fst (cma_read (snd (cma_read d))) = {| s_noise := 0; s_batch := 0; s_init := false; s_spread := / 10; s_conv := None; s_sigma := None |}.
Proof.
  intros d N. destruct (C134_settings d N) as (_ & N' & G). rewrite (proj1 (C134_settings _ N')). unfold given. rewrite !G. reflexivity.
Qed.
Print Assumptions C134_second_run_refuted.

Lemma py_bool_0 : py_bool 0 = false. Proof. unfold py_bool. destruct (Req_EM_T 0 0); [reflexivity|lra]. Qed.
Lemma py_bool_n : forall r, r <> 0%R -> py_bool r = true. Proof. intros r H. unfold py_bool. destruct (Req_EM_T r 0); [contradiction|reflexivity]. Qed.
Fixpoint noisy (func : list R -> R) (a : R) (randn : nat -> R) (pos : nat) (samples : list (list R)) : list R :=
  match samples with [] => [] | x :: r => (func x + a * randn pos)%R :: noisy func a randn (S pos) r end.

(** Without noise the library is told the goals, and no random number is used *)
Theorem C134_noiseless : forall s func randn pos samples, s_noise s = 0%R -> s_batch s = 0%R ->
  generation s func randn pos samples = (map func samples, pos).
Proof.
  intros s func randn pos samples Hn Hb. unfold generation. rewrite Hb, py_bool_0.
  assert (G : forall samples err, sample_loop s func randn pos err samples = (map func samples, pos)); [|apply G].
  induction samples0 as [|x r IH]; intros err; [reflexivity|]. cbn [sample_loop map]. rewrite Hn, Hb, py_bool_0. cbn [orb]. rewrite IH. reflexivity.
Qed.
Print Assumptions C134_noiseless.
(** With noise every goal gets an error of its own, of the size asked for *)
Theorem C134_noise : forall s func randn pos samples, s_noise s <> 0%R ->
  let start := if Req_EM_T (s_batch s) 0 then pos else S pos in
  generation s func randn pos samples = (noisy func (s_noise s) randn start samples, (start + length samples)%nat).
Proof.
  intros s func randn pos samples Hn start. unfold generation.
  assert (G : forall samples p err, sample_loop s func randn p err samples = (noisy func (s_noise s) randn p samples, (p + length samples)%nat)).
  { induction samples0 as [|x r IH]; intros p err; cbn [sample_loop noisy length]; [f_equal; lia|]. rewrite (py_bool_n _ Hn), Bool.orb_true_r, IH.
    f_equal; [f_equal; ring|lia]. }
  unfold start. unfold py_bool at 1. destruct (Req_EM_T (s_batch s) 0); rewrite G; reflexivity.
Qed.
Print Assumptions C134_noise.
(** Finding: batch_noise has no effect on the goals: alone it adds zero to all of them, and
    together with noise it only skips one random number. *)
Theorem C134_batch_noise_refuted : forall s func randn pos samples, s_noise s = 0%R -> s_batch s <> 0%R ->
  generation s func randn pos samples = (map func samples, S pos).
Proof.
  intros s func randn pos samples Hn Hb. unfold generation. rewrite (py_bool_n _ Hb), Hn.
  assert (G : forall samples p, sample_loop s func randn p (randn pos * 0)%R samples = (map func samples, p)); [|apply G].
  induction samples0 as [|x r IH]; intros p; cbn [sample_loop map]; [reflexivity|]. rewrite (py_bool_n _ Hb), Hn, py_bool_0. cbn [orb]. rewrite IH.
  f_equal. f_equal. ring.
Qed.
Print Assumptions C134_batch_noise_refuted.

(** The combined algorithm *)
Lemma merge_nodup : forall V (g s : dict V), NoDup (keys s) -> NoDup (keys (merge_options g s)).
Proof.
  intros V g. unfold merge_options. induction g as [|[a b] g IH]; intros s N; cbn [fold_left]; [exact N|]. apply IH. cbn [fst snd].
  destruct (_ || _); [exact N|]. destruct (dmem a s); [exact N|]. apply nodup_dset', N.
Qed.
Definition sub (o : option (dict R)) : dict R := match o with Some d => d | None => [] end.
Definition wf (o : pre_options) : Prop := NoDup (keys (sub (o_cmaes o))) /\ NoDup (keys (sub (o_lbfgs o))) /\ NoDup (keys (o_rest o)).
Definition setting (o : pre_options) (k : string) : option R :=
  match dget k (sub (o_cmaes o)) with Some v => Some v | None => dget k (o_rest o) end.
Lemma own_names : forall k, In k own_options -> k <> "cmaes" /\ k <> "lbfgs".
Proof. intros k H. cbn in H. repeat (destruct H as [<-|H]; [split; discriminate|]). destruct H. Qed.
Lemma pre_unfold : forall o, pre_lbfgs o = (fst (cma_read (merge_options (o_rest o) (sub (o_cmaes o)))), snd (cma_read (merge_options (o_rest o) (sub (o_cmaes o)))),
   merge_options (o_rest o) (sub (o_lbfgs o)),
   {| o_cmaes := Some (snd (cma_read (merge_options (o_rest o) (sub (o_cmaes o))))); o_lbfgs := Some (merge_options (o_rest o) (sub (o_lbfgs o))); o_rest := o_rest o |}).
Proof. intros o. unfold pre_lbfgs, sub. destruct (cma_read _) as [s c]. reflexivity. Qed.
(** first stage: what its own dictionary says, else the common one *)
Theorem C134_combined : forall o, wf o ->
  let '(s, _, l, _) := pre_lbfgs o in
  let v k r := match setting o k with Some x => x | None => r end in
  s = {| s_noise := v "noise" 0%R; s_batch := v "batch_noise" 0%R; s_init := match setting o "init_point" with Some x => py_bool x | None => false end;
         s_spread := v "spread" (/ 10)%R; s_conv := option_map py_int (setting o "stop_at_convergence"); s_sigma := option_map py_int (setting o "stop_at_sigma") |}
  /\ forall k, k <> "cmaes" -> k <> "lbfgs" -> dget k l = match dget k (sub (o_lbfgs o)) with Some x => Some x | None => dget k (o_rest o) end.
Proof.
  intros o (W1 & W2 & W3). rewrite pre_unfold. cbn beta iota. split.
  - rewrite (proj1 (C134_settings _ (merge_nodup _ _ _ W1))). unfold given, setting. rewrite !C59_combined_options by (try exact W3; discriminate). reflexivity.
  - intros k K1 K2. apply C59_combined_options; assumption.
Qed.
Print Assumptions C134_combined.
(** Finding: in a second run with the same options the first stage keeps the common options
    and loses its own ones. *)
Theorem C134_combined_again : forall o, wf o ->
  let o' := snd (pre_lbfgs o) in
  wf o' /\ o_rest o' = o_rest o /\ forall k, In k own_options -> setting o' k = dget k (o_rest o).
Proof.
  intros o (W1 & W2 & W3). rewrite pre_unfold. cbn [snd o_rest]. pose proof (C134_settings _ (merge_nodup _ (o_rest o) _ W1)) as (_ & N & G).
  split; [|split; [reflexivity|]].
  - split; [exact N|]. split; [apply merge_nodup, W2|exact W3].
  - intros k K. unfold setting. cbn [o_cmaes o_rest sub]. rewrite G. 
    assert (E : existsb (String.eqb k) own_options = true) by (apply existsb_exists; exists k; split; [exact K|apply String.eqb_refl]).
    rewrite E. reflexivity.
Qed.
Print Assumptions C134_combined_again.
(** Finding: the combined search changes the option dictionary it is given, so running it again with
    the same dictionary can give CMA-ES different settings. *)
Theorem C134_combined_again_refuted : ~ (forall o, wf o -> fst (fst (fst (pre_lbfgs (snd (pre_lbfgs o))))) = fst (fst (fst (pre_lbfgs o)))).
Proof.
  intro H. set (o := {| o_cmaes := Some [("spread", 1%R)]; o_lbfgs := None; o_rest := [] |}).
  assert (W : wf o) by (unfold wf, o; cbn; repeat constructor; cbn; tauto).
  specialize (H o W). apply (f_equal s_spread) in H. cbn in H. lra.
Qed.
Print Assumptions C134_combined_again_refuted.

(** Finding: options meant for the evolution strategy and given in the common part also reach
    the gradient search, in the first run and in every later one. *)
Theorem C134_foreign_refuted : forall o k v, wf o -> In k own_options -> dget k (o_rest o) = Some v -> dget k (sub (o_lbfgs o)) = None ->
  dget k (snd (fst (pre_lbfgs o))) = Some v.
Proof.
  intros o k v (W1 & W2 & W3) K H L. rewrite pre_unfold. cbn [fst snd]. destruct (own_names k K). rewrite C59_combined_options by assumption. rewrite L. exact H.
Qed.
Print Assumptions C134_foreign_refuted.

(** Non-vacuity *)
Example C134_example : forall func randn, generation (fst (cma_read [("spread", 1%R); ("noise", 2%R); ("popsize", 3%R)])) func randn 0 [[0%R]; [1%R]]
  = ([(func [0] + 2 * randn 0%nat)%R; (func [1] + 2 * randn 1%nat)%R], 2%nat) /\ snd (cma_read [("spread", 1%R); ("noise", 2%R); ("popsize", 3%R)]) = [("popsize", 3%R)].
Proof.
  intros func randn. split; [|reflexivity]. rewrite C134_noise by (cbn; lra). cbn [cma_read pop_opt fst s_noise s_batch]. cbn.
  destruct (Req_EM_T 0 0); [reflexivity|lra].
Qed.
