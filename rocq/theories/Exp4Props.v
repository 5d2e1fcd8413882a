From Coq Require Import Reals Lia.
From Coquelicot Require Import Complex.
From Verif Require Import Base Mat MExp HilbertModel FoldModel FoldProps PropModel ExpModel ExpProps.
Local Open Scope list_scope.
Local Open Scope nat_scope.
Local Notation length := List.length.

(** ** C80, C82: the slices of an uncontrolled model and the errors *)

Lemma gate_loop_app : forall prop s ins pre post acc,
  gate_loop prop s ins (pre ++ post) acc = rbind (gate_loop prop s ins pre acc) (gate_loop prop s ins post).
Proof.
  induction pre as [|g pre IH]; intros post acc; [reflexivity|]. cbn [app gate_loop].
  destruct (one_gate prop s ins g); cbn [rbind]; [apply IH|reflexivity].
Qed.
Lemma gate_loop_fails : forall prop s ins gates acc x acc', gate_loop prop s ins gates acc = Err x -> gate_loop prop s ins gates acc' = Err x.
Proof.
  induction gates as [|g gates IH]; intros acc x acc' H; [discriminate H|]. cbn [gate_loop] in *.
  destruct (one_gate prop s ins g); cbn [rbind] in *; [eapply IH; exact H|exact H].
Qed.

(** If the gates before it can be computed, an unknown gate gives the exception that names
    it, and the experiment keeps its propagators. *)
Theorem C80_unknown_gate_error : forall prop s ins e pre g post,
  selected ins e = pre ++ g :: post -> dget g ins = None ->
  is_ok (fst (compute_propagators prop s ins {| st_opt_gates := Some pre; st_overwrite := st_overwrite e; st_props := st_props e; st_partial := st_partial e |})) = true ->
  compute_propagators prop s ins e = (Err C3Error, e).
Proof.
  intros prop s ins e pre g post Hs Hg Hp. unfold compute_propagators in *. fold (selected ins e). rewrite Hs. cbn [st_opt_gates] in Hp.
  rewrite gate_loop_app. destruct (gate_loop prop s ins pre ([], [])) as [acc|x]; [|discriminate Hp]. cbn [rbind gate_loop].
  unfold one_gate. rewrite Hg. reflexivity.
Qed.
Print Assumptions C80_unknown_gate_error.

(** Exactly one exception of a failing gate is passed on: the one of the first failing gate. *)
Theorem C80_first_error : forall prop s ins e pre g post x,
  selected ins e = pre ++ g :: post ->
  is_ok (fst (compute_propagators prop s ins {| st_opt_gates := Some pre; st_overwrite := st_overwrite e; st_props := st_props e; st_partial := st_partial e |})) = true ->
  fst (compute_propagators prop s ins {| st_opt_gates := Some [g]; st_overwrite := st_overwrite e; st_props := st_props e; st_partial := st_partial e |}) = Err x ->
  compute_propagators prop s ins e = (Err x, e).
Proof.
  intros prop s ins e pre g post x Hs Hp Hx. unfold compute_propagators in *. fold (selected ins e). rewrite Hs. cbn [st_opt_gates] in *.
  rewrite gate_loop_app. destruct (gate_loop prop s ins pre ([], [])) as [acc|y]; [|discriminate Hp]. cbn [rbind gate_loop] in *.
  destruct (one_gate prop s ins g) as [ud|y]; cbn [rbind] in *; [discriminate Hx|]. injection Hx as ->. reflexivity.
Qed.
Print Assumptions C80_first_error.

(** A model without control fields, closed: the partial propagators are the exponentials of
    the given Hamiltonians over one time step, put back into the full space when an excitation
    cut-off is used. *)
Theorem C82_uncontrolled_slices : forall m hs signal stack batch r, p_lind m = false ->
  pwc_uncontrolled m hs signal stack batch = Ok r ->
  let dt := (nth 1 (pr_ts r) 0 - nth 0 (pr_ts r) 0)%R in
  let slice d := map (fun h => mexp d (mscale (- Ci * RtoC dt)%C h)) hs in
  pr_dUs r = (if Nat.eqb (p_max_ex m) 0 then slice (p_dim m)
              else map (blowup_excitations (p_dims m) (p_max_ex m)) (slice (rows (ex_cutter (p_dims m) (p_max_ex m))))).
Proof.
  intros m hs signal stack batch r Hl H. unfold pwc_uncontrolled in H.
  destruct (map (fun kv => tl (w_ts (snd kv))) signal) as [|t0 tss] eqn:Et; [discriminate|].
  destruct (ragged (t0 :: tss)); [discriminate|].
  destruct (map (fun j => rmean (time_column (t0 :: tss) j)) (seq 0 (length t0))) as [|a [|b ts]] eqn:Ets; try discriminate.
  destruct (negb (forallb _ _)); [discriminate|]. destruct (negb (rltb _ _)); [discriminate|].
  rewrite Hl in H. set (bs := batch_of batch (a :: b :: ts)) in *.
  destruct (Nat.eq_dec bs 0) as [Eb|Eb]. { exfalso. unfold batch_propagate_h in H. rewrite Eb in H. discriminate H. }
  rewrite C23_batching_hamiltonian in H by lia. cbn [rbind] in H.
  destruct (tf_matmul_n _ _ stack) as [U|]; [|discriminate]. cbn [rbind] in H.
  destruct (Nat.eqb (p_max_ex m) 0).
  - injection H as <-. reflexivity.
  - destruct (tf_matmul_left _ _) as [V|]; [|discriminate]. cbn [rbind] in H. injection H as <-. reflexivity.
Qed.
Print Assumptions C82_uncontrolled_slices.

(** Signals with different numbers of time points on two lines are refused *)
Theorem C82_different_lengths : forall m hs signal stack batch k w k' w',
  In (k, w) signal -> In (k', w') signal -> length (tl (w_ts w)) <> length (tl (w_ts w')) ->
  pwc_uncontrolled m hs signal stack batch = Err ValueError.
Proof.
  intros m hs signal stack batch k w k' w' H1 H2 N. unfold pwc_uncontrolled.
  set (tss := map (fun kv => tl (w_ts (snd kv))) signal).
  assert (I1 : In (tl (w_ts w)) tss) by (unfold tss; apply (in_map (fun kv => tl (w_ts (snd kv))) signal (k, w) H1)).
  assert (I2 : In (tl (w_ts w')) tss) by (unfold tss; apply (in_map (fun kv => tl (w_ts (snd kv))) signal (k', w') H2)).
  clearbody tss. destruct tss as [|t0 tss]; [reflexivity|].
  assert (R : ragged (t0 :: tss) = true); [|rewrite R; reflexivity]. cbn [ragged]. destruct (forallb _ tss) eqn:F; [|reflexivity]. exfalso.
  rewrite forallb_forall in F. assert (A : forall l, In l (t0 :: tss) -> length l = length t0).
  { intros l [<-|I]; [reflexivity|]. apply Nat.eqb_eq, F, I. }
  apply N. rewrite (A _ I1), (A _ I2). reflexivity.
Qed.
Print Assumptions C82_different_lengths.

(** Two values lists of different lengths under control fields *)
Theorem C82_different_lengths_controlled : forall m signal stack batch k w k' w' hks,
  p_max_ex m = 0 -> lookup_controls (p_hctrls m) (keys signal) = Ok hks ->
  In (k, w) signal -> In (k', w') signal -> length (w_values w) <> length (w_values w') ->
  pwc_controlled m signal stack batch = Err ValueError.
Proof.
  intros m signal stack batch k w k' w' hks Hm Hk H1 H2 N. unfold pwc_controlled. rewrite Hm, Hk. cbn [Nat.eqb negb rbind].
  set (tss := map (fun kv => w_values (snd kv)) signal).
  assert (I1 : In (w_values w) tss) by (unfold tss; apply (in_map (fun kv => w_values (snd kv)) signal (k, w) H1)).
  assert (I2 : In (w_values w') tss) by (unfold tss; apply (in_map (fun kv => w_values (snd kv)) signal (k', w') H2)).
  assert (R : ragged tss = true); [|rewrite R; reflexivity]. clearbody tss. destruct tss as [|t0 tss]; [destruct I1|].
  cbn [ragged]. destruct (forallb _ tss) eqn:F; [|reflexivity]. exfalso.
  rewrite forallb_forall in F. assert (A : forall l, In l (t0 :: tss) -> length l = length t0).
  { intros l [<-|I]; [reflexivity|]. apply Nat.eqb_eq, F, I. }
  apply N. rewrite (A _ I1), (A _ I2). reflexivity.
Qed.
Print Assumptions C82_different_lengths_controlled.

(** Non-vacuity: an unknown gate after an empty prefix, and two lines of different lengths *)
Example C80_error_example : forall prop s,
  compute_propagators prop s [] {| st_opt_gates := Some ["rx"%string]; st_overwrite := true; st_props := []; st_partial := [] |}
  = (Err C3Error, {| st_opt_gates := Some ["rx"%string]; st_overwrite := true; st_props := []; st_partial := [] |}).
Proof. intros prop s. apply (C80_unknown_gate_error prop s [] _ [] "rx" []); reflexivity. Qed.
