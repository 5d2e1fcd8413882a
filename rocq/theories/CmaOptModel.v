(** The options of cmaes and cma_pre_lbfgs and the artificial noise:
    c3/libraries/algorithms.py 484-516, 541-557, 569-589.

    Simplifications: option values are numbers (a bool is 0 or 1); numpy's random normal
    numbers are a sequence that is used up; dictionaries are passed by reference in Python,
    so the dictionary after the call is returned. *)
From Coq Require Import Reals.
From Verif Require Import Base OptModel.
Local Open Scope string_scope.
Local Open Scope list_scope.

(** algorithms.py 491-492: [options.pop] of a key that may be there *)
Definition pop_opt (k : string) (d : dict R) : option R * dict R :=
  match dget k d with Some v => (Some v, ddel k d) | None => (None, d) end.
(** algorithms.py 491-514: the settings read *)
Record cma_settings := { s_noise : R; s_batch : R; s_init : bool; s_spread : R; s_conv : option R; s_sigma : option R }.
(** algorithms.py 502: bool(x) of a number *)
Definition py_bool (r : R) : bool := if Req_EM_T r 0 then false else true.
(** algorithms.py 491-516: the settings and the options left, which go to the library *)
Definition cma_read (d : dict R) : cma_settings * dict R :=
  let '(noise, d) := pop_opt "noise" d in
  let '(batch, d) := pop_opt "batch_noise" d in
  let '(init, d) := pop_opt "init_point" d in
  let '(spread, d) := pop_opt "spread" d in
  let '(conv, d) := pop_opt "stop_at_convergence" d in
  let '(sigma, d) := pop_opt "stop_at_sigma" d in
  let dflt o r := match o with Some v => v | None => r end in
  ({| s_noise := dflt noise 0%R; s_batch := dflt batch 0%R; s_init := match init with Some v => py_bool v | None => false end;
      s_spread := dflt spread (/ 10)%R; s_conv := option_map py_int conv; s_sigma := option_map py_int sigma |}, d).

(** algorithms.py 549-556: the goals of the samples; [randn i] is the i-th random number and
    [pos] how many have been used, [err] the value of [error] *)
Fixpoint sample_loop (s : cma_settings) (func : list R -> R) (randn : nat -> R) (pos : nat) (err : R) (samples : list (list R)) : list R * nat :=
  match samples with
  | [] => ([], pos)
  | x :: rest =>
      let goal := func x in
      let '(err, pos) := if py_bool (s_noise s) then ((randn pos * s_noise s)%R, S pos) else (err, pos) in
      let goal := if py_bool (s_batch s) || py_bool (s_noise s) then (goal + err)%R else goal in
      let '(goals, pos) := sample_loop s func randn pos err rest in
      (goal :: goals, pos)
  end.
(** algorithms.py 546-556: one generation; the value of [error] before line 548 is not used *)
Definition generation (s : cma_settings) (func : list R -> R) (randn : nat -> R) (pos : nat) (samples : list (list R)) : list R * nat :=
  let '(err, pos) := if py_bool (s_batch s) then ((randn pos * s_noise s)%R, S pos) else (0%R, pos) in
  sample_loop s func randn pos err samples.

(** algorithms.py 569-589: the options of cma_pre_lbfgs: the two sub dictionaries, if
    present, and all others *)
Record pre_options := { o_cmaes : option (dict R); o_lbfgs : option (dict R); o_rest : dict R }.
(** algorithms.py 575-589: the settings of the first stage, the options of the second, and
    the dictionary afterwards *)
Definition pre_lbfgs (o : pre_options) : cma_settings * dict R * dict R * pre_options :=
  let dflt x := match x with Some d => d | None => [] end in
  let c := merge_options (o_rest o) (dflt (o_cmaes o)) in
  let l := merge_options (o_rest o) (dflt (o_lbfgs o)) in
  let '(s, c') := cma_read c in
  (s, c', l, {| o_cmaes := Some c'; o_lbfgs := Some l; o_rest := o_rest o |}).
