(** Model of data sampling (c3/libraries/sampling.py), of the learning and
    validation selection (c3/optimizers/modellearning.py 155-179) and of the
    estimators (c3/libraries/estimators.py).

    Numbers are exact reals.  [batch_size] is a natural number; the quotient
    total_size / batch_size is exact. *)
From Coq Require Import Reals.
From Verif Require Import Base.
Local Open Scope list_scope.
Local Open Scope nat_scope.
Local Notation length := List.length.

(** sampling.py 41-82: Python slices: l[:b], l[-b:] (the whole list for b = 0) and l[::n] for a
    positive step; a step of zero raises ValueError. *)
Definition slice_to {A} (b : nat) (l : list A) : list A := firstn b l.
(** l[-b:], sampling.py 64-82 *)
Definition slice_last {A} (b : nat) (l : list A) : list A :=
  if Nat.eqb b 0 then l else skipn (length l - b) l.
(** l[::n], sampling.py 87-106 *)
Fixpoint every_from {A} (skip n : nat) (l : list A) : list A :=
  match l with
  | [] => []
  | x :: r => match skip with 0 => x :: every_from (n - 1) n r | S k => every_from k n r end
  end.
(** l[::n], sampling.py 87-106 *)
Definition slice_step {A} (n : nat) (l : list A) : result (list A) :=
  if Nat.eqb n 0 then Err ValueError else Ok (every_from 0 n l).
(** sampling.py 87-106: int(np.ceil(total / batch)) *)
Definition ceil_div (a b : nat) : nat := (a + b - 1) / b.

(** ** sampling.py; [total] is len(learn_from). *)

(** sampling.py 18-36 *)
Definition s_all (total batch_size : nat) : list nat := seq 0 total.
(** sampling.py 41-59 *)
Definition s_from_start (total batch_size : nat) : list nat := slice_to batch_size (seq 0 total).
(** sampling.py 64-82 *)
Definition s_from_end (total batch_size : nat) : list nat := slice_last batch_size (seq 0 total).
(** sampling.py 87-106 *)
Definition s_even (total batch_size : nat) : result (list nat) :=
  if Nat.eqb batch_size 0 then Err ZeroDivision else slice_step (ceil_div total batch_size) (seq 0 total).
(** sampling.py 111-129: random.sample(pool, k), pool method of CPython: draw j below the number of
    remaining entries, take pool[j], move the last remaining entry to its place.
    [rnd i] is the i-th random number. *)
Fixpoint set_nth {A} (l : list A) (k : nat) (x : A) : list A :=
  match l, k with
  | [], _ => []
  | _ :: r, 0 => x :: r
  | a :: r, S k' => a :: set_nth r k' x
  end.
(** random.sample, sampling.py 111-129 *)
Fixpoint draw (rnd : nat -> nat) (i k : nat) (pool : list nat) : list nat :=
  match k with
  | 0 => []
  | S k' => let m := length pool in
            let j := rnd i mod m in
            nth j pool 0 :: draw rnd (S i) k' (removelast (set_nth pool j (last pool 0)))
  end.
(** sampling.py 111-129; asking for more than there is raises ValueError. *)
Definition s_random (rnd : nat -> nat) (total batch_size : nat) : result (list nat) :=
  if Nat.ltb total batch_size then Err ValueError else Ok (draw rnd 0 batch_size (seq 0 total)).

(** tf.reduce_sum, estimators.py 20-152 *)
Definition rsum_l (l : list R) : R := fold_right Rplus 0%R l.
(** tf.reduce_mean, estimators.py 20-152 *)
Definition mean_l (l : list R) : R := (rsum_l l / INR (length l))%R.
(** sampling.py 134-155: np.std *)
Definition std_l (l : list R) : R := sqrt (mean_l (map (fun x => (x - mean_l l) ^ 2)%R l)).

Section Sorting.
  (** np.argsort: the indices in ascending order of their values. *)
  Variable argsort : list R -> list nat.
  (** sampling.py 134-155; [data] are the "results" of the samples. *)
  Definition s_high_std (data : list (list R)) (batch_size : nat) : list nat :=
    slice_last batch_size (argsort (map (fun s => std_l s / mean_l s)%R data)).
  (** sampling.py 160-184 *)
  Definition s_even_fid (data : list (list R)) (batch_size : nat) : result (list nat) :=
    if Nat.eqb batch_size 0 then Err ZeroDivision
    else slice_step (ceil_div (length data) batch_size) (argsort (map mean_l data)).
End Sorting.

(** ** modellearning.py 155-179: [select_from_data] with the sampled [indeces];
    the set difference is listed in ascending order. *)
Definition select_from_data (indeces : list nat) (total : nat) (inverse : bool) : list nat :=
  if inverse then filter (fun i => negb (existsb (Nat.eqb i) indeces)) (seq 0 total) else indeces.

(** ** estimators.py 20-152: estimators.py, for values in flat lists of equal length; other shapes
    (which may broadcast) are not modelled and are reported as ValueError; a mean
    of nothing is NaN. *)
Fixpoint zip3 (a b c : list R) : option (list (R * R * R)) :=
  match a, b, c with
  | [], [], [] => Some []
  | x :: a', y :: b', z :: c' => match zip3 a' b' c' with Some l => Some ((x, y, z) :: l) | None => None end
  | _, _, _ => None
  end.
(** estimators.py 20-68: tf.reduce_mean of a figure of (experiment, simulation, third argument); the
    estimators without a third argument pass the experiment again. *)
Definition mean_of (f : R -> R -> R -> R) (ex sim third : list R) : result R :=
  match zip3 ex sim third with
  | None => Err ValueError
  | Some [] => Err NaNResult
  | Some l => Ok (mean_l (map (fun t => f (fst (fst t)) (snd (fst t)) (snd t)) l))
  end.
(** a function after a call that may raise, estimators.py 20-152 *)
Definition rmap {A B} (f : A -> B) (r : result A) : result B := rbind r (fun a => Ok (f a)).

(** estimators.py 20-24 *)
Definition mean_dist (ex sim exp_stds shots : list R) : result R :=
  mean_of (fun x y _ => Rabs (x - y)) ex sim ex.
(** estimators.py 34-38 *)
Definition rms_dist (ex sim exp_stds shots : list R) : result R :=
  rmap sqrt (mean_of (fun x y _ => Rabs (x - y) ^ 2)%R ex sim ex).
(** estimators.py 43, 51, 114, 130, 146, 156: the standard deviation of the simulation *)
Definition sim_std (y n : R) : R := sqrt (y * (1 - y) / n).
(** estimators.py 41-46 *)
Definition mean_sim_stds_dist (ex sim exp_stds shots : list R) : result R :=
  mean_of (fun x y n => Rabs (x - y) / sim_std y n)%R ex sim shots.
(** estimators.py 49-54 *)
Definition rms_sim_stds_dist (ex sim exp_stds shots : list R) : result R :=
  rmap sqrt (mean_of (fun x y n => (Rabs (x - y) / sim_std y n) ^ 2)%R ex sim shots).
(** estimators.py 57-61 *)
Definition mean_exp_stds_dist (ex sim exp_stds shots : list R) : result R :=
  mean_of (fun x y s => Rabs (x - y) / s)%R ex sim exp_stds.
(** estimators.py 64-68 *)
Definition rms_exp_stds_dist (ex sim exp_stds shots : list R) : result R :=
  rmap sqrt (mean_of (fun x y s => (Rabs (x - y) / s) ^ 2)%R ex sim exp_stds).
(** estimators.py 71-75: the standard deviation of the absolute differences *)
Definition std_of_diffs (ex sim exp_stds shots : list R) : result R :=
  match zip3 ex sim ex with
  | None => Err ValueError
  | Some [] => Err NaNResult
  | Some l => Ok (std_l (map (fun t => Rabs (fst (fst t) - snd (fst t))) l))
  end.
(** estimators.py 108-152: tfp.distributions.Normal(m, s).log_prob(x) *)
Definition normal_log_prob (m s x : R) : R := (- ((x - m) ^ 2 / (2 * s ^ 2)) - ln (s * sqrt (2 * PI)))%R.
(** estimators.py 108-120 *)
Definition neg_loglkh_gauss (ex sim exp_stds shots : list R) : result R :=
  rmap Ropp (mean_of (fun x y n => normal_log_prob y (sim_std y n) x) ex sim shots).
(** estimators.py 123-136 *)
Definition neg_loglkh_gauss_norm (ex sim exp_stds shots : list R) : result R :=
  rmap Ropp (mean_of (fun x y n => normal_log_prob y (sim_std y n) x - normal_log_prob y (sim_std y n) y)%R ex sim shots).
(** estimators.py 139-152; tf.reduce_sum of nothing is zero *)
Definition neg_loglkh_gauss_norm_sum (ex sim exp_stds shots : list R) : result R :=
  match zip3 ex sim shots with
  | None => Err ValueError
  | Some l => Ok (- rsum_l (map (fun t => let '(x, y, n) := t in
                   normal_log_prob y (sim_std y n) x - normal_log_prob y (sim_std y n) y) l))%R
  end.
(** estimators.py 155-158 *)
Definition g_LL_prime (ex sim exp_stds shots : list R) : result R :=
  mean_of (fun x y n => ((x - y) ^ 2 / sim_std y n ^ 2 - 1) / 2)%R ex sim shots.
(** estimators.py 161-166: one component of the gradients; the loop adds weights[i] * dv_gs[i] *)
Fixpoint wsum (weights vs : list R) : R :=
  match weights, vs with w :: ws, v :: vs' => (w * v + wsum ws vs')%R | _, _ => 0%R end.
(** estimators.py 161-166 *)
Definition dv_g_LL_prime (gs dv_gs weights : list R) : R := (wsum weights dv_gs / rsum_l weights)%R.
(** estimators.py 169-171 *)
Definition g_LL_prime_combined (gs weights : list R) : R := (wsum weights gs / rsum_l weights)%R.
