(** Model of the counting estimators and the median of c3/libraries/estimators.py.

    Numbers are exact reals.  [lgamma] is TensorFlow's log-gamma function, an
    unknown function here; the theorems say what they need of it.  A product
    of a count with ln(0) is zero when the count is zero, as in TFP; for a
    positive count TFP returns minus infinity, which is not modelled (Coq's
    ln 0 is 0), so the theorems ask for positive probabilities. *)
From Coq Require Import Reals.
From Verif Require Import Base LearnModel.
Local Open Scope list_scope.
Local Open Scope R_scope.
Local Notation length := List.length.

Section Counting.
  (** tf.math.lgamma, called by the log_prob of estimators.py 77-105 and 173-203 *)
  Variable lgamma : R -> R.

  (** estimators.py 85-87: tfp.distributions.Binomial(n, p).log_prob(k) *)
  Definition binom_log_prob (n p k : R) : R :=
    lgamma (n + 1) - lgamma (k + 1) - lgamma (n - k + 1) + (k * ln p + (n - k) * ln (1 - p)).

  (** estimators.py 77-88 *)
  Definition neg_loglkh_binom (ex sim exp_stds shots : list R) : result R :=
    rmap Ropp (mean_of (fun x y n => binom_log_prob n y (x * n)) ex sim shots).

  (** estimators.py 91-105 *)
  Definition neg_loglkh_binom_norm (ex sim exp_stds shots : list R) : result R :=
    rmap Ropp (mean_of (fun x y n => binom_log_prob n y (x * n) - binom_log_prob n y (y * n)) ex sim shots).

  (** estimators.py 182-185: tfp.distributions.Multinomial(n, probs).log_prob(counts) *)
  Definition multinom_log_prob (n : R) (probs counts : list R) : R :=
    lgamma (n + 1) - rsum_l (map (fun k => lgamma (k + 1)) counts)
    + rsum_l (map (fun kp => fst kp * ln (snd kp)) (combine counts probs)).

  (** estimators.py 182-187: the values of the sequences, one list of outcomes each, beside
      the shots of the sequences; other shapes are not modelled and are reported as ValueError *)
  Fixpoint zip_rows (a b : list (list R)) (c : list R) : option (list (list R * list R * R)) :=
    match a, b, c with
    | [], [], [] => Some []
    | x :: a', y :: b', z :: c' =>
        if Nat.eqb (length x) (length y)
        then match zip_rows a' b' c' with Some l => Some ((x, y, z) :: l) | None => None end
        else None
    | _, _, _ => None
    end.

  (** estimators.py 186, 202: tf.reduce_mean over the sequences *)
  Definition mean_rows (f : list R -> list R -> R -> R) (ex sim : list (list R)) (shots : list R) : result R :=
    match zip_rows ex sim shots with
    | None => Err ValueError
    | Some [] => Err NaNResult
    | Some l => Ok (mean_l (map (fun t => f (fst (fst t)) (snd (fst t)) (snd t)) l))
    end.

  (** estimators.py 173-187 *)
  Definition neg_loglkh_multinom (ex sim : list (list R)) (exp_stds : list (list R)) (shots : list R) : result R :=
    rmap Ropp (mean_rows (fun x y n => multinom_log_prob n y (map (fun v => v * n) x)) ex sim shots).

  (** estimators.py 190-203; line 203 subtracts 1.5 *)
  Definition neg_loglkh_multinom_norm (ex sim : list (list R)) (exp_stds : list (list R)) (shots : list R) : result R :=
    rmap (fun m => - m - 3 / 2)
         (mean_rows (fun x y n => multinom_log_prob n y (map (fun v => v * n) x)
                                  - multinom_log_prob n y (map (fun v => v * n) y)) ex sim shots).
End Counting.

(** estimators.py 31: one insertion of the sort inside tfp.stats.percentile *)
Fixpoint insert (x : R) (l : list R) : list R :=
  match l with [] => [x] | y :: l' => if Rle_dec x y then x :: l else y :: insert x l' end.
(** estimators.py 31: tfp.stats.percentile sorts the values *)
Fixpoint isort (l : list R) : list R :=
  match l with [] => [] | x :: l' => insert x (isort l') end.
(** estimators.py 31: tfp.stats.percentile(l, 50, interpolation="midpoint"), the mean of the
    sorted entries at the floor and the ceiling of (size - 1) / 2 *)
Definition percentile50 (l : list R) : R :=
  let s := isort l in
  let k := (length l - 1)%nat in
  (nth (k / 2)%nat s 0 + nth ((k + 1) / 2)%nat s 0) / 2.
(** estimators.py 27-31 *)
Definition median_dist (ex sim exp_stds shots : list R) : result R :=
  match zip3 ex sim ex with
  | None => Err ValueError
  | Some [] => Err NaNResult
  | Some l => Ok (percentile50 (map (fun t => Rabs (fst (fst t) - snd (fst t))) l))
  end.
