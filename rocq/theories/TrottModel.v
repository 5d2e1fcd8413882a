(** The step with a separate drift: c3/libraries/propagation.py 443-457.

    Simplifications: exact numbers; one time slice, so that [cflds_t * hks] multiplies each
    control Hamiltonian with its field. *)
From Coq Require Import Reals.
From Coquelicot Require Import Complex.
From Verif Require Import Base Mat MExp.
Local Open Scope list_scope.
Local Open Scope C_scope.

(** propagation.py 451-452: the sum of the control Hamiltonians times their fields *)
Definition driven (hks : list mat) (cflds : list R) : mat :=
  fold_right (fun hc acc => madd (mscale (RtoC (snd hc)) (fst hc)) acc) mzero (combine hks cflds).
(** propagation.py 450: [ort @ diag(dE) @ ort.T] with the eigenvalues [e] and the
    eigenvectors [v] *)
Definition drift_step (n : nat) (e : nat -> R) (v : mat) (dt : R) : mat :=
  mmul n (mmul n v (fun i j => if Nat.eqb i j then expi (- (e i * dt)) else RtoC 0)) (mtrans v).
(** propagation.py 443-457: [pwc_trott_drift]; [eigh] is tf.linalg.eigh and [numpy_mode]
    whether tensors have an attribute T (tensorflow's numpy behaviour was switched on) *)
Definition pwc_trott_drift (numpy_mode : bool) (eigh : mat -> (nat -> R) * mat) (n : nat)
    (h0 : mat) (hks : list mat) (cflds : list R) (dt : R) : result mat :=
  let '(e, v) := eigh h0 in
  if negb numpy_mode then Err AttributeError else
  let dU0 := drift_step n e v dt in
  let ht := driven hks cflds in
  let comm := msub (mmul n h0 ht) (mmul n ht h0) in
  let dh := mscale (- Ci * RtoC dt) ht in
  let dcomm := mscale (RtoC (- (dt * dt / 2))) comm in
  Ok (mmul n (mmul n dU0 (mexp n dh)) (msub dU0 dcomm)).
