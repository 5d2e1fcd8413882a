(** Measures on density matrices: c3/utils/tf_utils.py 99-116, 311-322.

    Simplifications: tensors are functions of two indices with the size as a separate
    argument; floating point numbers are exact.  [tf.linalg.sqrtm] is a parameter. *)
From Coq Require Import Reals.
From Coquelicot Require Import Complex.
From Verif Require Import Base Mat.

(** tf_utils.py 99-116: [tf_measure_operator] *)
Definition tf_measure_operator (n : nat) (M rho : mat) : C := mtrace n (mmul n M rho).

(** tf_utils.py 322: [tf.sqrt] of a complex number, the principal square root *)
Definition tf_sqrt (z : C) : C :=
  (sqrt ((Cmod z + fst z) / 2), (if Rlt_dec (snd z) 0 then - 1 else 1) * sqrt ((Cmod z - fst z) / 2))%R.

(** tf_utils.py 320-322: [tf_dmket_fid], for a state vector given as a column; the result is
    the single entry of the 1 x 1 tensor *)
Definition tf_dmket_fid (n : nat) (rho psi : mat) : C := tf_sqrt (mmul n (mmul n (madj psi) rho) psi 0%nat 0%nat).

(** tf_utils.py 311-317: [tf_dmdm_fid]; [sqrtm] is tf.linalg.sqrtm *)
Definition tf_dmdm_fid (sqrtm : mat -> mat) (n : nat) (rho sigma : mat) : C :=
  let rhosqrt := sqrtm rho in
  mtrace n (sqrtm (mmul n (mmul n rhosqrt sigma) rhosqrt)).
