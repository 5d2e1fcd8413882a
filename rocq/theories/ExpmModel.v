(** Model of the series exponentials (c3/libraries/propagation.py 630-685). *)
From Verif Require Import Base Mat.
Local Open Scope C_scope.

(** propagation.py 646-655: [tf_expm] for one matrix of size n (the code treats
    a batch of matrices element by element).  State of the loop: (r, A_powers).
    The loop variable runs over range(2, terms); the extra [ii += 1] in the body
    has no effect in Python. *)
Definition expm_step (n : nat) (A : mat) (st : mat * mat) (ii : nat) : mat * mat :=
  let p := mscale (/ RtoC (INR ii)) (mmul n (snd st) A) in
  (madd (fst st) p, p).
(** propagation.py 630-655: [tf_expm] *)
Definition tf_expm (n : nat) (A : mat) (terms : nat) : mat :=
  fst (fold_left (expm_step n A) (seq 2 (terms - 2)) (madd mid A, A)).

(** propagation.py 681: tf.reduce_max(tf.abs(A)) *)
Fixpoint rmax_upto (n : nat) (f : nat -> R) : R :=
  match n with 0%nat => 0%R | S k => Rmax (rmax_upto k f) (f k) end.
(** tf.reduce_max(tf.abs(A)), propagation.py 681 *)
Definition max_abs (n : nat) (A : mat) : R :=
  rmax_upto n (fun i => rmax_upto n (fun j => Cmod (A i j))).

(** propagation.py 676-685: [tf_expm_dynamic]; the while loop with [fuel]. *)
Fixpoint expm_loop (n : nat) (A : mat) (acc : R) (fuel ii : nat) (r p : mat) : result mat :=
  match fuel with
  | 0%nat => Err OutOfFuel
  | S f => if Rlt_dec acc (max_abs n p)
           then let p' := mscale (/ RtoC (INR ii)) (mmul n p A) in
                expm_loop n A acc f (S ii) (madd r p') p'
           else Ok r
  end.
(** propagation.py 658-685: [tf_expm_dynamic] *)
Definition tf_expm_dynamic (fuel n : nat) (A : mat) (acc : R) : result mat :=
  expm_loop n A acc fuel 2 (madd mid A) A.
