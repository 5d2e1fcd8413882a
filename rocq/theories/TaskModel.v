(** Model of the state preparation and measurement tasks
    (c3/libraries/tasks.py 46-179) and of the readout processing
    (c3/experiment.py 355-405).  Numbers are exact reals. *)
From Coq Require Import Reals.
From Coquelicot Require Import Coquelicot.
From Verif Require Import Base Mat MExp RSum HilbertModel PropModel.
Local Open Scope list_scope.
Local Open Scope nat_scope.
Local Notation length := List.length.

(** ** InitialiseGround (tasks.py 46-88) *)

(** c3/libraries/constants.py 5-7: Boltzmann's and Planck's reduced constant. *)
Definition kb : R := (1.380649 / 10 ^ 23)%R.
(** constants.py 5-7 *)
Definition hbar : R := (1.054571817 / 10 ^ 34)%R.
(** tasks.py 46-89: np.finfo(float).eps *)
Definition eps : R := (/ 2 ^ 52)%R.
(** tasks.py 46-89: tf.exp of a complex number. *)
Definition cexp (z : C) : C := (RtoC (exp (fst z)) * expi (snd z))%C.
(** tasks.py 46-89: tf.linalg.diag *)
Definition diag_mat (f : nat -> C) : mat := fun i j => if Nat.eqb i j then f i else RtoC 0.
(** tasks.py 46-88: [initialise] with the temperature resolved; [n] is the
    dimension of the drift Hamiltonian.  The Warning raised for a finite
    temperature without open system dynamics is [C3Error]. *)
Definition initialise (n : nat) (drift_ham : mat) (lindbladian : bool) (init_temp : R) : result mat :=
  if Rlt_dec eps (Rabs init_temp) then
    let freq_diff := fun i => (drift_ham i i - drift_ham 0%nat 0%nat)%C in
    let beta := (RtoC 1 / RtoC (init_temp * kb))%C in
    let det_bal := fun i => cexp (- RtoC hbar * freq_diff i * beta)%C in
    let norm_bal := fun i => (det_bal i / csum n det_bal)%C in
    if lindbladian then Ok (tf_dm_to_vec n (diag_mat norm_bal)) else Err C3Error
  else
    let state := one_hot 0 in
    Ok (if lindbladian then tf_dm_to_vec n (tf_state_to_dm state) else state).

(** ** ConfusionMatrix (tasks.py 107-131) *)

(** tasks.py 107-130: A matrix of reals with its shape. *)
Record rmat := { rr : nat; rc : nat; re : nat -> nat -> R }.
(** tf_utils.py 257-268: [tf_kron] without batch dimension. *)
Definition tf_kron (A B : rmat) : rmat :=
  {| rr := rr A * rr B; rc := rc A * rc B;
     re := fun i j => (re A (i / rr B)%nat (j / rc B)%nat * re B (i mod rr B)%nat (j mod rc B)%nat)%R |}.
(** tasks.py 125-127: one row and its complement to one. *)
Definition conf_mat (row1 : list R) : rmat :=
  {| rr := 2; rc := length row1;
     re := fun i j => if Nat.eqb i 0 then nth j row1 0%R else (1 - nth j row1 0)%R |}.
(** the scalar 1 as a matrix, tasks.py 107-130 *)
Definition rone : rmat := {| rr := 1; rc := 1; re := fun _ _ => 1%R |}.
(** tasks.py 123-131; [rows] are the values of the task's parameters in the order
    of the dictionary.  Shapes that do not match raise. *)
Definition confuse (rows : list (list R)) (pops : list R) : result (list R) :=
  let cm := fold_left (fun acc row => tf_kron acc (conf_mat row)) rows rone in
  if Nat.eqb (rc cm) (length pops) then
    Ok (map (fun i => rs (rc cm) (fun j => re cm i j * nth j pops 0)%R) (seq 0 (rr cm)))
  else Err ValueError.

(** ** Experiment.process (experiment.py 355-405) *)

(** experiment.py 355-407: What the loop appends: a vector of populations or, with labels, a number. *)
Inductive processed : Type := Vec (l : list R) | Num (x : R).
(** experiment.py 355-407: The tasks the loop looks at: confusion rows, (meas_scale, meas_offset). *)
Record tasks : Type := { conf_matrix : option (list (list R)); meas_rescale : option (R * R) }.
(** tasks.py 161-179: [rescale], on a number or elementwise. *)
Definition rescale (so : R * R) (p : processed) : processed :=
  let f := fun x => (x * fst so + snd so)%R in
  match p with Vec l => Vec (map f l) | Num x => Num (f x) end.
(** experiment.py 380-407: The loops over the labels; [unknown] is the exception for an unknown label. *)
Fixpoint select (unknown : exn) (all : list (list nat)) (pops : list R) (acc : R) (ls : list (list nat)) : result R :=
  match ls with
  | [] => Ok acc
  | l :: r => match index_of l all with
              | Err _ => Err unknown
              | Ok i => match nth_error pops i with
                        | None => Err IndexError
                        | Some p => select unknown all pops (acc + p)%R r
                        end
              end
  end.
(** model.py 155-159: [comp_state_labels]. *)
Definition comp_state_labels (dims : list nat) : list (list nat) := labels (repeat 2 (length dims)).
(** experiment.py 376-401: the body of the loop; returns the processed value and
    the one before rescaling. *)
Definition process_one (dims : list nat) (t : tasks) (ls : option (list (list nat))) (pops : list R)
  : result processed :=
  match conf_matrix t with
  | Some rows => rbind (confuse rows pops) (fun q =>
      match ls with
      | Some l => rbind (select ValueError (comp_state_labels dims) q 0 l) (fun x => Ok (Num x))
      | None => Ok (Vec q)
      end)
  | None => match ls with
            | Some l => rbind (select C3Error (labels dims) pops 0 l) (fun x => Ok (Num x))
            | None => Ok (Vec pops)
            end
  end.
(** experiment.py 355-405 *)
Fixpoint process (dims : list nat) (t : tasks) (populations : list (list R)) (ls : option (list (list nat)))
  : result (list processed * list processed) :=
  match populations with
  | [] => Ok ([], [])
  | pops :: r => rbind (process_one dims t ls pops) (fun p =>
                 rbind (process dims t r ls) (fun fin =>
                 match meas_rescale t with
                 | Some so => Ok (rescale so p :: fst fin, p :: snd fin)
                 | None => Ok (p :: fst fin, snd fin)
                 end))
  end.
