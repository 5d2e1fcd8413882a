(** Model of the fidelity functions and populations (c3/libraries/fidelities.py
    86-350, 484-513, 754-790; c3/utils/tf_utils.py 204-215, 325-425;
    c3/utils/qt_utils.py 10-40; c3/experiment.py 273-302, 603-632).

    Numbers are exact reals.  tf.matmul of incompatible shapes raises; this is
    [ValueError].  Propagators are square matrices on the whole register, ideal
    gates are square. *)
From Coq Require Import Reals.
From Coquelicot Require Import Coquelicot.
From Verif Require Import Base Mat HilbertModel GateModel PropModel.
Local Open Scope list_scope.
Local Open Scope nat_scope.
Local Notation length := List.length.

(** tf_utils.py 204-206: conj(x) * x, cast to a real number. *)
Definition tf_abs_squared (z : C) : R := fst (Cconj z * z)%C.
(** tf_utils.py 213-216 *)
Definition tf_abs (z : C) : R := sqrt (tf_abs_squared z).

(** tf_utils.py 325-327, for column vectors of length n. *)
Definition tf_ketket_fid (n : nat) (psi1 psi2 : mat) : R :=
  tf_abs (mmul n (madj psi1) psi2 0%nat 0%nat).
(** tf_utils.py 330-366 with [lvls] given. *)
Definition tf_unitary_overlap (n : nat) (A B : mat) (lvls : nat) : R :=
  tf_abs_squared (mtrace n (mmul n A (madj B)) / RtoC (INR lvls))%C.

(** constants.py 23-26: Id, X, Y, Z. *)
Definition PAULI_LITERALS : list (nat * list (list gz)) := [
  (0, [[i1; i0]; [i0; i1]]);
  (0, [[i0; i1]; [i1; i0]]);
  (0, [[i0; mj]; [ij; i0]]);
  (0, [[i1; i0]; [i0; m1]]) ].
(** qt_utils.py 10-40: [pauli_basis([2] * k)]; column [idx] is the conjugate of
    the flattened transpose of the idx-th Pauli string ([expand_dims] to
    dimension 2 changes nothing). *)
Definition pauli_strings (k : nat) : list (list smat) := list_product (repeat (map lit_smat PAULI_LITERALS) k).
(** qt_utils.py 10-40 *)
Definition pauli_basis (k : nat) : mat :=
  fun a idx => Cconj (mtrans (ent (np_kron_n (nth idx (pauli_strings k) []))) (a / 2 ^ k) (a mod 2 ^ k)).
(** tf_utils.py 416-425: [super_to_choi] of an n^2 x n^2 matrix: reshape to four
    axes, transpose with perm [3, 1, 2, 0], reshape back. *)
Definition super_to_choi (n : nat) (A : mat) : mat :=
  fun r c => let x0 := (r / n)%nat in let x1 := (r mod n)%nat in let x2 := (c / n)%nat in let x3 := (c mod n)%nat in
             A (x3 * n + x1)%nat (x2 * n + x0)%nat.
(** tf_utils.py 404-412 with len(dims) = k; U has dimension 4^k. *)
Definition tf_choi_to_chi (k : nat) (U : mat) : mat :=
  let N := (2 ^ k * 2 ^ k)%nat in mmul N (mmul N (madj (pauli_basis k)) U) (pauli_basis k).
(** tf_utils.py 396-401 *)
Definition tf_super_to_fid (k : nat) (err : mat) : R :=
  let chi := tf_choi_to_chi k (super_to_choi (2 ^ k) err) in
  let d := RtoC (INR (2 ^ k)) in
  tf_abs ((chi 0%nat 0%nat / d + RtoC 1) / (d + RtoC 1))%C.
(** tf_utils.py 380-385 with len(lvls) = k and 2^k x 2^k matrices. *)
Definition tf_average_fidelity (k : nat) (A B : mat) : R :=
  let n := (2 ^ k)%nat in tf_super_to_fid k (tf_super n (mmul n (madj A) B)).

(** fidelities.py 120-149 *)
Definition state_transfer_infid (ideal : smat) (actual : mat) (index dims : list nat) (psi_0 : smat) : result R :=
  let ac := tf_project_to_comp actual dims index false in
  if Nat.eqb (cols ideal) (rows psi_0) && Nat.eqb (cols ac) (rows psi_0) && Nat.eqb (rows ideal) (rows ac) then
    let psi_ideal := mmul (cols ideal) (ent ideal) (ent psi_0) in
    let psi_actual := mmul (cols ac) (ent ac) (ent psi_0) in
    Ok (1 - tf_ketket_fid (rows ac) psi_ideal psi_actual)%R
  else Err ValueError.

(** fidelities.py 154-184; [index = None] means all subsystems. *)
Definition unitary_infid (ideal : smat) (actual : mat) (index : option (list nat)) (dims : list nat) : result R :=
  let idx := match index with None => seq 0 (length dims) | Some l => l end in
  let ac := tf_project_to_comp actual dims idx false in
  let fid_lvls := (2 ^ length idx)%nat in
  if Nat.eqb (cols ac) (cols ideal) then
    Ok (1 - tf_unitary_overlap (rows ac) (ent ac) (ent ideal) fid_lvls)%R
  else Err ValueError.

(** fidelities.py 290-311 *)
Definition average_infid (ideal : smat) (actual : mat) (index dims : list nat) : result R :=
  let ac := tf_project_to_comp actual dims index false in
  if Nat.eqb (rows ac) (rows ideal) && Nat.eqb (rows ac) (2 ^ length index) then
    Ok (1 - tf_average_fidelity (length index) (ent ac) (ent ideal))%R
  else Err ValueError.

(** The parts of an Instruction the set figures read (gates.py 117-162). *)
Record instruction : Type := { i_ideal : smat; i_targets : option (list nat) }.
(** fidelities.py 189-222, 317-346: tf.reduce_mean of a list of scalars; NaN for the empty list. *)
Definition reduce_mean (l : list R) : result R :=
  match l with [] => Err NaNResult | _ => Ok (rmean l) end.
(** fidelities.py 110-115, 215-220, 341-346: the common loop; [one] is the single
    gate figure, [ideal_of] the call of [get_ideal_gate]. *)
Fixpoint infid_list (one : smat -> mat -> result R) (ideal_of : instruction -> result smat)
         (instructions : dict instruction) (propagators : dict mat) : result (list R) :=
  match propagators with
  | [] => Ok []
  | (gate, p) :: rest =>
      match dget gate instructions with
      | None => Err KeyError
      | Some i => rbind (ideal_of i) (fun ideal =>
                  rbind (one ideal p) (fun r =>
                  rbind (infid_list one ideal_of instructions rest) (fun l => Ok (r :: l))))
      end
  end.
(** fidelities.py 86-115: the ideal gate is taken on all qubits. *)
Definition state_transfer_infid_set (propagators : dict mat) (instructions : dict instruction)
           (index dims : list nat) (psi_0 : smat) : result R :=
  rbind (infid_list (fun ideal p => state_transfer_infid ideal p index dims psi_0)
           (fun i => get_ideal_gate (i_ideal i) (i_targets i) (length dims) []) instructions propagators) reduce_mean.
(** fidelities.py 189-220 *)
Definition unitary_infid_set (propagators : dict mat) (instructions : dict instruction)
           (index dims : list nat) : result R :=
  rbind (infid_list (fun ideal p => unitary_infid ideal p (Some index) dims)
           (fun i => get_ideal_gate (i_ideal i) (i_targets i) (length dims) index) instructions propagators) reduce_mean.
(** fidelities.py 317-346 *)
Definition average_infid_set (propagators : dict mat) (instructions : dict instruction)
           (index dims : list nat) : result R :=
  rbind (infid_list (fun ideal p => average_infid ideal p index dims)
           (fun i => get_ideal_gate (i_ideal i) (i_targets i) (length dims) index) instructions propagators) reduce_mean.

(** fidelities.py 484-493: [populations] of a column of length [N]. *)
Definition fid_populations (N : nat) (state : mat) (lindbladian : bool) : list R :=
  if lindbladian then
    let dim := Nat.sqrt N in map (fun n => Cmod (state (n * dim + n)%nat 0%nat)) (seq 0 dim)
  else map (fun n => (Cmod (state n 0%nat) ^ 2)%R) (seq 0 N).
(** experiment.py 603-624: [populations]. *)
Definition populations (N : nat) (state : mat) (lindbladian : bool) : list R :=
  if lindbladian then
    let dim := Nat.sqrt N in map (fun n => fst (tf_vec_to_dm dim state n n)) (seq 0 dim)
  else map (fun n => (Cmod (state n 0%nat) ^ 2)%R) (seq 0 N).
(** experiment.py 626-632: [expect_oper] on a system of dimension [n]. *)
Definition expect_oper (n : nat) (state : mat) (lindbladian : bool) (oper : mat) : R :=
  let rho := if lindbladian then tf_vec_to_dm n state else tf_state_to_dm state in
  fst (mtrace n (mmul n rho oper)).

(** experiment.py 273-302: [evaluate_legacy]; states have length [N] (the squared
    dimension for density vectors). *)
Fixpoint apply_gates (N : nat) (propagators : dict mat) (sequence : list string) (psi : mat) : result mat :=
  match sequence with
  | [] => Ok psi
  | g :: r => match dget g propagators with
              | None => Err KeyError
              | Some U => apply_gates N propagators r (mmul N U psi)
              end
  end.
(** experiment.py 273-302 *)
Fixpoint evaluate_legacy (N : nat) (lindbladian : bool) (propagators : dict mat) (psi_init : mat)
         (sequences : list (list string)) : result (list (list R)) :=
  match sequences with
  | [] => Ok []
  | s :: r => rbind (apply_gates N propagators s psi_init) (fun psi =>
              rbind (evaluate_legacy N lindbladian propagators psi_init r) (fun l =>
              Ok (populations N psi lindbladian :: l)))
  end.

(** fidelities.py 754-790: [orbit_infid] without shots and noise, for the
    sequence propagators [Us] of dimension [n]: the mean of one minus the return
    probability. *)
Definition orbit_infid (n : nat) (Us : list mat) : result R :=
  match Us with
  | [] => Err IndexError
  | _ => Ok (rsum (map (fun U => 1 - Cmod (mmul n U (one_hot 0) 0%nat 0%nat) ^ 2)%R Us) / INR (length Us))%R
  end.
