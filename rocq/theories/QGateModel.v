(** Model of the Qiskit gate library (c3/qiskit/c3_gates.py 12-115) and of [get_perfect_gates]
    (c3/experiment.py 409-438).

    Qiskit is not part of the repository: the matrices of its rotation gates, and the rule that the
    first qubit of a gate and of a register is the least significant one, are those of its
    documentation (quoted at c3/qiskit/c3_backend_utils.py 88-99). *)
From Coq Require Import Reals.
From Coquelicot Require Import Coquelicot.
From Verif Require Import Base Mat HilbertModel GateModel FidModel.
Local Open Scope list_scope.
Local Open Scope nat_scope.
Local Notation length := List.length.

(** c3_gates.py 6: RXGate, RYGate and RZGate of Qiskit. *)
Inductive qaxis := QX | QY | QZ.
(** c3_gates.py 6: the matrices of RXGate, RYGate and RZGate for the angle [theta]. *)
Definition qiskit_rotation (a : qaxis) (theta : R) : mat :=
  let c := RtoC (cos (theta / 2)) in let s := RtoC (sin (theta / 2)) in
  fun i j => match a, i, j with
             | QX, 0, 0 | QX, 1, 1 | QY, 0, 0 | QY, 1, 1 => c
             | QX, 0, 1 | QX, 1, 0 => (- Ci * s)%C
             | QY, 0, 1 => (- s)%C
             | QY, 1, 0 => s
             | QZ, 0, 0 => (cos (theta / 2), (- sin (theta / 2))%R)
             | QZ, 1, 1 => (cos (theta / 2), sin (theta / 2))
             | _, _, _ => RtoC 0
             end.
(** c3_gates.py 12-82: name, parent class and angle of the nine rotation classes. *)
Definition C3_ROTATIONS : dict (qaxis * R) := [
  ("rx90p", (QX, PI / 2)%R); ("rx90m", (QX, - (PI / 2))%R); ("rxp", (QX, PI));
  ("ry90p", (QY, PI / 2)%R); ("ry90m", (QY, - (PI / 2))%R); ("ryp", (QY, PI));
  ("rz90p", (QZ, PI / 2)%R); ("rz90m", (QZ, - (PI / 2))%R); ("rzp", (QZ, PI)) ]%string.
(** c3_gates.py 12-115: the matrix of the gate object the class with this name constructs. *)
Definition gate_class (name : string) : result smat :=
  match dget name C3_ROTATIONS with
  | Some (a, theta) => Ok {| rows := 2; cols := 2; ent := qiskit_rotation a theta |}
  | None => if String.eqb name "crxp" then Err NotImplemented
            else if String.eqb name "cr" || String.eqb name "cr90"
                 then match dget name GATES with Some g => Ok g | None => Err KeyError end
                 else Err KeyError
  end.

(** c3_backend_utils.py 88-99: level of qubit q in the basis state number x of Qiskit. *)
Definition qbit (x q : nat) : nat := (x / 2 ^ q) mod 2.
(** c3_backend_utils.py 88-99: number of the basis state of the qubits [qs] alone. *)
Fixpoint qsub (x : nat) (qs : list nat) : nat :=
  match qs with [] => 0 | q :: r => qbit x q + 2 * qsub x r end.
(** c3_backend_utils.py 88-99: what Qiskit does with the matrix [M] of a gate applied to the qubits [qs] of a
    register of [n] qubits. *)
Definition qiskit_embed (n : nat) (M : mat) (qs : list nat) : mat :=
  fun x y => if forallb (fun q => mem_nat q qs || Nat.eqb (qbit x q) (qbit y q)) (seq 0 n)
             then M (qsub x qs) (qsub y qs) else RtoC 0.
(** c3_backend_utils.py 88-99: a circuit, gate after gate. *)
Fixpoint qiskit_circuit (n : nat) (gs : list (mat * list nat)) : mat :=
  match gs with [] => mid | (M, qs) :: r => mmul (2 ^ n) (qiskit_circuit n r) (qiskit_embed n M qs) end.

(** experiment.py 409-438: [get_perfect_gates]; [nq] is len(dims). *)
Fixpoint perfect_loop (instructions : dict instruction) (nq : nat) (gate_keys : list string) (acc : dict smat) : result (dict smat) :=
  match gate_keys with
  | [] => Ok acc
  | g :: r => match dget g instructions with
              | None => Err KeyError
              | Some i => rbind (get_ideal_gate (i_ideal i) (i_targets i) nq []) (fun U => perfect_loop instructions nq r (dset g U acc))
              end
  end.
(** experiment.py 409-438 *)
Definition get_perfect_gates (instructions : dict instruction) (nq : nat) (gate_keys : option (list string)) : result (dict smat) :=
  perfect_loop instructions nq (match gate_keys with None => keys instructions | Some l => l end) [].
(** experiment.py 296-302: the gates of a sequence applied to the register one after the other. *)
Fixpoint sequence_product (N : nat) (gates : dict smat) (sequence : list string) : result mat :=
  match sequence with
  | [] => Ok mid
  | g :: r => match dget g gates with
              | None => Err KeyError
              | Some U => rbind (sequence_product N gates r) (fun P => Ok (mmul N P (ent U)))
              end
  end.
