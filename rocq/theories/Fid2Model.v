(** Model of the remaining fidelity functions (c3/libraries/fidelities.py 350-513,
    794-820; c3/utils/tf_utils.py 219-221, 388-401, 428-436; c3/utils/qt_utils.py
    178-193, 494-498).

    Numbers are exact.  A matmul of incompatible shapes is [ValueError]. *)
From Coq Require Import Reals.
From Coquelicot Require Import Coquelicot.
From Verif Require Import Base Mat HilbertModel GateModel PropModel FoldModel FidModel.
Local Open Scope list_scope.
Local Open Scope nat_scope.
Local Notation length := List.length.

(** fidelities.py 371-376: the loop of [average_infid_seq]; [fid] is the product so far. *)
Fixpoint seq_loop (propagators : dict mat) (instructions : dict instruction) (index dims : list nat) (fid : R) : result R :=
  match propagators with
  | [] => Ok fid
  | (gate, p) :: rest =>
      match dget gate instructions with
      | None => Err KeyError
      | Some i => rbind (get_ideal_gate (i_ideal i) (i_targets i) (length dims) []) (fun perfect =>
                  rbind (average_infid perfect p index dims) (fun r =>
                  seq_loop rest instructions index dims (fid * (1 - r))%R))
      end
  end.
(** fidelities.py 353-377 *)
Definition average_infid_seq (propagators : dict mat) (instructions : dict instruction) (index dims : list nat) : result R :=
  rbind (seq_loop propagators instructions index dims 1%R) (fun fid => Ok (1 - fid)%R).

(** tf.sqrt of a complex number: the principal square root (fidelities.py 815). *)
Definition csqrt (z : C) : C :=
  (sqrt ((Cmod z + fst z) / 2),
   if Rlt_dec (snd z) 0 then (- sqrt ((Cmod z - fst z) / 2))%R else sqrt ((Cmod z - fst z) / 2)).
(** fidelities.py 815: tf.sqrt of a matrix acts on every element. *)
Definition tf_sqrt (A : mat) : mat := fun i j => csqrt (A i j).
(** fidelities.py 809-820: [calculate_state_overlap]: the elements of the result, row by
    row (one element for two kets and for two density matrices). *)
Definition calculate_state_overlap (psi1 psi2 : smat) : result (list C) :=
  let n := rows psi1 in
  if Nat.eqb (rows psi1) (cols psi1) then
    if Nat.eqb (rows psi2) n && Nat.eqb (cols psi2) n then
      let t := mtrace n (tf_sqrt (mmul n (mmul n (tf_sqrt (ent psi1)) (ent psi2)) (tf_sqrt (ent psi1)))) in
      Ok [(t * t)%C]
    else Err ValueError
  else if Nat.eqb (rows psi2) n then
    Ok (flat_map (fun i => map (fun j => RtoC (tf_abs (mmul n (madj (ent psi1)) (ent psi2) i j))) (seq 0 (cols psi2)))
                 (seq 0 (cols psi1)))
  else Err ValueError.
(** fidelities.py 805: tf.reduce_max of the real parts of 1 - overlap; a tensor
    without elements does not occur. *)
Definition reduce_max (l : list R) : R := match l with [] => 0%R | x :: r => fold_left Rmax r x end.
(** fidelities.py 793-805: the first argument is one state (two axes) or a trajectory of them (three). *)
Inductive state_arg : Type := OneState (s : smat) | Trajectory (l : list smat).
(** fidelities.py 798-801 *)
Definition final_state (states : state_arg) : result smat :=
  match states with
  | OneState s => Ok s
  | Trajectory l => match rev l with [] => Err IndexError | s :: _ => Ok s end
  end.
(** fidelities.py 793-805; [target] is params["target"], [None] when it is missing. *)
Definition state_transfer_from_states (states : state_arg) (target : option smat) : result R :=
  match target with
  | None => Err KeyError
  | Some psi_0 => rbind (final_state states) (fun s => rbind (calculate_state_overlap s psi_0) (fun overlap =>
                  Ok (reduce_max (map (fun o => fst (RtoC 1 - o)%C) overlap))))
  end.

(** fidelities.py 496-502: [population]; propagators carry their shape. *)
Definition population (propagators : dict smat) (lvl : nat) (gate : string) : result R :=
  match dget gate propagators with
  | None => Err KeyError
  | Some U => let N := rows U in
      match nth_error (fid_populations N (mmul N (ent U) (one_hot 0)) false) lvl with
      | None => Err IndexError | Some p => Ok p end
  end.
(** fidelities.py 505-512 *)
Definition lindbladian_population (propagators : dict smat) (lvl : nat) (gate : string) : result R :=
  match dget gate propagators with
  | None => Err KeyError
  | Some U => let N := rows U in
      let dv_0 := tf_dm_to_vec (Nat.sqrt N) (tf_state_to_dm (one_hot 0)) in
      match nth_error (fid_populations N (mmul N (ent U) dv_0) true) lvl with
      | None => Err IndexError | Some p => Ok p end
  end.

(** tf_utils.py 428: what may be passed as [index]: a list or, by mistake, a bool. *)
Inductive pyindex : Type := IdxList (l : list nat) | IdxBool (b : bool).
(** qt_utils.py 178-193 and tf_utils.py 428-436: [tf_project_to_comp] of an [N] x [N]
    matrix: a false [index] means all subsystems; [k in True] raises TypeError for the
    first subsystem. *)
Definition project_any (N : nat) (A : mat) (dims : list nat) (index : pyindex) (to_super : bool) : result smat :=
  match index, dims with
  | IdxBool true, _ :: _ => Err TypeError
  | _, _ =>
      let idx := match index with IdxList l => l | IdxBool _ => [] end in
      let p0 := projector dims (project_index dims idx) in
      let n := if to_super then (rows p0 * rows p0)%nat else rows p0 in
      if Nat.eqb N n then Ok (tf_project_to_comp A dims idx to_super) else Err ValueError
  end.
(** tf_utils.py 388-393: the second argument of [tf_project_to_comp] is the list of
    levels, the third - True - lands in [index]. *)
Definition tf_superoper_average_fidelity (A B : smat) (lvls : list nat) : result R :=
  rbind (project_any (rows A) (ent A) lvls (IdxBool true) false) (fun P =>
  if Nat.eqb (rows P) (rows B) then
    Ok (tf_super_to_fid (length lvls) (mmul (rows P) (madj (ent P)) (ent B)))
  else Err ValueError).
(** fidelities.py 380-402 *)
Definition lindbladian_average_infid (ideal actual : smat) (index dims : list nat) : result R :=
  let n := rows ideal in
  let U_ideal := {| rows := (n * n)%nat; cols := (n * n)%nat; ent := tf_super n (ent ideal) |} in
  rbind (project_any (rows actual) (ent actual) dims (IdxList index) true) (fun actual_comp =>
  rbind (tf_superoper_average_fidelity actual_comp U_ideal dims) (fun f => Ok (1 - f)%R)).
(** fidelities.py 405-434: the loop. *)
Fixpoint lindbladian_infids (propagators : dict smat) (instructions : dict instruction) (index dims : list nat) : result (list R) :=
  match propagators with
  | [] => Ok []
  | (gate, p) :: rest =>
      match dget gate instructions with
      | None => Err KeyError
      | Some i => rbind (get_ideal_gate (i_ideal i) (i_targets i) (length dims) []) (fun perfect =>
                  rbind (lindbladian_average_infid perfect p index dims) (fun r =>
                  rbind (lindbladian_infids rest instructions index dims) (fun l => Ok (r :: l))))
      end
  end.
(** fidelities.py 405-434 *)
Definition lindbladian_average_infid_set (propagators : dict smat) (instructions : dict instruction) (index dims : list nat) : result R :=
  rbind (lindbladian_infids propagators instructions index dims) reduce_mean.

(** constants.py 96-121: the keys of a Python dictionary: strings and integers differ. *)
Inductive pykey : Type := KStr (s : string) | KInt (n : nat).
(** constants.py 96-121, qt_utils.py 494-498: [perfect_cliffords] returns CLIFFORDS, whose
    keys are "C1" to "C24" ([label] makes the name of a number). *)
Definition perfect_cliffords (label : nat -> string) : list (pykey * mat) :=
  map (fun i => (KStr (label i), clifford i)) (seq 1 24).
(** fidelities.py 453, 477: subscripting such a dictionary. *)
Fixpoint pyget (k : pykey) (d : list (pykey * mat)) : result mat :=
  match d with
  | [] => Err KeyError
  | (k', v) :: r => match k, k' with
                    | KStr a, KStr b => if String.eqb a b then Ok v else pyget k r
                    | KInt a, KInt b => if Nat.eqb a b then Ok v else pyget k r
                    | _, _ => pyget k r
                    end
  end.
(** fidelities.py 451-455, 475-479: the loop over range(24); [fid] compares the simulated
    Clifford with the ideal one. *)
Fixpoint epc_fids (fid : mat -> mat -> result R) (real : list mat) (ideal : list (pykey * mat)) (is : list nat) : result (list R) :=
  match is with
  | [] => Ok []
  | i :: r => match nth_error real i with
              | None => Err IndexError
              | Some C_real => rbind (pyget (KInt i) ideal) (fun C_ideal =>
                  rbind (fid C_real C_ideal) (fun f =>
                  rbind (epc_fids fid real ideal r) (fun l => Ok (f :: l))))
              end
  end.
(** fidelities.py 440-447, 463-470: which sequences are evaluated; an [if] that matches
    no branch leaves the name unbound (UnboundLocalError, here [AttributeError]). *)
Definition epc_sequences (strings decomp decomp_xId : list (list string)) (num_gates : nat) (cliffords : bool) : result (list (list string)) :=
  if cliffords then Ok strings
  else match num_gates with 1 => Ok decomp | 2 => Ok decomp_xId | _ => Err AttributeError end.
(** fidelities.py 437-457 ([fid] = tf_average_fidelity) and 460-481 ([fid] =
    tf_superoper_average_fidelity of the superoperators); [eval] is [evaluate_sequences]. *)
Definition epc_figure (label : nat -> string) (eval : list (list string) -> result (list mat)) (fid : mat -> mat -> result R)
           (strings decomp decomp_xId : list (list string)) (num_gates : nat) (cliffords : bool) : result R :=
  rbind (epc_sequences strings decomp decomp_xId num_gates cliffords) (fun seqs =>
  rbind (eval seqs) (fun real =>
  rbind (epc_fids fid real (perfect_cliffords label) (seq 0 24)) (fun fids =>
  match fids with [] => Err ValueError | _ => Ok (1 - rmean fids)%R end))).
(** fidelities.py 437-457 on [n] x [n] propagators. *)
Definition epc_analytical (label : nat -> string) (n : nat) (props : dict mat) (strings decomp decomp_xId : list (list string))
           (num_gates : nat) (cliffords : bool) : result R :=
  epc_figure label (evaluate_sequences (mmul n) (fun _ => mid) props)
    (fun a b => Ok (tf_average_fidelity num_gates a b)) strings decomp decomp_xId num_gates cliffords.
