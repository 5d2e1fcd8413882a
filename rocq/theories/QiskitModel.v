(** Model of QASM style evaluation (c3/experiment.py 304-353,
    c3/utils/qt_utils.py 252-334) and of the Qiskit backend
    (c3/qiskit/c3_backend.py, c3/qiskit/c3_backend_utils.py). *)
From Coq Require Import Reals Ascii HexString BinaryString DecimalString.
From Coquelicot Require Import Complex.
From Verif Require Import Base Mat MExp HilbertModel FidModel TaskModel MiscModel.
Local Open Scope list_scope.
Local Open Scope nat_scope.
Local Notation length := List.length.

(** ** Printed forms *)
(** gates.py 164-167, model.py 141-159: str of a natural number *)
Definition str_nat (n : nat) : string := NilZero.string_of_uint (Nat.to_uint n).
(** gates.py 164-167: ", ".join *)
Fixpoint comma_join (l : list string) : string :=
  match l with
  | [] => EmptyString
  | [x] => x
  | x :: r => x ++ ", " ++ comma_join r
  end%string.
(** gates.py 164-167: str of a list of integers (the targets of a gate) *)
Definition str_list (l : list nat) : string := ("[" ++ comma_join (map str_nat l) ++ "]")%string.
(** c3_backend.py 100-140: str of a tuple of integers (a state label): a single entry keeps its comma. *)
Definition str_tuple (l : list nat) : string :=
  match l with
  | [x] => ("(" ++ str_nat x ++ ",)")%string
  | _ => ("(" ++ comma_join (map str_nat l) ++ ")")%string
  end.
(** gates.py 164-167: [get_key] *)
Definition get_key (name : string) (targets : option (list nat)) : string :=
  match targets with None => name | Some t => (name ++ str_list t)%string end.

(** ** Virtual Z gates *)
(** constants.py 23-28: PAULIS *)
Definition PAULIS : dict mat :=
  [("X", pauli_x); ("Y", pauli_y); ("Z", pauli_z); ("Id", mid)]%string.
(** qt_utils.py 252-265: [pad_matrix] of a 2 x 2 matrix with "wzeros"; [dim - 2]
    negative makes np.zeros raise. *)
Definition pad_wzeros (M : mat) (d : nat) : result smat :=
  if Nat.ltb d 2 then Err ValueError
  else Ok {| rows := d; cols := d;
             ent := fun i j => if Nat.ltb i 2 && Nat.ltb j 2 then M i j else RtoC 0 |}.
(** qt_utils.py 324-332 (and 291-299): the loop over the Pauli names; the list of
    dimensions may be longer than the list of names. *)
Fixpoint pad_all (p_list : list string) (dims : list nat) : result (list smat) :=
  match p_list with
  | [] => Ok []
  | key :: r =>
      match dget key PAULIS with
      | None => Err KeyError
      | Some P =>
          match dims with
          | [] => Err IndexError
          | d :: ds => rbind (pad_wzeros P d) (fun m => rbind (pad_all r ds) (fun l => Ok (m :: l)))
          end
      end
  end.
(** qt_utils.py 333-334: expm(-1j/2 * ang * gen) *)
Definition rot_exp (gen : smat) (ang : R) : smat :=
  {| rows := rows gen; cols := cols gen;
     ent := mexp (rows gen) (mscale (- Ci * RtoC (ang / 2))%C (ent gen)) |}.
(** qt_utils.py 271-301: [perfect_parametric_gate], the string already split at ":". *)
Definition perfect_parametric_gate (p_list : list string) (ang : R) (dims : list nat) : result smat :=
  rbind (pad_all p_list dims) (fun ps => Ok (rot_exp (np_kron_n ps) ang)).
(** qt_utils.py 304-334: [perfect_single_q_parametric_gate]; negative targets are
    not modelled. *)
Definition perfect_single_q_parametric_gate (pauli_str : string) (target : nat) (ang : R) (dims : list nat)
  : result smat :=
  if Nat.leb (length dims) target then Err IndexError
  else perfect_parametric_gate
         (map (fun k => if Nat.eqb k target then pauli_str else "Id"%string) (seq 0 (length dims))) ang dims.

(** ** evaluate_qasm *)
(** experiment.py 304-335: A QASM style operation; the parameter of a virtual Z gate is a number. *)
Record qgate := { qg_name : string; qg_qubits : list nat; qg_params : list R }.
(** experiment.py 348-353: [get_VZ] *)
Definition get_VZ (dims : list nat) (target : list nat) (params : list R) : result smat :=
  match target, params with
  | t :: _, a :: _ => perfect_single_q_parametric_gate "Z" t a dims
  | _, _ => Err IndexError
  end.
(** experiment.py 337-346: [lookup_gate] *)
Definition lookup_gate (dims : list nat) (propagators : dict smat) (g : qgate) : result smat :=
  if String.eqb (qg_name g) "VZ" then get_VZ dims (qg_qubits g) (qg_params g)
  else match dget (qg_name g ++ str_list (qg_qubits g))%string propagators with
       | None => Err KeyError
       | Some U => Ok U
       end.
(** experiment.py 304-335: tf.matmul of a gate and a column of length [rows psi]; other shapes raise
    (InvalidArgumentError, modelled as [ValueError]). *)
Definition apply (U psi : smat) : result smat :=
  if Nat.eqb (cols U) (rows psi)
  then Ok {| rows := rows U; cols := cols psi; ent := mmul (cols U) (ent U) (ent psi) |}
  else Err ValueError.
(** experiment.py 329-331: the inner loop *)
Fixpoint run_qasm (dims : list nat) (propagators : dict smat) (sequence : list qgate) (psi : smat) : result smat :=
  match sequence with
  | [] => Ok psi
  | g :: r => rbind (lookup_gate dims propagators g) (fun U =>
              rbind (apply U psi) (run_qasm dims propagators r))
  end.
(** experiment.py 304-335: [evaluate_qasm] with the initial state resolved. *)
Fixpoint evaluate_qasm (dims : list nat) (lindbladian : bool) (propagators : dict smat)
         (psi_init : smat) (sequences : list (list qgate)) : result (list (list R)) :=
  match sequences with
  | [] => Ok []
  | s :: r => rbind (run_qasm dims propagators s psi_init) (fun psi =>
              rbind (evaluate_qasm dims lindbladian propagators psi_init r) (fun l =>
              Ok (populations (rows psi) (ent psi) lindbladian :: l)))
  end.

(** ** The Qiskit backend *)
(** c3_backend.py 171-204: [sanitize_instructions] (the warning is not modelled). *)
Definition UNSUPPORTED_OPERATIONS : list string := ["measure"; "barrier"]%string.
(** c3_backend.py 171-204 *)
Definition sanitize_instructions (instructions : list qgate) : list qgate * list qgate :=
  (filter (fun g => negb (existsb (String.eqb (qg_name g)) UNSUPPORTED_OPERATIONS)) instructions, instructions).
(** c3_backend.py 150-169: [locate_measurements] *)
Definition locate_measurements (instructions_list : list qgate) : list nat :=
  map fst (filter (fun ig => String.eqb (qg_name (snd ig)) "measure")
                  (combine (seq 0 (length instructions_list)) instructions_list)).
(** c3_backend.py 496-589: np.round: the nearest integer, ties to even. *)
Definition np_round (x : R) : Z :=
  let f := Int_part (x + 1 / 2) in
  if Req_EM_T (x + 1 / 2) (IZR f) then (if Z.even f then f else f - 1)%Z else f.
(** c3_backend.py 206-216: [generate_shot_readout] (the int32 range is not modelled). *)
Definition generate_shot_readout (pops : list R) (shots : R) : list Z :=
  map (fun p => np_round (p * shots)) pops.
(** c3_backend.py 100-140: [get_labels]; "".join of a string is the string. *)
Definition get_labels_qiskit (number_of_levels number_of_qubits : nat) : list string :=
  map HexString.of_nat (seq 0 (number_of_levels ^ number_of_qubits)).
(** c3_backend.py 100-140 *)
Definition get_labels_c3 (dims : list nat) : list string := map str_tuple (labels dims).
(** c3_backend.py 496-589: dict(zip(keys, values)): later values win, extra entries are dropped. *)
Definition dict_zip {V} (ks : list string) (vs : list V) : dict V :=
  fold_left (fun d kv => dset (fst kv) (snd kv) d) (combine ks vs) [].
(** c3_backend_utils.py 73-110: [flip_labels]: the digits of bin(int(key, 0))
    behind "0b" are reversed and read again. *)
Fixpoint rev_append_string (s acc : string) : string :=
  match s with EmptyString => acc | String c r => rev_append_string r (String c acc) end.
(** bin(x)[2:], c3_backend_utils.py 73-110 *)
Definition drop2 (s : string) : string :=
  match s with String _ (String _ r) => r | _ => EmptyString end.
(** c3_backend_utils.py 73-110: one label *)
Definition flip_label (key : string) : string :=
  let key_bin := BinaryString.of_nat (HexString.to_nat key) in
  let key_bin_rev := ("0b" ++ rev_append_string (drop2 key_bin) EmptyString)%string in
  HexString.of_nat (BinaryString.to_nat key_bin_rev).
(** c3_backend_utils.py 73-110 *)
Definition flip_labels {V} (counts : dict V) : dict V :=
  fold_left (fun d kv => dset (flip_label (fst kv)) (snd kv) d) counts [].

(** c3_backend.py 496-589: What a run reads of the experiment: dimensions of all subsystems, the
    propagators, the initial state and the readout tasks. *)
Record qexp := { x_dims : list nat; x_lind : bool; x_props : dict smat; x_init : smat; x_tasks : tasks }.
(** c3_backend.py 496-589: the entries of the result dictionary *)
Record qresult := { r_counts : dict R; r_state_pops : dict R }.
Section Run.
  (** c3_backend.py 543-549: set_parameters and compute_propagators with the values
      of a "param_update" gate. *)
  Variable param_update : qgate -> qexp -> result qexp.
  (** c3_backend.py 555-563: KeyError becomes C3QiskitError ([C3Error]). *)
  Definition key_error {A} (r : result A) : result A :=
    match r with Err KeyError => Err C3Error | _ => r end.
  (** c3_backend.py 565-577: the result dictionaries; with a label-free readout
      [process] yields one vector. *)
  Definition package (x : qexp) (levels : nat) (shots : R) (instructions : list qgate) (p : list processed)
    : result qresult :=
    match p with
    | Vec pops :: _ =>
        let counts_data := match locate_measurements instructions with
                           | [] => pops
                           | _ => map IZR (generate_shot_readout pops shots)
                           end in
        Ok {| r_counts := dict_zip (get_labels_qiskit levels (length (x_dims x))) counts_data;
              r_state_pops := dict_zip (get_labels_c3 (x_dims x)) pops |}
    | _ => Err IndexError
    end.
  (** c3_backend.py 496-589: [run_experiment]; [levels] is [_number_of_levels], read
      as dims[0] before (c3_backend.py 88-89); the returned experiment carries the
      parameter update. *)
  Definition run_experiment (x : qexp) (levels n_qubits : nat) (shots : R) (instructions : list qgate)
    : result (qresult * qexp) :=
    if Nat.ltb (length (x_dims x)) n_qubits then Err C3Error else
    let sanitized := fst (sanitize_instructions instructions) in
    match rev sanitized with
    | [] => Err IndexError
    | last :: before =>
        rbind (if String.eqb (qg_name last) "param_update"
               then rbind (param_update last x) (fun x' => Ok (x', rev before))
               else Ok (x, sanitized)) (fun xs =>
        let x := fst xs in
        rbind (key_error (rbind (evaluate_qasm (x_dims x) (x_lind x) (x_props x) (x_init x) [snd xs])
                                (fun pops => process (x_dims x) (x_tasks x) pops None))) (fun p =>
        rbind (package x levels shots instructions (fst p)) (fun r => Ok (r, x))))
    end.
End Run.

(** c3_backend_utils.py 47-70 and c3_backend.py 358-392: the shape and norm checks of
    a user supplied state vector; [round(norm, 12) != 1] as the distance to one. *)
Definition validate_initial_statevector (n_qubits levels : nat) (psi : list C) : result smat :=
  if negb (Nat.eqb (length psi) (levels ^ n_qubits)) then Err C3Error
  else
    let norm := sqrt (fold_right Rplus 0%R (map (fun z => (Cmod z ^ 2)%R) psi)) in
    if Req_EM_T (IZR (np_round (norm * 10 ^ 12))) (10 ^ 12)
    then Ok {| rows := length psi; cols := 1; ent := fun i _ => nth i psi (RtoC 0) |}
    else Err C3Error.
