(** Model of the tabulated gates, Cliffords and randomised benchmarking
    sequences (c3/libraries/constants.py 23-121; c3/signal/gates.py 117-162;
    c3/utils/qt_utils.py 448-553). *)
From Coq Require Import Ascii.
From Verif Require Import Base Mat MExp HilbertModel.
Local Open Scope list_scope.
Local Open Scope nat_scope.

(** constants.py 50-89: A literal np.array([[...]]) of complex integers, divided k times by
    np.sqrt(2).  Entry (a, b) is a + b j. *)
Definition gz := (Z * Z)%type.
(** complex literals of constants.py 50-89 *)
Definition gev (z : gz) : C := (IZR (fst z), IZR (snd z)).
(** 1 / np.sqrt(2), constants.py 50-89 *)
Definition s2 : C := RtoC (/ sqrt 2).
(** entry of a literal, constants.py 50-89 *)
Definition gentry (G : list (list gz)) (i j : nat) : gz := nth j (nth i G []) (0, 0)%Z.
(** a literal of constants.py 50-89 as a matrix *)
Definition gl (k : nat) (G : list (list gz)) : mat := fun i j => Cmult (Cpow s2 k) (gev (gentry G i j)).

Notation "'i1'" := (1, 0)%Z.
Notation "'i0'" := (0, 0)%Z.
Notation "'m1'" := (-1, 0)%Z.
Notation "'ij'" := (0, 1)%Z.
Notation "'mj'" := (0, -1)%Z.

(** constants.py 50-89: GATES, as (power of 1/sqrt 2, integer matrix). *)
Definition GATE_LITERALS : dict (nat * list (list gz)) := [
  ("id", (0, [[i1; i0]; [i0; i1]]));
  ("rx90p", (1, [[i1; mj]; [mj; i1]]));
  ("rx90m", (1, [[i1; ij]; [ij; i1]]));
  ("rxp", (0, [[i0; mj]; [mj; i0]]));
  ("ry90p", (1, [[i1; m1]; [i1; i1]]));
  ("ry90m", (1, [[i1; i1]; [m1; i1]]));
  ("ryp", (0, [[i0; m1]; [i1; i0]]));
  ("x", (0, [[i0; i1]; [i1; i0]]));
  ("y", (0, [[i0; mj]; [ij; i0]]));
  ("h", (1, [[i1; i1]; [i1; m1]]));
  ("rz90p", (1, [[(1, -1)%Z; i0]; [i0; (1, 1)%Z]]));
  ("rz90m", (1, [[(1, 1)%Z; i0]; [i0; (1, -1)%Z]]));
  ("rzp", (0, [[mj; i0]; [i0; ij]]));
  ("crxp", (0, [[i1; i0; i0; i0]; [i0; i1; i0; i0]; [i0; i0; i0; mj]; [i0; i0; mj; i0]]));
  ("crzp", (0, [[i1; i0; i0; i0]; [i0; i1; i0; i0]; [i0; i0; mj; i0]; [i0; i0; i0; ij]]));
  ("cr", (0, [[i0; mj; i0; i0]; [mj; i0; i0; i0]; [i0; i0; i0; ij]; [i0; i0; ij; i0]]));
  ("cr90", (1, [[i1; mj; i0; i0]; [mj; i1; i0; i0]; [i0; i0; i1; ij]; [i0; i0; ij; i1]]));
  ("iswap", (0, [[i1; i0; i0; i0]; [i0; i0; ij; i0]; [i0; ij; i0; i0]; [i0; i0; i0; i1]]));
  ("cz", (0, [[i1; i0; i0; i0]; [i0; i1; i0; i0]; [i0; i0; i1; i0]; [i0; i0; i0; m1]]));
  ("ccz", (0, [[i1; i0; i0; i0; i0; i0; i0; i0]; [i0; i1; i0; i0; i0; i0; i0; i0];
               [i0; i0; i1; i0; i0; i0; i0; i0]; [i0; i0; i0; i1; i0; i0; i0; i0];
               [i0; i0; i0; i0; i1; i0; i0; i0]; [i0; i0; i0; i0; i0; i1; i0; i0];
               [i0; i0; i0; i0; i0; i0; i1; i0]; [i0; i0; i0; i0; i0; i0; i0; m1]]));
  ("cx", (0, [[i1; i0; i0; i0]; [i0; i0; i0; i1]; [i0; i0; i1; i0]; [i0; i1; i0; i0]]))
  ]%string.
(** constants.py 50-89: The matrix of a literal with its shape. *)
Definition lit_smat (x : nat * list (list gz)) : smat :=
  {| rows := List.length (snd x); cols := List.length (snd x); ent := gl (fst x) (snd x) |}.
(** constants.py 50-89 *)
Definition GATES : dict smat := map (fun kv => (fst kv, lit_smat (snd kv))) GATE_LITERALS.

(** gates.py 125-138: str.split(":") *)
Fixpoint split_colon_aux (s acc : string) : list string :=
  match s with
  | EmptyString => [acc]
  | String c r => if Ascii.eqb c ":"%char then acc :: split_colon_aux r EmptyString
                  else split_colon_aux r (acc ++ String c EmptyString)%string
  end.
(** name.split(":"), gates.py 125-138 *)
Definition split_colon (s : string) : list string := split_colon_aux s EmptyString.

(** gates.py 125-138: [set_ideal]; keys that are not in GATES only cause a
    warning, which is not modelled. *)
Fixpoint known_gates (keys : list string) : list smat :=
  match keys with
  | [] => []
  | k :: r => match dget k GATES with Some g => g :: known_gates r | None => known_gates r end
  end.
(** gates.py 125-138 *)
Definition set_ideal (name : string) (ideal : option smat) : smat :=
  match ideal with Some m => m | None => np_kron_n (known_gates (split_colon name)) end.

(** gates.py 125-138, qt_utils.py 480-491: NumPy broadcasting of a matrix against shape (n, n). *)
Definition bcast (n : nat) (m : smat) : result mat :=
  if (Nat.eqb (rows m) n || Nat.eqb (rows m) 1) && (Nat.eqb (cols m) n || Nat.eqb (cols m) 1)
  then Ok (fun i j => ent m (if Nat.eqb (rows m) 1 then 0 else i) (if Nat.eqb (cols m) 1 then 0 else j))
  else Err ValueError.
(** gates.py 140-162: [get_ideal_gate] on len(dims) qubits.  Repeated targets are
    not modelled as an error (neither does the code). *)
Definition get_ideal_gate (ideal : smat) (targets : option (list nat)) (ndims : nat) (index : list nat) : result smat :=
  let ts := match targets with None => seq 0 ndims | Some ts => ts end in
  let dims := repeat 2 ndims in
  if existsb (fun t => Nat.leb ndims t) ts then Err IndexError else
  rbind (bcast (prod_dims (map (fun t => nth t dims 0) ts)) ideal) (fun m =>
  let g := {| rows := prod_dims dims; cols := prod_dims dims; ent := insert_mat_kron dims ts m |} in
  Ok (match index with [] => g | _ => tf_project_to_comp (ent g) dims index false end)).

(** constants.py 96-121: a @ b @ c on 2x2 matrices *)
Definition at_prod (l : list mat) : mat :=
  match l with [] => mid | a :: r => fold_left (mmul 2) r a end.
(** GATES[name], used at constants.py 96-121 *)
Definition gate2 (name : string) : mat :=
  match dget name GATES with Some g => ent g | None => mzero end.

(** constants.py 96-121: the factors of "C1" to "C24", in the order written. *)
Definition CLIFFORD_FACTORS : list (list string) := [
  ["rx90m"; "rx90p"];
  ["rx90p"; "ry90p"];
  ["ry90m"; "rx90m"];
  ["rx90p"; "rx90p"; "ry90p"];
  ["rx90m"];
  ["rx90m"; "ry90m"; "rx90p"];
  ["rx90p"; "rx90p"];
  ["rx90m"; "ry90m"];
  ["ry90m"; "rx90p"];
  ["ry90m"];
  ["rx90p"];
  ["rx90p"; "ry90p"; "rx90p"];
  ["ry90p"; "ry90p"];
  ["rx90p"; "ry90m"];
  ["ry90p"; "rx90p"];
  ["rx90p"; "rx90p"; "ry90m"];
  ["ry90p"; "ry90p"; "rx90p"];
  ["rx90p"; "ry90m"; "rx90p"];
  ["ry90p"; "ry90p"; "rx90p"; "rx90p"];
  ["rx90m"; "ry90p"];
  ["ry90p"; "rx90m"];
  ["ry90p"];
  ["ry90p"; "ry90p"; "rx90m"];
  ["rx90m"; "ry90p"; "rx90p"]
  ]%string.
(** constants.py 96-121: CLIFFORDS["C" + str(i)] is entry i - 1 of this list. *)
Definition CLIFFORDS : list mat := map (fun fs => at_prod (map gate2 fs)) CLIFFORD_FACTORS.
(** CLIFFORDS["C" + str(i)], constants.py 96-121 *)
Definition clifford (i : nat) : mat := nth (i - 1) CLIFFORDS mzero.

(** qt_utils.py 528-553: the gate sequences, in time order. *)
Definition cliffords_decomp : list (list string) := [
  ["rx90p"; "rx90m"];
  ["ry90p"; "rx90p"];
  ["rx90m"; "ry90m"];
  ["ry90p"; "rx90p"; "rx90p"];
  ["rx90m"];
  ["rx90p"; "ry90m"; "rx90m"];
  ["rx90p"; "rx90p"];
  ["ry90m"; "rx90m"];
  ["rx90p"; "ry90m"];
  ["ry90m"];
  ["rx90p"];
  ["rx90p"; "ry90p"; "rx90p"];
  ["ry90p"; "ry90p"];
  ["ry90m"; "rx90p"];
  ["rx90p"; "ry90p"];
  ["ry90m"; "rx90p"; "rx90p"];
  ["rx90p"; "ry90p"; "ry90p"];
  ["rx90p"; "ry90m"; "rx90p"];
  ["rx90p"; "rx90p"; "ry90p"; "ry90p"];
  ["ry90p"; "rx90m"];
  ["rx90m"; "ry90p"];
  ["ry90p"];
  ["rx90m"; "ry90p"; "ry90p"];
  ["rx90p"; "ry90p"; "rx90m"]
  ]%string.

(** qt_utils.py 480-491: [inverseC]; [None] is the value of a Python function
    that falls off its end.  Reals replace floats. *)
Definition seq_operation (sequence : list nat) : mat :=
  fold_left (fun operation cliff => mmul 2 (clifford cliff) operation) sequence mid.
(** qt_utils.py 487-489: the test of the loop *)
Definition inverse_test (operation : mat) (i : nat) : bool :=
  if Rlt_dec (Rabs (2 - Cmod (mtrace 2 (mmul 2 (clifford i) operation)))%R) (1 / 10000)%R then true else false.
(** qt_utils.py 480-491 *)
Definition inverseC (sequence : list nat) : option nat :=
  find (inverse_test (seq_operation sequence)) (seq 1 24).

(** qt_utils.py 448-477: [single_length_RB].  [choices] are the values drawn by
    np.random.choice(24, size=RB_length-1), one list per repetition; a gate
    string "name[target]" is kept as the pair (name, target). *)
Definition rb_sequence (target : nat) (draw : list nat) : result (list (string * nat)) :=
  let sq := map S draw in
  match inverseC sq with
  | None => Err TypeError
  | Some i => Ok (flat_map (fun c => map (fun g => (g, target)) (nth (c - 1) cliffords_decomp [])) (sq ++ [i]))
  end.
(** qt_utils.py 455-476: the loop over the sequences *)
Fixpoint rb_all (target : nat) (choices : list (list nat)) : result (list (list (string * nat))) :=
  match choices with
  | [] => Ok []
  | d :: r => rbind (rb_sequence target d) (fun s => rbind (rb_all target r) (fun S => Ok (s :: S)))
  end.
(** qt_utils.py 448-477 *)
Definition single_length_RB (RB_length target : nat) (choices : list (list nat)) : result (list (list (string * nat))) :=
  match choices, RB_length with
  | _ :: _, 0 => Err ValueError
  | _, _ => rb_all target choices
  end.
