(** Model of utility code: flatten and eng_num (c3/utils/utils.py), the JSON
    encoding (c3/c3objs.py), rotations and measurement sequences
    (c3/utils/qt_utils.py). *)
From Coq Require Import Reals.
From Coquelicot Require Import Complex.
From Verif Require Import Base QuantityModel Mat HilbertModel GateModel.
Local Open Scope list_scope.
Local Open Scope nat_scope.
Local Notation length := List.length.

(** ** flatten *)
(** utils.py 163-191: The values [flatten] meets: anything that is not a list or tuple is a leaf. *)
Inductive pyseq (A : Type) : Type :=
| Leaf (a : A)
| Seq (tuple : bool) (l : list (pyseq A)).
Arguments Leaf {A} _.
Arguments Seq {A} _ _.

(** utils.py 180-190: the two nested loops as one transition on (lis, i).  An entry
    that is a sequence is removed if empty ([i -= 1; break; i += 1] leaves [i]) or
    spliced in place; otherwise [i] advances.  [fuel] bounds the number of
    transitions. *)
Fixpoint flatten_loop {A} (fuel : nat) (lis : list (pyseq A)) (i : nat) : result (list (pyseq A)) :=
  match fuel with
  | 0 => Err OutOfFuel
  | S f =>
    match nth_error lis i with
    | None => Ok lis
    | Some (Seq _ []) => flatten_loop f (firstn i lis ++ skipn (S i) lis) i
    | Some (Seq _ l) => flatten_loop f (firstn i lis ++ l ++ skipn (S i) lis) i
    | Some (Leaf _) => flatten_loop f lis (S i)
    end
  end.
(** utils.py 163-191: [flatten] of a list or tuple; [ltype(lis)] restores the outer
    type.  A leaf that is iterable (a string, a dict) is not modelled. *)
Definition flatten {A} (fuel : nat) (v : pyseq A) : result (pyseq A) :=
  match v with
  | Leaf _ => Err TypeError
  | Seq tup l => rbind (flatten_loop fuel l 0) (fun r => Ok (Seq tup r))
  end.

(** ** eng_num *)
(** utils.py 74-75 *)
Definition big_units : list string := [""; "K"; "M"; "G"; "T"; "P"; "E"; "Z"]%string.
(** constants.py 11-20: the prefixes below one *)
Definition small_units : list string := ["m"; "µ"; "n"; "p"; "f"; "a"; "z"]%string.
(** utils.py 68-93: np.log10 *)
Definition log10 (x : R) : R := (ln x / ln 10)%R.
(** utils.py 68-93: [eng_num] of a scalar other than NaN; reals replace floats,
    [10 ** x] is the real power, [tmp // 3] the floor, [tmp % 3] the remainder. *)
Definition eng_num (val : R) : R * string :=
  if Req_EM_T val 0 then (0%R, EmptyString)
  else
    let sign := if Rltb val 0 then (-1)%R else 1%R in
    let val := if Rltb val 0 then (- val)%R else val in
    let tmp := log10 val in
    let idx := Int_part (tmp / 3) in
    if Rltb tmp 0 then
      if (7 <? Z.abs idx)%Z then ((val * 10 ^ 21)%R, nth 6 small_units EmptyString)
      else ((sign * Rpower 10 (tmp - 3 * IZR idx))%R, nth (Z.to_nat (- (idx + 1))) small_units EmptyString)
    else
      if (7 <? Z.abs idx)%Z then ((val * / 10 ^ 21)%R, nth 7 big_units EmptyString)
      else ((sign * Rpower 10 (tmp - 3 * IZR idx))%R, nth (Z.to_nat idx) big_units EmptyString).

(** ** JSON encoding *)
(** pulse.py 23-63, 145-166, 184-222, 243-263: an Envelope, EnvelopeDrag,
    EnvelopeNetZero or Carrier: its class and attributes.  A shape function is given by
    its name ([None] for a Carrier); [c_before] is the choice made by
    [set_use_t_before]. *)
Record component : Type := mkComp {
  c_class : string; c_name : string; c_desc : string; c_comment : string;
  c_shape : option string; c_before : bool; c_params : dict quantity
}.
(** c3objs.py 353-404: Python values written to and read from configuration files.  [PCxText] is the
    string form of a complex number ([str(z)], which [complex] reads back).  Dicts
    have string keys.  The only objects inside such values are components of an
    instruction ([PObj]); other C3 objects are turned into dicts before. *)
Inductive pyval : Type :=
| PNone | PBool (b : bool) | PNum (r : R) | PStr (s : string) | PCxText (z : C)
| PCx (z : C) | PArr (l : list pyval) | PTensor (l : list pyval) | PQty (q : quantity) | PObj (c : component)
| PList (l : list pyval) | PTup (l : list pyval) | PDict (d : list (string * pyval)).

(** c3objs.py 110-121 as a dict value *)
Definition qdict_val (d : qdict) : pyval :=
  PDict [("value", PList (map PNum (qd_value d))); ("min_val", PNum (qd_min d)); ("max_val", PNum (qd_max d));
         ("unit", PStr (qd_unit d)); ("symbol", PStr (qd_symbol d))]%string.

(** c3objs.py 48-51: the parameters as written *)
Definition params_val (ps : dict quantity) : pyval := PDict (map (fun kv => (fst kv, qdict_val (asdict (snd kv)))) ps).
(** c3objs.py 48-52, pulse.py 72-81: the [asdict] of a component (an Envelope without a
    shape cannot be written; [None] is a Carrier here) *)
Definition comp_asdict (c : component) : list (string * pyval) :=
  match c_shape c with
  | Some s => [("name", PStr (c_name c)); ("c3type", PStr (c_class c)); ("shape", PStr s); ("params", params_val (c_params c))]%string
  | None => [("c3type", PStr (c_class c)); ("params", params_val (c_params c)); ("name", PStr (c_name c))]%string
  end.
(** c3objs.py 380-393: [hjson_encode], the [default] hook of hjson.dumps, applied to
    what is not a JSON value; hjson writes tuples as lists and recurses into the
    result of the hook. *)
Fixpoint to_json (v : pyval) : pyval :=
  match v with
  | PCx z => PDict [("__complex__", PCxText z)]%string
  | PArr l => PDict [("__array__", PList (map to_json l))]%string
  | PTensor l => PDict [("__array__", PList (map to_json l))]%string
  | PQty q => PDict [("__quantity__", qdict_val (asdict q))]%string
  | PObj c => PDict (comp_asdict c)
  | PList l => PList (map to_json l)
  | PTup l => PList (map to_json l)
  | PDict d => PDict (map (fun kv => (fst kv, to_json (snd kv))) d)
  | PNone => PNone | PBool b => PBool b | PNum r => PNum r | PStr s => PStr s | PCxText z => PCxText z
  end.

(** c3objs.py 396-404: [complex(x)]: strings other than the text of a complex number are rejected. *)
Definition py_complex (v : pyval) : result pyval :=
  match v with
  | PCxText z => Ok (PCx z) | PCx z => Ok (PCx z) | PNum r => Ok (PCx (RtoC r))
  | PStr _ => Err ValueError | _ => Err TypeError
  end.
(** c3objs.py 396-404: [np.array(x)] of a (nested) list. *)
Definition py_array (v : pyval) : result pyval :=
  match v with PList l => Ok (PArr l) | PArr l => Ok (PArr l) | _ => Err TypeError end.
(** the entries of np.array(x), c3objs.py 396-404 *)
Fixpoint nums_of (l : list pyval) : result (list R) :=
  match l with
  | [] => Ok []
  | PNum r :: l => rbind (nums_of l) (fun rs => Ok (r :: rs))
  | _ => Err TypeError
  end.
(** c3objs.py 396-404: [Quantity( **x )] with the five keys written by asdict. *)
Definition py_quantity (v : pyval) : result pyval :=
  match v with
  | PDict d =>
    match dget "value" d, dget "min_val" d, dget "max_val" d, dget "unit" d, dget "symbol" d with
    | Some (PList vs), Some (PNum a), Some (PNum b), Some (PStr u), Some (PStr s) =>
        rbind (nums_of vs) (fun rs => rbind (from_qdict (mkQD rs a b u s)) (fun q => Ok (PQty q)))
    | _, _, _, _, _ => Err TypeError
    end%string
  | _ => Err TypeError
  end.
(** c3objs.py 396-404: [hjson_decode], the [object_pairs_hook]. *)
Definition hjson_decode (z : list (string * pyval)) : result pyval :=
  match z with
  | [(k, v)] =>
      if String.eqb k "__complex__" then py_complex v
      else if String.eqb k "__array__" then py_array v
      else if String.eqb k "__quantity__" then py_quantity v
      else Ok (PDict z)
  | _ => Ok (PDict z)
  end.
(** c3objs.py 396-404: hjson.loads with that hook: bottom-up over the parsed JSON.  The text layer
    (hjson itself) is trusted to reproduce JSON values. *)
Fixpoint of_json (v : pyval) : result pyval :=
  match v with
  | PList l => rbind ((fix go l := match l with [] => Ok [] | x :: r => rbind (of_json x) (fun y => rbind (go r) (fun ys => Ok (y :: ys))) end) l) (fun l => Ok (PList l))
  | PDict d => rbind ((fix go d := match d with [] => Ok [] | (k, x) :: r => rbind (of_json x) (fun y => rbind (go r) (fun ys => Ok ((k, y) :: ys))) end) d) hjson_decode
  | _ => Ok v
  end.

(** ** Rotations (constants.py 23-28, qt_utils.py 99-118) *)
Definition pauli_x : mat := gl 0 [[i0; i1]; [i1; i0]].
(** constants.py 23-28 *)
Definition pauli_y : mat := gl 0 [[i0; mj]; [ij; i0]].
(** constants.py 23-28 *)
Definition pauli_z : mat := gl 0 [[i1; i0]; [i0; m1]].
(** qt_utils.py 99-118 *)
Definition rotation (phase : R) (x y z : R) : mat :=
  msub (mscale (RtoC (cos (phase / 2))) mid)
       (mscale (Ci * RtoC (sin (phase / 2)))%C
          (madd (madd (mscale (RtoC x) pauli_x) (mscale (RtoC y) pauli_y)) (mscale (RtoC z) pauli_z))).

(** ** qt_utils.py 364-446: Measurement sequences.  A gate string "name[target]" is the pair (name, Some
    target), a wait without target (name, None). *)
Definition gate_id := (string * option nat)%type.
(** qt_utils.py 364-386 *)
Definition T1_sequence (len target : nat) : list gate_id :=
  let wait : list gate_id := [("Id", None)]%string in let prepare_1 := [("rx90p", Some target); ("rx90p", Some target)]%string in
  prepare_1 ++ List.concat (repeat wait len).
(** qt_utils.py 389-412 *)
Definition ramsey_sequence (len target : nat) : list gate_id :=
  let wait : list gate_id := [("id", None)]%string in let rotate_90 := [("rx90p", Some target)]%string in
  rotate_90 ++ List.concat (repeat wait len) ++ rotate_90.
(** qt_utils.py 415-445 *)
Definition ramsey_echo_sequence (len target : nat) : list gate_id :=
  let wait : list gate_id := [("id", None)]%string in let hlength := len / 2 in
  let rotate_90_p := [("rx90p", Some target)]%string in let rotate_90_m := [("rx90m", Some target)]%string in
  rotate_90_p ++ List.concat (repeat wait hlength) ++ rotate_90_p ++ rotate_90_p ++ List.concat (repeat wait hlength) ++ rotate_90_m.
