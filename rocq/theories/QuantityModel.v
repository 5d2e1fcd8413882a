(** Model of class [Quantity] (c3/c3objs.py 55-350).

    Simplifications, stated once here:
    - floating point numbers are exact reals;
    - a numpy array value is represented by its flattened list of entries
      (row-major), so [shape] becomes the number of entries;
    - limits are scalars (the code also tolerates arrays of limits). *)
From Coq Require Import Reals Lra.
From Verif Require Import Base.
Local Open Scope R_scope.
Local Open Scope list_scope.

(** < on floats, c3objs.py 275-300 *)
Definition Rltb (x y : R) : bool := if Rlt_dec x y then true else false.
(** <= on floats, c3objs.py 275-300 *)
Definition Rleb (x y : R) : bool := if Rle_dec x y then true else false.

(** c3objs.py 94-108: the attributes set by [__init__]. *)
Record quantity : Type := mkQ {
  q_pref   : R;         (* self.pref   *)
  q_offset : R;         (* self.offset *)
  q_scale  : R;         (* self.scale  *)
  q_value  : list R;    (* self.value, entries scaled to [-1,1] *)
  q_unit   : string;
  q_symbol : string
}.

(** c3objs.py 78-108: Python's [pat in s] on strings. *)
Definition contains (pat s : string) : bool :=
  match String.index 0 pat s with Some _ => true | None => false end.

(** c3objs.py 81, 89-92: unit prefactor. *)
Definition pref_of_unit (unit : string) : R :=
  let pref := 1 in
  let pref := if contains "pi" unit then PI else pref in
  let pref := if contains "2pi" unit then 2 * PI else pref in
  pref.

(** c3objs.py 302-318: numpy.min / numpy.max of a non-empty flat array given as head and tail. *)
Definition list_min (x : R) (l : list R) : R := fold_left Rmin l x.
(** numpy.max, c3objs.py 302-318 *)
Definition list_max (x : R) (l : list R) : R := fold_left Rmax l x.

(** c3objs.py 349-350: [_set_limits]. *)
Definition set_limits (min_val max_val : R) (q : quantity) : quantity :=
  {| q_pref := q_pref q;
     q_offset := min_val * q_pref q;
     q_scale := Rabs (max_val - min_val) * q_pref q;
     q_value := q_value q; q_unit := q_unit q; q_symbol := q_symbol q |}.

(** c3objs.py 335-338: [get_limits]. *)
Definition get_limits (q : quantity) : R * R :=
  (q_offset q / q_pref q, (q_scale q + q_offset q) / q_pref q).

(** c3objs.py 247-256: [get_value] (includes the prefactor). *)
Definition get_value (q : quantity) : list R :=
  map (fun v => q_scale q * (v + 1) / 2 + q_offset q) (q_value q).

(** c3objs.py 240-245: [numpy]. *)
Definition numpy (q : quantity) : list R :=
  map (fun x => x / q_pref q) (get_value q).

(** c3objs.py 258-267: [get_other_value] on one entry. *)
Definition get_other_value (q : quantity) (v : R) : R :=
  (q_scale q * (v + 1) / 2 + q_offset q) / q_pref q.

(** tf.experimental.numpy.isclose(a, 1.0) with its default tolerances
    (used at c3objs.py 290). *)
Definition isclose_1 (a : R) : bool :=
  Rleb (Rabs (a - 1)) (1 / 10 ^ 8 + 1 / 10 ^ 5 * Rabs 1).

(** c3objs.py 281-283: the scaled entry computed by [_set_value]. *)
Definition scaled_entry (q : quantity) (x : R) : R :=
  2 * (x * q_pref q - q_offset q) / q_scale q - 1.

(** c3objs.py 286-293: entry is rejected. *)
Definition entry_oob (t : R) : bool :=
  Rltb 1 (Rabs t) && negb (isclose_1 (Rabs t)).

(** assignment of self.value, c3objs.py 275-300 *)
Definition with_value (q : quantity) (v : list R) : quantity :=
  {| q_pref := q_pref q; q_offset := q_offset q; q_scale := q_scale q;
     q_value := v; q_unit := q_unit q; q_symbol := q_symbol q |}.

(** c3objs.py 275-300: [_set_value].  [q_value q] only supplies the number of
    entries (the [shape] attribute).  A zero scale makes the code divide by
    zero (NaN or inf), reported as [NaNResult] and excluded by the theorems. *)
Definition set_value_strict (val : list R) (q : quantity) : result quantity :=
  if Req_EM_T (q_scale q) 0 then Err NaNResult
  else
    let tmp := map (scaled_entry q) val in
    if existsb entry_oob tmp then Err OOBError
    else Ok (with_value q tmp).

(** c3objs.py 302-318: [_set_value_extend]. The [minmax] list of the code is
    [min(0.9 v), max(0.9 v), min(1.1 v), max(1.1 v), min_val, max_val]; an empty
    array makes tf.reduce_min return +inf, reported as [NaNResult]. *)
Definition set_value_extend (val : list R) (q : quantity) : result quantity :=
  match val with
  | [] => Err NaNResult
  | v :: vs =>
      let '(lo, hi) := get_limits q in
      let s := map (fun x => x * (9 / 10)) vs in
      let l := map (fun x => x * (11 / 10)) vs in
      let minmax :=
        [ list_max (v * (9 / 10)) s; list_min (v * (11 / 10)) l;
          list_max (v * (11 / 10)) l; lo; hi ] in
      let min_val := list_min (list_min (v * (9 / 10)) s) minmax in
      let max_val := list_max (list_min (v * (9 / 10)) s) minmax in
      set_value_strict val (set_limits min_val max_val q)
  end.

(** c3objs.py 269-273: [set_value]; np.reshape raises ValueError when the number
    of entries does not match. *)
Definition set_value (val : list R) (extend_bounds : bool) (q : quantity)
  : result quantity :=
  if Nat.eqb (List.length val) (List.length (q_value q)) then
    if extend_bounds then set_value_extend val q else set_value_strict val q
  else Err ValueError.

(** c3objs.py 78-108: [__init__]. Giving exactly one limit leaves the other one
    [None] and [np.array(None) * pref] raises TypeError. *)
Definition mk_quantity (value : list R) (unit : string)
           (min_val max_val : option R) (symbol : string) : result quantity :=
  let q0 := {| q_pref := pref_of_unit unit; q_offset := 0; q_scale := 0;
               q_value := value; q_unit := unit; q_symbol := symbol |} in
  let lim : result (R * R) :=
    match min_val, max_val with
    | None, None =>
        match value with
        | v :: vs =>
            if existsb (fun x => if Req_EM_T x 0 then false else true) value then
              let rest := map (fun x => 9 / 10 * x) vs
                          ++ map (fun x => 11 / 10 * x) (v :: vs) in
              Ok (list_min (9 / 10 * v) rest, list_max (9 / 10 * v) rest)
            else Ok (-1, 1)
        | [] => Ok (-1, 1)
        end
    | Some a, Some b => Ok (a, b)
    | _, _ => Err TypeError
    end in
  rbind lim (fun '(lo, hi) => set_value value false (set_limits lo hi q0)).

(** c3objs.py 110-121: [asdict]. *)
Record qdict : Type := mkQD {
  qd_value : list R; qd_min : R; qd_max : R; qd_unit : string; qd_symbol : string
}.
(** c3objs.py 110-121 *)
Definition asdict (q : quantity) : qdict :=
  {| qd_value := numpy q;
     qd_min := q_offset q / q_pref q;
     qd_max := q_scale q / q_pref q + q_offset q / q_pref q;
     qd_unit := q_unit q; qd_symbol := q_symbol q |}.

(** c3objs.py 78-108: [Quantity( **d )] *)
Definition from_qdict (d : qdict) : result quantity :=
  mk_quantity (qd_value d) (qd_unit d) (Some (qd_min d)) (Some (qd_max d))
              (qd_symbol d).

(** c3objs.py 320-322: [get_opt_value]. *)
Definition get_opt_value (q : quantity) : list R := q_value q.

(** c3objs.py 332-333: one entry of [set_opt_value]. *)
Definition opt_fold (v : R) : R := acos (cos ((v + 1) * PI / 2)) / PI * 2 - 1.

(** c3objs.py 324-333: [set_opt_value]; tf.reshape raises InvalidArgumentError
    (modelled as ValueError) when the number of entries does not match. *)
Definition set_opt_value (val : list R) (q : quantity) : result quantity :=
  if Nat.eqb (List.length val) (List.length (q_value q))
  then Ok (with_value q (map opt_fold val))
  else Err ValueError.

(** c3objs.py 130-178: the binary operators, with [op] acting entrywise on
    [get_value()] and a scalar operand; copy.deepcopy makes the result a new
    object.  All of them end in [_set_value_extend]. *)
Definition q_arith (op : R -> R) (q : quantity) : result quantity :=
  set_value_extend (map op (get_value q)) q.
(** c3objs.py 130-136 *)
Definition q_add (q : quantity) (x : R) := q_arith (fun v => v + x) q.   (* 130-138 *)
(** c3objs.py 140-143 *)
Definition q_sub (q : quantity) (x : R) := q_arith (fun v => v - x) q.   (* 140-143 *)
(** c3objs.py 145-148 *)
Definition q_rsub (q : quantity) (x : R) := q_arith (fun v => x - v) q.  (* 145-148 *)
(** c3objs.py 150-158 *)
Definition q_mul (q : quantity) (x : R) := q_arith (fun v => v * x) q.   (* 150-158 *)
(** c3objs.py 170-173 *)
Definition q_div (q : quantity) (x : R) := q_arith (fun v => v / x) q.   (* 170-173 *)

(** c3objs.py 234-238: in-place [subtract] / [add]. *)
Definition q_iadd (q : quantity) (x : R) : result quantity :=
  set_value (map (fun v => v + x) (get_value q)) false q.
(** c3objs.py 234-236: [subtract] *)
Definition q_isub (q : quantity) (x : R) : result quantity :=
  set_value (map (fun v => v - x) (get_value q)) false q.

(** ** c3objs.py 130-345: The object as a state machine: what remains in the object after a call,
    and whether the call raised.  [_set_value] (275-300) assigns [self.value]
    only after the bounds check; [_set_value_extend] (302-318) changes the
    limits before it calls [_set_value]. *)
Inductive qop : Type :=
| OpSet (val : list R)            (* set_value(val) *)
| OpSetExtend (val : list R)      (* set_value(val, extend_bounds=True) *)
| OpSetOpt (val : list R)         (* set_opt_value(val) *)
| OpAdd (x : R)                   (* add(x) *)
| OpSubtract (x : R).             (* subtract(x) *)

(** the state after a call that may raise, c3objs.py 130-345 *)
Definition of_result (q : quantity) (r : result quantity) : quantity * option exn :=
  match r with Ok q' => (q', None) | Err e => (q, Some e) end.

(** c3objs.py 130-345: one call *)
Definition q_exec (q : quantity) (o : qop) : quantity * option exn :=
  match o with
  | OpSet v => of_result q (set_value v false q)
  | OpSetExtend v => of_result q (set_value v true q)
  | OpSetOpt v => of_result q (set_opt_value v q)
  | OpAdd x => of_result q (q_iadd q x)
  | OpSubtract x => of_result q (q_isub q x)
  end.

(** c3objs.py 130-345: a history of calls *)
Definition q_run (q : quantity) (os : list qop) : quantity :=
  fold_left (fun q o => fst (q_exec q o)) os q.
