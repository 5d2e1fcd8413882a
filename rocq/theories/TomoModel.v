(** Model of the tomography sequences (c3/utils/qt_utils.py 337-361). *)
From Verif Require Import Base.
Local Open Scope list_scope.
Local Open Scope string_scope.

(** qt_utils.py 342 *)
Definition tomography_base : list (list string) := [["Id"; "Id"]; ["rx90p"; "Id"]; ["ry90p"; "Id"]; ["rx90p"; "rx90p"]].
(** qt_utils.py 346-349: the inner loop, x[indx] + ":" + y[indx] for the two indices *)
Definition joined (x y : list string) : list string :=
  map (fun indx => nth indx x "" ++ ":" ++ nth indx y "") (seq 0 2).
(** qt_utils.py 343-349 *)
Definition tomography_base2 : list (list string) :=
  flat_map (fun x => map (fun y => joined x y) tomography_base) tomography_base.
(** qt_utils.py 337-361 *)
Definition two_qubit_gate_tomography (gate : string) : list (list string) :=
  flat_map (fun x => map (fun y => x ++ [gate] ++ y)%list tomography_base2) tomography_base2.
