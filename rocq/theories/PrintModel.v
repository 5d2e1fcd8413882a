(** Model of how parameters are printed: c3/utils/utils.py 96-105 (num3str), c3/c3objs.py
    222-232 (Quantity.__str__), c3/parametermap.py 173-177 and 458-499.

    Simplifications: reals replace floats; the texts of Python's [f"{x}"] and [f"{x:.3}"],
    used for the units "pi" and "undefined" only, come from outside; values that are not
    scalars are flat lists (as in QuantityModel). *)
From Coq Require Import Reals ZArith Ascii.
From Verif Require Import Base QuantityModel PMapModel MiscModel QiskitModel.
Local Open Scope string_scope.
Local Open Scope list_scope.

(** utils.py 102: rounding of Python's format to an integer, ties to even *)
Definition round_even (x : R) : Z :=
  let n := Int_part x in
  if Rltb (x - IZR n) (1 / 2) then n
  else if Rltb (1 / 2) (x - IZR n) then (n + 1)%Z
  else if Z.even n then n else (n + 1)%Z.

(** utils.py 102: three digits with leading zeros *)
Definition pad3 (n : nat) : string :=
  (if Nat.ltb n 10 then "00" ++ str_nat n else if Nat.ltb n 100 then "0" ++ str_nat n else str_nat n)%string.

(** utils.py 102: f"{num:.3f}" *)
Definition fixed3 (x : R) : string :=
  let z := Z.to_nat (round_even (Rabs x * 1000)) in
  ((if Rltb x 0 then "-" else "") ++ str_nat (z / 1000) ++ "." ++ pad3 (z mod 1000))%string.

(** c3objs.py 486: f"{key:38}" fills up with blanks *)
Definition pad38 (key : string) : string :=
  (key ++ String.concat "" (repeat " " (38 - String.length key)))%string.

Section Print.
(** c3objs.py 227: f"{x}"; utils.py 104: f"{x:.3}" *)
Variables repr general3 : R -> string.

(** utils.py 96-105: [num3str] of a number *)
Definition num3str (val : R) (use_prefix : bool) : string :=
  if use_prefix then
    let '(num, prefix) := eng_num val in (fixed3 num ++ " " ++ prefix)%string
  else (general3 val ++ " ")%string.

(** c3objs.py 222-232: [Quantity.__str__] *)
Definition q_str (q : quantity) : string :=
  fold_left (fun ret entry =>
    (ret ++ if String.eqb (q_unit q) "pi" then repr entry ++ " " ++ q_unit q ++ " "
            else if negb (String.eqb (q_unit q) "undefined") then num3str entry true ++ q_unit q ++ " "
            else num3str entry false ++ " ")%string) (numpy q) "".

(** parametermap.py 173-177: [get_full_params] *)
Definition get_full_params (pm : pmap) : dict quantity := pm_pars pm.

(** parametermap.py 483-486: the line of a parameter; the last character is a newline *)
Definition par_line (human : bool) (key : string) (q : quantity) : string :=
  if human && Nat.ltb 4 (List.length (q_value q))
  then (pad38 key ++ ": <" ++ str_nat (List.length (q_value q)) ++ " values>" ++ String "010" "")%string
  else (pad38 key ++ ": " ++ q_str q ++ String "010" "")%string.

(** parametermap.py 479-491: the loop over the groups *)
Fixpoint str_groups (human : bool) (pars : dict quantity) (m : optmap) : result (list string) :=
  match m with
  | [] => Ok []
  | [] :: _ => Err IndexError
  | (key :: equiv) :: r =>
      match dget key pars with
      | None => Err KeyError
      | Some q =>
          let mine := par_line human key q ::
            (match equiv with
             | [] => []
             | _ => flat_map (fun eid => [eid; String "010" ""]) equiv ++ [String "010" ""]
             end) in
          rbind (str_groups human pars r) (fun rest => Ok (mine ++ rest))
      end
  end.

(** parametermap.py 458-492: [str_parameters] *)
Definition str_parameters (pm : pmap) (om : option (list (list parid))) (human : bool) : result string :=
  rbind (str_groups human (pm_pars pm) (get_opt_map pm om)) (fun l => Ok (String.concat "" l)).

(** parametermap.py 494-499: the text of [print_parameters]; the keys made by get_opt_map
    go through get_opt_map once more *)
Definition print_parameters (pm : pmap) (om : option (list (list parid))) : result string :=
  str_parameters pm (Some (map (map PMapModel.PStr) (get_opt_map pm om))) true.

End Print.
