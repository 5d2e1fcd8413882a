(** Model of the component timing of an Instruction (c3/signal/gates.py).

    Simplifications:
    - a component carries what get_timings reads: whether it is an Envelope (then
      its t_final) and its options delay, trigger_comp and t_final_cut;
    - [comps] and [_options] have the same keys (add_component, gates.py 220-257,
      writes both), so they are one dictionary;
    - recursion and the loop of auto_adjust_t_end take fuel; running out of it
      stands for unbounded recursion (a RecursionError) or a loop that never ends;
    - +inf / -inf of an instruction without components are [None]. *)
From Coq Require Import Reals.
From Verif Require Import Base QuantityModel.
Local Open Scope list_scope.
Local Open Scope nat_scope.

(** gates.py 219-257: a component with its options *)
Record component := mkComp {
  c_env : option R;                      (* Some t_final for an Envelope *)
  c_delay : option R;                    (* options "delay" *)
  c_trigger : option (string * string);  (* options "trigger_comp" *)
  c_cut : option R                       (* options "t_final_cut" *)
}.
(** gates.py 71-101: what the timing code reads of an Instruction *)
Record instruction := mkInstr {
  i_start : R; i_end : R;                (* t_start, t_end *)
  i_comps : dict (dict component)        (* comps[chan][name] *)
}.
(** gates.py 100, 283: [_timings] *)
Definition timings := dict (R * R).      (* _timings *)

(** gates.py 283: the memo key *)
Definition tkey (chan name : string) : string := (chan ++ "-" ++ name)%string.
(** gates.py 286-287: a missing channel or component raises KeyError *)
Definition find_comp (i : instruction) (chan name : string) : option component :=
  match dget chan (i_comps i) with Some d => dget name d | None => None end.

(** gates.py 295-302 *)
Definition end_of (i : instruction) (c : component) (minimal : bool) (t_start : R) : R :=
  match c_cut c with
  | Some l => (t_start + l)%R
  | None =>
      match c_env c with
      | Some tf => (t_start + tf)%R
      | None => if minimal then t_start else i_end i
      end
  end.
(** gates.py 290: options["delay"], 0 by default *)
Definition delay_of (c : component) : R := match c_delay c with Some d => d | None => 0%R end.

(** get_timings (gates.py 282-320) *)
Fixpoint get_timings (fuel : nat) (i : instruction) (tm : timings) (chan name : string) (minimal : bool)
  : result ((R * R) * timings) :=
  match fuel with
  | 0 => Err OutOfFuel
  | S fuel' =>
      match dget (tkey chan name) tm with
      | Some se => Ok (se, tm)
      | None =>
          match find_comp i chan name with
          | None => Err KeyError
          | Some c =>
              let t0 := (i_start i + delay_of c)%R in
              rbind (match c_trigger c with
                     | None => Ok (t0, tm)
                     | Some (tc, tn) =>
                         rbind (get_timings fuel' i tm tc tn false) (fun '(se, tm') =>
                         Ok ((t0 + snd se)%R, tm'))
                     end)
              (fun '(t_start, tm') =>
                 let se := (t_start, end_of i c minimal t_start) in
                 Ok (se, dset (tkey chan name) se tm'))
          end
      end
  end.

(** get_full_gate_length (gates.py 322-331); min(inf, x) = x *)
Definition omin (a : option R) (x : R) : option R := match a with None => Some x | Some y => Some (Rmin y x) end.
(** max(-inf, x) = x, gates.py 322-331 *)
Definition omax (a : option R) (x : R) : option R := match a with None => Some x | Some y => Some (Rmax y x) end.
(** gates.py 326-330: the inner loop *)
Fixpoint names_length (fuel : nat) (i : instruction) (chan : string) (names : list string)
    (tm : timings) (acc : option R * option R) : result (timings * (option R * option R)) :=
  match names with
  | [] => Ok (tm, acc)
  | n :: r =>
      rbind (get_timings fuel i tm chan n true) (fun '(se, tm') =>
      names_length fuel i chan r tm' (omin (fst acc) (fst se), omax (snd acc) (snd se)))
  end.
(** gates.py 325-330: the outer loop *)
Fixpoint chans_length (fuel : nat) (i : instruction) (chans : list (string * dict component))
    (acc : option R * option R) : result (option R * option R) :=
  match chans with
  | [] => Ok acc
  | (chan, d) :: r =>
      rbind (names_length fuel i chan (keys d) [] acc) (fun '(_, acc') =>
      chans_length fuel i r acc')
  end.
(** gates.py 322-331 *)
Definition get_full_gate_length (fuel : nat) (i : instruction) : result (option R * option R) :=
  chans_length fuel i (i_comps i) (None, None).

(** self.t_end = t, gates.py 333-339 *)
Definition set_end (i : instruction) (t : R) : instruction := mkInstr (i_start i) t (i_comps i).

(** auto_adjust_t_end (gates.py 333-339).  [lfuel] bounds the loop.  Without any
    component the end becomes -inf, which is not a number of this model: [None]. *)
Fixpoint auto_adjust (fuel lfuel : nat) (i : instruction) (buffer : R) : result (option instruction) :=
  match lfuel with
  | 0 => Err OutOfFuel
  | S lf =>
      rbind (get_full_gate_length fuel i) (fun '(_, ge) =>
      match ge with
      | None => Ok None
      | Some t_end =>
          if Req_EM_T (i_end i) t_end then Ok (Some (set_end i (t_end * (1 + buffer))))
          else auto_adjust fuel lf (set_end i t_end) buffer
      end)
  end.

(** get_awg_signal (gates.py 341-346): the timings it uses, one channel *)
Fixpoint awg_timings (fuel : nat) (i : instruction) (chan : string) (names : list string) (tm : timings)
  : result (list (R * R)) :=
  match names with
  | [] => Ok []
  | n :: r =>
      rbind (get_timings fuel i tm chan n false) (fun '(se, tm') =>
      rbind (awg_timings fuel i chan r tm') (fun l => Ok (se :: l)))
  end.
