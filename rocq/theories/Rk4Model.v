(** Model of the propagation methods other than [pwc]: [get_hs_of_t_ts], [rk4_unitary] and
    [tf_propagation], and of how an experiment calls the registered methods
    (c3/libraries/propagation.py 104-243, 518-548; c3/experiment.py 461-479).

    Numbers are exact.  [rk4_unitary] is modelled for models without excitation cut-off
    ([max_excitations] is 0). *)
From Coq Require Import Reals.
From Coquelicot Require Import Complex.
From Verif Require Import Base Mat MExp HilbertModel PropModel FoldModel EnvModel ExpModel TrajModel.
Local Open Scope list_scope.
Local Open Scope nat_scope.
Local Notation length := List.length.

(** ** Hamiltonians over time *)

(** propagation.py 161, 204: ts[::prop_res]; a stride of 0 raises. *)
Fixpoint every (p k : nat) (ts : list R) : list R :=
  match ts with
  | [] => []
  | t :: r => match k with O => t :: every p (p - 1) r | S k' => every p k' r end
  end.
(** propagation.py 160-161, 203-204: the dictionary of both branches: dt is the distance
    of the samples 0 and [prop_res]. *)
Definition sampled (Hs : list mat) (ts : list R) (prop_res : nat) : result hs_dict :=
  match nth_error ts prop_res, nth_error ts 0 with
  | Some t, Some t0 => if Nat.eqb prop_res 0 then Err ValueError
                       else Ok {| d_Hs := Hs; d_ts := every prop_res 0 ts; d_dt := (t - t0)%R |}
  | _, _ => Err IndexError
  end.
(** propagation.py 144-161: [_get_hs_of_t_ts_controlled] on the generated signal.
    [get_Hamiltonians] fails when max_excitations is set (see [pwc_controlled]); without
    signal, cflds[0] does not exist; the ts of the last line are used. *)
Definition hs_controlled (m : pmodel) (signal : dict wave) (prop_res : nat) : result hs_dict :=
  if negb (Nat.eqb (p_max_ex m) 0) then Err TypeError else
  rbind (lookup_controls (p_hctrls m) (keys signal)) (fun hks =>
  let values := map (fun kv => w_values (snd kv)) signal in
  if ragged values then Err ValueError else
  match values with
  | [] => Err IndexError
  | v0 :: _ =>
      let Hs := map (fun ii => sum_h0_hks (p_h0 m) hks (map (fun v => nth ii v (RtoC 0)) (map to_C values))) (seq 0 (length v0)) in
      sampled Hs (match rev signal with [] => [] | kv :: _ => w_ts (snd kv) end) prop_res
  end).
(** propagation.py 194-204: [_get_hs_of_t_ts] on the generated signal; [hs] is
    [model.get_Hamiltonian(signal)].  The checks are those of [pwc_uncontrolled]. *)
Definition hs_uncontrolled (hs : list mat) (signal : dict wave) (prop_res : nat) : result hs_dict :=
  let tss := map (fun kv => tl (w_ts (snd kv))) signal in
  match tss with
  | [] => Err ValueError
  | t0 :: _ =>
      if ragged tss then Err ValueError else
      let ts := map (fun j => rmean (time_column tss j)) (seq 0 (length t0)) in
      match ts with
      | a :: b :: _ =>
          if negb (forallb (fun j => rltb (rvar (time_column tss j)) (1 / 100000 * (b - a))) (seq 0 (length t0))) then Err C3Error
          else if negb (rltb (rvar (diffs ts)) (1 / 100000 * (b - a))) then Err C3Error
          else sampled hs ts prop_res
      | _ => Err IndexError
      end
  end.
(** propagation.py 104-111, 143-144, 193-194: the first effect is the assignment to
    gen.resolution, second component of the result; [generate_signals] does not read it
    (generator.py 172-229).  [signals] is gen.generate_signals(instr), [ham] is
    model.get_Hamiltonian. *)
Definition get_hs_of_t_ts (controllability : bool) (m : pmodel) (ham : dict wave -> result (list mat))
           (signals : result (dict wave)) (resolution : R) (prop_res : nat) : result hs_dict * R :=
  (rbind signals (fun signal =>
   if controllability then hs_controlled m signal prop_res
   else rbind (ham signal) (fun hs => hs_uncontrolled hs signal prop_res)),
   (INR prop_res * resolution)%R).

(** propagation.py 221-243: [rk4_unitary] (without cut-off); the open system flag and the
    collapse operators are not read. *)
Definition rk4_unitary (controllability : bool) (m : pmodel) (ham : dict wave -> result (list mat))
           (signals : result (dict wave)) (resolution : R) : result propres * R :=
  let '(r, res') := get_hs_of_t_ts controllability m ham signals resolution 2 in
  (rbind r (fun d => Ok {| pr_U := gen_u_rk4 (p_dim m) (d_dt d) (d_Hs d);
                           pr_dUs := gen_dus_rk4 (p_dim m) (d_dt d) (d_Hs d); pr_ts := d_ts d |}), res').

(** propagation.py 518-548: [tf_propagation]: cflds[0] must exist; every field is read at
    every index of the first. *)
Definition tf_propagation (n : nat) (h0 : mat) (hks : list mat) (cflds : list (list C)) (dt : R) : result (list mat) :=
  match cflds with
  | [] => Err IndexError
  | c0 :: _ =>
      if forallb (fun c => Nat.leb (length c0) (length c)) cflds then
        Ok (map (fun ii => tf_dU_of_t n h0 hks (map (fun c => nth ii c (RtoC 0)) cflds) dt) (seq 0 (length c0)))
      else Err IndexError
  end.

(** ** Calling a registered method (experiment.py 471-477) *)

(** propagation.py 72, 222-224, 259-265, 519, 688-690, 725-727: how many positional
    arguments a registered function requires and how many it accepts. *)
Definition signature (name : string) : option (nat * nat) :=
  match name with
  | "gen_dus_rk4" => Some (2, 3)
  | "rk4_unitary" => Some (3, 4)
  | "pwc" => Some (4, 5)
  | "tf_propagation" => Some (4, 4)
  | "ode_solver" => Some (6, 6)
  | "ode_solver_final_state" => Some (6, 6)
  | _ => None
  end%string.
(** experiment.py 472-478: a call with [k] positional arguments: TypeError unless the
    signature admits them; a callable of the user is not refused here. *)
Definition call_check (name : string) (k : nat) : result unit :=
  match signature name with
  | None => Ok tt
  | Some (lo, hi) => if Nat.leb lo k && Nat.leb k hi then Ok tt else Err TypeError
  end.
(** experiment.py 453-478: what compute_propagators does for one gate up to entering the
    method: model, generator, instruction, folding stack and batch size are passed by
    position. *)
Definition enter_method (e : mexper) (gate : string) : result (string * list layer) :=
  rbind (propagator_call e gate) (fun x =>
  let '(p, st, _) := x in rbind (call_check p 5) (fun _ => Ok (p, st))).
