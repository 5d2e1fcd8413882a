(** Model of the quick setup (c3/experiment.py 124-212 and c3/signal/gates.py 372-403).

    Files are not read: [read_model] and [read_generator] say what is at a path.  A model is reduced to the
    names, drive lines and frequencies of its subsystems.  Instructions have no options, and t_start is 0. *)
From Coq Require Import Reals Ascii.
From Coquelicot Require Import Complex.
From Verif Require Import Base QuantityModel EnvModel DevModel QiskitModel.
Local Open Scope string_scope.
Local Open Scope list_scope.

(** pulse.py 24-62, 242-262: an Envelope with shape gaussian_nonorm and use_t_before=False, or a Carrier, with its parameters *)
Inductive qcomp : Type := QEnv (params : dict quantity) | QCarrier (params : dict quantity).
(** gates.py 72-104: the attributes this model follows *)
Record qinstr : Type := mkQI { qi_name : string; qi_targets : list nat; qi_end : R; qi_comps : dict (dict qcomp) }.

(** gates.py 72-104: __init__ with channels *)
Definition new_instr (name : string) (targets : list nat) (t_end : R) (channels : list string) : qinstr :=
  mkQI name targets t_end (fold_left (fun d c => dset c [] d) channels []).
(** gates.py 214-256: add_component without options; an unknown channel is a KeyError *)
Definition add_comp (name : string) (c : qcomp) (chan : string) (i : qinstr) : result qinstr :=
  match dget chan (qi_comps i) with
  | None => Err KeyError
  | Some comps => Ok (mkQI (qi_name i) (qi_targets i) (qi_end i) (dset chan (dset name c comps) (qi_comps i)))
  end.

(** a default Quantity of pulse.py 47-52, 253-254: one number in its limits *)
Definition default_q (value lo hi : R) (unit : string) : result (quantity) := mk_quantity [value] unit (Some lo) (Some hi) "\alpha".
(** dict.update, pulse.py 54, 256 *)
Definition updated_with (d new : dict quantity) : dict quantity := fold_left (fun d kv => dset (fst kv) (snd kv) d) new d.
(** pulse.py 36-62: Envelope.__init__ *)
Definition new_envelope (params : dict quantity) : result qcomp :=
  rbind (default_q 1 (-1) (15 / 10) "V") (fun amp =>
  rbind (default_q 0 (-5) 5 "V") (fun delta =>
  rbind (default_q 0 (-1) 1 "Hz 2pi") (fun foff =>
  rbind (default_q 0 (-1) 1 "rad") (fun angle =>
  rbind (default_q (5 / 10 ^ 9) (-2) 2 "s") (fun sigma =>
  rbind (default_q 1 (-1) 1 "s") (fun tf =>
    Ok (QEnv (updated_with [("amp", amp); ("delta", delta); ("freq_offset", foff); ("xy_angle", angle); ("sigma", sigma); ("t_final", tf)] params)))))))).
(** pulse.py 245-262: Carrier.__init__ *)
Definition new_carrier (params : dict quantity) : result qcomp :=
  rbind (default_q 0 (-1) 1 "V") (fun freq =>
  rbind (default_q 0 (- PI) PI "rad") (fun fc =>
    Ok (QCarrier (updated_with [("freq", freq); ("framechange", fc)] params)))).

(** gates.py 372-403: Instruction.quick_setup; division by zero raises *)
Definition instr_quick_setup (chan : string) (qubit_freq gate_time v2hz : R) (sideband : option R) (i : qinstr) : result qinstr :=
  if Req_EM_T gate_time 0 then Err ZeroDivision else
  if Req_EM_T v2hz 0 then Err ZeroDivision else
  let pi_half_amp := (PI / 2 / gate_time / v2hz * 2 * PI)%R in
  rbind (mk_quantity [gate_time] "s" None None "\alpha") (fun tf =>
  rbind (mk_quantity [pi_half_amp] "V" (Some 0%R) (Some (3 * pi_half_amp)%R) "\alpha") (fun amp =>
  let on := match sideband with Some sb => if Req_EM_T sb 0 then None else Some sb | None => None end in
  rbind (match on with
         | Some sb => rbind (mk_quantity [sb] "Hz 2pi" None None "\alpha") (fun fo => Ok ([("t_final", tf); ("amp", amp); ("freq_offset", fo)], (qubit_freq - sb)%R))
         | None => Ok ([("t_final", tf); ("amp", amp)], qubit_freq)
         end) (fun pc =>
  rbind (new_envelope (fst pc)) (fun env =>
  rbind (add_comp "gaussian" env chan i) (fun i1 =>
  rbind (mk_quantity [snd pc] "Hz 2pi" None None "\alpha") (fun fq =>
  rbind (new_carrier [("freq", fq)]) (fun car => add_comp "carrier" car chan i1))))))).

(** chip.py: drive_line and params["freq"] of a subsystem *)
Record subsystem : Type := mkSub { sub_line : string; sub_freq : quantity }.
(** model.py: subsystems (names are its keys, in order) *)
Definition qmodel : Type := dict subsystem.
(** experiment.py 163-177: an entry of single_qubit_gates; a missing key is None *)
Record gate1 : Type := mkG1 { g1_name : option string; g1_qubit : option string }.
(** experiment.py 179-206: an entry of two_qubit_gates *)
Record gate2 : Type := mkG2 { g2_name : option string; g2_qubit1 : option string; g2_qubit2 : option string; g2_time : option R }.
(** experiment.py 138-206: the configuration; None for a missing key *)
Record qcfg : Type := mkCfg {
  qc_model : option string; qc_generator : option string; qc_time : option R; qc_v2hz : option R; qc_sideband : option R;
  qc_single : option (list gate1); qc_two : option (list gate2) }.

(** cfg[key], experiment.py 154-206 *)
Definition need {A} (o : option A) : result A := match o with Some a => Ok a | None => Err KeyError end.
(** os.path.isabs, experiment.py 148 *)
Definition isabs (s : string) : bool := match s with String "/"%char _ => true | _ => false end.
(** os.path.join(a, b) for non-empty a, experiment.py 149 *)
Definition path_join (a b : string) : string :=
  if isabs b then b else match a with "" => b | _ => (a ++ "/" ++ b)%string end.
(** experiment.py 147-151: base_dir None and an absolute file name: os.path.join(None, ...) is a TypeError *)
Definition make_absolute (base_dir : option string) (filename : string) : result string :=
  match base_dir with
  | Some b => if negb (String.eqb b "") || isabs filename then Ok (path_join b filename) else Ok filename
  | None => if isabs filename then Err TypeError else Ok filename
  end.
(** list.index, experiment.py 167 *)
Fixpoint index_of (names : list string) (n : string) : result nat :=
  match names with
  | [] => Err ValueError
  | m :: r => if String.eqb m n then Ok 0%nat else rbind (index_of r n) (fun k => Ok (S k))
  end.
(** Quantity.get_value() of a number, c3objs.py 247-256 *)
Definition scalar (q : quantity) : R := nth 0 (get_value q) 0%R.

(** experiment.py 162-178 *)
Definition make_single (m : qmodel) (time v2hz : R) (sideband : option R) (g : gate1) : result qinstr :=
  rbind (need (g1_qubit g)) (fun q =>
  rbind (need (dget q m)) (fun sub =>
  rbind (need (g1_name g)) (fun name =>
  rbind (index_of (keys m) q) (fun k =>
  instr_quick_setup (sub_line sub) (scalar (sub_freq sub) / 2 / PI)%R time v2hz sideband (new_instr name [k] time [sub_line sub]))))).
(** experiment.py 180-207 *)
Definition make_two (m : qmodel) (v2hz : R) (sideband : option R) (g : gate2) : result qinstr :=
  rbind (need (g2_qubit1 g)) (fun q1 =>
  rbind (need (dget q1 m)) (fun s1 =>
  rbind (need (g2_qubit2 g)) (fun q2 =>
  rbind (need (dget q2 m)) (fun s2 =>
  rbind (need (g2_name g)) (fun name =>
  rbind (index_of (keys m) q1) (fun k1 =>
  rbind (index_of (keys m) q2) (fun k2 =>
  rbind (need (g2_time g)) (fun time =>
  rbind (instr_quick_setup (sub_line s1) (scalar (sub_freq s1) / 2 / PI)%R time v2hz sideband (new_instr name [k1; k2] time [sub_line s1; sub_line s2])) (fun i =>
  instr_quick_setup (sub_line s2) (scalar (sub_freq s2) / 2 / PI)%R time v2hz sideband i))))))))).
(** experiment.py 162-207: a loop that appends *)
Fixpoint each {A} (f : A -> result qinstr) (l : list A) : result (list qinstr) :=
  match l with
  | [] => Ok []
  | a :: r => rbind (f a) (fun i => rbind (each f r) (fun is => Ok (i :: is)))
  end.

(** experiment.py 41-60: the attributes of the experiment this model follows *)
Record qexp : Type := mkQX { qx_res : R; qx_method : string; qx_instrs : dict qinstr }.
Section Quick.
  (** the model and the generator described by a file *)
  Variable read_model : string -> result qmodel.
  (** Generator().read_config *)
  Variable read_generator : string -> result unit.
  (** experiment.py 138-212; the parameter map holds the instructions by key (parametermap.py 50-54).  The experiment before the call is [x]. *)
  Definition quick_setup (cfg : qcfg) (base_dir : option string) (x : qexp) : result qexp :=
    rbind (need (qc_model cfg)) (fun mf =>
    rbind (make_absolute base_dir mf) (fun mp =>
    rbind (read_model mp) (fun m =>
    rbind (need (qc_generator cfg)) (fun gf =>
    rbind (make_absolute base_dir gf) (fun gp =>
    rbind (read_generator gp) (fun _ =>
    rbind (need (qc_time cfg)) (fun time =>
    rbind (need (qc_v2hz cfg)) (fun v2hz =>
    rbind (need (qc_single cfg)) (fun singles =>
    rbind (each (make_single m time v2hz (qc_sideband cfg)) singles) (fun is1 =>
    rbind (need (qc_two cfg)) (fun twos =>
    rbind (each (make_two m v2hz (qc_sideband cfg)) twos) (fun is2 =>
      Ok (mkQX (100 * 10 ^ 9)%R "pwc" (fold_left (fun d i => dset (get_key (qi_name i) (Some (qi_targets i))) i d) (is1 ++ is2) [])))))))))))))).
  (** experiment.py 124-137: load_quick_setup; [dir] is the directory part of the path *)
  Definition load_quick_setup (cfg : qcfg) (dir : string) (x : qexp) : result qexp := quick_setup cfg (Some dir) x.
End Quick.

(** devices.py 1083-1127 (LO.process): the frequencies of the carriers of a channel, in order *)
Definition carriers_on (comps : dict qcomp) : list R :=
  flat_map (fun nc => match snd nc with QCarrier ps => match dget "freq" ps with Some q => [scalar q] | None => [] end | QEnv _ => [] end) comps.
(** gates.py 341-362: the envelopes of a channel with their parameters; get_timings without options: from 0 to t_final *)
Definition envelopes_on (comps : dict qcomp) : list awg_env :=
  let get ps k := match dget k ps with Some q => scalar q | None => 0%R end in
  flat_map (fun nc => match snd nc with
    | QEnv ps => [mkAE (get ps "amp") (get ps "xy_angle") (get ps "freq_offset") 0 (get ps "t_final")
                    (fun ts len => shape_values false (fun t => RtoC (gaussian_nonorm (get ps "t_final") (get ps "sigma") t)) (get ps "t_final") ts len)]
    | QCarrier _ => [] end) comps.
