(** Instruction configuration (c3/signal/gates.py 16-257, c3/signal/pulse.py).

    Simplifications, stated once here:
    - a configuration is a Python value [pyval] as hjson returns it; dicts have string keys;
    - attributes that the code stores without looking at them ([ideal], [targets],
      [params], [fixed_t_end], options, unknown keys) are kept as Python values;
    - the parameters of a component are quantities (Python would store anything);
    - [_timings], a cache, is left out. *)
From Coq Require Import Reals.
From Verif Require Import Base QuantityModel ExpModel MiscModel.
Local Open Scope list_scope.
Local Open Scope string_scope.

(** c3objs.py 78-108: [Quantity(value=v, min_val=lo, max_val=hi, unit=u)] for a value
    within limits lo < hi (ConfProps.v, [qty_made]). *)
Definition qty (v lo hi : R) (u : string) : quantity :=
  let q := set_limits lo hi (mkQ (pref_of_unit u) 0 0 [v] u "\alpha") in
  with_value q [scaled_entry q v].

(** pulse.py 46-53: parameters every Envelope has *)
Definition env_defaults : dict quantity :=
  [("amp", qty 1 (-1) (3 / 2) "V"); ("delta", qty 0 (-5) 5 "V"); ("freq_offset", qty 0 (-1) 1 "Hz 2pi");
   ("xy_angle", qty 0 (-1) 1 "rad"); ("sigma", qty (5 / 10 ^ 9) (-2) 2 "s"); ("t_final", qty 1 (-1) 1 "s")]%R.
(** pulse.py 253-256: parameters every Carrier has *)
Definition carrier_defaults : dict quantity :=
  [("freq", qty 0 (-1) 1 "V"); ("framechange", qty 0 (- PI) PI "rad")]%R.
(** envelopes.py 12-22 and the functions decorated with [env_reg_deco]: the names of
    the shapes *)
Definition shape_names : list string :=
  ["no_drive"; "pwc"; "pwc_shape"; "pwc_shape_plateau"; "pwc_symmetric"; "delta_pulse"; "fourier_sin"; "fourier_cos";
   "rect"; "trapezoid"; "flattop_risefall"; "flattop"; "flattop_cut"; "flattop_cut_center"; "slepian_fourier";
   "flattop_risefall_1ns"; "gaussian_sigma"; "gaussian"; "cosine"; "cosine_flattop"; "gaussian_nonorm";
   "gaussian_der_nonorm"; "gaussian_der"; "drag_sigma"; "drag"; "drag_der"; "flattop_variant"].

(** c3objs.py 32-43: [C3obj.__init__] turns dicts among the parameters into quantities. *)
Fixpoint to_params (ps : dict pyval) : result (dict quantity) :=
  match ps with
  | [] => Ok []
  | (k, v) :: r =>
      rbind (match v with
             | PDict d => py_quantity (PDict d)
             | _ => Ok v
             end) (fun v =>
      match v with
      | PQty q => rbind (to_params r) (fun qs => Ok ((k, q) :: qs))
      | _ => Err TypeError
      end)
  end.
(** pulse.py 31-63, 251-263: a string keyword argument with its default value *)
Definition str_arg (k def : string) (props : dict pyval) : result string :=
  match dget k props with
  | None => Ok def
  | Some (PStr s) => Ok s
  | Some _ => Err TypeError
  end.
(** pulse.py 54, 257: the defaults updated with the [params] argument *)
Definition params_arg (defaults : dict quantity) (props : dict pyval) : result (dict quantity) :=
  match dget "params" props with
  | None => Ok defaults
  | Some (PDict ps) => to_params (dupdate (map (fun kv => (fst kv, PQty (snd kv))) defaults) ps)
  | Some _ => Err TypeError
  end.
(** pulse.py 31-63, 145-172, 198-222, 251-263: calling a constructor with a keyword it
    does not have, or without a name, is a TypeError *)
Definition check_args (allowed : list string) (props : dict pyval) : result unit :=
  if forallb (fun k => existsb (String.eqb k) allowed) (keys props) && dmem "name" props
  then Ok tt else Err TypeError.
(** pulse.py 31-63, 145-172, 198-222: the constructors of Envelope, EnvelopeDrag and
    EnvelopeNetZero *)
Definition envelope_new (cls : string) (props : dict pyval) : result component :=
  rbind (check_args ["name"; "desc"; "comment"; "params"; "shape"; "use_t_before"] props) (fun _ =>
  rbind (str_arg "name" " " props) (fun name =>
  rbind (str_arg "desc" " " props) (fun desc =>
  rbind (str_arg "comment" " " props) (fun comment =>
  rbind (match dget "shape" props with
         | None | Some PNone => Ok None
         | Some (PStr s) => if existsb (String.eqb s) shape_names then Ok (Some s) else Err KeyError
         | Some _ => Err TypeError
         end) (fun shape =>
  rbind (match dget "use_t_before" props with
         | None => Ok false
         | Some (PBool b) => Ok b
         | Some _ => Err TypeError
         end) (fun before =>
  rbind (params_arg env_defaults props) (fun ps =>
  Ok (mkComp cls name desc comment shape before ps)))))))).
(** pulse.py 251-263: the constructor of Carrier *)
Definition carrier_new (props : dict pyval) : result component :=
  rbind (check_args ["name"; "desc"; "comment"; "params"] props) (fun _ =>
  rbind (str_arg "name" " " props) (fun name =>
  rbind (str_arg "desc" " " props) (fun desc =>
  rbind (str_arg "comment" " " props) (fun comment =>
  rbind (params_arg carrier_defaults props) (fun ps =>
  Ok (mkComp "Carrier" name desc comment None false ps)))))).
(** pulse.py 12-19, gates.py 209: [comp_lib[ctype]( **props )] *)
Definition comp_new (ctype : string) (props : dict pyval) : result component :=
  if existsb (String.eqb ctype) ["Envelope"; "EnvelopeDrag"; "EnvelopeNetZero"] then envelope_new ctype props
  else if String.eqb ctype "Carrier" then carrier_new props
  else Err KeyError.

(** gates.py 71-101: the attributes of an Instruction.  [n_extra] are the entries of
    [__dict__] put there by [from_dict] under names that are no attribute of the class. *)
Record instr : Type := mkInstr {
  n_name : string; n_ideal : pyval; n_targets : pyval; n_params : pyval;
  n_start : R; n_end : R;
  n_comps : dict (dict component); n_options : dict (dict (dict pyval));
  n_fixed : pyval; n_extra : dict pyval
}.
(** gates.py 247, 257: assignment of [self.comps] and [self._options] *)
Definition with_comps (i : instr) (cs : dict (dict component)) (os : dict (dict (dict pyval))) : instr :=
  mkInstr (n_name i) (n_ideal i) (n_targets i) (n_params i) (n_start i) (n_end i) cs os (n_fixed i) (n_extra i).

(** gates.py 253-255: dicts among the options become quantities *)
Fixpoint conv_options (o : dict pyval) : result (dict pyval) :=
  match o with
  | [] => Ok []
  | (k, v) :: r =>
      rbind (match v with PDict d => py_quantity (PDict d) | _ => Ok v end) (fun v =>
      rbind (conv_options r) (fun r => Ok ((k, v) :: r)))
  end.
(** gates.py 219-257: [add_component] (the message about an overwritten component is
    only printed) *)
Definition add_component (i : instr) (c : component) (chan : string) (options : option (dict pyval)) (name : option string) : result instr :=
  let name := match name with None => c_name c | Some n => n end in
  match dget chan (n_comps i) with
  | None => Err KeyError
  | Some m =>
      rbind (conv_options (match options with None => [] | Some o => o end)) (fun o =>
      match dget chan (n_options i) with
      | None => Err KeyError
      | Some os => Ok (with_comps i (dset chan (dset name c m) (n_comps i)) (dset chan (dset name o os) (n_options i)))
      end)
  end.

(** gates.py 169-186: [asdict].  The computed dict [components] is not used; the
    entry "drive_channels" holds the component objects. *)
Definition instr_asdict (i : instr) : dict pyval :=
  let out := ([("ideal", n_ideal i); ("targets", n_targets i); ("params", n_params i);
              ("_options", PDict (map (fun co => (fst co, PDict (map (fun ko => (fst ko, PDict (snd ko))) (snd co)))) (n_options i)));
              ("fixed_t_end", n_fixed i)] ++ n_extra i)%list in
  let out := dset "name" (PStr (n_name i)) out in
  let out := dset "gate_length" (PNum (n_end i - n_start i)) out in
  dset "drive_channels" (PDict (map (fun cc => (fst cc, PDict (map (fun kc => (fst kc, PObj (snd kc))) (snd cc)))) (n_comps i))) out.

Section FromDict.
  (** gates.py 125-138: the ideal gate chosen from the name *)
  Variable ideal_of_name : string -> pyval.

  (** gates.py 71-101: [__init__]; a name that is no string has no [split]. *)
  Definition instr_init (name : string) (targets params ideal : option pyval) (channels : list string) (t_start t_end : R) : instr :=
    mkInstr name
      (match ideal with Some (PNone) | None => ideal_of_name name | Some v => v end)
      (match targets with Some v => v | None => PNone end)
      (match params with Some (PDict d) => PDict d | _ => PDict [] end)
      t_start t_end (map (fun c => (c, [])) channels) (map (fun c => (c, [])) channels) (PBool true) [].
  (** gates.py 16-37: the name in the configuration *)
  Definition name_of (cfg : dict pyval) (name : option string) : result string :=
    match dget "name" cfg with
    | Some (PStr s) => Ok s
    | Some _ => Err AttributeError
    | None =>
        match dget "_name" cfg with
        | Some (PStr s) => Ok s
        | Some _ => Err AttributeError
        | None => match name with Some s => Ok s | None => Err AttributeError end
        end
    end.
  (** gates.py 201: one entry of [self.__dict__.update(cfg)].  The keys "comps",
      "_timings", "t_start" and "t_end", which asdict never writes, are not treated. *)
  Definition set_attr (i : instr) (kv : string * pyval) : instr :=
    let '(k, v) := kv in
    let upd nm id tg pa fx ex := mkInstr nm id tg pa (n_start i) (n_end i) (n_comps i) (n_options i) fx ex in
    if String.eqb k "ideal" then upd (n_name i) v (n_targets i) (n_params i) (n_fixed i) (n_extra i)
    else if String.eqb k "targets" then upd (n_name i) (n_ideal i) v (n_params i) (n_fixed i) (n_extra i)
    else if String.eqb k "params" then upd (n_name i) (n_ideal i) (n_targets i) v (n_fixed i) (n_extra i)
    else if String.eqb k "fixed_t_end" then upd (n_name i) (n_ideal i) (n_targets i) (n_params i) v (n_extra i)
    else if String.eqb k "_name" then upd (match v with PStr s => s | _ => n_name i end) (n_ideal i) (n_targets i) (n_params i) (n_fixed i) (n_extra i)
    else upd (n_name i) (n_ideal i) (n_targets i) (n_params i) (n_fixed i) (dset k v (n_extra i)).
  (** gates.py 211: [options[drive_chan][comp] if options else None] *)
  Definition options_for (options : option pyval) (chan comp : string) : result (option (dict pyval)) :=
    match options with
    | None | Some PNone | Some (PDict []) => Ok None
    | Some (PDict d) =>
        match dget chan d with
        | Some (PDict m) =>
            match dget comp m with
            | Some (PDict o) => Ok (Some o)
            | Some PNone => Ok None
            | Some _ => Err AttributeError
            | None => Err KeyError
            end
        | Some _ => Err TypeError
        | None => Err KeyError
        end
    | Some _ => Err TypeError
    end.
  (** gates.py 203-213: the components of one channel; only a dict has a [pop] with a
      key *)
  Fixpoint add_comps (options : option pyval) (chan : string) (comps : dict pyval) (i : instr) : result instr :=
    match comps with
    | [] => Ok i
    | (comp, PDict props) :: r =>
        match dget "c3type" props with
        | None => Err KeyError
        | Some (PStr ctype) =>
            let props := ddel "c3type" props in
            let props := if dmem "name" props then props else dset "name" (PStr comp) props in
            rbind (comp_new ctype props) (fun c =>
            rbind (options_for options chan comp) (fun o =>
            rbind (add_component i c chan o (Some comp)) (add_comps options chan r)))
        | Some _ => Err KeyError
        end
    | _ :: _ => Err AttributeError
    end.
  (** gates.py 202-213: all channels *)
  Fixpoint add_chans (options : option pyval) (chans : dict pyval) (i : instr) : result instr :=
    match chans with
    | [] => Ok i
    | (chan, PDict comps) :: r => rbind (add_comps options chan comps i) (add_chans options r)
    | _ :: _ => Err AttributeError
    end.
  (** gates.py 188-213: [from_dict] on a new instruction.  A gate length that is no
      number is stored by Python and fails later; here it is a TypeError. *)
  Definition from_dict (cfg : dict pyval) (name : option string) : result instr :=
    match dget "drive_channels" cfg with
    | None => Err KeyError
    | Some (PDict chans) =>
        match dget "gate_length" cfg with
        | None => Err KeyError
        | Some (PNum len) =>
            rbind (name_of cfg name) (fun nm =>
            let i := instr_init nm (dget "targets" cfg) (dget "params" cfg) (dget "ideal" cfg) (keys chans) 0%R len in
            let options := dget "_options" cfg in
            let cfg := ddel "drive_channels" (ddel "_options" cfg) in
            add_chans options chans (fold_left set_attr cfg i))
        | Some _ => Err TypeError
        end
    | Some _ => Err AttributeError
    end.
  (** gates.py 216, parametermap.py 118-131: written with [hjson_encode], read with
      [hjson_decode] *)
  Definition instr_reread (i : instr) (name : option string) : result instr :=
    rbind (of_json (to_json (PDict (instr_asdict i)))) (fun v =>
    match v with PDict cfg => from_dict cfg name | _ => Err AttributeError end).

  (** parametermap.py 132-146: [ParameterMap.fromdict] for gates without "mapto": the
      instructions read so far, extended *)
  Fixpoint pmap_fromdict (cfg : dict pyval) (instrs : dict instr) : result (dict instr) :=
    match cfg with
    | [] => Ok instrs
    | (k, PDict g) :: r => rbind (from_dict g (Some k)) (fun i => pmap_fromdict r (dset k i instrs))
    | _ :: _ => Err AttributeError
    end.
  (** parametermap.py 155-168: [asdict] with instructions only *)
  Definition pmap_asdict (instrs : dict instr) : dict pyval :=
    map (fun ki => (fst ki, PDict (instr_asdict (snd ki)))) instrs.
  (** parametermap.py 118-131, 148-153: [write_config] and [read_config] *)
  Definition pmap_reread (instrs : dict instr) : result (dict instr) :=
    rbind (of_json (to_json (PDict (pmap_asdict instrs)))) (fun v =>
    match v with PDict cfg => pmap_fromdict cfg [] | _ => Err AttributeError end).
End FromDict.
