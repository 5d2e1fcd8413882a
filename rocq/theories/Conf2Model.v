(** Configuration of devices, generators, chips, models and experiments
    (c3/generator/devices.py, c3/generator/generator.py, c3/libraries/chip.py,
    c3/libraries/tasks.py, c3/model.py, c3/experiment.py).

    Simplifications, stated once here:
    - descriptions and comments, which these [asdict]s do not write, are left out;
    - the parameters of an object are Python values: quantities, or whatever the caller
      passed as an unknown keyword;
    - a quantity passed as keyword counts as true (it has at least one entry);
    - an argument of a wrong type is an error at once (Python would store it);
    - the matrices a model builds from its components are not part of this file. *)
From Coq Require Import Reals.
From Verif Require Import Base QuantityModel ExpModel MiscModel ConfModel ChainModel.
Local Open Scope list_scope.
Local Open Scope string_scope.

(** devices.py 33-37: numbers of inputs and outputs are integers *)
Definition nat_of (v : pyval) : result nat :=
  match v with
  | PNum r => let n := Z.to_nat (up r - 1) in if Req_EM_T r (INR n) then Ok n else Err TypeError
  | _ => Err TypeError
  end.
(** devices.py 33-47: an argument with a default value *)
Definition arg {A} (k : string) (def : A) (conv : pyval -> result A) (props : dict pyval) : result A :=
  match dget k props with None => Ok def | Some v => conv v end.
(** devices.py 33-47: a number *)
Definition num_of (v : pyval) : result R := match v with PNum r => Ok r | _ => Err TypeError end.
(** devices.py 33-47: a string *)
Definition str_of (v : pyval) : result string := match v with PStr s => Ok s | _ => Err TypeError end.
(** model.py 119-130, generator.py 57-91: a list of names *)
Definition strs_of (v : pyval) : result (list string) :=
  match v with
  | PList l => fold_right (fun v r => rbind (str_of v) (fun s => rbind r (fun ss => Ok (s :: ss)))) (Ok []) l
  | _ => Err TypeError
  end.
(** c3objs.py 32-43: [C3obj.__init__]: dicts among the parameters become quantities,
    anything else is stored as it is *)
Definition obj_params (params : pyval) : result (dict pyval) :=
  match params with
  | PNone => Ok []
  | PDict ps => conv_options ps
  | _ => Err AttributeError
  end.
(** c3objs.py 48-51, devices.py 57-59, chip.py 89-91, 1141-1143: the parameters in an
    [asdict]; only quantities have an [asdict] *)
Fixpoint params_asdict (ps : dict pyval) : result (dict pyval) :=
  match ps with
  | [] => Ok []
  | (k, PQty q) :: r => rbind (params_asdict r) (fun d => Ok ((k, qdict_val (asdict q)) :: d))
  | _ :: _ => Err AttributeError
  end.

(** ** Devices *)
(** devices.py 33-50: a device.  [e_attrs] are the attributes some classes add. *)
Record dev : Type := mkDevice {
  e_class : string; e_name : string; e_in : nat; e_out : nat; e_res : R;
  e_params : dict pyval; e_attrs : dict pyval
}.
(** devices.py 33-50: removing the keys a constructor pops *)
Definition without (ks : list string) (d : dict pyval) : dict pyval := fold_right (@ddel pyval) d ks.
(** devices.py 33-47: [Device.__init__]; the keywords left over are added to the
    parameters *)
Definition device_base (cls : string) (props : dict pyval) : result dev :=
  rbind (arg "inputs" 0%nat nat_of props) (fun i =>
  rbind (arg "outputs" 0%nat nat_of props) (fun o =>
  rbind (arg "resolution" 0%R num_of props) (fun res =>
  match dget "name" props with
  | None => Err KeyError
  | Some v =>
      rbind (str_of v) (fun name =>
      rbind (arg "params" [] (fun v => match v with PDict d => Ok d | _ => Err AttributeError end) props) (fun ps =>
      rbind (obj_params (PDict (dupdate ps (without ["inputs"; "outputs"; "resolution"; "name"; "desc"; "comment"; "params"] props)))) (fun ps =>
      Ok (mkDevice cls name i o res ps []))))
  end))).
(** devices.py 198, 255 and others: [self.inputs = props.pop("inputs", n)] *)
Definition with_io (din dout : option nat) (props : dict pyval) (d : dev) : result dev :=
  rbind (match din with None => Ok (e_in d) | Some n => arg "inputs" n nat_of props end) (fun i =>
  rbind (match dout with None => Ok (e_out d) | Some n => arg "outputs" n nat_of props end) (fun o =>
  Ok (mkDevice (e_class d) (e_name d) i o (e_res d) (e_params d) (e_attrs d)))).
(** devices.py 254-258, 952, 975, 1017: assignment of a parameter *)
Definition with_param (k : string) (v : pyval) (d : dev) : dev :=
  mkDevice (e_class d) (e_name d) (e_in d) (e_out d) (e_res d) (dset k v (e_params d)) (e_attrs d).
(** devices.py 254, 305, 395, 1069-1071, 1145: assignment of an attribute *)
Definition with_attr (k : string) (v : pyval) (d : dev) : dev :=
  mkDevice (e_class d) (e_name d) (e_in d) (e_out d) (e_res d) (e_params d) (dset k v (e_attrs d)).
(** devices.py 162-166, 404-408, 475-479: parameters that must be there *)
Definition needs (ks : list string) (d : dev) : result dev :=
  if forallb (fun k => dmem k (e_params d)) ks then Ok d else Err C3Error.
(** devices.py 254, 258, 305: [props.pop(k, default)] *)
Definition popped (k : string) (def : pyval) (props : dict pyval) : pyval :=
  match dget k props with Some v => v | None => def end.

(** devices.py 967-976: [Additive_Noise.__init__] *)
Definition noise_new (cls : string) (props : dict pyval) : result dev :=
  rbind (device_base cls props) (fun d =>
  rbind (with_io (Some 1) (Some 1) props d) (fun d =>
  Ok (match dget "noise_amp" props with Some v => with_param "noise_amp" v d | None => d end)))%nat.
(** devices.py 151-1150: the registered classes and their constructors *)
Definition dev_new (cls : string) (props : dict pyval) : result dev :=
  let is := String.eqb cls in
  if existsb is ["VoltsToHertz"; "Response"; "ResponseFFT"; "StepFuncFilter"; "ExponentialIIR"; "HighpassExponential"; "SkinEffectResponse"; "HighpassFilter"]
  then rbind (device_base cls props) (with_io (Some 1) (Some 1) props)
  else if is "Readout" then rbind (device_base cls props) (needs ["factor"; "offset"])
  else if is "Crosstalk" then
    let channels := popped "channels" PNone props in
    let props := ddel "channels" props in
    rbind (device_base cls props) (fun d =>
    rbind (with_io (Some 1) (Some 1) props (with_attr "channels" channels d)) (fun d =>
    Ok (with_param "crosstalk_matrix" (popped "crosstalk_matrix" PNone props) d)))
  else if is "DigitalToAnalog" then
    rbind (device_base cls props) (fun d =>
    rbind (with_io (Some 1) (Some 1) props d) (fun d =>
    Ok (with_attr "sampling_method" (popped "sampling_method" (PStr "nearest") props) d)))
  else if is "Filter" then Err C3Error
  else if is "CouplingTuning" then
    let two := popped "two_inputs" (PBool false) props in
    let props := ddel "two_inputs" props in
    rbind (device_base cls props) (fun d =>
    rbind (match two with PBool b => Ok b | _ => Err TypeError end) (fun b =>
    rbind (with_io (Some (if b then 2 else 1)) (Some 1) props (with_attr "two_inputs" two d)) (fun d =>
    needs ["w_1"; "w_2"; "g0"] d)))
  else if is "FluxTuning" then
    rbind (device_base cls props) (fun d =>
    rbind (with_io (Some 1) (Some 1) props d) (needs ["phi_0"; "phi"; "omega_0"; "anhar"]))
  else if is "Mixer" then rbind (device_base cls props) (with_io (Some 2) (Some 1) props)
  else if is "LONoise" then
    rbind (device_base cls props) (fun d =>
    rbind (with_io (Some 1) (Some 1) props d) (fun d =>
    match dget "noise_perc" props with None => Err KeyError | Some v => Ok (with_param "noise_perc" v d) end))
  else if is "Additive_Noise" || is "DC_Noise" then noise_new cls props
  else if is "Pink_Noise" then
    rbind (noise_new cls props) (fun d =>
    Ok (with_param "bfl_num" (popped "bfl_num" (PQty (qty 5 1 10 "undefined")) props) d))
  else if is "DC_Offset" then
    rbind (device_base cls props) (fun d =>
    rbind (with_io (Some 1) (Some 1) props d) (fun d =>
    match dget "offset_amp" (e_params d) with
    | None => Err KeyError
    | Some PNone => match dget "offset_amp" props with None => Err KeyError | Some v => Ok (with_param "offset_amp" v d) end
    | Some _ => Ok d
    end))
  else if is "LO" then
    rbind (device_base cls props) (fun d =>
    rbind (with_io None (Some 1) props d) (fun d =>
    Ok (with_attr "amp_noise" (popped "amp_noise" (PNum 0) props)
       (with_attr "freq_noise" (popped "freq_noise" (PNum 0) props)
       (with_attr "phase_noise" (popped "phase_noise" (PNum 0) props) d)))))
  else if is "AWG" then
    let logdir := popped "logdir" (PStr "c3logs/AWG") props in
    let props := ddel "logdir" props in
    rbind (device_base cls props) (fun d => with_io None (Some 1) props (with_attr "logdir" logdir d))
  else Err KeyError.
(** devices.py 56-67: [asdict] *)
Definition dev_asdict (d : dev) : result (dict pyval) :=
  rbind (params_asdict (e_params d)) (fun ps =>
  Ok [("c3type", PStr (e_class d)); ("name", PStr (e_name d)); ("inputs", PNum (INR (e_in d))); ("outputs", PNum (INR (e_out d)));
      ("params", PDict ps); ("resolution", PNum (e_res d))]).

(** ** Generator *)
(** generator.py 36-50: the attributes of a Generator (the callback is left out) *)
Record gen : Type := mkGenerator {
  r_devices : dict dev; r_chains : dict chain; r_sorted : dict (list string); r_resolution : R
}.
(** devices.py 33-50: what the check of the chains reads of a device *)
Definition chain_view (d : dev) : device := mkDev (e_in d) (e_out d) (e_res d).
(** generator.py 36-56: [Generator(devices, chains, resolution)] *)
Definition gen_init (devices : dict dev) (chains : dict chain) (resolution : R) : result gen :=
  match chains with
  | [] => Ok (mkGenerator devices [] [] resolution)
  | _ =>
      match check_chains (map (fun kd => (fst kd, chain_view (snd kd))) devices) chains [] with
      | (sorted, None) => Ok (mkGenerator devices chains sorted resolution)
      | (_, Some e) => Err e
      end
  end.
(** generator.py 160-167: the chains as a value *)
Definition chains_val (cs : dict chain) : pyval :=
  PDict (map (fun kc => (fst kc, PDict (map (fun ks => (fst ks, PList (map PStr (snd ks)))) (snd kc)))) cs).
(** generator.py 160-167: apply [asdict] to all entries *)
Fixpoint asdicts {A} (f : A -> result (dict pyval)) (d : dict A) : result (dict pyval) :=
  match d with
  | [] => Ok []
  | (k, a) :: r => rbind (f a) (fun v => rbind (asdicts f r) (fun vs => Ok ((k, PDict v) :: vs)))
  end.
(** generator.py 160-167: [asdict] *)
Definition gen_asdict (g : gen) : result (dict pyval) :=
  rbind (asdicts dev_asdict (r_devices g)) (fun ds => Ok [("Devices", PDict ds); ("Chains", chains_val (r_chains g))]).
(** generator.py 144-150: the devices of a configuration are added to those there *)
Fixpoint read_devs (cfg : dict pyval) (ds : dict dev) : result (dict dev) :=
  match cfg with
  | [] => Ok ds
  | (name, PDict props) :: r =>
      match dget "c3type" props with
      | None => Err KeyError
      | Some (PStr ty) =>
          let props := ddel "c3type" props in
          let props := if dmem "name" props then props else dset "name" (PStr name) props in
          rbind (dev_new ty props) (fun d => read_devs r (dset name d ds))
      | Some _ => Err KeyError
      end
  | _ :: _ => Err AttributeError
  end.
(** generator.py 150: the chains of a configuration *)
Fixpoint read_chain (c : dict pyval) : result chain :=
  match c with
  | [] => Ok []
  | (k, v) :: r => rbind (strs_of v) (fun l => rbind (read_chain r) (fun c => Ok ((k, l) :: c)))
  end.
(** generator.py 150 *)
Fixpoint read_chains (cs : dict pyval) : result (dict chain) :=
  match cs with
  | [] => Ok []
  | (k, PDict c) :: r => rbind (read_chain c) (fun c => rbind (read_chains r) (fun cs => Ok ((k, c) :: cs)))
  | _ :: _ => Err TypeError
  end.
(** generator.py 144-151: [fromdict]; the check of the chains stores the sorted ones *)
Definition gen_fromdict (cfg : dict pyval) (g : gen) : result gen :=
  match dget "Devices" cfg with
  | None => Err KeyError
  | Some (PDict ds) =>
      rbind (read_devs ds (r_devices g)) (fun devs =>
      match dget "Chains" cfg with
      | None => Err KeyError
      | Some (PDict cs) =>
          rbind (read_chains cs) (fun chains =>
          match check_chains (map (fun kd => (fst kd, chain_view (snd kd))) devs) chains (r_sorted g) with
          | (sorted, None) => Ok (mkGenerator devs chains sorted (r_resolution g))
          | (_, Some e) => Err e
          end)
      | Some _ => Err AttributeError
      end)
  | Some _ => Err AttributeError
  end.
(** generator.py 130-158: [write_config] and [read_config] by a new Generator *)
Definition gen_reread (g : gen) : result gen :=
  rbind (gen_asdict g) (fun d =>
  rbind (of_json (to_json (PDict d))) (fun v =>
  match v with PDict cfg => gen_fromdict cfg (mkGenerator [] [] [] 0) | _ => Err TypeError end)).

(** ** Chip components *)
(** chip.py 27-52: a physical component; [p_drive] is the drive line connected last *)
Record phys : Type := mkPhys {
  p_class : string; p_name : string; p_dim : pyval; p_params : dict pyval; p_drive : option string
}.
(** chip.py 1121-1151: a coupling or drive line *)
Record line : Type := mkLine {
  l_class : string; l_name : string; l_func : string; l_conn : list string; l_params : dict pyval
}.
(** tasks.py 20-190: a task *)
Record task : Type := mkTask { k_class : string; k_name : string; k_params : dict pyval }.

(** chip.py 139-150 and others: [if x: self.params["x"] = x] in turn *)
Definition add_kw (ks : list string) (props ps : dict pyval) : dict pyval :=
  fold_left (fun ps k => match dget k props with None | Some PNone => ps | Some v => dset k v ps end) ks ps.
(** chip.py 120-132 and others: the keywords every component takes *)
Definition base_kw := ["name"; "hilbert_dim"; "desc"; "comment"; "params"].
(** chip.py 38-47, 100-150, 246, 291-352, 557-604, 672-726, 931-975, 1021-1075: the
    constructors.  CShuntFluxQubit pops two keys from its argument [params], which
    fails for [None]; SNAIL overwrites two parameters. *)
Definition phys_new (cls : string) (props : dict pyval) : result phys :=
  let is := String.eqb cls in
  let params := popped "params" PNone props in
  let build (kws : list string) (need_dim : bool) (dim : pyval) (f : dict pyval -> result (dict pyval)) : result phys :=
    rbind (check_args (base_kw ++ kws)%list props) (fun _ =>
    if need_dim && negb (dmem "hilbert_dim" props) then Err TypeError else
    rbind (rbind (obj_params params) f) (fun ps =>
    rbind (str_arg "name" "" props) (fun name =>
    Ok (mkPhys cls name (popped "hilbert_dim" dim props) ps None)))) in
  let flux := ["EC"; "EJ"; "EL"; "phi"; "phi_0"; "gamma"; "calc_dim"] in
  let pop_check (ps : dict pyval) : result (dict pyval) := match dget "params" props with Some PNone => Err AttributeError | _ => Ok ps end in
  if is "Resonator" then build [] false PNone Ok
  else if is "Qubit" then
    let kw := ["freq"; "anhar"; "t1"; "t2star"; "temp"] in build kw true PNone (fun ps => Ok (add_kw kw props ps))
  else if is "Transmon" || is "TransmonExpanded" then
    build ["freq"; "anhar"; "phi"; "phi_0"; "gamma"; "d"; "t1"; "t2star"; "temp"] false PNone (fun ps =>
    let ps := add_kw ["freq"; "phi"; "phi_0"] props ps in
    let ps := match dget "d" props with None | Some PNone => add_kw ["gamma"] props ps | Some v => dset "d" v ps end in
    Ok (add_kw ["anhar"; "t1"; "t2star"; "temp"] props ps))
  else if is "CShuntFluxQubitCos" then
    build (flux ++ ["d"; "anhar"; "t1"; "t2star"; "temp"])%list false PNone (fun ps => Ok (add_kw flux props (add_kw ["t1"; "t2star"; "temp"] props ps)))
  else if is "CShuntFluxQubit" then
    build (flux ++ ["d"; "anhar"; "t1"; "t2star"; "temp"; "resolution"])%list false PNone (fun ps =>
    rbind (pop_check ps) (fun ps => Ok (add_kw flux props (add_kw ["t1"; "t2star"; "temp"] props ps))))
  else if is "Fluxonium" then
    build (flux ++ ["t1"; "t2star"; "temp"])%list false PNone (fun ps =>
    rbind (match dget "params" props with None | Some PNone => Err AttributeError | _ => Ok ps end) (fun ps =>
    Ok (add_kw ["EL"] props (add_kw ["EC"; "EJ"; "phi"; "phi_0"; "gamma"] props (add_kw ["t1"; "t2star"; "temp"] props ps)))))
  else if is "SNAIL" then
    build ["freq"; "anhar"; "beta"; "t1"; "t2star"; "temp"] false (PNum 4) (fun ps =>
    let ps := add_kw ["t1"; "t2star"; "temp"] props ps in
    let ps := dset "beta" (popped "beta" PNone props) (dset "freq" (popped "freq" PNone props) ps) in
    Ok (add_kw ["anhar"; "t1"; "t2star"; "temp"] props ps))
  else Err KeyError.
(** chip.py 88-96: [asdict] (the name is not written) *)
Definition phys_asdict (p : phys) : result (dict pyval) :=
  rbind (params_asdict (p_params p)) (fun ps =>
  Ok [("c3type", PStr (p_class p)); ("params", PDict ps); ("hilbert_dim", p_dim p)]).
(** hamiltonians.py 8-166: the registered functions *)
Definition ham_names := ["resonator"; "duffing"; "third_order"; "int_XX"; "int_YY"; "x_drive"; "y_drive"; "z_drive"].
(** chip.py 1131-1139, 1168-1186: the constructors *)
Definition line_new (cls : string) (props : dict pyval) : result line :=
  if existsb (String.eqb cls) ["LineComponent"; "Coupling"; "Drive"; "Coupling_Drive"] then
    let kw := if String.eqb cls "Coupling" then ["strength"] else [] in
    match dget "hamiltonian_func" props, dget "connected" props with
    | Some f, Some c =>
        rbind (check_args (["name"; "desc"; "comment"; "params"; "hamiltonian_func"; "connected"] ++ kw)%list props) (fun _ =>
        rbind (strs_of c) (fun conn =>
        rbind (str_of f) (fun f =>
        if negb (existsb (String.eqb f) ham_names) then Err KeyError else
        rbind (str_arg "name" "" props) (fun name =>
        rbind (obj_params (popped "params" PNone props)) (fun ps =>
        Ok (mkLine cls name f conn (add_kw kw props ps)))))))
    | _, _ => Err KeyError
    end
  else Err KeyError.
(** chip.py 1141-1151: [asdict] *)
Definition line_asdict (l : line) : result (dict pyval) :=
  rbind (params_asdict (l_params l)) (fun ps =>
  Ok [("c3type", PStr (l_class l)); ("params", PDict ps); ("hamiltonian_func", PStr (l_func l)); ("connected", PList (map PStr (l_conn l)))]).
(** tasks.py 31-45, 92-105, 133-160: the constructors; ConfusionMatrix stores every
    other keyword as a row *)
Definition task_new (cls : string) (props : dict pyval) : result task :=
  let is := String.eqb cls in
  let build (allowed : bool) (def : string) (f : dict pyval -> dict pyval) : result task :=
    if allowed then
      rbind (str_arg "name" def props) (fun name =>
      rbind (obj_params (popped "params" PNone props)) (fun ps => Ok (mkTask cls name (f ps))))
    else Err TypeError in
  let only ks := forallb (fun k => existsb (String.eqb k) (["name"; "desc"; "comment"; "params"] ++ ks)%list) (keys props) in
  if is "InitialiseGround" then build (only ["init_temp"]) "init_ground" (add_kw ["init_temp"] props)
  else if is "ConfusionMatrix" then
    build true "conf_matrix" (fun ps =>
      fold_left (fun ps kv => dset ("confusion_row_" ++ fst kv) (snd kv) ps) (without ["name"; "desc"; "comment"; "params"] props) ps)
  else if is "MeasurementRescale" then build (only ["meas_offset"; "meas_scale"]) "meas_rescale" (add_kw ["meas_offset"; "meas_scale"] props)
  else Err KeyError.
(** c3objs.py 48-52: [asdict] *)
Definition task_asdict (k : task) : result (dict pyval) :=
  rbind (params_asdict (k_params k)) (fun ps =>
  Ok [("c3type", PStr (k_class k)); ("params", PDict ps); ("name", PStr (k_name k))]).

(** ** Model *)
(** model.py 43-61: the attributes of a Model that are not computed from others;
    [m_maxex] is missing until components are set. *)
Record cmodel : Type := mkCModel {
  m_subs : dict phys; m_coups : dict line; m_tasks : dict task; m_maxex : option pyval;
  m_dressed : bool; m_lind : bool; m_fr : bool; m_deph : R
}.
(** model.py 43-61: before any component is set *)
Definition model_blank : cmodel := mkCModel [] [] [] None true false true 0.
(** model.py 109-117: [__check_drive_connect] marks the driven subsystems; the handler
    of the KeyError raises one itself *)
Fixpoint drive_connect (nm : string) (conn : list string) (subs : dict phys) : result (dict phys) :=
  match conn with
  | [] => Ok subs
  | c :: r =>
      match dget c subs with
      | None => Err KeyError
      | Some p => drive_connect nm r (dset c (mkPhys (p_class p) (p_name p) (p_dim p) (p_params p) (Some nm)) subs)
      end
  end.
(** model.py 122-128: the loop over the couplings *)
Fixpoint add_lines (ls : list line) (subs : dict phys) (coups : dict line) : result (dict phys * dict line) :=
  match ls with
  | [] => Ok (subs, coups)
  | l :: r =>
      let coups := dset (l_name l) l coups in
      rbind (if existsb (String.eqb (l_class l)) ["Drive"; "Coupling_Drive"] then drive_connect (l_name l) (l_conn l) subs else Ok subs) (fun subs =>
      if forallb (fun c => dmem c subs) (l_conn l) then add_lines r subs coups else Err C3Error)
  end.
(** model.py 119-135: [set_components]; [couplings] has the default None, over which
    the code iterates *)
Definition set_components (subs : list phys) (coups : option (list line)) (maxex : pyval) (m : cmodel) : result cmodel :=
  let ss := fold_left (fun d p => dset (p_name p) p d) subs (m_subs m) in
  match coups with
  | None => Err TypeError
  | Some ls =>
      rbind (add_lines ls ss (m_coups m)) (fun '(ss, cs) =>
      if existsb (fun k => dmem k ss) (keys cs) then Err KeyError
      else Ok (mkCModel ss cs (m_tasks m) (Some maxex) (m_dressed m) (m_lind m) (m_fr m) (m_deph m)))
  end.
(** model.py 137-139: [set_tasks] *)
Definition set_tasks (ts : list task) (m : cmodel) : cmodel :=
  mkCModel (m_subs m) (m_coups m) (fold_left (fun d k => dset (k_name k) k d) ts (m_tasks m)) (m_maxex m) (m_dressed m) (m_lind m) (m_fr m) (m_deph m).
(** model.py 43-61: [__init__] *)
Definition model_init (subs : list phys) (coups : option (list line)) (tasks : list task) (maxex : pyval) : result cmodel :=
  rbind (match subs with [] => Ok model_blank | _ => set_components subs coups maxex model_blank end) (fun m =>
  Ok (match tasks with [] => m | _ => set_tasks tasks m end)).
(** model.py 311-351: [set_dressed], [set_lindbladian] as far as stored *)
Definition with_flags (dressed lind : bool) (m : cmodel) : cmodel :=
  mkCModel (m_subs m) (m_coups m) (m_tasks m) (m_maxex m) dressed lind (m_fr m) (m_deph m).
(** model.py 288-306: [asdict] *)
Definition model_asdict (m : cmodel) : result (dict pyval) :=
  rbind (asdicts phys_asdict (m_subs m)) (fun qs =>
  rbind (asdicts line_asdict (m_coups m)) (fun cs =>
  rbind (asdicts task_asdict (m_tasks m)) (fun ts =>
  match m_maxex m with
  | None => Err AttributeError
  | Some x => Ok [("Qubits", PDict qs); ("Couplings", PDict cs); ("Tasks", PDict ts); ("max_excitations", x)]
  end))).
(** model.py 250-274: the objects of one section of a configuration, in order *)
Fixpoint read_parts {A} (new : string -> dict pyval -> result A) (cfg : dict pyval) : result (list A) :=
  match cfg with
  | [] => Ok []
  | (name, PDict props) :: r =>
      let props := dset "name" (PStr name) props in
      match dget "c3type" props with
      | None => Err KeyError
      | Some (PStr ty) => rbind (new ty (ddel "c3type" props)) (fun a => rbind (read_parts new r) (fun l => Ok (a :: l)))
      | Some _ => Err KeyError
      end
  | _ :: _ => Err AttributeError
  end.
(** model.py 250-268: a section that must be there *)
Definition section (k : string) (cfg : dict pyval) : result (dict pyval) :=
  match dget k cfg with None => Err KeyError | Some (PDict d) => Ok d | Some _ => Err AttributeError end.
(** model.py 240-280: [fromdict] *)
Definition model_fromdict (cfg : dict pyval) (m : cmodel) : result cmodel :=
  rbind (section "Qubits" cfg) (fun qs =>
  rbind (read_parts phys_new qs) (fun subs =>
  rbind (section "Couplings" cfg) (fun cs =>
  rbind (read_parts line_new cs) (fun coups =>
  rbind (match dget "Tasks" cfg with
         | None => Ok m
         | Some (PDict ts) => rbind (read_parts task_new ts) (fun ts => Ok (set_tasks ts m))
         | Some _ => Err AttributeError
         end) (fun m =>
  let m := match dget "use_dressed_basis" cfg with Some (PBool b) => with_flags b (m_lind m) m | _ => m end in
  rbind (set_components subs (Some coups) (PNum 0) m) (fun m =>
  Ok (mkCModel (m_subs m) (m_coups m) (m_tasks m) (Some (popped "max_excitations" PNone cfg)) (m_dressed m) (m_lind m) (m_fr m) (m_deph m)))))))).
(** model.py 226-238, 282-286: [write_config] and [read_config] by a new Model *)
Definition model_reread (m : cmodel) : result cmodel :=
  rbind (model_asdict m) (fun d =>
  rbind (of_json (to_json (PDict d))) (fun v =>
  match v with PDict cfg => model_fromdict cfg model_blank | _ => Err TypeError end)).

(** ** Experiment *)
(** experiment.py 58-75: the attributes that asdict writes, and the name of the
    propagation method *)
Record cexp : Type := mkCExp {
  x_model : cmodel; x_gen : gen; x_instrs : dict instr;
  x_batch : pyval; x_control : pyval; x_overwrite : pyval; x_stop : pyval;
  x_res : R; x_method : string
}.
(** experiment.py 58-75: a new Experiment *)
Definition exp_blank : cexp :=
  mkCExp model_blank (mkGenerator [] [] [] 0) [] PNone (PBool true) (PBool true) (PBool true) (100 * 10 ^ 9) "pwc".
(** experiment.py 251-269: [asdict] *)
Definition exp_asdict (x : cexp) : result (dict pyval) :=
  rbind (model_asdict (x_model x)) (fun m =>
  rbind (gen_asdict (x_gen x)) (fun g =>
  Ok [("instructions", PDict (pmap_asdict (x_instrs x))); ("model", PDict m); ("generator", PDict g);
      ("options", PDict [("propagate_batch_size", x_batch x); ("use_control_fields", x_control x);
                         ("overwrite_propagators", x_overwrite x); ("stop_partial_propagator_gradient", x_stop x)]);
      ("sim_res", PNum (x_res x))])).
(** experiment.py 238-240: one option ([self.__dict__[k] = v]; names that are no option
    are not treated) *)
Definition set_option (x : cexp) (kv : string * pyval) : cexp :=
  let '(k, v) := kv in
  let upd b c o s := mkCExp (x_model x) (x_gen x) (x_instrs x) b c o s (x_res x) (x_method x) in
  if String.eqb k "propagate_batch_size" then upd v (x_control x) (x_overwrite x) (x_stop x)
  else if String.eqb k "use_control_fields" then upd (x_batch x) v (x_overwrite x) (x_stop x)
  else if String.eqb k "overwrite_propagators" then upd (x_batch x) (x_control x) v (x_stop x)
  else if String.eqb k "stop_partial_propagator_gradient" then upd (x_batch x) (x_control x) (x_overwrite x) v
  else x.
Section Experiment.
  (** gates.py 125-138 *)
  Variable ideal_of_name : string -> pyval.
  (** experiment.py 227-249: [from_dict]; the propagation method is the default one *)
  Definition exp_from_dict (cfg : dict pyval) (x : cexp) : result cexp :=
    rbind (section "model" cfg) (fun m =>
    rbind (model_fromdict m model_blank) (fun m =>
    rbind (section "generator" cfg) (fun g =>
    rbind (gen_fromdict g (mkGenerator [] [] [] 0)) (fun g =>
    rbind (section "instructions" cfg) (fun is =>
    rbind (pmap_fromdict ideal_of_name is []) (fun is =>
    rbind (match dget "options" cfg with
           | None => Ok x
           | Some (PDict os) => Ok (fold_left set_option os x)
           | Some _ => Err AttributeError
           end) (fun x =>
    rbind (arg "sim_res" (100 * 10 ^ 9)%R num_of cfg) (fun res =>
    Ok (mkCExp m g is (x_batch x) (x_control x) (x_overwrite x) (x_stop x) res "pwc")))))))))
  .
  (** experiment.py 215-225, 243-249: [write_config] and [read_config] by a new
      Experiment *)
  Definition exp_reread (x : cexp) : result cexp :=
    rbind (exp_asdict x) (fun d =>
    rbind (of_json (to_json (PDict d))) (fun v =>
    match v with PDict cfg => exp_from_dict cfg exp_blank | _ => Err TypeError end)).
End Experiment.
