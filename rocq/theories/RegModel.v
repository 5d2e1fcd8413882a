(** Model of the registration of parameters: how a ParameterMap collects the Quantity
    objects of the model, the devices and the gates under identifiers
    (c3/parametermap.py 24-71, 132-146, 225-265; c3/signal/gates.py 219-280).

    Quantities are objects shared between their owner and the map, so they live in a heap
    and owners hold addresses. *)
From Coq Require Import Reals.
From Verif Require Import Base QuantityModel PMapModel QiskitModel ExpModel.
Local Open Scope list_scope.
Local Open Scope nat_scope.
Local Notation length := List.length.

(** c3objs.py 55-108: a reference to a Quantity object *)
Notation addr := nat (only parsing).
(** c3objs.py 55-108: the Quantity objects that exist, by address *)
Definition heap := list quantity.
(** c3objs.py 55-108: assignment to the attributes of the object at an address *)
Fixpoint hput (a : addr) (q : quantity) (h : heap) : heap :=
  match a, h with
  | _, [] => []
  | O, _ :: r => q :: r
  | S a', x :: r => x :: hput a' q r
  end.

(** c3objs.py 16-52: a C3obj: its name and its parameters *)
Record rcomp := { rc_name : string; rc_params : dict addr }.
(** gates.py 252-257: an option of a component: a Quantity or any other value *)
Inductive ropt := OQty (a : addr) | OVal (s : string).
(** gates.py 124-138: the ideal matrix: computed from the name, or given by the user (a tag
    stands for the matrix) *)
Inductive rideal := FromName (n : string) | Given (tag : nat).
(** gates.py 71-101: an Instruction *)
Record rinstr := {
  ri_name : string; ri_targets : option (list nat); ri_ideal : rideal;
  ri_comps : dict (dict rcomp); ri_opts : dict (dict (dict ropt))
}.
(** gates.py 164-167 *)
Definition ri_key (i : rinstr) : string := get_key (ri_name i) (ri_targets i).
(** gates.py 103-122: assigning the name also resets the ideal matrix *)
Definition set_name (n : string) (i : rinstr) : rinstr :=
  {| ri_name := n; ri_targets := ri_targets i; ri_ideal := FromName n; ri_comps := ri_comps i; ri_opts := ri_opts i |}.

(** gates.py 264-267: the parameters of one component of one channel *)
Definition comp_pars (key chan comp : string) (c : rcomp) : list (list string * addr) :=
  map (fun pa => ([key; chan; comp; fst pa], snd pa)) (rc_params c).
(** gates.py 268-279: its options that are Quantities *)
Definition opt_pars (key chan comp : string) (o : dict ropt) : list (list string * addr) :=
  flat_map (fun ov => match snd ov with OQty a => [([key; chan; comp; fst ov], a)] | OVal _ => [] end) o.
(** gates.py 263-279: the components of one channel; [_options[chan][comp]] must exist *)
Fixpoint chan_pars (key chan : string) (opts : dict (dict (dict ropt))) (cs : dict rcomp) : result (list (list string * addr)) :=
  match cs with
  | [] => Ok []
  | (comp, c) :: r =>
      match dget chan opts with
      | None => Err KeyError
      | Some co => match dget comp co with
                   | None => Err KeyError
                   | Some o => rbind (chan_pars key chan opts r) (fun rest =>
                               Ok (comp_pars key chan comp c ++ opt_pars key chan comp o ++ rest))
                   end
      end
  end.
(** gates.py 262-279: the loop over the channels *)
Fixpoint all_pars (key : string) (opts : dict (dict (dict ropt))) (chans : dict (dict rcomp)) : result (list (list string * addr)) :=
  match chans with
  | [] => Ok []
  | (chan, cs) :: r => rbind (chan_pars key chan opts cs) (fun a => rbind (all_pars key opts r) (fun b => Ok (a ++ b)))
  end.
(** gates.py 259-280: [get_optimizable_parameters] *)
Definition get_optimizable_parameters (i : rinstr) : result (list (list string * addr)) :=
  all_pars (ri_key i) (ri_opts i) (ri_comps i).

(** gates.py 71-101: [__init__]: every channel starts with no components and no options *)
Definition new_instruction (name : string) (targets : option (list nat)) (ideal : option nat) (channels : list string) : rinstr :=
  {| ri_name := name; ri_targets := targets;
     ri_ideal := match ideal with Some t => Given t | None => FromName name end;
     ri_comps := fold_left (fun d c => dset c [] d) channels [];
     ri_opts := fold_left (fun d c => dset c [] d) channels [] |}.
(** gates.py 219-257: [add_component]; an unknown channel raises KeyError.  The conversion of
    dictionary options to Quantities is done before ([options] holds the objects). *)
Definition add_component (c : rcomp) (chan : string) (options : option (dict ropt)) (name : option string) (i : rinstr) : result rinstr :=
  let n := match name with Some n => n | None => rc_name c end in
  match dget chan (ri_comps i), dget chan (ri_opts i) with
  | Some cs, Some os =>
      Ok {| ri_name := ri_name i; ri_targets := ri_targets i; ri_ideal := ri_ideal i;
            ri_comps := dset chan (dset n c cs) (ri_comps i);
            ri_opts := dset chan (dset n (match options with Some o => o | None => [] end) os) (ri_opts i) |}
  | _, _ => Err KeyError
  end.

(** parametermap.py 24-44: the attributes of ParameterMap concerned with registration;
    [heap] is the state of the Quantity objects. *)
Record registry := {
  rg_instructions : dict rinstr; rg_components : dict rcomp;
  rg_lens : dict nat; rg_pars : dict addr; rg_model_ids : list string; rg_heap : heap
}.
(** parametermap.py 46-68: the three collections built by [__initialize_parameters] *)
Record collected := { co_lens : dict nat; co_pars : dict addr; co_ids : list string }.
(** c3objs.py 95-108: [par_value.length] *)
Definition qlength (h : heap) (a : addr) : nat := match nth_error h a with Some q => length (q_value q) | None => 0 end.
(** parametermap.py 54-55, 63-64: registering one parameter *)
Definition register (h : heap) (id : string) (a : addr) (c : collected) : collected :=
  {| co_lens := dset id (qlength h a) (co_lens c); co_pars := dset id a (co_pars c); co_ids := co_ids c |}.
(** parametermap.py 50-56: the components *)
Definition register_comp (h : heap) (c : rcomp) (acc : collected) : collected :=
  fold_left (fun acc pa =>
    let id := String.concat "-" [rc_name c; fst pa] in
    let r := register h id (snd pa) acc in
    {| co_lens := co_lens r; co_pars := co_pars r; co_ids := co_ids r ++ [id] |}) (rc_params c) acc.
(** parametermap.py 58-64: the instructions *)
Fixpoint register_instrs (h : heap) (is : dict rinstr) (acc : collected) : result collected :=
  match is with
  | [] => Ok acc
  | (_, i) :: r =>
      rbind (get_optimizable_parameters i) (fun ps =>
      register_instrs h r (fold_left (fun acc pa => register h (String.concat "-" (fst pa)) (snd pa) acc) ps acc))
  end.
(** parametermap.py 46-68: [__initialize_parameters]; the attributes are assigned at the end,
    so a failure leaves them as they were. *)
Definition initialize (r : registry) : result registry :=
  rbind (register_instrs (rg_heap r) (rg_instructions r)
          (fold_left (fun acc nc => register_comp (rg_heap r) (snd nc) acc) (rg_components r)
             {| co_lens := []; co_pars := []; co_ids := [] |})) (fun c =>
  Ok {| rg_instructions := rg_instructions r; rg_components := rg_components r;
        rg_lens := co_lens c; rg_pars := co_pars c; rg_model_ids := co_ids c; rg_heap := rg_heap r |}).
(** model.py 43-61, 119-140: the collections of a model that hold components *)
Record rmodel := { rm_couplings : dict rcomp; rm_subsystems : dict rcomp; rm_tasks : dict rcomp }.
(** parametermap.py 34-42: a snapshot of the components, taken once *)
Definition collect_components (model : option rmodel) (devices : option (dict rcomp)) : dict rcomp :=
  let c := match model with
           | None => []
           | Some m => dupdate (dupdate (dupdate [] (rm_couplings m)) (rm_subsystems m)) (rm_tasks m)
           end in
  match devices with None => c | Some d => dupdate c d end.
(** parametermap.py 24-44: [__init__] *)
Definition parameter_map (h : heap) (instructions : list rinstr) (model : option rmodel) (devices : option (dict rcomp)) : result registry :=
  initialize {| rg_instructions := fold_left (fun d i => dset (ri_key i) i d) instructions [];
                rg_components := collect_components model devices;
                rg_lens := []; rg_pars := []; rg_model_ids := []; rg_heap := h |}.
(** parametermap.py 70-71: [update_parameters] *)
Definition update_parameters (r : registry) : result registry := initialize r.
(** parametermap.py 31: [pmap.instructions[key] = instr] by the user *)
Definition put_instruction (k : string) (i : rinstr) (r : registry) : registry :=
  {| rg_instructions := dset k i (rg_instructions r); rg_components := rg_components r;
     rg_lens := rg_lens r; rg_pars := rg_pars r; rg_model_ids := rg_model_ids r; rg_heap := rg_heap r |}.
(** parametermap.py 225-244: [get_parameter]: the object registered under the joined identifier *)
Definition get_parameter (r : registry) (par_id : list string) : result addr :=
  match dget (String.concat "-" par_id) (rg_pars r) with Some a => Ok a | None => Err C3Error end.

(** ** Writing through the map (parametermap.py 307-327) *)

(** parametermap.py 312-326: one assignment, on the shared object *)
Definition heap_set_one (pars : dict addr) (k : string) (v : list R) (ext : bool) (h : heap) : heap * option exn :=
  match dget k pars with
  | None => (h, Some KeyError)
  | Some a =>
      match nth_error h a with
      | None => (h, Some KeyError)
      | Some q => match set_value v ext q with
                  | Ok q' => (hput a q' h, None)
                  | Err OOBError => (h, Some MapOOBError)
                  | Err e => (h, Some e)
                  end
      end
  end.
(** parametermap.py 308-326: one group *)
Fixpoint heap_set_group (pars : dict addr) (ids : list string) (v : list R) (ext : bool) (h : heap) : heap * option exn :=
  match ids with
  | [] => (h, None)
  | k :: ids' => match heap_set_one pars k v ext h with
                 | (h', None) => heap_set_group pars ids' v ext h'
                 | (h', Some e) => (h', Some e)
                 end
  end.
(** parametermap.py 307-327: all groups *)
Fixpoint heap_set_groups (pars : dict addr) (m : optmap) (vals : list (list R)) (ext : bool) (h : heap) : heap * option exn :=
  match m, vals with
  | [], _ => (h, None)
  | ids :: m', v :: vals' => match heap_set_group pars ids v ext h with
                             | (h', None) => heap_set_groups pars m' vals' ext h'
                             | (h', Some e) => (h', Some e)
                             end
  | _ :: _, [] => (h, Some IndexError)
  end.

(** ** Gates from a configuration (parametermap.py 132-146) *)

(** copy.deepcopy, parametermap.py 135: addresses are moved by [off] *)
Definition shift_comp (off : nat) (c : rcomp) : rcomp :=
  {| rc_name := rc_name c; rc_params := map (fun pa => (fst pa, off + snd pa)) (rc_params c) |}.
(** copy.deepcopy, parametermap.py 135 *)
Definition shift_opt (off : nat) (o : ropt) : ropt := match o with OQty a => OQty (off + a) | OVal s => OVal s end.
(** copy.deepcopy, parametermap.py 135 *)
Definition dmap {V W} (f : V -> W) (d : dict V) : dict W := map (fun kv => (fst kv, f (snd kv))) d.
(** copy.deepcopy, parametermap.py 135 *)
Definition shift_instr (off : nat) (i : rinstr) : rinstr :=
  {| ri_name := ri_name i; ri_targets := ri_targets i; ri_ideal := ri_ideal i;
     ri_comps := dmap (dmap (shift_comp off)) (ri_comps i);
     ri_opts := dmap (dmap (dmap (shift_opt off))) (ri_opts i) |}.
(** copy.deepcopy, parametermap.py 135.  Every object of the heap is copied, sharing is
    kept; the copies the instruction does not refer to are garbage. *)
Definition deepcopy (i : rinstr) (h : heap) : rinstr * heap := (shift_instr (length h) i, h ++ h).

(** parametermap.py 138-141: the values given with "mapto", flattened from the nested
    dictionaries: channel, component, parameter, value. *)
Definition assignments := list (string * string * string * list R).
(** parametermap.py 141: one assignment *)
Definition assign_one (i : rinstr) (chan comp par : string) (v : list R) (h : heap) : result heap :=
  match dget chan (ri_comps i) with
  | None => Err KeyError
  | Some cs => match dget comp cs with
    | None => Err KeyError
    | Some c => match dget par (rc_params c) with
      | None => Err KeyError
      | Some a => match nth_error h a with
        | None => Err KeyError
        | Some q => rbind (set_value v false q) (fun q' => Ok (hput a q' h))
        end
      end
    end
  end.
(** parametermap.py 138-141: the loops *)
Fixpoint assign_all (i : rinstr) (l : assignments) (h : heap) : result heap :=
  match l with
  | [] => Ok h
  | (chan, comp, par, v) :: r => rbind (assign_one i chan comp par v h) (assign_all i r)
  end.

(** parametermap.py 133-144: one entry of the configuration: a copy of another gate, or a new
    gate with its own Quantities (addresses in [i] are relative to [cells]). *)
Inductive cfg_gate := CMapTo (target : string) (vals : assignments) | CInstr (i : rinstr) (cells : heap).
(** parametermap.py 131-146: the body of the loop.  When an assignment fails, the copies are
    dropped and the map is left as it was. *)
Definition fromdict_one (key : string) (g : cfg_gate) (r : registry) : registry * option exn :=
  let store i h :=
    let r' := {| rg_instructions := dset key i (rg_instructions r); rg_components := rg_components r;
                 rg_lens := rg_lens r; rg_pars := rg_pars r; rg_model_ids := rg_model_ids r; rg_heap := h |} in
    match initialize r' with Ok r'' => (r'', None) | Err e => (r', Some e) end in
  match g with
  | CMapTo target vals =>
      match dget target (rg_instructions r) with
      | None => (r, Some KeyError)
      | Some i0 =>
          let (i1, h1) := deepcopy i0 (rg_heap r) in
          let i := set_name key i1 in
          match assign_all i vals h1 with
          | Err e => (r, Some e)
          | Ok h => store i h
          end
      end
  | CInstr i0 cells => store (shift_instr (length (rg_heap r)) i0) (rg_heap r ++ cells)
  end.
(** parametermap.py 131-146: [fromdict] *)
Fixpoint fromdict (cfg : list (string * cfg_gate)) (r : registry) : registry * option exn :=
  match cfg with
  | [] => (r, None)
  | (key, g) :: rest => match fromdict_one key g r with
                        | (r', None) => fromdict rest r'
                        | (r', Some e) => (r', Some e)
                        end
  end.
