(** Model of class [ParameterMap] (c3/parametermap.py).

    Simplifications:
    - the dictionary [_pars] maps identifiers to distinct Quantity objects, so
      the objects themselves are stored in the dictionary (no aliasing);
    - values are flattened lists of reals, see QuantityModel.v;
    - [model.update_model()] is only counted; the file written by
      [store_values] is its content (no text encoding). *)
From Coq Require Import Reals.
From Verif Require Import Base QuantityModel.
Local Open Scope list_scope.

(** parametermap.py 449-454: An identifier is either a string or a tuple of strings joined by "-". *)
Inductive parid : Type := PStr (s : string) | PTup (l : list string).

(** parametermap.py 449-454: [get_opt_map] turns tuples into strings. *)
Definition par_key (p : parid) : string :=
  match p with PStr s => s | PTup l => String.concat "-" l end.

(** parametermap.py 445-456: the stored [opt_map] *)
Definition optmap := list (list string).

(** parametermap.py 445-456: tuples become strings *)
Definition norm_map (m : list (list parid)) : optmap := map (map par_key) m.

(** parametermap.py 24-50: the attributes of ParameterMap *)
Record pmap : Type := mkPM {
  pm_pars : dict quantity;        (* self._pars *)
  pm_model_ids : list string;     (* self._par_ids_model *)
  pm_opt_map : optmap;            (* self.opt_map *)
  pm_update : bool;               (* self.update_model (selects the scaled setter) *)
  pm_has_model : bool;            (* self.model is not None *)
  pm_refreshes : nat              (* number of model.update_model() calls so far *)
}.

(** assignment of the parameters, parametermap.py 285-331 *)
Definition with_pars (pm : pmap) (d : dict quantity) : pmap :=
  {| pm_pars := d; pm_model_ids := pm_model_ids pm; pm_opt_map := pm_opt_map pm;
     pm_update := pm_update pm; pm_has_model := pm_has_model pm;
     pm_refreshes := pm_refreshes pm |}.

(** model.update_model(), parametermap.py 325-331 *)
Definition refresh (pm : pmap) : pmap :=
  {| pm_pars := pm_pars pm; pm_model_ids := pm_model_ids pm; pm_opt_map := pm_opt_map pm;
     pm_update := pm_update pm; pm_has_model := pm_has_model pm;
     pm_refreshes := S (pm_refreshes pm) |}.

(** parametermap.py 445-456: [get_opt_map]. *)
Definition get_opt_map (pm : pmap) (om : option (list (list parid))) : optmap :=
  match om with None => pm_opt_map pm | Some m => norm_map m end.

(** Python's [k in l], parametermap.py 179-185 *)
Definition smem (k : string) (l : list string) : bool := existsb (String.eqb k) l.

(** parametermap.py 312-326: one assignment.  A missing key raises KeyError
    (line 313 only catches ValueError); QuantityOOBException becomes
    ParameterMapOOBUpdateException; other exceptions propagate. *)
Definition set_one (k : string) (v : list R) (ext : bool) (d : dict quantity)
  : dict quantity * option exn :=
  match dget k d with
  | None => (d, Some KeyError)
  | Some q =>
      match set_value v ext q with
      | Ok q' => (dset k q' d, None)
      | Err OOBError => (d, Some MapOOBError)
      | Err e => (d, Some e)
      end
  end.

(** parametermap.py 308-326: inner loop over one group. *)
Fixpoint set_group (ids : list string) (v : list R) (ext : bool) (d : dict quantity)
  : dict quantity * option exn :=
  match ids with
  | [] => (d, None)
  | k :: ids' =>
      match set_one k v ext d with
      | (d', None) => set_group ids' v ext d'
      | (d', Some e) => (d', Some e)
      end
  end.

(** parametermap.py 307-327: outer loop. *)
Fixpoint set_groups (m : optmap) (vals : list (list R)) (ext : bool) (d : dict quantity)
  : dict quantity * option exn :=
  match m, vals with
  | [], _ => (d, None)
  | ids :: m', v :: vals' =>
      match set_group ids v ext d with
      | (d', None) => set_groups m' vals' ext d'
      | (d', Some e) => (d', Some e)
      end
  | _ :: _, [] => (d, Some IndexError)
  end.

(** parametermap.py 285-331: [set_parameters]. *)
Definition set_parameters (pm : pmap) (vals : list (list R))
           (om : option (list (list parid))) (ext : bool) : pmap * option exn :=
  let m := get_opt_map pm om in
  if negb (Nat.eqb (List.length vals) (List.length m)) then (pm, Some C3Error)
  else
    let model_updated := existsb (fun k => smem k (pm_model_ids pm)) (List.concat m) in
    match set_groups m vals ext (pm_pars pm) with
    | (d, Some e) => (with_pars pm d, Some e)
    | (d, None) =>
        let pm' := with_pars pm d in
        (if model_updated && pm_has_model pm then refresh pm' else pm', None)
    end.

(** parametermap.py 246-265: First element of a group and its parameter ([equiv_ids[0]], [self._pars[key]]). *)
Definition leader (pars : dict quantity) (ids : list string)
  : result (string * quantity) :=
  match ids with
  | [] => Err IndexError
  | k :: _ => match dget k pars with None => Err KeyError | Some q => Ok (k, q) end
  end.

(** a loop that may raise, parametermap.py 246-265 *)
Fixpoint mapM {A B} (f : A -> result B) (l : list A) : result (list B) :=
  match l with
  | [] => Ok []
  | x :: l' => rbind (f x) (fun y => rbind (mapM f l') (fun ys => Ok (y :: ys)))
  end.

(** parametermap.py 246-265: [get_parameters]. *)
Definition get_parameters (pm : pmap) (om : option (list (list parid)))
  : result (list quantity) :=
  mapM (fun ids => rbind (leader (pm_pars pm) ids) (fun kq => Ok (snd kq)))
       (get_opt_map pm om).

(** parametermap.py 333-354: [get_parameters_scaled]. *)
Definition get_parameters_scaled (pm : pmap) (om : option (list (list parid)))
  : result (list R) :=
  rbind (get_parameters pm om) (fun qs => Ok (List.concat (map get_opt_value qs))).

(** parametermap.py 375-378: one group of the scaled setter. *)
Fixpoint set_opt_group (ids : list string) (v : list R) (d : dict quantity)
  : dict quantity * option exn :=
  match ids with
  | [] => (d, None)
  | k :: ids' =>
      match dget k d with
      | None => (d, Some KeyError)
      | Some q =>
          match set_opt_value v q with
          | Ok q' => set_opt_group ids' v (dset k q' d)
          | Err e => (d, Some e)
          end
      end
  end.

(** parametermap.py 370-379: loop over groups; the slice
    [values[val_indx : val_indx + par_len]] is taken from the remaining values. *)
Fixpoint set_opt_groups (m : optmap) (vals : list R) (d : dict quantity)
  : dict quantity * option exn :=
  match m with
  | [] => (d, None)
  | ids :: m' =>
      match leader d ids with
      | Err e => (d, Some e)
      | Ok (_, q) =>
          let par_len := List.length (q_value q) in
          match set_opt_group ids (firstn par_len vals) d with
          | (d', None) => set_opt_groups m' (skipn par_len vals) d'
          | (d', Some e) => (d', Some e)
          end
      end
  end.

(** parametermap.py 356-379: [_set_parameters_scaled_ctrls]. *)
Definition set_scaled_ctrls (pm : pmap) (vals : list R) (om : option (list (list parid)))
  : pmap * option exn :=
  let '(d, e) := set_opt_groups (get_opt_map pm om) vals (pm_pars pm) in
  (with_pars pm d, e).

(** parametermap.py 381-395: [_set_parameters_scaled_model]; line 394 does not
    forward [opt_map]. *)
Definition set_scaled_model (pm : pmap) (vals : list R) (om : option (list (list parid)))
  : pmap * option exn :=
  match set_scaled_ctrls pm vals None with
  | (pm', None) => (if pm_has_model pm then (refresh pm', None) else (pm', Some AttributeError))
  | (pm', Some e) => (pm', Some e)
  end.

(** parametermap.py 44, 438-443: The attribute [set_parameters_scaled] (lines 44, 438-443). *)
Definition set_parameters_scaled (pm : pmap) (vals : list R)
           (om : option (list (list parid))) : pmap * option exn :=
  if pm_update pm then set_scaled_model pm vals om else set_scaled_ctrls pm vals om.

(** parametermap.py 397-417: [get_key_from_scaled_index]. *)
Fixpoint key_from_index (pars : dict quantity) (m : optmap) (curr idx : nat)
  : result string :=
  match m with
  | [] => Ok EmptyString
  | ids :: m' =>
      rbind (leader pars ids) (fun '(k, q) =>
        let curr' := curr + List.length (q_value q) in
        if Nat.ltb idx curr' then Ok k else key_from_index pars m' curr' idx)
  end.
(** parametermap.py 397-417 *)
Definition get_key_from_scaled_index (pm : pmap) (idx : nat)
           (om : option (list (list parid))) : result string :=
  key_from_index (pm_pars pm) (get_opt_map pm om) 0 idx.

(** parametermap.py 179-185: [get_not_opt_params]. *)
Fixpoint del_all (ks : list string) (d : dict quantity) : result (dict quantity) :=
  match ks with
  | [] => Ok d
  | k :: ks' => if dmem k d then del_all ks' (ddel k d) else Err KeyError
  end.
(** parametermap.py 179-185 *)
Definition get_not_opt_params (pm : pmap) (om : option (list (list parid)))
  : result (dict quantity) :=
  del_all (List.concat (get_opt_map pm om)) (pm_pars pm).

(** parametermap.py 187-195: [get_opt_units]. *)
Definition get_opt_units (pm : pmap) : result (list string) :=
  rbind (get_parameters pm None) (fun qs => Ok (map q_unit qs)).

(** parametermap.py 92-116: content of the file written by [store_values]
    without an explicit optim_status. *)
Record valfile : Type := mkVF {
  vf_opt_map : optmap; vf_units : list string; vf_params : list (list R)
}.
(** parametermap.py 92-116 *)
Definition store_values (pm : pmap) : result valfile :=
  rbind (get_parameters pm None) (fun qs =>
  rbind (get_opt_units pm) (fun us =>
    Ok {| vf_opt_map := pm_opt_map pm; vf_units := us; vf_params := map numpy qs |})).

(** parametermap.py 73-90: [load_values]. *)
Definition load_values (pm : pmap) (f : valfile) (ext : bool) : pmap * option exn :=
  set_parameters pm (vf_params f) (Some (map (map PStr) (vf_opt_map f))) ext.

(** parametermap.py 204-223: [check_limits]; note that it iterates over
    [self.get_opt_map()], not over its argument. *)
Definition limits_eqb (a b : R * R) : bool :=
  (if Req_EM_T (fst a) (fst b) then true else false)
  && (if Req_EM_T (snd a) (snd b) then true else false).

(** parametermap.py 204-223: the inner loop *)
Fixpoint check_group (pars : dict quantity) (lim : R * R) (ids : list string) : option exn :=
  match ids with
  | [] => None
  | k :: ids' =>
      match dget k pars with
      | None => Some KeyError
      | Some q => if limits_eqb (get_limits q) lim then check_group pars lim ids'
                  else Some C3Error
      end
  end.
(** parametermap.py 204-223 *)
Fixpoint check_limits (pars : dict quantity) (m : optmap) : option exn :=
  match m with
  | [] => None
  | ids :: m' =>
      match ids with
      | k :: (_ :: _) as rest =>
          match dget k pars with
          | None => Some KeyError
          | Some q => match check_group pars (get_limits q) (tl ids) with
                      | None => check_limits pars m'
                      | Some e => Some e
                      end
          end
      | _ => check_limits pars m'
      end
  end.

(** parametermap.py 419-436: [set_opt_map]. *)
Definition set_opt_map (pm : pmap) (om : list (list parid)) : pmap * option exn :=
  let m := norm_map om in
  if forallb (fun k => dmem k (pm_pars pm)) (List.concat m) then
    let upd := existsb (fun k => smem k (pm_model_ids pm)) (List.concat m) in
    let pm1 := {| pm_pars := pm_pars pm; pm_model_ids := pm_model_ids pm;
                  pm_opt_map := pm_opt_map pm; pm_update := upd;
                  pm_has_model := pm_has_model pm; pm_refreshes := pm_refreshes pm |} in
    match check_limits (pm_pars pm) (pm_opt_map pm) with
    | Some e => (pm1, Some e)
    | None => ({| pm_pars := pm_pars pm; pm_model_ids := pm_model_ids pm;
                  pm_opt_map := m; pm_update := upd;
                  pm_has_model := pm_has_model pm; pm_refreshes := pm_refreshes pm |}, None)
    end
  else (pm, Some C3Error).

(** parametermap.py 179-456: Histories of calls on the map. *)
Inductive pmop : Type :=
| PSet (vals : list (list R)) (om : option (list (list parid))) (ext : bool)
| PSetScaled (vals : list R) (om : option (list (list parid)))
| PSetOptMap (om : list (list parid))
| PLoad (f : valfile) (ext : bool).

(** parametermap.py 179-456: one call *)
Definition pm_exec (pm : pmap) (o : pmop) : pmap * option exn :=
  match o with
  | PSet v om ext => set_parameters pm v om ext
  | PSetScaled v om => set_parameters_scaled pm v om
  | PSetOptMap om => set_opt_map pm om
  | PLoad f ext => load_values pm f ext
  end.
(** parametermap.py 179-456: a history of calls *)
Definition pm_run (pm : pmap) (os : list pmop) : pmap :=
  fold_left (fun p o => fst (pm_exec p o)) os pm.
