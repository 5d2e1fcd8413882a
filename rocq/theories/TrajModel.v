(** Model of the initial state of simulations (c3/model.py 63-107, 323-335), of the
    choice of the propagation method (c3/experiment.py 59-107, 440-477) and of the
    trajectories of gate sequences (c3/experiment.py 634-728).  Numbers are exact. *)
From Coq Require Import Reals.
From Coquelicot Require Import Complex.
From Verif Require Import Base Mat MExp HilbertModel FoldModel PropModel TaskModel EnvModel.
Local Open Scope list_scope.
Local Open Scope nat_scope.
Local Notation length := List.length.

(** ** The initial state (model.py 63-107) *)

(** model.py 43-61: what the methods below read and write of a Model: the
    dimension, the open system switch, the drift Hamiltonian, the temperature of
    the task "init_ground" if there is one, and [init_state], a tensor of rank 2. *)
Record imodel := {
  im_dim : nat; im_lind : bool; im_drift : mat; im_task : option R; im_state : option smat
}.
(** model.py 63-74: assignment to self.init_state *)
Definition with_state (m : imodel) (s : option smat) : imodel :=
  {| im_dim := im_dim m; im_lind := im_lind m; im_drift := im_drift m; im_task := im_task m; im_state := s |}.
(** tf_utils.py 292-296: [tf_state_to_dm] with the shape: a tensor with more than one
    column cannot be reshaped to one. *)
Definition state_to_dm (s : smat) : result smat :=
  if Nat.eqb (cols s) 1 then Ok {| rows := rows s; cols := rows s; ent := tf_state_to_dm (ent s) |}
  else Err ValueError.
(** tf_utils.py 305-308: [tf_vec_to_dm] of a tensor with [n ^ 2] rows *)
Definition vec_to_dm (n : nat) (s : smat) : result smat :=
  if Nat.eqb (cols s) 1 then Ok {| rows := n; cols := n; ent := tf_vec_to_dm n (ent s) |}
  else Err ValueError.
(** model.py 63-70: [set_init_state] *)
Definition set_init_state (m : imodel) (state : smat) : result imodel :=
  if im_lind m && negb (Nat.eqb (rows state) (cols state)) then
    if Nat.eqb (rows state) (im_dim m) then
      rbind (state_to_dm state) (fun s => Ok (with_state m (Some s)))
    else if Nat.eqb (rows state) (im_dim m * im_dim m) then
      rbind (vec_to_dm (im_dim m) state) (fun s => Ok (with_state m (Some s)))
    else Ok m
  else Ok (with_state m (Some state)).
(** model.py 72-74: [update_init_state] *)
Definition update_init_state (m : imodel) : result imodel :=
  match im_state m with None => Ok m | Some s => set_init_state m s end.
(** model.py 323-335: [set_lindbladian]; the update of the operators is modelled in
    [FrameModel] *)
Definition set_lindbladian (m : imodel) (b : bool) : result imodel :=
  update_init_state {| im_dim := im_dim m; im_lind := b; im_drift := im_drift m;
                       im_task := im_task m; im_state := im_state m |}.
(** model.py 76-79: [get_ground_state] *)
Definition get_ground_state (m : imodel) : smat :=
  {| rows := im_dim m; cols := 1; ent := one_hot 0 |}.
(** model.py 81-107: [get_init_state]: the state and the model afterwards.  The shape
    of what the task returns is that of [initialise] (tasks.py 46-88). *)
Definition get_init_state (m : imodel) : result (smat * imodel) :=
  match im_state m with
  | Some s => Ok (s, m)
  | None =>
      match im_task m with
      | Some temp =>
          rbind (initialise (im_dim m) (im_drift m) (im_lind m) temp) (fun v =>
          Ok ({| rows := if im_lind m then im_dim m * im_dim m else im_dim m; cols := 1; ent := v |}, m))
      | None =>
          if im_lind m then
            rbind (state_to_dm (get_ground_state m)) (fun s => Ok (s, with_state m (Some s)))
          else Ok (get_ground_state m, with_state m (Some (get_ground_state m)))
      end
  end.

(** ** The propagation method (experiment.py 59-107, 440-477) *)

(** experiment.py 76-91: the argument of [set_prop_method]; a callable is known by a name. *)
Inductive prop_arg := MNone | MName (s : string) | MCallable (f : string).
(** propagation.py 39-52, 71-752: the registered functions *)
Definition unitary_provider : list string := ["gen_dus_rk4"; "rk4_unitary"; "pwc"; "tf_propagation"]%string.
(** propagation.py 47-52, 687-752 *)
Definition state_provider : list string := ["ode_solver"; "ode_solver_final_state"]%string.
(** experiment.py 59-75: the attributes involved: [me_stack] is [folding_stack], absent
    until it is computed; [me_pmap] the lengths t_end - t_start of the instructions of the
    parameter map, if there is one. *)
Record mexper := {
  me_pmap : option (dict R); me_sim_res : R; me_method : prop_arg;
  me_propagation : option string; me_stack : option (list (nat * list layer))
}.
(** experiment.py 93-107: [_compute_folding_stack], a dictionary indexed by the number of steps *)
Fixpoint compute_stack (sim_res : R) (lengths : list R) (acc : list (nat * list layer)) : list (nat * list layer) :=
  match lengths with
  | [] => acc
  | t :: r => let n := floor_nat (t * sim_res) in
              compute_stack sim_res r
                (if existsb (fun e => Nat.eqb (fst e) n) acc then acc else acc ++ [(n, folding_stack n)])
  end.
(** experiment.py 81-91: assignment to self.propagation *)
Definition with_propagation (e : mexper) (p : string) (st : option (list (nat * list layer))) : mexper :=
  {| me_pmap := me_pmap e; me_sim_res := me_sim_res e; me_method := me_method e;
     me_propagation := Some p; me_stack := st |}.
(** experiment.py 76-91: [set_prop_method] *)
Definition set_prop_method (e : mexper) (a : prop_arg) : result mexper :=
  match a with
  | MNone => Ok (with_propagation e "pwc"
                   (match me_pmap e with
                    | Some d => Some (compute_stack (me_sim_res e) (map snd d) [])
                    | None => me_stack e
                    end))
  | MName s => if existsb (String.eqb s) unitary_provider || existsb (String.eqb s) state_provider
               then Ok (with_propagation e s (me_stack e))
               else Err KeyError
  | MCallable f => Ok (with_propagation e f (me_stack e))
  end.
(** experiment.py 59-75: [Experiment.__init__] *)
Definition experiment_init (pmap : option (dict R)) (a : prop_arg) (sim_res : R) : result mexper :=
  set_prop_method {| me_pmap := pmap; me_sim_res := sim_res; me_method := a;
                     me_propagation := None; me_stack := None |} a.
(** experiment.py 474-477: self.folding_stack[steps] *)
Definition stack_lookup (e : mexper) (n : nat) : result (list layer) :=
  match me_stack e with
  | None => Err AttributeError
  | Some d => match find (fun x => Nat.eqb (fst x) n) d with
              | Some x => Ok (snd x)
              | None => Err KeyError
              end
  end.
(** experiment.py 453-479: for one gate, the method called by [compute_propagators] and
    the folding stack handed to it, and the experiment afterwards *)
Definition propagator_call (e : mexper) (gate : string) : result (string * list layer * mexper) :=
  match me_pmap e with
  | None => Err AttributeError
  | Some d =>
      rbind (set_prop_method e (me_method e)) (fun e' =>
      match dget gate d with
      | None => Err C3Error
      | Some t => rbind (stack_lookup e' (floor_nat (t * me_sim_res e'))) (fun st =>
                  match me_propagation e' with
                  | Some p => Ok (p, st, e')
                  | None => Err AttributeError
                  end)
      end)
  end.

(** ** Trajectories (experiment.py 634-728) *)

Section Trajectories.
  (** tfp.math.interp_regular_1d_grid, see [PropModel] *)
  Variable interp : list R -> list R -> R -> R.
  (** model.get_Hamiltonians and get_Lindbladians (model.py 353-421) *)
  Variable n : nat.
  Variable h0 : mat.
  Variable hctrls : dict mat.
  Variable lind : option (list mat).
  (** gen.generate_signals(instr) of every instruction (propagation.py 691) *)
  Variable instructions : dict (dict channel).

  (** experiment.py 649-651, 699-701: the state the loops start from *)
  Definition start_state (k : step_kind) (init : smat) : result smat :=
    match k with VonNeumann => state_to_dm init | _ => Ok init end.
  (** propagation.py 693-697 and 887-905: the products with the Hamiltonian (and, for
      density matrices, from the right) need matching shapes. *)
  Definition shape_ok (k : step_kind) (s : smat) : bool :=
    match lind, k with
    | None, Schrodinger => Nat.eqb (rows s) n
    | _, _ => Nat.eqb (rows s) n && Nat.eqb (cols s) n
    end.
  (** experiment.py 662-680: the loop of [compute_states]; returns what is appended to the
      two lists.  States are matrices, their shape does not change. *)
  Fixpoint states_loop (s : solver) (k : step_kind) (gates : list string) (init : mat) (ts_init : R)
    : result (list mat * list R) :=
    match gates with
    | [] => Ok ([], [])
    | g :: r =>
        match dget g instructions with
        | None => Err C3Error
        | Some sig =>
            rbind (ode_solver interp n h0 hctrls lind sig init s k) (fun res =>
            rbind (states_loop s k r (last (fst res) init) (last (snd res) 0%R)) (fun rest =>
            Ok (fst res ++ fst rest, map (fun t => (t + ts_init)%R) (snd res) ++ snd rest)))
        end
    end.
  (** experiment.py 634-682: [compute_states] with the initial state resolved.  A sequence
      that was not set is None, which cannot be iterated.  Shapes are checked by the first
      step, so not at all for an empty sequence. *)
  Definition compute_states (init : smat) (opt_gates : option (list string)) (s : solver) (k : step_kind)
    : result (list mat * list R) :=
    rbind (start_state k init) (fun st =>
    match opt_gates with
    | None => Err TypeError
    | Some [] => Ok ([ent st], [0%R])
    | Some gates =>
        rbind (states_loop s k gates (ent st) 0%R) (fun r =>
        if shape_ok k st then Ok (ent st :: fst r, 0%R :: snd r) else Err ValueError)
    end).
  (** experiment.py 707-726: the loop of [compute_final_state]; [res] is the last result. *)
  Fixpoint final_loop (s : solver) (k : step_kind) (gates : list string) (init : mat)
           (res : option (mat * list R)) : result (option (mat * list R)) :=
    match gates with
    | [] => Ok res
    | g :: r =>
        match dget g instructions with
        | None => Err C3Error
        | Some sig =>
            rbind (ode_solver_final_state interp n h0 hctrls lind sig init s k) (fun res' =>
            final_loop s k r (fst res') (Some res'))
        end
    end.
  (** experiment.py 684-728: [compute_final_state]; with an empty sequence [result] is
      unbound (UnboundLocalError, modelled as [AttributeError]). *)
  Definition compute_final_state (init : smat) (opt_gates : option (list string)) (s : solver) (k : step_kind)
    : result (mat * R) :=
    rbind (start_state k init) (fun st =>
    match opt_gates with
    | None => Err TypeError
    | Some gates =>
        rbind (final_loop s k gates (ent st) None) (fun r =>
        match r with
        | None => Err AttributeError
        | Some (x, ts) => if shape_ok k st then Ok (x, last ts 0%R) else Err ValueError
        end)
    end).
End Trajectories.
