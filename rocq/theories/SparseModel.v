(** The excitation limit of a Model as an attribute and the Hamiltonians read
    with it.  [set_max_excitations] writes two attributes, the limit and the
    cutter, and only writes the cutter for a limit other than zero. *)
From Verif Require Import Base Mat MExp HilbertModel.
Local Open Scope list_scope.
Local Open Scope nat_scope.

(** model.py 40-75, 198-216, 423-440: the attributes read.  [sp_cutter] is [None] while
    the attribute [ex_cutter] does not exist.  The limit is a natural number: None
    and 0 both mean no limit. *)
Record sparse_state := {
  sp_dims : list nat; sp_max : nat; sp_cutter : option smat; sp_dressed : bool;
  sp_drift : smat; sp_controls : dict smat;
  sp_dressed_drift : smat; sp_dressed_controls : dict smat
}.
(** model.py 198-216 *)
Definition set_max_excitations (m : nat) (s : sparse_state) : sparse_state :=
  {| sp_dims := sp_dims s; sp_max := m;
     sp_cutter := match m with 0 => sp_cutter s | _ => Some (ex_cutter (sp_dims s) m) end;
     sp_dressed := sp_dressed s; sp_drift := sp_drift s; sp_controls := sp_controls s;
     sp_dressed_drift := sp_dressed_drift s; sp_dressed_controls := sp_dressed_controls s |}.
(** the operator @ of TensorFlow: the inner sizes must agree (model.py 218-224) *)
Definition smatmul (a b : smat) : result smat :=
  if Nat.eqb (cols a) (rows b)
  then Ok {| rows := rows a; cols := cols b; ent := mmul (cols a) (ent a) (ent b) |}
  else Err ValueError.
(** tf.transpose (model.py 218-224) *)
Definition strans (a : smat) : smat := {| rows := cols a; cols := rows a; ent := mtrans (ent a) |}.
(** self.ex_cutter (model.py 218-224) *)
Definition the_cutter (s : sparse_state) : result smat :=
  match sp_cutter s with None => Err AttributeError | Some c => Ok c end.
(** model.py 218-220: [cut_excitations] *)
Definition cut_op (s : sparse_state) (op : smat) : result smat :=
  rbind (the_cutter s) (fun c => rbind (smatmul c op) (fun x => smatmul x (strans c))).
(** model.py 222-224: [blowup_excitations] *)
Definition blowup_op (s : sparse_state) (op : smat) : result smat :=
  rbind (the_cutter s) (fun c => rbind (smatmul (strans c) op) (fun x => smatmul x c)).
(** model.py 374-412: [get_Hamiltonian] without a signal *)
Definition get_hamiltonian (s : sparse_state) : result smat :=
  let h := if sp_dressed s then sp_dressed_drift s else sp_drift s in
  match sp_max s with 0 => Ok h | _ => cut_op s h end.
(** model.py 414-415: [get_sparse_Hamiltonian] without a signal *)
Definition get_sparse_hamiltonian (s : sparse_state) : result smat :=
  rbind (get_hamiltonian s) (blowup_op s).
(** model.py 353-366: [get_Hamiltonians].  The controls are a dictionary; the product
    of the cutter and a dictionary is refused. *)
Definition get_hamiltonians (s : sparse_state) : result (smat * dict smat) :=
  let drift := if sp_dressed s then sp_dressed_drift s else sp_drift s in
  let controls := if sp_dressed s then sp_dressed_controls s else sp_controls s in
  match sp_max s with
  | 0 => Ok (drift, controls)
  | _ => rbind (cut_op s drift) (fun _ => Err TypeError)
  end.
(** model.py 368-372: [get_sparse_Hamiltonians].  [self.get_Hamiltonians] is not called:
    a method is unpacked into two names. *)
Definition get_sparse_hamiltonians (s : sparse_state) : result (smat * dict smat) := Err TypeError.
