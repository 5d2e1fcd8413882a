(** Model of the product Hilbert space: labels, Kronecker products, embeddings,
    excitation cut-off, projections and the frame rotation
    (c3/model.py 141-224, 536-600; c3/utils/qt_utils.py 58-96, 178-249;
    c3/utils/tf_utils.py 428-436). *)
From Verif Require Import Base Mat MExp.
Local Open Scope list_scope.
Local Open Scope nat_scope.

(** model.py 141-159, qt_utils.py 68-96: np.prod(dims) *)
Definition prod_dims (dims : list nat) : nat := fold_right Nat.mul 1 dims.

(** model.py 141-159: [state_labels] = itertools.product of the level ranges. *)
Fixpoint labels (dims : list nat) : list (list nat) :=
  match dims with
  | [] => [[]]
  | d :: ds => flat_map (fun i => map (cons i) (labels ds)) (seq 0 d)
  end.

(** == on tuples, model.py 591-595 *)
Fixpoint list_eqb (a b : list nat) : bool :=
  match a, b with
  | [], [] => true
  | x :: a', y :: b' => Nat.eqb x y && list_eqb a' b'
  | _, _ => false
  end.

(** model.py 591-595: list.index(x): position of the first equal element, ValueError if none. *)
Fixpoint index_of (x : list nat) (l : list (list nat)) : result nat :=
  match l with
  | [] => Err ValueError
  | y :: l' => if list_eqb x y then Ok 0 else rbind (index_of x l') (fun n => Ok (S n))
  end.

(** model.py 591-595: [get_state_index], [get_state_indeces]. *)
Definition get_state_index (dims : list nat) (state : list nat) : result nat :=
  index_of state (labels dims).
(** model.py 591-595, tasks.py: the list version *)
Fixpoint get_state_indeces (dims : list nat) (states : list (list nat)) : result (list nat) :=
  match states with
  | [] => Ok []
  | s :: r => rbind (get_state_index dims s) (fun i =>
              rbind (get_state_indeces dims r) (fun is => Ok (i :: is)))
  end.

(** qt_utils.py 58-265: A NumPy matrix with its shape. *)
Record smat := { rows : nat; cols : nat; ent : mat }.

(** qt_utils.py 58-66: np.kron *)
Definition skron (a b : smat) : smat :=
  {| rows := rows a * rows b; cols := cols a * cols b;
     ent := kron (rows b) (cols b) (ent a) (ent b) |}.
(** qt_utils.py 68-96, 178-193: np.eye(r, c) *)
Definition seye (r c : nat) : smat := {| rows := r; cols := c; ent := mid |}.
(** qt_utils.py 58-65: [np_kron_n]. *)
Definition np_kron_n (ms : list smat) : smat := fold_left skron ms (seye 1 1).

(** qt_utils.py 68-96: [hilbert_space_kron]; the Warning raised for an index
    outside the list is modelled as [C3Error]. *)
Definition hilbert_space_kron (op : mat) (indx : nat) (dims : list nat) : result smat :=
  if Nat.leb (List.length dims) indx then Err C3Error
  else Ok (np_kron_n (map (fun kd => if Nat.eqb (fst kd) indx
                                     then {| rows := snd kd; cols := snd kd; ent := op |}
                                     else seye (snd kd) (snd kd))
                          (combine (seq 0 (List.length dims)) dims))).

(** model.py 161-171: np.diag(np.sqrt(np.arange(1, d)), k=1) *)
Definition lowering : mat :=
  fun i j => if Nat.eqb j (S i) then RtoC (sqrt (INR j)) else RtoC 0.

(** model.py 161-171: [__create_annihilators], operator of subsystem k. *)
Definition ann_oper (dims : list nat) (k : nat) : result smat := hilbert_space_kron lowering k dims.

(** qt_utils.py 196-205: [kron_ids]; matrices.zip(indices) overwrite in order. *)
Fixpoint list_upd {A} (l : list A) (k : nat) (x : A) : list A :=
  match l, k with
  | [], _ => []
  | _ :: r, 0 => x :: r
  | a :: r, S k' => a :: list_upd r k' x
  end.
(** qt_utils.py 196-205 *)
Definition kron_ids (dims indices : list nat) (ms : list smat) : smat :=
  np_kron_n (fold_left (fun ids im => list_upd ids (fst im) (snd im))
                       (combine indices ms) (map (fun d => seye d d) dims)).

(** qt_utils.py 208-217: [get_basis_matrices]; the matrix with a single one at
    flat position p (row p / d, column p mod d). *)
Definition unit_mat (a b : nat) : mat :=
  fun i j => if Nat.eqb i a && Nat.eqb j b then RtoC 1 else RtoC 0.
(** qt_utils.py 208-217 *)
Definition basis_matrices (d : nat) : list smat :=
  map (fun p => {| rows := d; cols := d; ent := unit_mat (p / d) (p mod d) |}) (seq 0 (d * d)).

(** qt_utils.py 220-249, model.py 141-159: itertools.product *)
Fixpoint list_product {A} (ls : list (list A)) : list (list A) :=
  match ls with
  | [] => [[]]
  | l :: r => flat_map (fun x => map (cons x) (list_product r)) l
  end.

(** qt_utils.py 220-249: np.sum over all entries of a matrix *)
Definition entry_sum (n m : nat) (A : mat) : C := csum n (fun i => csum m (fun j => A i j)).

(** qt_utils.py 220-249: [insert_mat_kron], the body of the loop and the loop. *)
Definition insert_term (dims targets : list nat) (matrix : mat) (bs : list smat) : mat :=
  let km := np_kron_n bs in
  let norm := RtoC (sqrt (Cmod (entry_sum (rows km) (cols km) (fun i j => RtoC (Cmod (ent km i j)))))) in
  let km' := mscale (/ norm)%C (ent km) in
  let expanded := mscale (/ norm)%C (ent (kron_ids dims targets bs)) in
  let overlap := entry_sum (rows km) (cols km) (fun i j => Cmult (matrix i j) (km' i j)) in
  mscale overlap expanded.
(** qt_utils.py 220-249 *)
Definition insert_mat_kron (dims targets : list nat) (matrix : mat) : mat :=
  fold_left (fun out bs => madd out (insert_term dims targets matrix bs))
            (list_product (map (fun t => basis_matrices (nth t dims 0)) targets)) mzero.

(** model.py 198-216: [set_max_excitations]: one unit row per kept label; [ii] is
    the running label number. *)
Fixpoint cutter_rows (ii : nat) (ls : list (list nat)) (max_ex : nat) : list nat :=
  match ls with
  | [] => []
  | l :: r => if Nat.leb (list_sum l) max_ex then ii :: cutter_rows (S ii) r max_ex
              else cutter_rows (S ii) r max_ex
  end.
(** model.py 198-216: [ex_cutter] *)
Definition ex_cutter (dims : list nat) (max_ex : nat) : smat :=
  let kept := cutter_rows 0 (labels dims) max_ex in
  {| rows := List.length kept; cols := prod_dims dims;
     ent := fun r c => if Nat.eqb c (nth r kept 0) then RtoC 1 else RtoC 0 |}.
(** model.py 218-224 *)
Definition cut_excitations (dims : list nat) (max_ex : nat) (op : mat) : mat :=
  let cu := ex_cutter dims max_ex in
  mmul (cols cu) (mmul (cols cu) (ent cu) op) (mtrans (ent cu)).
(** model.py 222-226 *)
Definition blowup_excitations (dims : list nat) (max_ex : nat) (op : mat) : mat :=
  let cu := ex_cutter dims max_ex in
  mmul (rows cu) (mmul (rows cu) (mtrans (ent cu)) op) (ent cu).

(** qt_utils.py 178-193: [projector] with the default outdims. *)
Definition mem_nat (k : nat) (l : list nat) : bool := existsb (Nat.eqb k) l.
(** qt_utils.py 178-193 *)
Definition projector (dims indices : list nat) : smat :=
  np_kron_n (map (fun kd => if mem_nat (fst kd) indices then seye (snd kd) 2 else seye (snd kd) 1)
                 (combine (seq 0 (List.length dims)) dims)).
(** tf_utils.py 428-436: [tf_project_to_comp]; [index=None] and the empty list
    both mean all subsystems.  A is square of the dimension of the projector. *)
Definition project_index (dims index : list nat) : list nat :=
  match index with [] => seq 0 (List.length dims) | _ => index end.
(** tf_utils.py 428-436 *)
Definition tf_project_to_comp (A : mat) (dims index : list nat) (to_super : bool) : smat :=
  let p0 := projector dims (project_index dims index) in
  let p := if to_super then skron p0 p0 else p0 in
  {| rows := cols p; cols := cols p;
     ent := mmul (rows p) (mmul (rows p) (mtrans (ent p)) A) (ent p) |}.

(** model.py 198-216 with the guard: [if max_excitations:] leaves the cutter
    unset for 0; the callers (model.py 430-451, 641-690, propagation.py) test
    [max_excitations] again before cutting, so 0 means no cut. *)
Definition maybe_cut (dims : list nat) (max_ex : nat) (op : mat) : mat :=
  match max_ex with 0 => op | _ => cut_excitations dims max_ex op end.

(** model.py 536-578: The parts of a Model that the frame rotation reads: names and dims of the
    subsystems in order and, for every coupling or drive, the connected list. *)
Record frame_sys := {
  f_names : list string;
  f_dims : list nat;
  f_couplings : dict (list string)
}.
(** model.py 558-577: list.index on strings *)
Fixpoint str_index (x : string) (l : list string) : result nat :=
  match l with
  | [] => Err ValueError
  | y :: l' => if String.eqb x y then Ok 0 else rbind (str_index x l') (fun n => Ok (S n))
  end.
(** model.py 562-570: the subsystem a line acts on. *)
Definition frame_qubit (s : frame_sys) (line : string) : result string :=
  match dget line (f_couplings s) with
  | Some (q :: _) => Ok q
  | Some [] => Err IndexError
  | None => if existsb (String.eqb line) (f_names s) then Ok line else Err C3Error
  end.
(** model.py 558-577: the loop of [get_Frame_Rotation]; [None] is the scalar 0
    the exponent starts from. *)
Definition frame_term (s : frame_sys) (t freq fc : R) (a : smat) : mat :=
  mscale (Ci * RtoC (freq * t + fc)%R)%C (mmul (prod_dims (f_dims s)) (madj (ent a)) (ent a)).
(** model.py 558-577 *)
Fixpoint frame_exponent (s : frame_sys) (t : R) (fcs : dict R) (freqs : dict R) (acc : option mat)
  : result (option mat) :=
  match freqs with
  | [] => Ok acc
  | (line, freq) :: r =>
      match dget line fcs with
      | None => Err KeyError
      | Some fc =>
          rbind (frame_qubit s line) (fun q =>
          rbind (str_index q (f_names s)) (fun k =>
          rbind (ann_oper (f_dims s) k) (fun a =>
          let term := frame_term s t freq fc a in
          frame_exponent s t fcs r
            (Some (match acc with None => term | Some e => madd e term end)))))
      end
  end.
(** model.py 536-579: [get_Frame_Rotation]; tf.linalg.expm is the exact matrix
    exponential. *)
Definition get_frame_rotation (s : frame_sys) (t : R) (freqs fcs : dict R) : result mat :=
  rbind (frame_exponent s t fcs freqs None) (fun e =>
  Ok (match e with None => mid | Some m => mexp (prod_dims (f_dims s)) m end)).
