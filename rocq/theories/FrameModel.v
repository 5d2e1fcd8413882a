(** Model of the dressed frame and of the assembly of the Hamiltonian
    (c3/model.py 353-534, 580-589; c3/libraries/chip.py 60-70, 1155-1240). *)
From Coq Require Import Reals.
From Coquelicot Require Import Complex.
From Verif Require Import Base Mat HilbertModel PropModel ExpModel.
Local Open Scope list_scope.
Local Open Scope nat_scope.
Local Notation length := List.length.

(** ** reorder_frame (model.py 453-491) *)

(** model.py 458: v * conj(v): squared moduli of the eigenvector components. *)
Definition v_sq (v : mat) (i j : nat) : R := fst (v i j * Cconj (v i j))%C.
(** model.py 460-461: Largest and smallest of f 0, ..., f k (tf.reduce_max / reduce_min). *)
Fixpoint vmax (f : nat -> R) (k : nat) : R := match k with 0 => f 0 | S k' => Rmax (vmax f k') (f (S k')) end.
(** tf.reduce_min, model.py 460-461 *)
Fixpoint vmin (f : nat -> R) (k : nat) : R := match k with 0 => f 0 | S k' => Rmin (vmin f k') (f (S k')) end.
(** model.py 461: the test for the regular case; [n] states, n > 0. *)
Definition all_dominant (n : nat) (v : mat) : bool :=
  rltb (1 / 2) (vmin (fun j => vmax (fun i => v_sq v i j) (n - 1)) (n - 1)).
(** model.py 462 *)
Definition reorder_dominant (v : mat) (i j : nat) : R := if rltb (1 / 2) (v_sq v i j) then 1%R else 0%R.

(** model.py 469-475: np.argmax over f 0, ..., f k: the first index of a largest value. *)
Fixpoint argmax {A} (lt : A -> A -> bool) (f : nat -> A) (k : nat) : nat :=
  match k with 0 => 0 | S k' => let b := argmax lt f k' in if lt (f b) (f (S k')) then S k' else b end.
(** model.py 469-475: repeatedly pick the largest remaining entry (row-major order) and clear
    its row and column; the picked positions, latest first. *)
Definition pick {A} (lt : A -> A -> bool) (n : nat) (vc : nat -> nat -> A) : nat * nat :=
  let p := argmax lt (fun p => vc (p / n) (p mod n)) (n * n - 1) in (p / n, p mod n).
(** model.py 469-475: clearing the row and column of the picked entry *)
Definition clear {A} (zero : A) (rc : nat * nat) (vc : nat -> nat -> A) (i j : nat) : A :=
  if Nat.eqb i (fst rc) || Nat.eqb j (snd rc) then zero else vc i j.
(** model.py 469-475: the loop *)
Fixpoint greedy {A} (lt : A -> A -> bool) (zero : A) (n : nat) (steps : nat) (vc : nat -> nat -> A)
  (picks : list (nat * nat)) : list (nat * nat) :=
  match steps with
  | 0 => picks
  | S s => let rc := pick lt n vc in greedy lt zero n s (clear zero rc vc) (rc :: picks)
  end.
(** model.py 464-475 *)
Definition reorder_fallback (n : nat) (v : mat) : nat -> nat -> R :=
  let picks := greedy rltb 0%R n n (v_sq v) [] in
  fun i j => if existsb (fun rc => Nat.eqb i (fst rc) && Nat.eqb j (snd rc)) picks then 1%R else 0%R.

(** model.py 478-484: tf.sign *)
Definition sgn (x : R) : R := if rltb 0 x then 1%R else if rltb x 0 then (-1)%R else 0%R.
(** sum of reals, model.py 478-484 *)
Definition rsumn (n : nat) (f : nat -> R) : R := fst (csum n (fun j => RtoC (f j))).
(** model.py 453-491.  [e], [v] come from eigh; real parts of real energies are themselves. *)
Definition reorder_frame (n : nat) (e : nat -> R) (v : mat) (ordered : bool)
  : (nat -> nat -> R) * (nat -> R) * mat :=
  if ordered then
    let reorder := if all_dominant n v then reorder_dominant v else reorder_fallback n v in
    let signed : mat := fun i j => RtoC (sgn (fst (v i j)) * reorder i j) in
    (reorder, fun i => rsumn n (fun j => (reorder i j * e j)%R), mmul n v (mtrans signed))
  else (fun i j => if Nat.eqb i j then 1%R else 0%R, e, v).

(** ** The Hamiltonians of a model (model.py 430-451, 493-534) *)

(** model.py 423-451: Bare operators: one Hamiltonian per subsystem and coupling, one control
    Hamiltonian per drive line, the collapse operators. *)
Record operators := { o_hams : dict mat; o_controls : dict mat; o_cols : list mat }.
(** model.py 442: sum(hamiltonians.values()) *)
Definition drift_of (hams : dict mat) : mat := fold_left (fun s kv => madd s (snd kv)) hams mzero.
(** model.py 512-530: T+ h T *)
Definition conjugated (n : nat) (T h : mat) : mat := mmul n (mmul n (madj T) h) T.
(** a dictionary comprehension over the items, model.py 512-530 *)
Definition dmap {V W} (f : V -> W) (d : dict V) : dict W := map (fun kv => (fst kv, f (snd kv))) d.
(** model.py 504-534: [update_dressed] for the stored transformation [T]. *)
Definition dressed_operators (n : nat) (T : mat) (o : operators) : operators :=
  {| o_hams := dmap (conjugated n T) (o_hams o); o_controls := dmap (conjugated n T) (o_controls o);
     o_cols := map (conjugated n T) (o_cols o) |}.
(** model.py 504-534: the drift in the dressed basis *)
Definition dressed_drift (n : nat) (T : mat) (o : operators) : mat := conjugated n T (drift_of (o_hams o)).
(** model.py 353-366, 417-421: [get_Hamiltonians] and [get_Lindbladians] of a model without
    excitation cut-off, as read by the propagation methods. *)
Definition model_view (n : nat) (dims : list nat) (lind : bool) (T : option mat) (o : operators) : pmodel :=
  match T with
  | Some T => {| p_dim := n; p_h0 := dressed_drift n T o; p_hctrls := o_controls (dressed_operators n T o);
                 p_lind := lind; p_cols := o_cols (dressed_operators n T o); p_dims := dims; p_max_ex := 0 |}
  | None => {| p_dim := n; p_h0 := drift_of (o_hams o); p_hctrls := o_controls o;
               p_lind := lind; p_cols := o_cols o; p_dims := dims; p_max_ex := 0 |}
  end.
(** model.py 580-589: [get_qubit_freqs] *)
Definition one_excitation (dims : list nat) (i : nat) : list nat :=
  map (fun k => if Nat.eqb k i then 1 else 0) (seq 0 (length dims)).
(** model.py 580-589: the loop *)
Fixpoint qubit_freqs (dims : list nat) (drift : mat) (is : list nat) : result (list R) :=
  match is with
  | [] => Ok []
  | i :: r =>
      rbind (get_state_index dims (one_excitation dims i)) (fun idx =>
      rbind (qubit_freqs dims drift r) (fun fs =>
      Ok (((fst (drift idx idx) - fst (drift 0%nat 0%nat)) / 2 / PI)%R :: fs)))
  end.
(** model.py 580-589 *)
Definition get_qubit_freqs (dims : list nat) (dressed_drift : mat) : result (list R) :=
  qubit_freqs dims dressed_drift (seq 0 (length dims)).

(** ** get_Hamiltonian with a signal (model.py 374-412) *)

(** Subsystems: the stored Hamiltonian and [get_Hamiltonian] for a signal (its samples)
    and a transformation.  Couplings (chip.py 1191-1202) refuse signals; drives
    (chip.py 1224-1239) multiply their Hamiltonian with the samples and have no part
    in the stored Hamiltonians. *)
Record subsystem := { s_ham : mat; s_signal : list R -> option mat -> result (list mat) }.
(** chip.py 1120-1254: couplings and drives *)
Inductive line := LCoupling (h : mat) | LDrive (h : mat).
(** model.py 119-139: [subsystems] and [couplings] *)
Record parts := { m_subs : dict subsystem; m_lines : dict line }.

(** model.py 430-444 *)
Definition stored_hams (m : parts) : dict mat :=
  dmap s_ham (m_subs m) ++ flat_map (fun kl => match snd kl with LCoupling h => [(fst kl, h)] | LDrive _ => [] end) (m_lines m).
(** model.py 430-444: [control_hams] *)
Definition control_hams (m : parts) : dict mat :=
  flat_map (fun kl => match snd kl with LDrive h => [(fst kl, h)] | LCoupling _ => [] end) (m_lines m).
(** chip.py 60-70: the transformation if given *)
Definition conj_opt (n : nat) (T : option mat) (h : mat) : mat :=
  match T with Some T => conjugated n T h | None => h end.
(** chip.py 1155-1254: get_Hamiltonian of a coupling or drive with a signal *)
Definition line_signal (n : nat) (l : line) (sig : list R) (T : option mat) : result (list mat) :=
  match l with
  | LCoupling _ => Err NotImplemented
  | LDrive h => Ok (map (fun c => mscale (RtoC c) (conj_opt n T h)) sig)
  end.
(** model.py 392-404: replace or add the time dependent Hamiltonians; a stored Hamiltonian is a
    stack of one. *)
Fixpoint with_signals (n : nat) (m : parts) (T : option mat) (signal : dict (list R)) (hams : dict (list mat))
  : result (dict (list mat)) :=
  match signal with
  | [] => Ok hams
  | (key, sig) :: r =>
      rbind (match dget key (m_subs m) with
             | Some s => s_signal s sig T
             | None => match dget key (m_lines m) with
                       | Some l => line_signal n l sig T
                       | None => Err C3Error
                       end
             end) (fun hs => with_signals n m T r (dset key hs hams))
  end.
(** model.py 406-411: Addition of stacks with broadcasting of stacks of one (406-411). *)
Definition badd (a b : list mat) : result (list mat) :=
  if Nat.eqb (length a) (length b) then Ok (map (fun xy => madd (fst xy) (snd xy)) (combine a b))
  else match a, b with
       | [x], _ => Ok (map (madd x) b)
       | _, [y] => Ok (map (fun x => madd x y) a)
       | _, _ => Err ValueError
       end.
(** model.py 406-411: the sum over all Hamiltonians *)
Definition bsum (l : list (list mat)) : result (list mat) :=
  fold_left (fun s h => rbind s (fun s => badd s h)) l (Ok [mzero]).
(** model.py 374-415: [T] is the transformation of a dressed model, None for a bare one.  The sum starts
    with the number 0 (Python's sum), here a zero matrix. *)
Definition get_hamiltonian (n : nat) (m : parts) (T : option mat) (signal : dict (list R)) : result (list mat) :=
  rbind (with_signals n m T signal (dmap (fun h => [conj_opt n T h]) (stored_hams m))) (fun hams =>
  bsum (map snd hams)).
