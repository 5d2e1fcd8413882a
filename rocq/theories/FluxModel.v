(** Model of the flux dependence of [CShuntFluxQubit]: the cached search for the minimum of the
    potential and what is computed from it (c3/libraries/chip.py 672-910). *)
From Coq Require Import Reals List.
Import ListNotations.
From Coquelicot Require Import Complex.
From Verif Require Import Base Mat HilbertModel PropModel ChipModel.
Local Open Scope R_scope.
Local Notation length := List.length.

(** chip.py 728-729, 813-818: the attributes [phi_var_min_ref] and [min_phi_var_change_test]. *)
Record flux_cache := { fc_ref : option (list R); fc_test : R }.
(** chip.py 728-729: a new qubit *)
Definition new_cache : flux_cache := {| fc_ref := None; fc_test := 1312341234 |}.
(** Python's == on the values (no rounding errors: real numbers), chip.py 792, 804. *)
Definition reqb (a b : R) : bool := if Req_EM_T a b then true else false.
(** chip.py 791: [initial_pot_eval] *)
Definition initial_pot (p : fluxpars) : R := cshunt_potential p 0 0 0.
(** chip.py 809: np.linspace(0, phi_0, 50)[k] *)
Definition flux_grid (phi_0 : R) (k : nat) : R := INR k * phi_0 / 49.
(** tf.math.mod for floats, chip.py 824: x - floor(x / m) m *)
Definition fmod (x m : R) : R := x - IZR (Int_part (x / m)) * m.
(** tfp.math.interp_regular_1d_grid(x, 0, hi, ys), chip.py 823-825: linear between neighbours of the
    regular grid, for 0 <= x <= hi. *)
Definition interp_grid (x hi : R) (ys : list R) : R :=
  let N := length ys in
  let t := x / hi * INR (N - 1) in
  let k := Z.to_nat (Z.min (Int_part t) (Z.of_nat N - 2)) in
  nth k ys 0 + (t - INR k) * (nth (S k) ys 0 - nth k ys 0).

Section Flux.
  (** scipy's fmin started at 0 (chip.py 793-798, 811-816): the position found for a function; any function
      here.  It returns an array of one element, here the element. *)
  Variable fmin : (R -> R) -> R.

  (** chip.py 807-821: the minima for 50 values of the flux *)
  Definition flux_table (p : fluxpars) : list R :=
    map (fun k => fmin (cshunt_potential p (flux_grid (fp_phi_0 p) k) 0)) (seq 0 50).
  (** chip.py 787-826: [get_minimum_phi_var] *)
  Definition minimum_phi (p : fluxpars) (c : flux_cache) (sig : R) : R * flux_cache :=
    let pot := initial_pot p in
    if negb (reqb (fc_test c) pot) && reqb sig 0 then
      (fmin (cshunt_potential p 0 0), {| fc_ref := fc_ref c; fc_test := pot |})
    else
      let fresh := {| fc_ref := Some (flux_table p); fc_test := pot |} in
      let c' := match fc_ref c with
                | Some _ => if reqb (fc_test c) pot then c else fresh
                | None => fresh
                end in
      let ref := match fc_ref c' with Some r => r | None => [] end in
      (interp_grid (fmod sig (fp_phi_0 p)) (fp_phi_0 p) ref, c').
  (** chip.py 834-852: [get_frequency] *)
  Definition get_frequency (EC : R) (p : fluxpars) (c : flux_cache) (sig : R) : R * flux_cache :=
    let (x, c) := minimum_phi p c sig in (flux_frequency EC p sig x, c).
  (** chip.py 854-861: [get_anharmonicity]; the minimum is searched without the signal *)
  Definition get_anharmonicity (EC : R) (p : fluxpars) (c : flux_cache) (sig : R) : R * flux_cache :=
    let (x, c) := minimum_phi p c 0 in (flux_anharmonicity EC p sig x, c).
  (** chip.py 863-868: [get_third_order_prefactor] *)
  Definition get_third_order (EC : R) (p : fluxpars) (c : flux_cache) (sig : R) : R * flux_cache :=
    let (x, c) := minimum_phi p c 0 in
    (1 / 2 * Rpower (2 * EC / fp_EJ p) (3 / 4) * cshunt_potential p sig 3 x, c).
  (** chip.py 870-910: [init_Hs] and [get_Hamiltonian]; [n] is the total dimension, [a] the
      annihilation operator. *)
  Definition flux_hamiltonian (n dim : nat) (a : mat) (EC : R) (p : fluxpars) (c : flux_cache)
      (signal : bool) (transform : option mat) : result mat * flux_cache :=
    if signal then (Err NotImplemented, c) else
    let (f, c) := get_frequency EC p c 0 in
    let h := mscale (RtoC f) (transformed n transform (h_resonator n a)) in
    if Nat.ltb 2 dim then
      let (x, c) := get_anharmonicity EC p c 0 in
      (Ok (madd h (mscale (RtoC x) (transformed n transform (h_duffing n a)))), c)
    else (Ok h, c).

  (** Calls of the methods above by a user or by the model (model.py 430-444); chip.py 834-910. *)
  Inductive flux_call := FFreq (sig : R) | FAnhar (sig : R) | FThird (sig : R) | FHam (dim : nat) (signal : bool).
  (** the effect of a call on the cache, chip.py 834-910 *)
  Definition flux_step (EC : R) (p : fluxpars) (c : flux_cache) (f : flux_call) : flux_cache :=
    match f with
    | FFreq s => snd (get_frequency EC p c s)
    | FAnhar s => snd (get_anharmonicity EC p c s)
    | FThird s => snd (get_third_order EC p c s)
    | FHam dim signal => snd (flux_hamiltonian 0 dim mzero EC p c signal None)
    end.
  (** any number of calls, each with the parameters of its time, chip.py 834-910 *)
  Definition flux_run (c : flux_cache) (l : list (R * fluxpars * flux_call)) : flux_cache :=
    fold_left (fun c x => flux_step (fst (fst x)) (snd (fst x)) c (snd x)) l c.
End Flux.
