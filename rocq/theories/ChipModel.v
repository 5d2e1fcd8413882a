(** Model of chip components (c3/libraries/chip.py): potentials, tuning curves,
    Hamiltonians and collapse operators. *)
From Coq Require Import Reals.
From Coquelicot Require Import Complex Derive.
From Verif Require Import Base Mat MExp HilbertModel PropModel.
Local Open Scope R_scope.

(** ** Potentials *)

(** chip.py 673-735: Values of the parameters of a CShuntFluxQubit read by [get_potential_function]. *)
Record fluxpars := { fp_phi : R; fp_phi_0 : R; fp_gamma : R; fp_EJ : R; fp_EL : R }.

(** chip.py 731-790: [CShuntFluxQubit.get_potential_function].  Orders above four use
    the gradient tape on the order below, called without [phi_sig]; the tape returns
    the derivative, so it is modelled by [Derive].  Negative orders do not end and are
    not modelled. *)
Fixpoint cshunt_potential (p : fluxpars) (phi_sig : R) (order : nat) (x : R) : R :=
  let phi := (fp_phi p + phi_sig) / fp_phi_0 p * 2 * PI in
  match order with
  | 0%nat => fp_EJ p * (- 1 * cos (x + phi) - 2 * fp_gamma p * cos (x / 2))
  | 1%nat => fp_EJ p * (2 * sin (x + phi) + 2 * fp_gamma p * sin (x / 2)) / 2
  | 2%nat => fp_EJ p * (4 * cos (x + phi) + 2 * fp_gamma p * cos (x / 2)) / 4
  | 3%nat => fp_EJ p * (- 8 * sin (x + phi) - 2 * fp_gamma p * sin (x / 2)) / 8
  | 4%nat => fp_EJ p * (- 16 * cos (x + phi) - 2 * fp_gamma p * cos (x / 2)) / 16
  | S ((S (S (S (S _)))) as o) => Derive (cshunt_potential p 0 o) x
  end.

(** chip.py 980-1008: [Fluxonium.get_potential_function]; analytic up to order three.
    The comparison [phi_sig != 0] raises. *)
Fixpoint fluxonium_order (p : fluxpars) (order : nat) (x : R) : R :=
  let phi := fp_phi p / fp_phi_0 p * 2 * PI in
  match order with
  | 0%nat => - fp_EJ p * cos (x + phi) + 1 / 2 * fp_EL p * x ^ 2
  | 1%nat => fp_EJ p * sin (x + phi) + fp_EL p * x
  | 2%nat => fp_EJ p * cos (x + phi) + fp_EL p
  | 3%nat => - fp_EJ p * sin (x + phi)
  | S ((S (S (S _))) as o) => Derive (fluxonium_order p o) x
  end.
(** chip.py 980-1008: [Fluxonium.get_potential_function] *)
Definition fluxonium_potential (p : fluxpars) (phi_sig : R) (order : nat) (x : R) : result R :=
  if Req_EM_T phi_sig 0 then Ok (fluxonium_order p order x) else Err NotImplemented.

(** chip.py 834-852, 863-868: frequency, anharmonicity and third order prefactor at the
    position [x] found by [get_minimum_phi_var] (scipy's fmin, not modelled). *)
Definition flux_frequency (EC : R) (p : fluxpars) (phi_sig x : R) : R :=
  sqrt (2 * fp_EJ p * EC) + sqrt (2 * EC / fp_EJ p) * cshunt_potential p phi_sig 2 x
  + EC / fp_EJ p * cshunt_potential p phi_sig 4 x.
(** chip.py 854-861: [get_anharmonicity] *)
Definition flux_anharmonicity (EC : R) (p : fluxpars) (phi_sig x : R) : R :=
  EC / fp_EJ p * cshunt_potential p phi_sig 4 x.

(** ** Transmon *)

(** chip.py 319-353, 355-372: junction asymmetry: "d", or from "gamma", or 0.  The
    constructor keeps "d" when both are given. *)
Inductive asymmetry := AsymD (d : R) | AsymGamma (gamma : R) | AsymNone.
(** chip.py 355-372 *)
Definition asym_d (a : asymmetry) : R :=
  match a with AsymD d => d | AsymGamma g => (g - 1) / (g + 1) | AsymNone => 0 end.
(** chip.py 355-372: [Transmon.get_factor] *)
Definition transmon_factor (a : asymmetry) (phi phi_0 phi_sig : R) : R :=
  let phi := phi + phi_sig in
  let d := asym_d a in
  sqrt (sqrt (cos (PI * phi / phi_0) ^ 2 + d ^ 2 * sin (PI * phi / phi_0) ^ 2)).
(** chip.py 378-383: [Transmon.get_freq] *)
Definition transmon_freq (a : asymmetry) (freq anhar phi phi_0 phi_sig : R) : R :=
  (freq - anhar) * transmon_factor a phi phi_0 phi_sig + anhar.
(** chip.py 494-501: [TransmonExpanded.get_prefactors] *)
Record prefactors := { pf_quadratic : R; pf_quartic : R; pf_sextic : R }.
(** chip.py 494-501 *)
Definition transmon_prefactors (a : asymmetry) (EC EJ phi phi_0 phi_sig : R) : prefactors :=
  let EJ := EJ * transmon_factor a phi phi_0 phi_sig ^ 2 in
  {| pf_quadratic := sqrt (8 * EC * EJ);
     pf_quartic := - EC / 12;
     pf_sextic := EJ / 720 * Rpower (2 * EC / EJ) (3 / 2) |}.

(** ** Hamiltonians of subsystems *)
Section Subsystem.
  Variable n : nat.    (* total dimension *)

  (** chip.py 50-69: [get_transformed_hamiltonians], one operator *)
  Definition transformed (transform : option mat) (h : mat) : mat :=
    match transform with None => h | Some T => mmul n (mmul n (madj T) h) T end.

  (** chip.py 152-189: [Qubit.init_Hs], [Qubit.get_Hamiltonian]; a signal raises.
      The KeyError for a missing anharmonicity is kept. *)
  Definition qubit_hamiltonian (hilbert_dim : nat) (freq : R) (anhar : option R) (a : mat)
      (signal : bool) (transform : option mat) : result mat :=
    if signal then Err NotImplemented else
    let h := mscale (RtoC freq) (transformed transform (h_resonator n a)) in
    if Nat.ltb 2 hilbert_dim then
      match anhar with
      | None => Err KeyError
      | Some x => Ok (madd h (mscale (RtoC x) (transformed transform (h_duffing n a))))
      end
    else Ok h.
  (** chip.py 257-287: [Resonator] *)
  Definition resonator_hamiltonian (freq : R) (a : mat) (signal : bool) (transform : option mat) : result mat :=
    if signal then Err NotImplemented else Ok (mscale (RtoC freq) (transformed transform (h_resonator n a))).
  (** chip.py 385-390, 407-423: [Transmon.get_Hamiltonian] at one sample of the signal
      ([None]: no signal).  get_freq reads "anhar" whatever the dimension. *)
  Definition transmon_hamiltonian (hilbert_dim : nat) (s : asymmetry) (freq anhar phi phi_0 : R) (a : mat)
      (signal : option R) (transform : option mat) : mat :=
    let sig := match signal with None => 0 | Some x => x end in
    let h := mscale (RtoC (transmon_freq s freq anhar phi phi_0 sig)) (transformed transform (h_resonator n a)) in
    if Nat.ltb 2 hilbert_dim then madd h (mscale (RtoC anhar) (transformed transform (h_duffing n a))) else h.
  (** chip.py 472-492, 537-553: [TransmonExpanded.get_Hs], [get_Hamiltonian] *)
  Definition expanded_hamiltonian (s : asymmetry) (EC EJ phi phi_0 : R) (a : mat)
      (signal : option R) (transform : option mat) : mat :=
    let q := madd (madj a) a in
    let sq := mmul n q q in
    let quart := mmul n sq sq in
    let sext := mmul n quart sq in
    let pf := transmon_prefactors s EC EJ phi phi_0 (match signal with None => 0 | Some x => x end) in
    madd (madd (madd mzero (mscale (RtoC (pf_quadratic pf)) (transformed transform (mmul n (madj a) a))))
               (mscale (RtoC (pf_quartic pf)) (transformed transform quart)))
         (mscale (RtoC (pf_sextic pf)) (transformed transform sext)).
  (** chip.py 1080-1117: [SNAIL.get_Hamiltonian]: a transform raises (after use), as
      the truth value of a tensor with more than one element does. *)
  Definition snail_hamiltonian (hilbert_dim : nat) (freq beta anhar : R) (a : mat) (signal : bool) (transform : option mat)
    : result mat :=
    if signal then Err NotImplemented else
    match transform with
    | Some _ => Err ValueError
    | None =>
        let h := madd (mscale (RtoC freq) (h_resonator n a)) (mscale (RtoC beta) (h_third_order n a)) in
        Ok (if Nat.ltb 2 hilbert_dim then madd h (mscale (RtoC anhar) (h_duffing n a)) else h)
    end.

  (** ** CShuntFluxQubitCos (chip.py 604-668).  [a] is the ladder operator of dimension
      calc_dim; [n] is calc_dim here. *)
  Definition phase_variable (EC EJ : R) (a : mat) : mat :=
    mscale (RtoC (Rpower (2 * EC / EJ) (1 / 4))) (madd (madj a) a).
  (** chip.py 616-625: [get_n_variable] *)
  Definition n_variable (EC EJ : R) (a : mat) : mat :=
    mscale (RtoC (Rpower (EJ / EC / 32) (1 / 4))) (madd (mopp (madj a)) a).
  (** chip.py 643-647: [cosm] *)
  Definition cosm (var : mat) (x b : R) : mat :=
    let e := mscale (expi b) (mexp n (mscale (Ci * RtoC x)%C var)) in
    mscale (RtoC (1 / 2)) (madd e (madj e)).
  (** chip.py 649-668: [get_Hamiltonian] without signal and transform *)
  Definition mreal (A : mat) : mat := fun i j => RtoC (fst (A i j)).
  (** chip.py 649-668 *)
  Definition cos_hamiltonian (EC EJ gamma phi phi_0 : R) (a : mat) : mat :=
    let phase := 2 * PI * phi / phi_0 in
    let v := phase_variable EC EJ a in
    mreal (madd (mscale (RtoC (4 * EC)) (n_variable EC EJ a))
                (mscale (RtoC EJ) (msub (mscale (RtoC (- 1)) (cosm v 2 phase)) (mscale (RtoC (2 * gamma)) (cosm v 1 0))))).
End Subsystem.

(** ** Collapse operators *)
Section Lindblad.
  Variable n : nat.
  (** constants.py 5-7: Boltzmann constant and reduced Planck constant *)
  Variables kb hbar : R.
  (** the number operator with entries replaced: hskron(tensor_diag(l), index, dims)
      (chip.py 231, 459) *)
  Variable embed_diag : list R -> mat.

  (** chip.py 205-242: the parameters read by get_Lindbladian *)
  Record lindpars := { lp_t1 : option R; lp_t2star : option R; lp_temp : option R; lp_freq : R; lp_anhar : R }.

  (** chip.py 218-232, 441-462: transition frequencies and Boltzmann factors *)
  Definition freq_diff (hilbert_dim : nat) (freq anhar : R) : list R :=
    if Nat.ltb 2 hilbert_dim then map (fun k => freq + INR k * anhar) (seq 0 hilbert_dim) else [freq; 0].
  (** chip.py 218-232: the factors exp(-h f / kB T) *)
  Definition det_bal (temp : R) (fs : list R) : list R :=
    map (fun f => exp (- hbar * f * (1 / (temp * kb)))) fs.

  (** chip.py 191-203, 392-404: [init_Ls] *)
  Definition op_t1 (a : mat) : mat := a.
  (** chip.py 191-203, 392-404: L["temp"] *)
  Definition op_temp (a : mat) : mat := madj a.
  (** chip.py 191-203, 392-404: L["t2star"] *)
  Definition op_t2star (a : mat) : mat := mscale (RtoC 2) (mmul n (madj a) a).

  (** chip.py 234-242: sum(Ls) *)
  Definition sum_ops (l : list mat) : mat := fold_left madd l mzero.
  (** chip.py 205-242: [Qubit.get_Lindbladian]; [factor] is 1, for Transmon.get_Lindbladian
      (chip.py 425-467) 0.5, which in addition ignores a temperature of 0. *)
  Definition lind_ops (factor : R) (skip_zero : bool) (hilbert_dim : nat) (p : lindpars) (a : mat) : list mat :=
    (match lp_t1 p with
     | None => []
     | Some t1 =>
         let gamma := sqrt (factor / t1) in
         mscale (RtoC gamma) (op_t1 a)
         :: match lp_temp p with
            | None => []
            | Some temp =>
                if skip_zero && (if Req_EM_T temp 0 then true else false) then []
                else [mscale (RtoC gamma)
                        (mmul n (op_temp a) (embed_diag (det_bal temp (freq_diff hilbert_dim (lp_freq p) (lp_anhar p)))))]
            end
     end
     ++ match lp_t2star p with
        | None => []
        | Some t2 => [mscale (RtoC (sqrt ((1 / 2) / t2))) (op_t2star a)]
        end)%list.
  (** chip.py 205-242, 425-466 *)
  Definition get_lindbladian (factor : R) (skip_zero : bool) (hilbert_dim : nat) (p : lindpars) (a : mat) : result mat :=
    match lind_ops factor skip_zero hilbert_dim p a with
    | [] => Err C3Error
    | l => Ok (sum_ops l)
    end.
  (** chip.py 205-242 *)
  Definition qubit_lindbladian := get_lindbladian 1 false.
  (** chip.py 425-466 *)
  Definition transmon_lindbladian := get_lindbladian (1 / 2) true.
End Lindblad.
