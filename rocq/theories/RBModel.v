(** Model of randomised benchmarking (c3/libraries/fidelities.py 514-790): the
    survival probabilities, the repeated fit and the errors derived from it.

    Numbers are exact reals.  The random choices of Cliffords and scipy's
    curve_fit are unknown functions; curve_fit may raise. *)
From Coq Require Import Reals.
From Verif Require Import Base Mat PropModel FoldModel GateModel FidModel LearnModel EnvModel QiskitModel OptModel.
Local Open Scope list_scope.
Local Open Scope nat_scope.
Local Notation length := List.length.

(** qt_utils.py 474: the gate string; [target] is a string or an integer as printed *)
Definition rb_gate (target c : string) : string := (c ++ "[" ++ target ++ "]")%string.
(** qt_utils.py 470-476: the names of the gates of every sequence *)
Definition rb_names (target : string) (seqs : list (list (string * nat))) : list (list string) :=
  map (map (fun g => rb_gate target (fst g))) seqs.
(** fidelities.py 534-536: np.rint(np.linspace(...)) *)
Definition rb_lengths_lin (a b : R) (num : nat) : list Z := map np_round (OptModel.linspace a b num).
(** fidelities.py 530-532: np.rint(np.logspace(np.log10(a), np.log10(b), num)) *)
Definition rb_lengths_log (a b : R) (num : nat) : list Z :=
  map (fun e => np_round (Rpower 10 e)) (OptModel.linspace (ln a / ln 10) (ln b / ln 10) num).
(** fidelities.py 529-536, 564-577, 623-630, 667-680, 718-731 *)
Definition rb_lengths (logspace : bool) (a b : nat) (num : nat) : list Z :=
  if logspace then rb_lengths_log (INR a) (INR b) num else rb_lengths_lin (INR a) (INR b) num.
(** fidelities.py 555, 653, 704: np.mean(surv_prob, axis=1) *)
Definition row_means (surv : list (list R)) : list R := map mean_l surv.
(** fidelities.py 556, 654, 705: np.std(surv_prob, axis=1) / np.sqrt(len(surv_prob[0])) *)
Definition row_errs (surv : list (list R)) : list R :=
  map (fun row => std_l row / sqrt (INR (length (hd [] surv))))%R surv.
(** fidelities.py 588 *)
Definition rb_epc (r : R) : R := (1 / 2 * (1 - r))%R.
(** fidelities.py 589 *)
Definition rb_epg (r : R) : R := (1 - Rpower (1 - rb_epc r) (1 / 4))%R.

(** fidelities.py 537-545, 555-587, 631-643, 652-693, 703-744: what the loops keep: the
    number of lengths simulated so far (which selects the random numbers), max_length,
    lengths, surv_prob and comp_surv (in RB nothing reads the last, which is absent there) *)
Record rb_state : Type := { rb_count : nat; rb_max : nat; rb_lens : list Z; rb_surv : list (list R); rb_comp : list (list R) }.
(** The arguments of [RB] and [leakage_RB] that do not change, fidelities.py 515-524, 610-618:
    the dimension and dictionary of propagators, lindbladian, padding (0 for leakage_RB),
    min_length, num_lengths, logspace, and the numbers drawn by np.random.choice
    (qt_utils.py 470) for the [num_seqs] sequences of the k-th length that is simulated *)
Record rb_args : Type := { ra_N : nat; ra_props : dict mat; ra_lind : bool; ra_target : string;
  ra_min : nat; ra_num : nat; ra_log : bool; ra_draw : nat -> nat -> list (list nat) }.

(** fidelities.py 539-543, 634-639: the populations after every sequence of a length *)
Definition rb_populations (a : rb_args) (k : nat) (L : Z) : result (list (list R)) :=
  rbind (single_length_RB (Z.to_nat L) 0 (ra_draw a k (Z.to_nat L))) (fun seqs =>
  rbind (evaluate_sequences (mmul (ra_N a)) (fun _ => mid) (ra_props a) (rb_names (ra_target a) seqs)) (fun Us =>
  Ok (map (fun U => fid_populations (ra_N a) (mmul (ra_N a) U (one_hot 0)) (ra_lind a)) Us))).
(** fidelities.py 538-545, 579-586: the loop over the lengths *)
Fixpoint rb_rows (a : rb_args) (k : nat) (lengths : list Z) : result (list (list (list R))) :=
  match lengths with
  | [] => Ok []
  | L :: r => rbind (rb_populations a k L) (fun row => rbind (rb_rows a (S k) r) (fun rows => Ok (row :: rows)))
  end.
(** fidelities.py 544: float(pops[0]) of every sequence *)
Definition survival (row : list (list R)) : list R := map (fun p => nth 0 p 0%R) row.
(** fidelities.py 641: float(pops[0]) + float(pops[1]) of every sequence (two levels at least) *)
Definition comp_survival (row : list (list R)) : list R := map (fun p => (nth 0 p 0 + nth 1 p 0)%R) row.

(** fidelities.py 525-545, 619-643: the state before the first fit.  The propagator that
    gives the dimension is the first of the dictionary. *)
Definition rb_start (a : rb_args) (max_length : nat) : result rb_state :=
  match ra_props a with
  | [] => Err IndexError
  | _ =>
    let lengths := rb_lengths (ra_log a) (ra_min a) max_length (ra_num a) in
    rbind (rb_rows a 0 lengths) (fun rows =>
    Ok {| rb_count := length lengths; rb_max := max_length; rb_lens := lengths;
          rb_surv := map survival rows; rb_comp := map comp_survival rows |})
  end.
(** fidelities.py 562-587, 665-693, 716-744: after a fit that raised, longer sequences are
    added; lines 690 and 741 append float(pops[0]) to the computational population. *)
Definition rb_more (a : rb_args) (s : rb_state) : result rb_state :=
  let new_lengths := rb_lengths (ra_log a) (rb_max s + ra_min a) (rb_max s * 2) (ra_num a) in
  rbind (rb_rows a (rb_count s) new_lengths) (fun rows =>
  Ok {| rb_count := rb_count s + length new_lengths; rb_max := rb_max s * 2; rb_lens := rb_lens s ++ new_lengths;
        rb_surv := rb_surv s ++ map survival rows; rb_comp := rb_comp s ++ map survival rows |}).
(** fidelities.py 553-587, 650-693, 701-744: the while loop, at most [fuel] fits *)
Fixpoint rb_fit (a : rb_args) (fit : rb_state -> result (R * R * R)) (fuel : nat) (s : rb_state)
  : result (R * R * R * rb_state) :=
  match fuel with
  | 0 => Err OutOfFuel
  | S fuel' => match fit s with
               | Ok v => Ok (v, s)
               | Err _ => rbind (rb_more a s) (rb_fit a fit fuel')
               end
  end.
(** scipy's curve_fit of lengths, means and errors, fidelities.py 557-559, 655-662, 706-713 *)
Definition fitter : Type := list Z -> list R -> list R -> result (R * R * R).
(** fidelities.py 514-590: [RB] *)
Definition RB (a : rb_args) (curve_fit : fitter) (fuel max_length : nat) : result R :=
  rbind (rb_start a max_length) (fun s0 =>
  rbind (rb_fit a (fun s => curve_fit (rb_lens s) (row_means (rb_surv s)) (row_errs (rb_surv s))) fuel s0) (fun vs =>
  let '(r, A, B) := fst vs in Ok (rb_epg r))).

(** fidelities.py 750: what [leakage_RB] returns *)
Record leakage_result : Type := { lr_epc : R; lr_leakage : R; lr_seepage : R; lr_r_leak : R; lr_A_leak : R; lr_B_leak : R;
  lr_r : R; lr_A : R; lr_C : R }.
(** fidelities.py 609-750: [leakage_RB]; [fit_surv] knows r_leak and B_leak (line 696) *)
Definition leakage_RB (a : rb_args) (fit_leak : fitter) (fit_surv : R -> R -> fitter) (fuel max_length : nat)
  : result leakage_result :=
  rbind (rb_start a max_length) (fun s0 =>
  rbind (rb_fit a (fun s => fit_leak (rb_lens s) (row_means (rb_comp s)) (row_errs (rb_comp s))) fuel s0) (fun vs =>
  let '(r_leak, A_leak, B_leak) := fst vs in
  rbind (rb_fit a (fun s => fit_surv r_leak B_leak (rb_lens s) (row_means (rb_surv s)) (row_errs (rb_surv s))) fuel (snd vs)) (fun ws =>
  let '(r, A, C) := fst ws in
  let leakage := ((1 - A_leak) * (1 - r_leak))%R in
  let seepage := (A_leak * (1 - r_leak))%R in
  let fid := (1 / 2 * (r + 1 - leakage))%R in
  Ok {| lr_epc := 1 - fid; lr_leakage := leakage; lr_seepage := seepage; lr_r_leak := r_leak; lr_A_leak := A_leak;
        lr_B_leak := B_leak; lr_r := r; lr_A := A; lr_C := C |}))).

(** fidelities.py 754-790: [orbit_infid] without shots and noise; without sequences they are drawn
    (lines 763-764) for qubit 0. *)
Definition orbit (N : nat) (props : dict mat) (seqs : list (list string)) (RB_length : nat) (choices : list (list nat)) : result R :=
  rbind (match seqs with
         | [] => rmap (rb_names "0") (single_length_RB RB_length 0 choices)
         | _ => Ok seqs
         end) (fun seqs' =>
  rbind (evaluate_sequences (mmul N) (fun _ => mid) props seqs') (orbit_infid N)).
