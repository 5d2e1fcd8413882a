(** Model of the computation of the gates of an experiment
    (c3/experiment.py 93-107, 440-558; c3/libraries/propagation.py 258-340). *)
From Coq Require Import Reals.
From Coquelicot Require Import Complex.
From Verif Require Import Base Mat MExp HilbertModel PropModel FoldModel EnvModel.
Local Open Scope list_scope.
Local Open Scope nat_scope.
Local Notation length := List.length.

(** ** Piecewise constant propagation (propagation.py 258-340) *)

(** propagation.py 276-330: What [pwc] reads of the model: dimension, drift and control Hamiltonians,
    open system flag, collapse operators, and the excitation cut-off (0 for none)
    with the dimensions of the subsystems. *)
Record pmodel := {
  p_dim : nat; p_h0 : mat; p_hctrls : dict mat;
  p_lind : bool; p_cols : list mat;
  p_dims : list nat; p_max_ex : nat
}.
(** generator.py 172-229: One drive line of the generated signal: "values" and "ts". *)
Record wave := { w_values : list R; w_ts : list R }.
(** propagation.py 330-340: The dictionary returned by a propagation method: "U", "dUs", "ts". *)
Record propres := { pr_U : mat; pr_dUs : list mat; pr_ts : list R }.

(** propagation.py 318-321 (and 356-366): default batch size. *)
Definition batch_of (batch : option nat) (ts : list R) : nat :=
  match batch with None => length ts | Some b => b end.
(** tf.convert_to_tensor of rows, propagation.py 288-300 *)
Definition ragged (signals : list (list R)) : bool :=
  match signals with
  | [] => false
  | s :: r => negb (forallb (fun l => Nat.eqb (length l) (length s)) r)
  end.
(** tf.cast to complex, propagation.py 288-300 *)
Definition to_C (l : list R) : list C := map RtoC l.

(** propagation.py 285-294: the branch [model.controllability].  [get_Hamiltonians]
    applies the cutter to the dictionary of control Hamiltonians when
    max_excitations is set, which raises; the ts of the last line are used; tf.cast
    of lists of different lengths raises. *)
Definition pwc_controlled (m : pmodel) (signal : dict wave) (stack : list layer) (batch : option nat) : result propres :=
  if negb (Nat.eqb (p_max_ex m) 0) then Err TypeError else
  rbind (lookup_controls (p_hctrls m) (keys signal)) (fun hks =>
  let values := map (fun kv => w_values (snd kv)) signal in
  if ragged values then Err ValueError else
  let ts := match rev signal with [] => [] | kv :: _ => w_ts (snd kv) end in
  match ts with
  | t0 :: t1 :: _ =>
      let dt := (t1 - t0)%R in
      let n := p_dim m in
      let N := if p_lind m then n * n else n in
      rbind (batch_propagate madd mscale mzero (mexp n) (fun h => lind_slice n h (p_cols m) dt)
               (p_lind m) (RtoC 0) (p_h0 m) hks (map to_C values) (- Ci * RtoC dt)%C (batch_of batch ts)) (fun dUs =>
      rbind (tf_matmul_n (mmul N) dUs stack) (fun U =>
      Ok {| pr_U := U; pr_dUs := dUs; pr_ts := ts |}))
  | _ => Err IndexError
  end).

(** propagation.py 295-340: the other branch.  [hs] is [model.get_Hamiltonian(signal)],
    one Hamiltonian per time slice, already cut; it acts on [d] levels ([p_dim] without
    cut-off, the number of kept labels with it).  The time checks are those of
    Hs_of_t on the points after the first. *)
Definition pwc_uncontrolled (m : pmodel) (hs : list mat) (signal : dict wave) (stack : list layer) (batch : option nat)
  : result propres :=
  let tss := map (fun kv => tl (w_ts (snd kv))) signal in
  match tss with
  | [] => Err ValueError
  | t0 :: _ =>
      if ragged tss then Err ValueError else
      let ts := map (fun j => rmean (time_column tss j)) (seq 0 (length t0)) in
      match ts with
      | a :: b :: _ =>
          if negb (forallb (fun j => rltb (rvar (time_column tss j)) (1 / 100000 * (b - a))) (seq 0 (length t0))) then Err C3Error
          else if negb (rltb (rvar (diffs ts)) (1 / 100000 * (b - a))) then Err C3Error
          else
          let dt := (b - a)%R in
          let d := if Nat.eqb (p_max_ex m) 0 then p_dim m else rows (ex_cutter (p_dims m) (p_max_ex m)) in
          rbind (batch_propagate_h mscale (mexp d) (fun h => h) (p_lind m) hs (- Ci * RtoC dt)%C (batch_of batch ts)) (fun dUs =>
          rbind (tf_matmul_n (mmul d) dUs stack) (fun U =>
          if Nat.eqb (p_max_ex m) 0 then Ok {| pr_U := U; pr_dUs := dUs; pr_ts := ts |}
          else rbind (tf_matmul_left (mmul d) dUs) (fun V =>
               Ok {| pr_U := blowup_excitations (p_dims m) (p_max_ex m) V;
                     pr_dUs := map (blowup_excitations (p_dims m) (p_max_ex m)) dUs; pr_ts := ts |})))
      | _ => Err IndexError
      end
  end.

(** ** compute_propagators (experiment.py 440-534) *)

(** experiment.py 461-524: What is read of an Instruction: times and, per line and component, the
    parameters. *)
Record einstr := { ei_t_start : R; ei_t_end : R; ei_comps : dict (dict (dict R)) }.
(** experiment.py 440-534: Settings of the model and the experiment. *)
Record esettings := {
  es_sys : frame_sys; es_lind : bool; es_use_FR : bool; es_dephasing : R; es_sim_res : R
}.
(** experiment.py 58-75: The mutable part of the experiment. *)
Record estate := {
  st_opt_gates : option (list string);
  st_overwrite : bool;
  st_props : dict mat;
  st_partial : dict (list mat)
}.

(** experiment.py 93-107, 470: the folding stack of an instruction; the dictionary
    holds an entry for the number of steps of every instruction. *)
Definition steps_of (s : esettings) (i : einstr) : nat := floor_nat ((ei_t_end i - ei_t_start i) * es_sim_res s).
(** experiment.py 487-491: the offset of the last component of the line with a
    frequency offset and an amplitude other than zero. *)
Definition line_offset (ctrls : dict (dict R)) : result R :=
  fold_left (fun acc kc => rbind acc (fun offset =>
    match dget "freq_offset"%string (snd kc) with
    | None => Ok offset
    | Some o => match dget "amp"%string (snd kc) with
                | None => Err KeyError
                | Some a => if Req_EM_T a 0 then Ok offset else Ok o
                end
    end)) ctrls (Ok 0%R).
(** experiment.py 461-524: ctrls["carrier"].params[name] *)
Definition carrier_par (name : string) (ctrls : dict (dict R)) : result R :=
  match dget "carrier"%string ctrls with
  | None => Err KeyError
  | Some c => match dget name c with None => Err KeyError | Some v => Ok v end
  end.
(** experiment.py 482-499 *)
Fixpoint frame_dicts (comps : dict (dict (dict R))) (acc : dict R * dict R) : result (dict R * dict R) :=
  match comps with
  | [] => Ok acc
  | (line, ctrls) :: r =>
      rbind (line_offset ctrls) (fun o =>
      rbind (carrier_par "freq" ctrls) (fun f =>
      rbind (carrier_par "framechange" ctrls) (fun fc =>
      frame_dicts r (dset line (f + o)%R (fst acc), dset line fc (snd acc)))))
  end.
(** experiment.py 481-508 *)
Definition frame_part (s : esettings) (i : einstr) (U : mat) : result mat :=
  if es_use_FR s then
    rbind (frame_dicts (ei_comps i) ([], [])) (fun ff =>
    rbind (get_frame_rotation (es_sys s) (ei_t_end i - ei_t_start i) (fst ff) (snd ff)) (fun FR =>
    let n := prod_dims (f_dims (es_sys s)) in
    if es_lind s then Ok (mmul (n * n) (tf_super n FR) U) else Ok (mmul n FR U)))
  else Ok U.
(** experiment.py 509-522: get_average_amp requires the line (devices.py 1199) but
    is called without it. *)
Definition dephasing_part (s : esettings) (i : einstr) (U : mat) : result mat :=
  if Req_EM_T (es_dephasing s) 0 then Ok U
  else if negb (es_lind s) then Err ValueError
  else match ei_comps i with
       | [] => let n := prod_dims (f_dims (es_sys s)) in Ok (mmul (n * n) (tf_super n mid) U)
       | _ => Err TypeError
       end.

Section Compute.
  (** self.propagation, applied to the instruction and its folding stack. *)
  Variable propagation : einstr -> list layer -> result propres.
  Variable s : esettings.
  Variable instructions : dict einstr.

  (** experiment.py 461-524: the body of the loop *)
  Definition one_gate (gate : string) : result (mat * list mat) :=
    match dget gate instructions with
    | None => Err C3Error
    | Some i =>
        rbind (propagation i (folding_stack (steps_of s i))) (fun r =>
        rbind (frame_part s i (pr_U r)) (fun U =>
        rbind (dephasing_part s i U) (fun U' => Ok (U', pr_dUs r))))
    end.
  (** experiment.py 461-534: the loop over the gates *)
  Fixpoint gate_loop (gates : list string) (acc : dict mat * dict (list mat)) : result (dict mat * dict (list mat)) :=
    match gates with
    | [] => Ok acc
    | g :: r => rbind (one_gate g) (fun ud => gate_loop r (dset g (fst ud) (fst acc), dset g (snd ud) (snd acc)))
    end.
  (** experiment.py 524-532: dict.update *)
  Definition dupdate {V} (d e : dict V) : dict V := fold_left (fun d kv => dset (fst kv) (snd kv) d) e d.
  (** experiment.py 440-534: the result and the experiment afterwards. *)
  Definition compute_propagators (e : estate) : result (dict mat) * estate :=
    let gate_ids := match st_opt_gates e with None => keys instructions | Some g => g end in
    match gate_loop gate_ids ([], []) with
    | Err x => (Err x, e)
    | Ok (p, pp) =>
        (Ok p,
         if st_overwrite e
         then {| st_opt_gates := st_opt_gates e; st_overwrite := true; st_props := p; st_partial := pp |}
         else {| st_opt_gates := st_opt_gates e; st_overwrite := false;
                 st_props := dupdate (st_props e) p; st_partial := dupdate (st_partial e) pp |})
    end.
End Compute.

(** experiment.py 536-547: [set_opt_gates] *)
Inductive gates_arg := OneGate (g : string) | ManyGates (g : list string).
(** experiment.py 536-547 *)
Definition set_opt_gates (a : gates_arg) (e : estate) : estate :=
  {| st_opt_gates := Some (match a with OneGate g => [g] | ManyGates l => l end);
     st_overwrite := st_overwrite e; st_props := st_props e; st_partial := st_partial e |}.
(** experiment.py 549-558: [set_opt_gates_seq]; [order] is the iteration order of
    list(set(...)), some arrangement of the distinct elements. *)
Definition set_opt_gates_seq (order : list string -> list string) (seqs : list (list string)) (e : estate) : estate :=
  set_opt_gates (ManyGates (order (List.concat seqs))) e.
