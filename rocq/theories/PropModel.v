(** Model of the time evolution code: right-hand sides, Runge-Kutta solvers and
    their sampling of the Hamiltonian, superoperators, the dephasing channel
    and the library Hamiltonians (c3/libraries/propagation.py,
    c3/libraries/hamiltonians.py, c3/model.py 597-697, c3/utils/tf_utils.py
    240-305 and 521-567).

    Floating point numbers are exact reals, complex numbers are pairs of reals;
    [dt] is a real number (the code casts it to a complex one). *)
From Coq Require Import Reals.
From Coquelicot Require Import Coquelicot.
From Verif Require Import Base Mat MExp HilbertModel.
Local Open Scope list_scope.
Local Notation length := List.length.

(** ** Right-hand sides *)

(** tf_utils.py 562-567. *)
Definition commutator (n : nat) (A B : mat) : mat := msub (mmul n A B) (mmul n B A).
(** tf_utils.py 562-567, used at propagation.py 892 *)
Definition anticommutator (n : nat) (A B : mat) : mat := madd (mmul n A B) (mmul n B A).

(** propagation.py 898-900: [schrodinger]; the collapse operators are ignored. *)
Definition schrodinger (n : nat) (dt : R) (psi h : mat) : mat :=
  mscale (RtoC dt) (mscale (- Ci)%C (mmul n h psi)).

(** propagation.py 903-905: [von_neumann]. *)
Definition von_neumann (n : nat) (dt : R) (rho h : mat) : mat :=
  mscale (RtoC dt) (mscale (- Ci)%C (commutator n h rho)).

(** propagation.py 888-895: the body of the loop and [lindblad]. *)
Definition lindblad_add (n : nat) (rho : mat) (del_rho c : mat) : mat :=
  msub (madd del_rho (mmul n (mmul n c rho) (madj c)))
       (mscale (RtoC (1/2)) (anticommutator n (mmul n (madj c) c) rho)).
(** propagation.py 887-895: [lindblad] *)
Definition lindblad (n : nat) (cols : list mat) (dt : R) (rho h : mat) : mat :=
  mscale (RtoC dt) (fold_left (lindblad_add n rho) cols (mscale (- Ci)%C (commutator n h rho))).

(** ** Solvers (propagation.py 755-884)

    [f rho h] stands for [func(rho, h, dt, col)]; [h] is the list of sampled
    Hamiltonians.  Indexing it out of range is excluded by [C43]. *)
Section Solvers.
  Variable f : mat -> mat -> mat.
  Notation "a +' b" := (madd a b) (at level 50, left associativity).
  Notation "a -' b" := (msub a b) (at level 50, left associativity).
  Notation "c *' a" := (mscale (RtoC c) a) (at level 40, left associativity).
  (** h[k] in propagation.py 756-884 *)
  Definition hs (h : list mat) (k : nat) : mat := nth k h mzero.

  (** propagation.py 756-763. *)
  Definition rk4 (rho : mat) (h : list mat) : mat :=
    let k1 := f rho (hs h 0) in
    let k2 := f (rho +' (/ 2) *' k1) (hs h 1) in
    let k3 := f (rho +' (/ 2) *' k2) (hs h 1) in
    let k4 := f (rho +' k3) (hs h 2) in
    rho +' (/ 6) *' (k1 +' 2 *' k2 +' 2 *' k3 +' k4).

  (** propagation.py 766-773. *)
  Definition rk38 (rho : mat) (h : list mat) : mat :=
    let k1 := f rho (hs h 0) in
    let k2 := f (rho +' (/ 3) *' k1) (hs h 1) in
    let k3 := f (rho +' (/ 3) *' mopp k1 +' k2) (hs h 2) in
    let k4 := f (rho +' k1 -' k2 +' k3) (hs h 3) in
    rho +' (/ 8) *' (k1 +' 3 *' k2 +' 3 *' k3 +' k4).

  (** propagation.py 776-824. *)
  Definition rk5 (rho : mat) (h : list mat) : mat :=
    let k1 := f rho (hs h 0) in
    let k2 := f (rho +' (1 / 5) *' k1) (hs h 1) in
    let k3 := f (rho +' (3 / 40) *' k1 +' (9 / 40) *' k2) (hs h 2) in
    let k4 := f (rho +' (44 / 45) *' k1 -' (56 / 15) *' k2 +' (32 / 9) *' k3) (hs h 3) in
    let k5 := f (rho +' (19372 / 6561) *' k1 -' (25360 / 2187) *' k2
                 +' (64448 / 6561) *' k3 -' (212 / 729) *' k4) (hs h 4) in
    let k6 := f (rho +' (9017 / 3168) *' k1 -' (355 / 33) *' k2
                 +' (46732 / 5247) *' k3 +' (49 / 176) *' k4 -' (5103 / 18656) *' k5) (hs h 5) in
    let k7 := f (rho +' (35 / 384) *' k1 +' (500 / 1113) *' k3 +' (125 / 192) *' k4
                 -' (2187 / 6784) *' k5 +' (11 / 84) *' k6) (hs h 5) in
    rho +' (5179 / 57600) *' k1 +' (7571 / 16695) *' k3 +' (393 / 640) *' k4
        -' (92097 / 339200) *' k5 +' (187 / 2100) *' k6 +' (1 / 40) *' k7.

  (** propagation.py 827-884; decimal literals are the exact decimals. *)
  Definition tsit5 (rho : mat) (h : list mat) : mat :=
    let k1 := f rho (hs h 0) in
    let k2 := f (rho +' 0.161 *' k1) (hs h 1) in
    let k3 := f (rho +' (- 0.008480655492356989) *' k1 +' 0.335480655492357 *' k2) (hs h 2) in
    let k4 := f (rho +' 2.8971530571054935 *' k1 -' 6.359448489975075 *' k2
                 +' 4.3622954328695815 *' k3) (hs h 3) in
    let k5 := f (rho +' 5.325864828439257 *' k1 -' 11.748883564062828 *' k2
                 +' 7.4955393428898365 *' k3 -' 0.09249506636175525 *' k4) (hs h 4) in
    let k6 := f (rho +' 5.86145544294642 *' k1 -' 12.92096931784711 *' k2
                 +' 8.159367898576159 *' k3 +' (- 0.071584973281401) *' k4
                 -' 0.028269050394068383 *' k5) (hs h 5) in
    let k7 := f (rho +' 0.09646076681806523 *' k1 +' 0.01 *' k2 +' 0.4798896504144996 *' k3
                 +' 1.379008574103742 *' k4 -' 3.290069515436081 *' k5
                 +' 2.324710524099774 *' k6) (hs h 5) in
    rho +' 0.09468075576583945 *' k1 +' 0.009183565540343254 *' k2 +' 0.4877705284247616 *' k3
        +' 1.234297566930479 *' k4 -' 2.7077123499835256 *' k5 +' 1.866628418170587 *' k6
        +' (1 / 66) *' k7.
End Solvers.

(** propagation.py 27-32: the keys of [solver_slicing] *)
Inductive solver : Type := RK4 | RK38 | RK5 | Tsit5.
(** propagation.py 27-32: [solver_slicing], with the names resolved. *)
Definition solver_start (s : solver) : nat := match s with RK4 => 2 | RK38 => 3 | RK5 | Tsit5 => 6 end.
(** propagation.py 27-32: second entry *)
Definition solver_stop (s : solver) : nat := match s with RK4 => 3 | RK38 => 4 | RK5 | Tsit5 => 6 end.
(** propagation.py 27-32: third entry, the interpolation resolution *)
Definition solver_res (s : solver) : Z := match s with RK4 => 2 | RK38 => 3 | RK5 => -1 | Tsit5 => -2 end.
(** propagation.py 24-26, 687: [solver_dict]. *)
Definition solver_fun (s : solver) : (mat -> mat -> mat) -> mat -> list mat -> mat :=
  match s with RK4 => rk4 | RK38 => rk38 | RK5 => rk5 | Tsit5 => tsit5 end.

(** propagation.py 713-718: tf.slice(Hs, [a, 0, 0], [l, ...]): raises when the range leaves the tensor. *)
Definition tf_slice {A} (l : list A) (a len : nat) : result (list A) :=
  if Nat.leb (a + len) (length l) then Ok (firstn len (skipn a l)) else Err ValueError.

(** ** Sampling of the Hamiltonian *)

(** tf_utils.py 541-556: tf.sort on a vector of reals. *)
Fixpoint rinsert (x : R) (l : list R) : list R :=
  match l with
  | [] => [x]
  | y :: l' => if Rle_dec x y then x :: y :: l' else y :: rinsert x l'
  end.
(** tf.sort, tf_utils.py 541-556 *)
Definition rsort (l : list R) : list R := fold_right rinsert [] l.

(** tf_utils.py 528-545: tf.linspace(a, b, m + 1), m > 0. *)
Definition linspace (a b : R) (m : nat) : list R :=
  map (fun j => a + INR j * ((b - a) / INR m))%R (seq 0 (S m)).

(** tf_utils.py 521-556: the times at which [interpolate_signal] evaluates the
    signal. *)
Definition dopri_nodes : list R := [1 / 5; 3 / 10; 4 / 5; 8 / 9; 1]%R.
(** tf_utils.py 547-556: the nodes of tsit5 *)
Definition tsit_nodes : list R := [0.161; 0.327; 0.9; 0.9800255409045097; 1]%R.
(** tf_utils.py 533-556: ts + c * dt for each node c *)
Definition shifted (ts : list R) (dt : R) (cs : list R) : list R :=
  ts ++ flat_map (fun c => map (fun t => t + c * dt)%R ts) cs.
(** tf_utils.py 521-556 *)
Definition interp_times (ts : list R) (res : Z) : result (list R) :=
  match ts with
  | t0 :: t1 :: _ =>
      let dt := (t1 - t0)%R in
      if Z.eqb res (-1) then Ok (rsort (shifted ts dt dopri_nodes))
      else if Z.eqb res (-2) then Ok (rsort (shifted ts dt tsit_nodes))
      else Ok (linspace t0 (last ts t0 + dt) (length ts * Z.to_nat res))
  | _ => Err IndexError
  end.

Section Evolution.
  (** tfp.math.interp_regular_1d_grid with linear extrapolation: the value at a
      time of the curve through the samples; any function of the data. *)
  Variable interp : list R -> list R -> R -> R.

  (** tf_utils.py 521-559: [interpolate_signal]. *)
  Definition interpolate_signal (ts sig : list R) (res : Z) : result (list R) :=
    rbind (interp_times ts res) (fun tsi => Ok (map (interp ts sig) tsi)).

  (** model.py 691-697: [calculate_sum_Hs], sample [j]: the sum of the control
      Hamiltonians times the fields plus the drift. *)
  Definition sum_H (h0 : mat) (hks : list mat) (fields : list R) : mat :=
    madd (fold_right (fun ch acc => madd (mscale (RtoC (fst ch)) (snd ch)) acc) mzero
                     (combine fields hks)) h0.
  (** model.py 691-698: row [j] of tf.transpose(cflds): field values of all controls at sample j. *)
  Definition row {A} (d : A) (cflds : list (list A)) (j : nat) : list A := map (fun c => nth j c d) cflds.
  (** model.py 691-698: [calculate_sum_Hs] *)
  Definition calculate_sum_Hs (h0 : mat) (hks : list mat) (cflds : list (list R)) : list mat :=
    match cflds with
    | [] => []
    | c0 :: _ => map (fun j => sum_H h0 hks (row 0%R cflds j)) (seq 0 (length c0))
    end.

  (** model.py 648-662: tf.math.reduce_mean and reduce_variance of a list of reals. *)
  Definition rsum (l : list R) : R := fold_right Rplus 0%R l.
  (** tf.math.reduce_mean, model.py 648-660 *)
  Definition rmean (l : list R) : R := (rsum l / INR (length l))%R.
  (** tf.math.reduce_variance, model.py 648-660 *)
  Definition rvar (l : list R) : R := rmean (map (fun x => (x - rmean l) ^ 2)%R l).
  (** comparison of floats, model.py 648-660 *)
  Definition rltb (a b : R) : bool := if Rlt_dec a b then true else false.
  (** ts[1:] - ts[:-1], model.py 655-662 *)
  Fixpoint diffs (l : list R) : list R :=
    match l with
    | a :: ((b :: _) as l') => (b - a)%R :: diffs l'
    | _ => []
    end.

  (** signal[key]: "ts" and "values" (generator.py 172-229, model.py 643-646) *)
  Record channel : Type := { ch_ts : list R; ch_values : list R }.

  (** model.py 641-689: [Hs_of_t] executed eagerly.  tf.math.reduce_mean(ts_list,
      axis=0) stacks the time vectors, which fails unless all have the same
      length; [time_column] is one column of that stack. *)
  Definition time_column (tss : list (list R)) (j : nat) : list R := row 0%R tss j.
  (** model.py 641-650: hctrls[key] for the keys of the signal *)
  Fixpoint lookup_controls (hctrls : dict mat) (names : list string) : result (list mat) :=
    match names with
    | [] => Ok []
    | k :: ks => match dget k hctrls with
                 | None => Err KeyError
                 | Some h => rbind (lookup_controls hctrls ks) (fun hs => Ok (h :: hs))
                 end
    end.
  (** model.py 664-672: one call of interpolate_signal per control *)
  Fixpoint interpolate_all (ts : list R) (res : Z) (sigs : list (list R)) : result (list (list R)) :=
    match sigs with
    | [] => Ok []
    | s :: ss => rbind (interpolate_signal ts s res) (fun x =>
                 rbind (interpolate_all ts res ss) (fun xs => Ok (x :: xs)))
    end.
  (** model.py 686-689: the dictionary returned by [Hs_of_t] *)
  Record hs_dict : Type := { d_Hs : list mat; d_ts : list R; d_dt : R }.
  (** model.py 641-689: [Hs_of_t] *)
  Definition Hs_of_t (h0 : mat) (hctrls : dict mat) (signal : dict channel) (res : Z) : result hs_dict :=
    rbind (lookup_controls hctrls (keys signal)) (fun hks =>
    let tss := map (fun kv => ch_ts (snd kv)) signal in
    match tss with
    | [] => Err ValueError
    | t0 :: _ =>
        if negb (forallb (fun l => Nat.eqb (length l) (length t0)) tss) then Err ValueError
        else
        let ts := map (fun j => rmean (time_column tss j)) (seq 0 (length t0)) in
        match ts with
        | a :: b :: _ =>
            if negb (forallb (fun j => rltb (rvar (time_column tss j)) (1 / 100000 * (b - a)))
                             (seq 0 (length t0))) then Err C3Error
            else if negb (rltb (rvar (diffs ts)) (1 / 100000 * (b - a))) then Err C3Error
            else
            rbind (interpolate_all ts res (map (fun kv => ch_values (snd kv)) signal)) (fun cflds =>
            Ok {| d_Hs := calculate_sum_Hs h0 hks cflds; d_ts := ts; d_dt := (b - a)%R |})
        | _ => Err IndexError
        end
    end).

  (** propagation.py 713-718 and 748-750: the loop of [ode_solver] and
      [ode_solver_final_state]; it returns the list of the states after every
      step.  [fr] is the [ode_step] of the chosen step function. *)
  Fixpoint ode_loop (s : solver) (fr : mat -> mat -> mat) (Hs : list mat) (index steps : nat)
           (state : mat) : result (list mat) :=
    match steps with
    | O => Ok []
    | S k => rbind (tf_slice Hs (solver_start s * index) (solver_stop s)) (fun h =>
             let state' := solver_fun s fr state h in
             rbind (ode_loop s fr Hs (S index) k state') (fun l => Ok (state' :: l)))
    end.

  (** propagation.py 700-712 and 737-747: the choice of the step function *)
  Inductive step_kind : Type := Schrodinger | VonNeumann | Lindblad.
  (** propagation.py 887-905: [step_dict].  [lindblad] iterates over [col] and
      fails for [None]. *)
  Definition ode_step (n : nat) (k : step_kind) (cols : option (list mat)) (dt : R)
    : result (mat -> mat -> mat) :=
    match k, cols with
    | Schrodinger, _ => Ok (schrodinger n dt)
    | VonNeumann, _ => Ok (von_neumann n dt)
    | Lindblad, Some l => Ok (lindblad n l dt)
    | Lindblad, None => Err TypeError
    end.

  (** propagation.py 688-722: [ode_solver]; [lind] is [model.get_Lindbladians()]
      when [model.lindbladian] is set, else [None].  A lindbladian model forces
      the step function. *)
  Definition ode_solver (n : nat) (h0 : mat) (hctrls : dict mat) (lind : option (list mat))
             (signal : dict channel) (init : mat) (s : solver) (k : step_kind)
    : result (list mat * list R) :=
    let k' := match lind with Some _ => Lindblad | None => k end in
    rbind (Hs_of_t h0 hctrls signal (solver_res s)) (fun d =>
    rbind (ode_step n k' lind (d_dt d)) (fun fr =>
    rbind (ode_loop s fr (d_Hs d) 0 (length (d_ts d)) init) (fun states => Ok (states, d_ts d)))).

  (** propagation.py 725-752: [ode_solver_final_state]. *)
  Fixpoint ode_final (s : solver) (fr : mat -> mat -> mat) (Hs : list mat) (index steps : nat)
           (state : mat) : result mat :=
    match steps with
    | O => Ok state
    | S k => rbind (tf_slice Hs (solver_start s * index) (solver_stop s)) (fun h =>
             ode_final s fr Hs (S index) k (solver_fun s fr state h))
    end.
  (** propagation.py 725-752: [ode_solver_final_state] *)
  Definition ode_solver_final_state (n : nat) (h0 : mat) (hctrls : dict mat) (lind : option (list mat))
             (signal : dict channel) (init : mat) (s : solver) (k : step_kind)
    : result (mat * list R) :=
    let k' := match lind with Some _ => Lindblad | None => k end in
    rbind (Hs_of_t h0 hctrls signal (solver_res s)) (fun d =>
    rbind (ode_step n k' lind (d_dt d)) (fun fr =>
    rbind (ode_final s fr (d_Hs d) 0 (length (d_ts d)) init) (fun st => Ok (st, d_ts d)))).
End Evolution.

(** ** The rk4 propagator (propagation.py 72-101 and 246-256) *)

(** propagation.py 35-36 and 95-101: [rk4_step] on a vector, a column matrix
    here. *)
Definition rk4_step (n : nat) (dt : R) (h : list mat) (psi : mat) : mat :=
  rk4 (fun psi h => mscale (- Ci * RtoC dt)%C (mmul n h psi)) psi h.
(** tf.one_hot, propagation.py 76 and 248 *)
Definition one_hot (ii : nat) : mat := fun i _ => if Nat.eqb i ii then RtoC 1 else RtoC 0.
(** propagation.py 76-83, 248-256: tf.stack of vectors: vector [ii] becomes row [ii]. *)
Definition stack_rows (v : nat -> mat) : mat := fun i j => v i j 0%nat.
(** propagation.py 85-92: [gen_du_rk4]. *)
Definition gen_du_rk4 (n : nat) (dt : R) (h : list mat) : mat :=
  stack_rows (fun ii => rk4_step n dt h (one_hot ii)).
(** propagation.py 79 and 251: jj in range(0, len(h) - 2, 2). *)
Definition rk4_steps (len : nat) : list nat := map (fun k => 2 * k)%nat (seq 0 ((len - 1) / 2)).
(** propagation.py 79, 251: h[jj : jj + 3] *)
Definition h_slice (h : list mat) (jj : nat) : list mat := firstn 3 (skipn jj h).
(** propagation.py 72-82: [gen_dus_rk4]. *)
Definition gen_dus_rk4 (n : nat) (dt : R) (h : list mat) : list mat :=
  map (fun jj => gen_du_rk4 n dt (h_slice h jj)) (rk4_steps (length h)).
(** propagation.py 246-256: [gen_u_rk4]. *)
Definition gen_u_rk4 (n : nat) (dt : R) (h : list mat) : mat :=
  mtrans (stack_rows (fun ii =>
    fold_left (fun psi jj => rk4_step n dt (h_slice h jj) psi) (rk4_steps (length h)) (one_hot ii))).

(** ** Piecewise constant slices *)

(** propagation.py 370-373, 406-408, 207-219: h0 + sum_k c_k H_k by repeated
    addition. *)
Definition sum_h0_hks (h0 : mat) (hks : list mat) (cf : list C) : mat :=
  fold_left (fun h ch => madd h (mscale (fst ch) (snd ch))) (combine cf hks) h0.
(** propagation.py 349-379: [tf_dU_of_t]; tf.linalg.expm is the matrix
    exponential [mexp]. *)
Definition tf_dU_of_t (n : nat) (h0 : mat) (hks : list mat) (cf : list C) (dt : R) : mat :=
  mexp n (mscale (- Ci * RtoC dt)%C (sum_h0_hks h0 hks cf)).

(** ** Superoperators (tf_utils.py 271-308) *)
Definition tf_spre (n : nat) (A : mat) : mat := kron n n A mid.
(** tf_utils.py 277-282: [tf_spost] *)
Definition tf_spost (n : nat) (A : mat) : mat := kron n n mid (mtrans A).
(** tf_utils.py 284-290: [tf_super] *)
Definition tf_super (n : nat) (A : mat) : mat := mmul (n * n) (tf_spre n A) (tf_spost n (madj A)).
(** tf_utils.py 292-308.  [tf_vec_to_dm] computes the dimension as a float32
    square root; here the dimension is given, so rounding and the conversion of a
    float shape are not modelled. *)
Definition tf_state_to_dm (psi : mat) : mat := mmul 1 psi (mtrans psi).
(** tf_utils.py 300-303: [tf_dm_to_vec] *)
Definition tf_dm_to_vec (n : nat) (dm : mat) : mat := fun k _ => mtrans dm (k / n)%nat (k mod n)%nat.
(** tf_utils.py 305-309: [tf_vec_to_dm] *)
Definition tf_vec_to_dm (n : nat) (v : mat) : mat := mtrans (fun i j => v (i * n + j)%nat 0%nat).

(** propagation.py 409-418: one collapse operator of [tf_dU_of_t_lind]. *)
Definition lind_op_add (n : nat) (lind_op c : mat) : mat :=
  msub (msub (madd lind_op (mmul (n * n) (tf_spre n c) (tf_spost n (madj c))))
             (mscale (RtoC (1/2)) (mmul (n * n) (tf_spre n (madj c)) (tf_spre n c))))
       (mscale (RtoC (1/2)) (mmul (n * n) (tf_spost n c) (tf_spost n (madj c)))).
(** propagation.py 405-420: the generator of [tf_dU_of_t_lind] *)
Definition lind_op (n : nat) (h : mat) (cols : list mat) : mat :=
  fold_left (lind_op_add n) cols (mscale (- Ci)%C (msub (tf_spre n h) (tf_spost n h))).
(** propagation.py 382-423: [tf_dU_of_t_lind]. *)
Definition tf_dU_of_t_lind (n : nat) (h0 : mat) (hks cols : list mat) (cf : list C) (dt : R) : mat :=
  mexp (n * n) (mscale (RtoC dt) (lind_op n (sum_h0_hks h0 hks cf) cols)).

(** propagation.py 565-585: the generator of [tf_propagation_lind] for one time
    slice: the collapse terms are summed first and then added. *)
Definition clp_term (n : nat) (c : mat) : mat :=
  let l := kron n n c mid in
  let r := kron n n mid (mtrans c) in
  msub (msub (mmul (n * n) l (madj r)) (mscale (RtoC (1/2)) (mmul (n * n) (madj l) l)))
       (mscale (RtoC (1/2)) (mmul (n * n) r (madj r))).
(** propagation.py 565-585: the generator of [tf_propagation_lind] *)
Definition lind_op_vec (n : nat) (h : mat) (cols : list mat) : mat :=
  madd (mscale (- Ci)%C (msub (kron n n h mid) (kron n n mid (mtrans h))))
       (fold_right (fun c acc => madd (clp_term n c) acc) mzero cols).
(** propagation.py 420-422, 583-585: exp of the generator times dt *)
Definition lind_slice (n : nat) (h : mat) (cols : list mat) (dt : R) : mat :=
  mexp (n * n) (mscale (RtoC dt) (lind_op_vec n h cols)).

(** ** Dephasing channel (model.py 597-639) *)
Section Dephasing.
  Variables (dims : list nat) (names : list string)
            (connected0 : string -> result string)   (* self.couplings[line].connected[0] *)
            (strength t_final : R).
  (** entrywise product of tensors, model.py 628 *)
  Definition had (A B : mat) : mat := fun i j => (A i j * B i j)%C.   (* tensor [*] *)
  (** 0 <= p <= 1, model.py 620-626 *)
  Definition in_unit (p : R) : bool := if Rle_dec 0 p then if Rle_dec p 1 then true else false else false.
  (** model.py 608-632: the factor of one qubit *)
  Definition dephasing_factor (q : nat) (p : R) : result mat :=
    rbind (ann_oper dims q) (fun a =>
    let n := prod_dims dims in
    let num := mmul n (madj (ent a)) (ent a) in
    let Z := tf_super n (mexp n (mscale (RtoC PI) (mscale Ci num))) in
    if in_unit p then Ok (madd (mscale (RtoC (1 - p)) (tf_super n mid)) (mscale (RtoC p) Z))
    else Err ValueError).
  (** model.py 604-638: the loop over the qubits *)
  Fixpoint dephasing_loop (amps : dict R) (deph_ch : mat) : result mat :=
    match amps with
    | [] => Ok deph_ch
    | (line, amp) :: rest =>
        rbind (connected0 line) (fun qubit =>
        rbind (str_index qubit names) (fun q =>
        rbind (dephasing_factor q (t_final * amp * strength)) (fun ch =>
        dephasing_loop rest (had deph_ch ch))))
    end.
  (** model.py 597-639: [get_dephasing_channel] *)
  Definition get_dephasing_channel (amps : dict R) : result mat :=
    dephasing_loop amps (tf_super (prod_dims dims) mid).
End Dephasing.

(** ** Library Hamiltonians (hamiltonians.py 17-185), [n] x [n] operators *)
Section Hamiltonians.
  Variable n : nat.
  (** hamiltonians.py 17-34 *)
  Definition h_resonator (a : mat) : mat := mmul n (madj a) a.
  (** hamiltonians.py 37-55 *)
  Definition h_duffing (a : mat) : mat :=
    let num := mmul n (madj a) a in mscale (RtoC (1/2)) (mmul n (msub num mid) num).
  (** hamiltonians.py 58-77 *)
  Definition h_third_order (a : mat) : mat :=
    let num := mmul n (madj a) a in madd (mmul n num a) (mmul n (madj a) num).
  (** hamiltonians.py 80-100 *)
  Definition h_int_XX (a b : mat) : mat := mmul n (madd (madj a) a) (madd (madj b) b).
  (** hamiltonians.py 103-123 *)
  Definition h_int_YY (a b : mat) : mat := mopp (mmul n (msub (madj a) a) (msub (madj b) b)).
  (** hamiltonians.py 126-143 *)
  Definition h_x_drive (a : mat) : mat := madd (madj a) a.
  (** hamiltonians.py 146-163 *)
  Definition h_y_drive (a : mat) : mat := mscale Ci (msub (madj a) a).
  (** hamiltonians.py 166-182 *)
  Definition h_z_drive (a : mat) : mat := mmul n (madj a) a.
End Hamiltonians.
