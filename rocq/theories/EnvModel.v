(** Model of the pulse envelopes (c3/libraries/envelopes.py, c3/signal/pulse.py).

    Simplifications:
    - real arithmetic for float64; 1e6, 0.001 and 0.999 are exact rationals;
    - a shape that treats every time point on its own is a function of one time
      ([R -> R] for real shapes); shapes that look at the whole time vector are
      functions of the list of times;
    - parameters are passed as numbers instead of a dictionary of Quantities;
    - the autodiff gradient of EnvelopeDrag is [Derive] of the masked shape at the
      sample (the dependence of the mask on the grid spacing is not differentiated). *)
From Coq Require Import Reals.
From Coquelicot Require Import Coquelicot.
From Verif Require Import Base QuantityModel Erf.
Local Open Scope list_scope.
Local Open Scope nat_scope.
Local Notation length := List.length.

(** envelopes.py 320-326: tf.sigmoid *)
Definition sigmoid (x : R) : R := (/ (1 + exp (- x)))%R.

(** tf.clip_by_value (envelopes.py 300, 325) *)
Definition clip (x lo hi : R) : R := Rmin (Rmax x lo) hi.

(** ** Shapes (envelopes.py) *)

(** rect (envelopes.py 194-197) *)
Definition rect (t : R) : R := 1%R.

(** trapezoid (envelopes.py 200-225): both ramps are tf.where's, the second one wins *)
Definition trapezoid (t_final risefall t : R) : R :=
  let e0 := 1%R in
  let e1 := if Rleb t (risefall * (5 / 2)) then (t / (risefall * (5 / 2)))%R else e0 in
  if Rleb (t_final - risefall * (5 / 2)) t then ((t_final - t) / (risefall * (5 / 2)))%R else e1.

(** flattop (envelopes.py 253-278) *)
Definition flattop (t_up t_down risefall t : R) : R :=
  ((1 + erf ((t - t_up) / risefall)) / 2 * (1 + erf ((- t + t_down) / risefall)) / 2)%R.

(** flattop_risefall (envelopes.py 228-250) *)
Definition flattop_risefall (t_final risefall t : R) : R :=
  flattop risefall (t_final - risefall)%R risefall t.

(** flattop_cut (envelopes.py 281-303): acts on the vector of times; the maximum of an
    empty vector (an error in the code) is rendered as 0 *)
Definition flattop_cut_raw (t_up t_down risefall t : R) : R :=
  clip (erf ((t - t_up) / risefall) * erf ((- t + t_down) / risefall))%R 0 1.
(** tf.reduce_max, envelopes.py 301 *)
Definition reduce_max (l : list R) : R :=
  match l with [] => 0%R | x :: r => list_max x r end.
(** envelopes.py 281-303 *)
Definition flattop_cut (t_up t_down risefall : R) (ts : list R) : list R :=
  let shape := map (flattop_cut_raw t_up t_down risefall) ts in
  map (fun v => v / reduce_max shape)%R shape.

(** flattop_cut_center (envelopes.py 306-327) *)
Definition flattop_cut_center (t_final width risefall t : R) : R :=
  let t_up := (t_final / 2 - width / 2)%R in
  let t_down := (t_final / 2 + width / 2)%R in
  clip (erf ((t - t_up) / risefall) * erf ((- t + t_down) / risefall))%R 0 2.

(** gaussian_sigma (envelopes.py 373-397) and the pieces the drag shapes repeat *)
Definition gauss_pt (t_final sigma t : R) : R :=
  exp (- (t - t_final / 2) ^ 2 / (2 * sigma ^ 2)).
(** envelopes.py 386-390 *)
Definition gauss_offset (t_final sigma : R) : R := exp (- t_final ^ 2 / (8 * sigma ^ 2)).
(** envelopes.py 391-395 *)
Definition gauss_norm (t_final sigma : R) : R :=
  (sqrt (2 * PI * sigma ^ 2) * erf (t_final / (sqrt 8 * sigma)) - t_final * gauss_offset t_final sigma)%R.
(** envelopes.py 373-397 *)
Definition gaussian_sigma (t_final sigma t : R) : R :=
  ((gauss_pt t_final sigma t - gauss_offset t_final sigma) / gauss_norm t_final sigma)%R.
(** gaussian (envelopes.py 400-417): sigma is set to t_final / 6 *)
Definition gaussian (t_final t : R) : R := gaussian_sigma t_final (t_final / 6) t.

(** cosine (envelopes.py 420-437) *)
Definition cosine (t_final t : R) : R := (1 / 2 * (1 - cos (2 * PI * t / t_final)))%R.

(** gaussian_nonorm (envelopes.py 469-487) *)
Definition gaussian_nonorm (t_final sigma t : R) : R := gauss_pt t_final sigma t.
(** gaussian_der_nonorm (envelopes.py 490-500) *)
Definition gaussian_der_nonorm (t_final sigma t : R) : R :=
  (gauss_pt t_final sigma t * (t - t_final / 2) / sigma ^ 2)%R.
(** gaussian_der (envelopes.py 503-516) *)
Definition gaussian_der (t_final sigma t : R) : R :=
  (gaussian_der_nonorm t_final sigma t / gauss_norm t_final sigma)%R.
(** drag_sigma (envelopes.py 519-529) *)
Definition drag_sigma (t_final sigma t : R) : R :=
  ((gauss_pt t_final sigma t - gauss_offset t_final sigma) ^ 2 / gauss_norm t_final sigma)%R.
(** drag (envelopes.py 532-542): sigma is set to t_final / 4 *)
Definition drag (t_final t : R) : R := drag_sigma t_final (t_final / 4) t.
(** drag_der (envelopes.py 545-562) *)
Definition drag_der (t_final sigma t : R) : R :=
  (- 2 * (gauss_pt t_final sigma t - gauss_offset t_final sigma) * gauss_pt t_final sigma t
   * (t - t_final / 2) / sigma ^ 2 / gauss_norm t_final sigma)%R.

(** flattop_variant (envelopes.py 565-588), body of the loop; [e] is the loop variable *)
Definition flattop_variant (t_up t_down ramp0 e : R) : R :=
  let ramp := if Rltb ((t_down - t_up) / 2) ramp0 then ((t_down - t_up) / 2)%R else ramp0 in
  let sigma := (sqrt 2 * ramp * (1 / 5))%R in
  if Rleb t_up e && Rleb e (t_up + ramp)
  then exp (- (e - t_up - ramp) ^ 2 / (2 * sigma ^ 2))
  else if Rltb (t_up + ramp) e && Rltb e (t_down - ramp)
  then 1%R
  else if Rleb e t_down && Rleb (t_down - ramp) e
  then exp (- (e - t_down + ramp) ^ 2 / (2 * sigma ^ 2))
  else 0%R.

(** envelopes.py 60-66: tfp.math.interp_regular_1d_grid with fill values 0: linear interpolation of
    the [n] values [y] placed at equal distances from [lo] to [hi].  The
    fractional position selects the cell [floor], clipped to the last cell. *)
Definition floor_nat (x : R) : nat := Z.to_nat (Int_part x).
(** tfp.math.interp_regular_1d_grid, envelopes.py 60-66 *)
Definition interp_grid (lo hi : R) (y : list R) (t : R) : R :=
  if Rltb t lo then 0%R else if Rltb hi t then 0%R else
  let n := length y in
  let pos := ((t - lo) / (hi - lo) * INR (n - 1))%R in
  let k := Nat.min (floor_nat pos) (n - 2) in
  (nth k y 0 + (pos - INR k) * (nth (S k) y 0 - nth k y 0))%R.
(** pwc_shape (envelopes.py 38-68) *)
Definition pwc_shape (lo hi : R) (y : list R) (t : R) : R := interp_grid lo hi y t.
(** pwc_symmetric (envelopes.py 104-125) *)
Definition pwc_symmetric (t_final lo hi : R) (y : list R) (t : R) : R :=
  let t_interp := if Rltb (t_final / 2) t then (- t + t_final)%R else t in
  interp_grid lo hi y t_interp.

(** fourier_sin (envelopes.py 142-168), fourier_cos (envelopes.py 171-191) *)
Fixpoint fsum (l : list R) : R := match l with [] => 0%R | x :: r => (x + fsum r)%R end.
(** envelopes.py 142-168 *)
Definition fourier_sin (comps : list (R * R * R)) (t : R) : R :=
  fsum (map (fun '(a, w, p) => a * sin (w * t + p))%R comps).
(** envelopes.py 171-191 *)
Definition fourier_cos (comps : list (R * R)) (t : R) : R :=
  fsum (map (fun '(a, w) => a * cos (w * t))%R comps).

(** cosine_flattop (envelopes.py 440-466) for a column of times: [tf.cast(_, int32)]
    truncates; a negative number of flat samples makes tf.ones fail *)
Definition cosine_flattop (t_rise : R) (ts : list R) : result (list R) :=
  match ts with
  | t0 :: t1 :: _ =>
      let dt := (t1 - t0)%R in
      let n_rise := floor_nat (t_rise / dt)%R in
      if Nat.ltb (length ts) (2 * n_rise) then Err ValueError else
      let n_flat := length ts - 2 * n_rise in
      Ok (map (fun t => 1 / 2 * (1 - cos (PI * t / t_rise)))%R (firstn n_rise ts)
          ++ repeat 1%R n_flat
          ++ map (fun t => 1 / 2 * (1 + cos (PI * t / t_rise)))%R (firstn n_rise ts))
  | _ => Err IndexError
  end.

(** ** Masked envelopes (pulse.py) *)

(** compute_mask (pulse.py 98-116) at one time *)
Definition mask_at (t_final dt t : R) : R :=
  (sigmoid ((t / dt + 1 / 1000) * 1000000) * sigmoid ((999 / 1000 * t_final - t) / dt * 1000000))%R.
(** pulse.py 98-116: [p_t_final] is the envelope's own t_final, [t_end] the length of its time slot *)
Definition mask_len (p_t_final t_end : R) : R := Rmin p_t_final t_end.

(** _get_shape_values_just (pulse.py 132-141); indexing ts[1] needs two samples *)
Definition shape_values_just (shape : R -> C) (p_t_final : R) (ts : list R) (t_end : R) : result (list C) :=
  match ts with
  | t0 :: t1 :: _ =>
      Ok (map (fun t => RtoC (mask_at (mask_len p_t_final t_end) (t1 - t0) t) * shape t)%C ts)
  | _ => Err IndexError
  end.
(** _get_shape_values_before (pulse.py 118-130) *)
Definition shape_values_before (shape : R -> C) (p_t_final : R) (ts : list R) (t_end : R) : result (list C) :=
  match ts with
  | t0 :: t1 :: _ =>
      let t_before := (2 * t0 - t1)%R in
      let offset := shape t_before in
      Ok (map (fun t => RtoC (mask_at (mask_len p_t_final t_end) (t1 - t0) t) * (shape t - offset))%C ts)
  | _ => Err IndexError
  end.
(** set_use_t_before (pulse.py 92-96) *)
Definition shape_values (use_t_before : bool) :=
  if use_t_before then shape_values_before else shape_values_just.

(** EnvelopeDrag.get_shape_values (pulse.py 168-178), real shape; [delta] the drag
    parameter.  The derivative is taken per time bin (times dt). *)
Definition drag_values (use_t_before : bool) (shape : R -> R) (p_t_final delta : R) (ts : list R) (t_end : R)
  : result (list C) :=
  match ts with
  | t0 :: t1 :: _ =>
      let dt := (t1 - t0)%R in
      let off := if use_t_before then shape (2 * t0 - t1)%R else 0%R in
      let env t := (mask_at (mask_len p_t_final t_end) dt t * (shape t - off))%R in
      Ok (map (fun t => (env t, (- (Derive env t * dt) * delta)%R)) ts)
  | _ => Err IndexError
  end.

(** EnvelopeNetZero.get_shape_values (pulse.py 224-240).  [base ts] is the base
    envelope (with its default slot length 1). *)
Definition netzero_values (base : list R -> result (list C)) (ts : list R) : result (list C) :=
  let n_red := Nat.div (length ts) 2 in
  let ts_red := firstn n_red ts in
  match base ts_red with
  | Err e => Err e
  | Ok v => Ok (v ++ map Copp v ++ repeat (RtoC 0) (Nat.modulo (length ts) 2))
  end.

(** The call made by Instruction.get_awg_signal (gates.py 352):
    [get_shape_values(ts_off, t_end - t_start)], by class of the component *)
Inductive env_class := CEnvelope | CDrag (delta : R) | CNetZero.
(** gates.py 352: the call of get_shape_values *)
Definition get_shape_values_call (c : env_class) (use_t_before : bool) (shape : R -> R)
    (p_t_final : R) (ts : list R) (t_end : R) : result (list C) :=
  match c with
  | CEnvelope => shape_values use_t_before (fun t => RtoC (shape t)) p_t_final ts t_end
  | CDrag delta => drag_values use_t_before shape p_t_final delta ts t_end
  | CNetZero => Err TypeError     (* takes one positional argument, gets two *)
  end.
