(** Model of the remaining envelopes (c3/libraries/envelopes.py 25-34, 71-101, 128-139, 227-250, 330-370) and of the
    number type of what an envelope returns (c3/signal/pulse.py 113-141, c3/utils/tf_utils.py 209-210).

    Real arithmetic for float64.  Times are a vector (for [pwc_shape_plateau] a column: one number per row). *)
From Coq Require Import Reals.
From Coquelicot Require Import Coquelicot.
From Verif Require Import Base QuantityModel Erf EnvModel.
Local Open Scope list_scope.
Local Open Scope nat_scope.
Local Notation length := List.length.

(** envelopes.py 1-5: the values of an envelope, real (float64) or complex (complex128). *)
Inductive tensor := TReal (l : list R) | TComplex (l : list C).
(** tf_utils.py 209-210: tf.complex takes real numbers only. *)
Definition tf_complexify (x : tensor) : result tensor :=
  match x with TReal l => Ok (TComplex (map RtoC l)) | TComplex _ => Err TypeError end.
(** pulse.py 140-141: mask * shape; TensorFlow multiplies tensors of one number type only. *)
Definition times_mask (mask : list C) (x : tensor) : result (list C) :=
  match x with TReal _ => Err TypeError | TComplex l => Ok (map (fun ml => (fst ml * snd ml)%C) (combine mask l)) end.

(** envelopes.py 25-28 *)
Definition no_drive (ts : list R) : tensor := TComplex (map (fun _ => RtoC 0) ts).
(** envelopes.py 31-34: the times are not looked at; tf.complex of vectors of different length fails. *)
Definition pwc (ts inphase quadrature : list R) : result tensor :=
  if Nat.eqb (length inphase) (length quadrature) then Ok (TComplex (combine inphase quadrature)) else Err ValueError.

(** envelopes.py 75-84: where the samples are read; [width] is params["width"]. *)
Definition plateau_position (lo hi width t : R) : R :=
  let plateau := (width - (hi - lo))%R in
  let t_mid := ((hi - lo) / 2)%R in
  let x := t in
  let x := if Rltb (t_mid + plateau) t then (t - plateau)%R else x in
  let x := if Rltb t t_mid then t else x in
  if Rltb t (t_mid + plateau) && Rltb t_mid t then t_mid else x.
(** envelopes.py 71-101 *)
Definition pwc_shape_plateau (lo hi : R) (y : list R) (width : option R) (t : R) : R :=
  match width with
  | None => interp_grid lo hi y t
  | Some w => let x := plateau_position lo hi w t in
              if Req_EM_T x ((hi - lo) / 2) then 1%R else interp_grid lo hi y x
  end.

(** envelopes.py 133-138: tf.reduce_min over the vector of times. *)
Definition list_min (x : R) (l : list R) : R := fold_left Rmin l x.
(** envelopes.py 133-138: one turn of the loop *)
Definition delta_step (ts : list R) (t_s : R) (shape : list R) : list R :=
  let dist := fun t => ((t - t_s - 1 / 1000000000) ^ 2)%R in
  let least := match ts with [] => 0%R | t :: r => list_min (dist t) (map dist r) end in
  map (fun ts => if Req_EM_T least (dist (fst ts)) then 1%R else snd ts) (combine ts shape).
(** envelopes.py 128-139 *)
Definition delta_pulse (ts t_sig : list R) : list R :=
  fold_left (fun shape t_s => delta_step ts t_s shape) t_sig (map (fun _ => 0%R) ts).

(** envelopes.py 340-345: where the series is evaluated *)
Definition slepian_position (t_final plateau t : R) : R :=
  let x := t in
  let x := if Rltb ((t_final + plateau) / 2) t then (t - plateau / 2)%R else x in
  let x := if Rltb t ((t_final - plateau) / 2) then (t + plateau / 2)%R else x in
  if Rltb (Rabs (t - t_final / 2)) (plateau / 2) then (t_final / 2)%R else x.
(** envelopes.py 350-353: the sum over the coefficients from number [n] on *)
Fixpoint cos_series (t_final len : R) (n : nat) (coeffs : list R) (x : R) : R :=
  match coeffs with
  | [] => 0%R
  | c :: r => (c * (1 - cos (2 * PI * (INR n + 1) * (x - (t_final - len) / 2) / len)) + cos_series t_final len (S n) r x)%R
  end.
(** envelopes.py 354-358 *)
Fixpoint sin_series (t_final len : R) (n : nat) (coeffs : list R) (x : R) : R :=
  match coeffs with
  | [] => 0%R
  | c :: r => (c * sin (PI * (2 * INR n + 1) * (x - (t_final - len) / 2) / len) + sin_series t_final len (S n) r x)%R
  end.
(** envelopes.py 335-359: the shape before scaling at one time; [risefall] and [sin_coeffs] may be missing. *)
Definition slepian_raw (t_final width : R) (fourier : list R) (risefall : option R) (sin_coeffs : option (list R)) (t : R) : R :=
  let '(x, len) := match risefall with
                   | Some rf => (slepian_position t_final (width - rf * 2) t, (rf * 2)%R)
                   | None => (t, width)
                   end in
  let shape := (cos_series t_final len 0 fourier x + match sin_coeffs with Some s => sin_series t_final len 0 s x | None => 0 end)%R in
  if Rltb (width / 2) (Rabs (t_final / 2 - t)) then 0%R else shape.
(** envelopes.py 360-363: scaling by the largest sample; NaN for a division by zero and an error for no sample are
    [Err]. *)
Definition slepian_scale (amp offset : R) (shape : list R) : result (list R) :=
  match shape with
  | [] => Err NaNResult
  | _ => if Req_EM_T (reduce_max shape) 0 then Err NaNResult
         else if Req_EM_T amp 0 then Err NaNResult
         else Ok (map (fun v => v / reduce_max shape * (1 - offset / amp) + offset / amp)%R shape)
  end.
(** envelopes.py 330-363 *)
Definition slepian_fourier (t_final width : R) (fourier : list R) (offset amp : R) (risefall : option R) (sin_coeffs : option (list R))
           (ts : list R) : result (list R) :=
  slepian_scale amp offset (map (slepian_raw t_final width fourier risefall sin_coeffs) ts).

(** envelopes.py 366-370: returns the values and the dictionary of parameters, which is changed; [flattop_risefall]
    (227-250) reads t_final and risefall and returns real numbers. *)
Definition flattop_risefall_1ns (params : dict R) (ts : list R) : result tensor * dict R :=
  let params := dset "risefall"%string (1 / 1000000000)%R params in
  (match dget "risefall"%string params, dget "t_final"%string params with
   | Some rf, Some tf => tf_complexify (TReal (map (flattop_risefall tf rf) ts))
   | _, _ => Err KeyError
   end, params).
(** envelopes.py 227-250 as registered: without tf_complexify *)
Definition flattop_risefall_env (t_final risefall : R) (ts : list R) : tensor := TReal (map (flattop_risefall t_final risefall) ts).
(** envelopes.py 373-396 as registered: without tf_complexify *)
Definition gaussian_sigma_env (t_final sigma : R) (ts : list R) : tensor := TReal (map (gaussian_sigma t_final sigma) ts).
