(** Model of the signal-generation devices (c3/generator/devices.py) and the
    convolutions they use (c3/utils/tf_utils.py).

    Simplifications:
    - real arithmetic for float64, complex numbers for complex128;
    - signals are lists, one number per time point; the signal dictionaries with
      keys inphase / quadrature / ts and values / ts are records;
    - parameters are numbers instead of dictionaries of Quantities;
    - an element-wise operation on tensors of different length raises (ValueError)
      unless one has length 1, which is repeated (broadcasting);
    - tf.linspace needs at least one point (ValueError otherwise);
    - random noise is an argument (the numbers drawn). *)
From Coq Require Import Reals.
From Coquelicot Require Import Complex.
From Verif Require Import Base QuantityModel Mat MExp Dft OptModel Erf EnvModel.
Local Open Scope list_scope.
Local Open Scope nat_scope.
Local Notation length := List.length.

(** devices.py 1159-1197: {"inphase", "quadrature", "ts"} *)
Record iq := mkIQ { iq_i : list R; iq_q : list R; iq_ts : list R }.
(** devices.py 914-939: {"values", "ts"} *)
Record vsig := mkV { v_values : list R; v_ts : list R }.

(** tensor arithmetic, e.g. devices.py 914-939: element-wise operation with broadcasting *)
Definition elementwise {A B D} (f : A -> B -> D) (a : list A) (b : list B) : result (list D) :=
  if Nat.eqb (length a) (length b) then Ok (map (fun xy => f (fst xy) (snd xy)) (combine a b))
  else match a, b with
       | [x], _ => Ok (map (f x) b)
       | _, [y] => Ok (map (fun x => f x y) a)
       | _, _ => Err ValueError
       end.
(** tf.linspace, devices.py 87-123 *)
Definition tf_linspace (a b : R) (n : nat) : result (list R) :=
  match n with 0 => Err ValueError | _ => Ok (linspace a b n) end.

(** ** Time grids *)

(** Device.calc_slice_num (devices.py 72-85); int() of a number that is not negative *)
Definition calc_slice_num (res t_start t_end : R) : nat := floor_nat (Rabs (t_start - t_end) * res)%R.
(** Device.create_ts (devices.py 87-123) *)
Definition create_ts (res t_start t_end : R) (centered : bool) : result (list R) :=
  if Req_EM_T res 0 then Err ZeroDivision else
  let n := calc_slice_num res t_start t_end in
  let dt := (1 / res)%R in
  let offset := if centered then (dt / 2)%R else 0%R in
  let num := if centered then n else n + 1 in
  tf_linspace (t_start + offset) (t_end - offset) num.

(** ** Local oscillator, waveform generator and mixer *)

(** LO.process (devices.py 1075-1127) without noise.  [prev] is self.signal from earlier
    calls; [carriers] are the frequencies of the Carrier components of the channel
    in order.  ts[1] of a one-point grid raises. *)
Definition lo_process (prev : option iq) (res t_start t_end : R) (carriers : list R) : result iq :=
  rbind (create_ts res t_start t_end true) (fun ts =>
  if Nat.ltb (length ts) 2 then Err IndexError else
  let final := fold_left (fun _ w => Some (mkIQ (map (fun t => cos (w * t)) ts) (map (fun t => sin (w * t)) ts) ts)) carriers prev in
  match final with Some s => Ok s | None => Err C3Error end).

(** gates.py 341-370: An envelope component of a channel together with its time slot (get_timings).
    [a_shape ts len] is Envelope.get_shape_values. *)
Record awg_env := mkAE {
  a_amp : R; a_angle : R; a_foff : R; a_start : R; a_end : R;
  a_shape : list R -> R -> result (list C) }.
(** Instruction.get_awg_signal (gates.py 341-370): the loop over the envelopes; the
    other components contribute nothing *)
Definition awg_add (ts : list R) (acc : result (list C)) (e : awg_env) : result (list C) :=
  rbind acc (fun signal =>
  let ts_off := map (fun t => (t - a_start e)%R) ts in
  let phase := map (fun t => (a_angle e - a_foff e * t)%R) ts_off in
  rbind (a_shape e ts_off (a_end e - a_start e)%R) (fun env =>
  rbind (elementwise Cmult (map (Cmult (RtoC (a_amp e))) env) (map expi phase)) (fun add =>
  elementwise Cplus signal add))).
(** gates.py 341-370 *)
Definition awg_signal (envs : list awg_env) (ts : list R) : result (list C) :=
  fold_left (awg_add ts) envs (Ok (map (fun _ => RtoC 0) ts)).
(** AWG.create_IQ (devices.py 1159-1197) *)
Definition create_IQ (res t_start t_end : R) (envs : list awg_env) : result iq :=
  rbind (create_ts res t_start t_end true) (fun ts =>
  rbind (awg_signal envs ts) (fun s => Ok (mkIQ (map fst s) (map snd s) ts))).

(** Mixer.process (devices.py 914-939) *)
Definition mixer (in1 in2 : iq) : result vsig :=
  rbind (elementwise Rmult (iq_i in1) (iq_i in2)) (fun ii =>
  rbind (elementwise Rmult (iq_q in1) (iq_q in2)) (fun qq =>
  rbind (elementwise Rplus ii qq) (fun v => Ok (mkV v (iq_ts in1))))).

(** VoltsToHertz.process (devices.py 201-222) *)
Definition volts_to_hertz (v2hz : R) (s : vsig) : vsig := mkV (map (fun x => (x * v2hz)%R) (v_values s)) (v_ts s).
(** Readout.readout (devices.py 168-184) *)
Definition readout (factor offset phase : R) : R := (phase * factor + offset)%R.

(** DigitalToAnalog.process (devices.py 305-348) with the default method "nearest":
    tf.image.resize takes, for output pixel i, input pixel
    floor((i + 1/2) * old / new), at most old - 1 *)
Definition nearest (old new i : nat) : nat :=
  Nat.min (floor_nat ((INR i + 1 / 2) * (INR old / INR new)))%R (old - 1).
(** tf.image.resize, devices.py 318-340 *)
Definition resize (x : list R) (new : nat) : list R := map (fun i => nth (nearest (length x) new i) x 0%R) (seq 0 new).
(** devices.py 305-348: DigitalToAnalog.process *)
Definition digital_to_analog (res t_start t_end : R) (s : iq) : result iq :=
  rbind (create_ts res t_start t_end true) (fun ts =>
  Ok (mkIQ (resize (iq_i s) (length ts)) (resize (iq_q s) (length ts)) ts)).

(** Crosstalk.process (devices.py 250-292): [values] of the crossed channels, one row of
    the matrix per channel; other channels are untouched.  A missing channel is a
    KeyError; rows whose length is not the number of channels do not multiply. *)
Definition row_times (row : list R) (sigs : list (list R)) : list R :=
  let n := length (nth 0 sigs []) in
  map (fun t => fold_right Rplus 0%R (map (fun rs => (fst rs * nth t (snd rs) 0)%R) (combine row sigs))) (seq 0 n).
(** devices.py 272-276: the values of the crossed channels *)
Fixpoint get_all (chans : list string) (s : dict (list R)) : result (list (list R)) :=
  match chans with
  | [] => Ok []
  | c :: r => match dget c s with
              | None => Err KeyError
              | Some v => rbind (get_all r s) (fun l => Ok (v :: l)) end
  end.
(** np.array of the rows, devices.py 276 *)
Fixpoint same_length {A} (n : nat) (l : list (list A)) : bool :=
  match l with [] => true | x :: r => andb (Nat.eqb (length x) n) (same_length n r) end.
(** devices.py 282-290: writing the crossed channels back *)
Fixpoint set_all (chans : list string) (vs : list (list R)) (s : dict (list R)) : dict (list R) :=
  match chans, vs with
  | c :: r, v :: q => set_all r q (dset c v s)
  | _, _ => s
  end.
(** devices.py 250-292: Crosstalk.process *)
Definition crosstalk (matrix : list (list R)) (chans : list string) (s : dict (list R)) : result (dict (list R)) :=
  rbind (get_all chans s) (fun sigs =>
  if negb (same_length (length (nth 0 sigs [])) sigs) then Err ValueError
  else if negb (Nat.eqb (length matrix) (length chans) && same_length (length chans) matrix) then Err ValueError
  else Ok (set_all chans (map (fun row => row_times row sigs) matrix) s)).

(** DC_Offset.process (devices.py 1053-1060): adds the offset to every entry of the
    dictionary, the time points included *)
Definition dc_offset (off : R) (s : vsig) : vsig := mkV (map (fun x => (x + off)%R) (v_values s)) (map (fun x => (x + off)%R) (v_ts s)).
(** Additive_Noise.process (devices.py 980-998); [noise] is what get_noise returns *)
Definition additive_noise (noise_amp : R) (noise : list R) (s : vsig) : result (vsig * list R) :=
  let nz := if Rltb noise_amp (1 / 10 ^ 17) then map (fun _ => 0%R) (v_values s) else noise in
  rbind (elementwise Rplus (v_values s) nz) (fun v => Ok (mkV v (v_ts s), nz)).

(** ** Flux and coupling tuning *)

(** FluxTuning.get_factor (devices.py 481-496) *)
Definition flux_factor (d : option R) (phi_0 phi : R) : R :=
  match d with
  | Some d => sqrt (sqrt (cos (PI * phi / phi_0) ^ 2 + d ^ 2 * sin (PI * phi / phi_0) ^ 2))
  | None => sqrt (Rabs (cos (PI * phi / phi_0)))
  end.
(** FluxTuning.get_freq (devices.py 498-503) *)
Definition flux_freq (d : option R) (phi_0 omega_0 anhar phi : R) : R :=
  ((omega_0 - anhar) * flux_factor d phi_0 phi + anhar)%R.
(** FluxTuning.process (devices.py 505-525) *)
Definition flux_tuning (d : option R) (phi_0 omega_0 anhar phi : R) (s : vsig) : vsig :=
  mkV (map (fun x => (flux_freq d phi_0 omega_0 anhar (phi + x) - flux_freq d phi_0 omega_0 anhar phi)%R) (v_values s)) (v_ts s).
(** FluxTuningLinear.frequency (devices.py 552-578); the constructor demands "Phi" and the
    method reads "phi": [phi] is None unless both are given *)
Definition flux_linear (d : option R) (omega_0 : R) (phi : option R) (x : R) : result R :=
  match phi with
  | None => Err KeyError
  | Some phi =>
      let max_freq := omega_0 in
      let min_freq := match d with
        | Some d => (omega_0 * sqrt (sqrt (cos (PI * (1 / 2)) ^ 2 + d ^ 2 * sin (PI * (1 / 2)) ^ 2)))%R
        | None => 0%R end in
      Ok (2 * (x - phi) * (min_freq - max_freq))%R
  end.
(** CouplingTuning.get_factor, get_coup (devices.py 410-422) *)
Definition coup_factor (w1 w2 g0 : R) : R := (g0 / sqrt (w1 * w2))%R.
(** devices.py 416-422: CouplingTuning.get_coup *)
Definition get_coup (w1 w2 g0 s1 s2 : R) : R := (coup_factor w1 w2 g0 * sqrt ((w2 - s2) * (w1 - s1)))%R.
(** CouplingTuning.process (devices.py 424-453); the second signal is 0 with one input *)
Definition coupling_tuning (w1 w2 g0 : R) (s1 : vsig) (s2 : option vsig) : result vsig :=
  rbind (elementwise (get_coup w1 w2 g0) (v_values s1) (match s2 with Some s => v_values s | None => [0%R] end)) (fun c =>
  Ok (mkV (map (fun x => (x - get_coup w1 w2 g0 0 0)%R) c) (v_ts s1))).

(** ** Convolution filters *)

(** the cyclic convolution by Fourier transforms: tf_utils.py 466-472 and 511-517 *)
Definition fft_conv (a b : list C) : list C :=
  let N := length a in
  map (idft N (fun k => (dft N (fun n => nth n a (RtoC 0)) k * dft N (fun n => nth n b (RtoC 0)) k)%C)) (seq 0 N).
(** tf.zeros, tf_utils.py 455-470 *)
Definition zeros (n : nat) : list C := repeat (RtoC 0) n.
(** tf_convolve (tf_utils.py 439-473) *)
Definition tf_convolve (sig resp : list C) : list C :=
  let sig_len := length sig in let resp_len := length resp in
  firstn sig_len (fft_conv (sig ++ zeros resp_len) (resp ++ zeros sig_len)).
(** tf_convolve_legacy (tf_utils.py 476-518); a Python slice that starts at -1
    (empty response) is empty *)
Definition tf_convolve_legacy (sig resp : list C) : list C :=
  let sig_len := length sig in let resp_len := length resp in
  match resp_len with
  | 0 => []
  | S m => firstn sig_len (skipn m (fft_conv (zeros resp_len ++ sig ++ zeros resp_len) (resp ++ zeros (sig_len + resp_len))))
  end.

(** the Gaussian rise function of Response (devices.py 609-624) and ResponseFFT
    (670-685); [sgn] is +1 and -1 in the centre *)
Definition rise_fun (sgn rise res : R) : result (list R) :=
  rbind (tf_linspace 0 rise (floor_nat (rise * res))) (fun ts =>
  let cen := ((rise + sgn * (1 / res)) / 2)%R in
  let sigma := (rise / 4)%R in
  let gauss t := exp (- (t - cen) ^ 2 / (2 * sigma * sigma)) in
  let offset := exp (- (-1 - cen) ^ 2 / (2 * sigma * sigma)) in
  let risefun := map (fun t => (gauss t - offset)%R) ts in
  let total := fold_right Rplus 0%R risefun in
  Ok (map (fun x => (x / total)%R) risefun)).
(** Response.process (devices.py 600-642): the times are those of its own grid *)
Definition response (rise res t_start t_end : R) (s : iq) : result iq :=
  rbind (rise_fun 1 rise res) (fun rf =>
  let conv x := map fst (tf_convolve_legacy (map RtoC x) (map RtoC rf)) in
  rbind (create_ts res t_start t_end true) (fun ts =>
  Ok (mkIQ (conv (iq_i s)) (conv (iq_q s)) ts))).
(** ResponseFFT.process (devices.py 661-701) *)
Definition response_fft (rise res : R) (s : iq) : result iq :=
  rbind (rise_fun (-1) rise res) (fun rf =>
  let conv x := map fst (tf_convolve (map RtoC x) (map RtoC rf)) in
  Ok (mkIQ (conv (iq_i s)) (conv (iq_q s)) (iq_ts s))).

(** StepFuncFilter.process (devices.py 718-733) on one signal of the dictionary *)
Definition impulse_response (step : list R) : list R :=
  map (fun xy => (fst xy - snd xy)%R) (combine step (0%R :: step)).
(** devices.py 718-733 *)
Definition step_filter1 (step : list R -> list R) (ts sig : list R) : list R :=
  map fst (tf_convolve (map RtoC sig) (map RtoC (impulse_response (step ts)))).
(** devices.py 718-733: both quadratures *)
Definition step_filter (step : list R -> list R) (s : iq) : iq :=
  mkIQ (step_filter1 step (iq_ts s) (iq_i s)) (step_filter1 step (iq_ts s) (iq_q s)) (iq_ts s).
(** ExponentialIIR, HighpassExponential, SkinEffectResponse (devices.py 748-787) *)
Definition step_iir (amp time_iir : R) (ts : list R) : list R := map (fun t => (1 + amp * exp (- t / time_iir))%R) ts.
(** devices.py 755-771: HighpassExponential *)
Definition step_highpass (time_hp : R) (ts : list R) : list R := map (fun t => exp (- t / time_hp)) ts.
(** devices.py 773-790: SkinEffectResponse *)
Definition step_skin (alpha : R) (ts : list R) : list R := map (fun t => (1 - erf (alpha / 21 / sqrt (Rabs t)))%R) ts.
