(** Model of the high pass filter (c3/generator/devices.py 792-904).

    Simplifications:
    - real arithmetic for float64; a division 0/0 inside the kernel is the NaN that the code replaces by 1,
      a division by a vanishing sum is the error [NaNResult];
    - parameters are numbers instead of Quantities (a Quantity is true), cutoff and rise time are positive;
    - the documented parameter keep_mean is never read by the code and does not occur here. *)
From Coq Require Import Reals.
From Verif Require Import Base QuantityModel DevModel.
Local Open Scope list_scope.
Local Notation length := List.length.

(** devices.py 877: tf.math.ceil *)
Definition ceil_nat (x : R) : nat := Z.to_nat (- Int_part (- x)).

(** devices.py 877-878: the number of taps, made odd *)
Definition taps (tb : R) : nat := let n := ceil_nat (4 / tb) in n + (1 - Nat.modulo n 2).

(** devices.py 888-889: sin(pi x) / (pi x), NaN replaced by 1 *)
Definition sinc1 (x : R) : R := if Req_EM_T x 0 then 1%R else (sin (PI * x) / (PI * x))%R.

(** devices.py 890: tf.signal.hamming_window of odd length (periodic makes no difference); a single tap is 1 *)
Definition hamming (n j : nat) : R :=
  if Nat.eqb n 1 then 1%R else (54 / 100 - 46 / 100 * cos (2 * PI * INR j / INR (n - 1)))%R.

(** devices.py 885-892: the windowed low pass, before normalisation *)
Definition lowpass (fc : R) (n j : nat) : R :=
  (sinc1 (2 * fc * (INR j - INR (n - 1) / 2)) * hamming n j)%R.

(** devices.py 893: tf.reduce_sum(h) *)
Definition sum_list (l : list R) : R := fold_right Rplus 0%R l.

(** devices.py 885-894: the kernel: minus the normalised low pass, the tap in the middle replaced by 1 *)
Definition kernel (fc : R) (n : nat) : result (list R) :=
  let h := map (lowpass fc n) (seq 0 n) in
  let s := sum_list h in
  if Req_EM_T s 0 then Err NaNResult
  else Ok (map (fun j => if Nat.eqb j ((n - 1) / 2) then 1%R else (nth j h 0 / - s)%R) (seq 0 n)).

(** devices.py 841-843: the sum of the products of a slice with the kernel *)
Definition dot (slice h : list R) : R := sum_list (map (fun xy => (fst xy * snd xy)%R) (combine slice h)).

(** devices.py 809-850: convolve: zeros before and after, then one sum per position *)
Definition hp_convolve (signal h : list R) : list R :=
  let n := length h in
  let padded := repeat 0%R (n / 2) ++ signal ++ repeat 0%R (3 * n / 2 + 1) in
  map (fun p => dot (firstn n (skipn p padded)) h) (seq 0 (length padded - 2 * n)).

(** devices.py 852-904: process.  [cutoff] and [rise]: the parameters, None if there is no such key;
    a rise time that is itself None counts as not given.  The test [N_ts > len(iq * 100)] multiplies the samples,
    not the length, by 100. *)
Definition highpass (cutoff : option R) (rise : option (option R)) (res : R) (s : iq) : result iq :=
  match cutoff, rise with
  | None, _ => Err KeyError
  | _, None => Err KeyError
  | Some c, Some r =>
      let fc := (c / res)%R in
      let tb := match r with Some t => (t / res)%R | None => (fc / 2)%R end in
      let n := taps tb in
      if Nat.ltb (length (map (fun x => (x * 100)%R) (iq_i s))) n then Ok s
      else rbind (kernel fc n) (fun h => Ok (mkIQ (hp_convolve (iq_i s) h) (hp_convolve (iq_q s) h) (iq_ts s)))
  end.
