(** Model of the devices with random noise (c3/generator/devices.py): the noisy local oscillator,
    additive, constant and pink noise.  (LONoise defines no [process] but a method [proces] that nothing calls:
    using it raises NotImplementedError.)

    Simplifications:
    - real arithmetic for float64;
    - the random numbers are streams: [g k] is the k-th number of the standard normal source
      (normal(loc, scale) is loc + scale * g), [u k] the k-th of random(), [b k] the k-th of randint(2);
      functions take the number of draws made so far;
    - signals are one-dimensional lists. *)
From Coq Require Import Reals.
From Verif Require Import Base QuantityModel DevModel.
Local Open Scope string_scope.
Local Open Scope list_scope.

(** ** Local oscillator *)

(** devices.py 1087-1124: the branch taken; a number is true if it is not 0 *)
Inductive lomode : Type := AmpFreq | AmpPhase | AmpOnly | PhaseOnly | FreqOnly | Clean.

(** devices.py 1087-1124: truth value of a noise scale *)
Definition truthy (x : R) : bool := if Req_EM_T x 0 then false else true.

(** devices.py 1087-1124: the order of the tests *)
Definition lo_mode (a p f : R) : lomode :=
  if andb (truthy a) (truthy f) then AmpFreq
  else if andb (truthy a) (truthy p) then AmpPhase
  else if truthy a then AmpOnly
  else if truthy p then PhaseOnly
  else if truthy f then FreqOnly
  else Clean.

(** devices.py 1089-1095, 1116-1121: the phase is a random walk; with [amp] each sample also has a random amplitude, drawn first *)
Fixpoint lo_walk (g : nat -> R) (amp : option R) (f w dt phi : R) (k : nat) (ts : list R) : list (R * R) :=
  match ts with
  | [] => []
  | _ :: r =>
      match amp with
      | Some a => let A := (1 + a * g k)%R in
                  ((A * cos phi)%R, (A * sin phi)%R) :: lo_walk g amp f w dt (phi + (w + f * g (S k)) * dt)%R (S (S k)) r
      | None => (cos phi, sin phi) :: lo_walk g amp f w dt (phi + (w + f * g k) * dt)%R (S k) r
      end
  end.

(** devices.py 1098-1114: amplitude and phase drawn anew for every sample *)
Fixpoint lo_jitter (g : nat -> R) (amp ph : option R) (w : R) (k : nat) (ts : list R) : list (R * R) :=
  match ts with
  | [] => []
  | t :: r =>
      let A := match amp with Some a => (1 + a * g k)%R | None => 1%R end in
      let k1 := match amp with Some _ => S k | None => k end in
      let phi := match ph with Some p => (0 + p * g k1)%R | None => 0%R end in
      let k2 := match ph with Some _ => S k1 | None => k1 end in
      ((A * cos (w * t + phi))%R, (A * sin (w * t + phi))%R) :: lo_jitter g amp ph w k2 r
  end.

(** numpy's normal, used in devices.py 1091-1120: a negative scale raises ValueError *)
Definition scale_ok (x : R) : bool := negb (Rltb x 0).

(** devices.py 1085-1124: the samples for one carrier and the number of draws made *)
Definition lo_component (g : nat -> R) (a p f w : R) (ts : list R) (k : nat) : result (list (R * R) * nat) :=
  let n := List.length ts in
  let dt := (nth 1 ts 0 - nth 0 ts 0)%R in
  match lo_mode a p f with
  | AmpFreq => if andb (scale_ok a) (scale_ok f) then Ok (lo_walk g (Some a) f w dt (w * nth 0 ts 0)%R k ts, k + 2 * n) else Err ValueError
  | AmpPhase => if andb (scale_ok a) (scale_ok p) then Ok (lo_jitter g (Some a) (Some p) w k ts, k + 2 * n) else Err ValueError
  | AmpOnly => if scale_ok a then Ok (lo_jitter g (Some a) None w k ts, k + n) else Err ValueError
  | PhaseOnly => if scale_ok p then Ok (lo_jitter g None (Some p) w k ts, k + n) else Err ValueError
  | FreqOnly => if scale_ok f then Ok (lo_walk g None f w dt (w * nth 0 ts 0)%R k ts, k + n) else Err ValueError
  | Clean => Ok (map (fun t => (cos (w * t), sin (w * t))) ts, k)
  end.

(** devices.py 1083-1127: every carrier overwrites the signal *)
Fixpoint lo_carriers (g : nat -> R) (a p f : R) (ts : list R) (k : nat) (prev : option iq) (carriers : list R) : result (option iq * nat) :=
  match carriers with
  | [] => Ok (prev, k)
  | w :: r => rbind (lo_component g a p f w ts k) (fun sk =>
              lo_carriers g a p f ts (snd sk) (Some (mkIQ (map fst (fst sk)) (map snd (fst sk)) ts)) r)
  end.

(** devices.py 1073-1130: LO.process with noise *)
Definition lo_noisy (g : nat -> R) (a p f : R) (k : nat) (prev : option iq) (res t_start t_end : R) (carriers : list R) : result (iq * nat) :=
  rbind (create_ts res t_start t_end true) (fun ts =>
  if Nat.ltb (List.length ts) 2 then Err IndexError else
  rbind (lo_carriers g a p f ts k prev carriers) (fun sk =>
  match fst sk with Some s => Ok (s, snd sk) | None => Err C3Error end)).

(** ** Noise added to a signal *)

(** devices.py 976-978: Additive_Noise.get_noise *)
Definition white_noise (g : nat -> R) (amp : R) (k : nat) (sig : list R) : list R * nat :=
  (map (fun i => (amp * g (k + i)%nat)%R) (seq 0 (List.length sig)), k + List.length sig).

(** devices.py 1004-1008: DC_Noise.get_noise *)
Definition dc_noise (g : nat -> R) (amp : R) (k : nat) (sig : list R) : list R * nat :=
  (map (fun _ => (amp * g k)%R) sig, S k).

(** devices.py 1027-1029: np.logspace(0, log(num_steps), num = bfl_num + 1), without the first entry (unused);
    np.log is the natural logarithm *)
Definition flip_rates (n steps : nat) : list R :=
  map (fun i => Rpower 10 (ln (INR steps) * (INR (S i) / INR n))) (seq 0 n).

(** devices.py 1031-1033: floor(random() * rate) == 0; random() is not negative *)
Fixpoint flip_all (u : nat -> R) (k : nat) (rates bfls : list R) : list R :=
  match rates, bfls with
  | r :: rs, x :: xs => (if Rltb (u k * r) 1 then (- x)%R else x) :: flip_all u (S k) rs xs
  | _, _ => []
  end.

(** devices.py 1034: np.sum *)
Definition total (l : list R) : R := fold_right Rplus 0%R l.

(** devices.py 1030-1034: the loop over the steps *)
Fixpoint pink_steps (u : nat -> R) (amp : R) (rates : list R) (k : nat) (bfls : list R) (steps : nat) : list R :=
  match steps with
  | O => []
  | S m => let bfls' := flip_all u k rates bfls in
           (total bfls' * amp)%R :: pink_steps u amp rates (k + List.length rates) bfls' m
  end.

(** devices.py 1025: 2 * randint(2) - 1 *)
Definition first_bfls (b : nat -> bool) (k n : nat) : list R := map (fun i => if b (k + i)%nat then 1%R else (-1)%R) (seq 0 n).

(** devices.py 1021-1035: Pink_Noise.get_noise with [n] bistable fluctuators; [kb] and [ku] are the draws made before *)
Definition pink_noise (b : nat -> bool) (u : nat -> R) (n : nat) (amp : R) (kb ku : nat) (sig : list R) : list R :=
  pink_steps u amp (flip_rates n (List.length sig)) ku (first_bfls b kb n) (List.length sig).

(** devices.py 992: the key the noise is recorded at *)
Definition noise_key (k : string) : string := if String.eqb k "values" then "noise" else "noise-" ++ k.

(** devices.py 984-995: the loop over the entries of the signal; [get] is get_noise with the state of the random source *)
Fixpoint add_noise {S : Type} (get : S -> list R -> list R * S) (quiet : bool) (s : S) (out : dict (list R)) (entries : dict (list R))
  : result (dict (list R) * S) :=
  match entries with
  | [] => Ok (out, s)
  | (k, sig) :: r =>
      if orb (String.eqb k "ts") (contains "noise" k) then add_noise get quiet s out r
      else
        let ns := if quiet then (map (fun _ => 0%R) sig, s) else get s sig in
        if Nat.eqb (List.length (fst ns)) (List.length sig) then
          add_noise get quiet (snd ns)
            (dset k (map (fun xy => (fst xy + snd xy)%R) (combine sig (fst ns))) (dset (noise_key k) (fst ns) out)) r
        else Err ValueError
  end.

(** devices.py 980-997: Additive_Noise.process; [amp] is the parameter noise_amp, if there is one *)
Definition noise_process {S : Type} (get : S -> list R -> list R * S) (amp : option R) (s : S) (signal : dict (list R)) : result (dict (list R) * S) :=
  match amp with
  | None => Err KeyError
  | Some a => match dget "ts" signal with
              | None => Err KeyError
              | Some ts => add_noise get (Rltb a (1 / 10 ^ 17)) s [("ts", ts)] signal
              end
  end.
