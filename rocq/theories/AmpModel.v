(** Model of the drive strength estimate of the waveform generator (c3/generator/devices.py 1199-1229).

    Simplifications: those of DevModel.v; the mean of no numbers (not a number) is [None]. *)
From Coq Require Import Reals.
From Coquelicot Require Import Complex.
From Verif Require Import Base DevModel.
Local Open Scope list_scope.
Local Open Scope nat_scope.
Local Notation length := List.length.

(** devices.py 1191-1196: self.signal of the AWG, the last waveforms of each channel *)
Definition awg_state := dict iq.
(** devices.py 1159-1197: [create_IQ], called as [process]: the waveforms of the channel are kept and returned *)
Definition awg_process (res t_start t_end : R) (st : awg_state) (chan : string) (envs : list awg_env) : result (awg_state * iq) :=
  rbind (create_IQ res t_start t_end envs) (fun s => Ok (dset chan s st, s)).
(** devices.py 1215-1216 *)
Definition get_I (st : awg_state) (line : string) : result (list R) :=
  match dget line st with Some s => Ok (iq_i s) | None => Err KeyError end.
(** devices.py 1218-1219 *)
Definition get_Q (st : awg_state) (line : string) : result (list R) :=
  match dget line st with Some s => Ok (iq_q s) | None => Err KeyError end.
(** devices.py 1212: tf.reduce_sum *)
Definition reduce_sum (l : list R) : R := fold_left Rplus l 0%R.
(** devices.py 1211: tf.reduce_mean *)
Definition reduce_mean (l : list R) : option R :=
  match l with [] => None | _ => Some (reduce_sum l / INR (length l))%R end.
(** devices.py 1199-1213 *)
Definition get_average_amp (st : awg_state) (line : string) : result (option R * R) :=
  rbind (get_I st line) (fun i =>
  rbind (get_Q st line) (fun q =>
  rbind (elementwise Rplus (map (fun x => (Rabs x ^ 2)%R) i) (map (fun x => (Rabs x ^ 2)%R) q)) (fun p =>
  let amp := map sqrt p in
  Ok (reduce_mean amp, reduce_sum amp)))).
(** devices.py 1221-1229: [log_shapes].  The log file is opened first; the entries of
    self.signal are dictionaries, which have no method numpy.  Returns the text
    appended for the (empty) dictionary of shapes. *)
Definition log_shapes (folder_exists : bool) (st : awg_state) : result string :=
  if negb folder_exists then Err FileNotFound else
  match st with [] => Ok "{}
"%string | _ :: _ => Err AttributeError end.
