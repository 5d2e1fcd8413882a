(** Model of the signal-chain handling of [Generator] (c3/generator/generator.py).

    Simplifications:
    - a device is its declared number of inputs and outputs and its resolution
      (devices.py 33-50); its [process] method is a pure function of the channel
      and the input signals, given as a parameter [proc] of the Section;
    - chains are ordered dictionaries with distinct keys. *)
From Coq Require Import Reals.
From Verif Require Import Base.
Local Open Scope list_scope.

(** devices.py 23-70: what the chain code reads of a device, its numbers of inputs and outputs *)
Record device : Type := mkDev {
  dv_inputs : nat; dv_outputs : nat; dv_resolution : R
}.

(** generator.py 52-66: chains[chan], device id -> ids of its sources *)
Definition chain := dict (list string).

(** Python's [k in l], generator.py 93-135 *)
Definition smem (k : string) (l : list string) : bool := existsb (String.eqb k) l.

(** generator.py 112-115: [successors[node]]. *)
Definition succs (c : chain) (n : string) : list string :=
  map fst (filter (fun kv => smem n (snd kv)) c).

(** generator.py 110: initial stack.  The Python list is used as a stack from
    its end; the model keeps it reversed (head = top). *)
Definition init_stack (c : chain) : list string :=
  rev (map fst (filter (fun kv => Nat.eqb (List.length (snd kv)) 0) c)).

(** generator.py 111: [num_sources]. *)
Definition init_num (c : chain) : dict Z :=
  map (fun kv => (fst kv, Z.of_nat (List.length (snd kv)))) c.

(** generator.py 119-122: inner loop over the successors of the popped node. *)
Fixpoint relax (ss : list string) (num : dict Z) (stack : list string)
  : dict Z * list string :=
  match ss with
  | [] => (num, stack)
  | n :: ss' =>
      match dget n num with
      | None => relax ss' num stack       (* unreachable: successors are keys *)
      | Some z =>
          let z' := (z - 1)%Z in
          relax ss' (dset n z' num) (if Z.eqb z' 0 then n :: stack else stack)
      end
  end.

(** generator.py 117-123: the while loop; [ordered] is kept reversed. *)
Fixpoint topo_loop (fuel : nat) (c : chain) (num : dict Z)
         (stack ordered : list string) : result (list string) :=
  match stack with
  | [] => Ok (rev ordered)
  | src :: stack' =>
      match fuel with
      | 0 => Err OutOfFuel
      | S f =>
          let '(num', stack'') := relax (succs c src) num stack' in
          topo_loop f c num' stack'' (src :: ordered)
      end
  end.

(** generator.py 93-128: [__topological_ordering]. *)
Definition topo (c : chain) : result (list string) :=
  rbind (topo_loop (List.length c) c (init_num c) (init_stack c) [])
        (fun o => if Nat.eqb (List.length o) (List.length c) then Ok o else Err C3Error).

(** generator.py 64-70: every source must exist and have the resolution of the
    first one. *)
Fixpoint check_res (devs : dict device) (res : R) (l : list string) : option exn :=
  match l with
  | [] => None
  | s :: l' =>
      match dget s devs with
      | None => Some C3Error
      | Some d => if Req_EM_T res (dv_resolution d) then check_res devs res l'
                  else Some C3Error
      end
  end.

(** generator.py 60-70: one device of a chain. *)
Definition check_sources (devs : dict device) (sources : list string) : option exn :=
  match sources with
  | [] => None
  | s0 :: _ =>
      match dget s0 devs with
      | None => Some KeyError
      | Some d0 => check_res devs (dv_resolution d0) sources
      end
  end.

(** generator.py 60-79: loop over the devices of a chain, accumulating the
    signal count. *)
Fixpoint check_devices (devs : dict device) (c : chain) (signals : Z) : result Z :=
  match c with
  | [] => Ok signals
  | (dev_id, sources) :: c' =>
      match check_sources devs sources with
      | Some e => Err e
      | None =>
          match dget dev_id devs with
          | None => Err KeyError
          | Some d =>
              if Nat.eqb (dv_inputs d) (List.length sources)
              then check_devices devs c'
                     (signals - Z.of_nat (dv_inputs d) + Z.of_nat (dv_outputs d))%Z
              else Err C3Error
          end
      end
  end.

(** generator.py 58-91: one channel. *)
Definition check_chain (devs : dict device) (c : chain) : result (list string) :=
  rbind (check_devices devs c 0) (fun signals =>
    if Z.eqb signals 1 then topo c else Err C3Error).

(** generator.py 36-56: the attributes of Generator *)
Record generator : Type := mkGen {
  g_devices : dict device;
  g_chains : dict chain;
  g_sorted : dict (list string)
}.

(** generator.py 57-91: [__check_signal_chains]; the sorted chains computed
    before a failure stay. *)
Fixpoint check_chains (devs : dict device) (cs : dict chain) (sorted : dict (list string))
  : dict (list string) * option exn :=
  match cs with
  | [] => (sorted, None)
  | (chan, c) :: cs' =>
      match check_chain devs c with
      | Ok o => check_chains devs cs' (dset chan o sorted)
      | Err e => (sorted, Some e)
      end
  end.

(** generator.py 52-55: [set_chains]; the chains are stored before the check. *)
Definition set_chains (g : generator) (cs : dict chain) : generator * option exn :=
  match cs with
  | [] => (g, None)
  | _ => let '(s, e) := check_chains (g_devices g) cs (g_sorted g) in
         ({| g_devices := g_devices g; g_chains := cs; g_sorted := s |}, e)
  end.

Section Signals.
  Context {Sig : Type}.
  (** [proc chan dev inputs]: what device [dev] returns. *)
  Variable proc : string -> string -> list Sig -> Sig.

  (** generator.py 198: [inputs = [signal_stack[chan][x] for x in sources]]. *)
  Fixpoint collect (stack : dict Sig) (sources : list string) : result (list Sig) :=
    match sources with
    | [] => Ok []
    | x :: l => match dget x stack with
                | None => Err KeyError
                | Some s => rbind (collect stack l) (fun r => Ok (s :: r))
                end
    end.

  (** generator.py 195-213: loop over the sorted devices of one channel.  The
      trace records the processed devices with their inputs (the callback). *)
  Fixpoint run_chain (devs : dict device) (c : chain) (chan : string)
           (order : list string) (stack : dict Sig) (output : option Sig)
           (trace : list (string * list Sig))
    : result (option Sig * list (string * list Sig)) :=
    match order with
    | [] => Ok (output, trace)
    | dev :: order' =>
        match dget dev c with
        | None => Err KeyError
        | Some sources =>
            rbind (collect stack sources) (fun inputs =>
              match dget dev devs with
              | None => Err KeyError
              | Some _ =>
                  let out := proc chan dev inputs in
                  run_chain devs c chan order' (dset dev out stack) (Some out)
                            (trace ++ [(dev, inputs)])
              end)
        end
    end.

  (** generator.py 185-217: loop over the channels of the instruction; [output]
      is a local of the whole function, so it survives from channel to channel. *)
  Fixpoint run_channels (g : generator) (chans : list string) (output : option Sig)
           (sig : dict Sig) : result (dict Sig) :=
    match chans with
    | [] => Ok sig
    | chan :: chans' =>
        match dget chan (g_chains g), dget chan (g_sorted g) with
        | Some c, Some order =>
            rbind (run_chain (g_devices g) c chan order [] output [])
              (fun '(out, _) =>
                 match out with
                 | None => Err NotImplemented      (* UnboundLocalError *)
                 | Some s => run_channels g chans' out (dset chan s sig)
                 end)
        | _, _ => Err KeyError
        end
    end.

  (** generator.py 172-229: [generate_signals] without the crosstalk hack
      (219-228), which is applied to the returned dictionary. *)
  Definition generate_signals (g : generator) (chans : list string) : result (dict Sig) :=
    run_channels g chans None [].

End Signals.
