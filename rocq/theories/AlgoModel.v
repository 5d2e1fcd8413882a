(** Model of the remaining registered algorithms of c3/libraries/algorithms.py:
    adaptive_scan, tf_sgd and gcmaes.

    Simplifications:
    - the goal function is an oracle for value and gradient; what it logs is the
      subject of C56, here only the points at which it is called are recorded;
    - the libraries are oracles: what keras' SGD does with a gradient is its
      documented update rule, the sampling library answers which point it wants
      next, the evolution strategy as in OptModel, scipy's L-BFGS returns a point and a value;
    - printing and warnings are left out. *)
From Coq Require Import Reals.
From Verif Require Import Base QuantityModel PMapModel OptModel.
Local Open Scope string_scope.
Local Open Scope list_scope.

(** algorithms.py 238-292: the values the options of tf_sgd can have *)
Inductive oval : Type := ONum (r : R) | OInt (z : Z).

(** algorithms.py 277-280: an option used as a number *)
Definition onum (v : oval) : R := match v with ONum r => r | OInt z => IZR z end.

(** algorithms.py 284: range(iters); a float is not accepted *)
Definition orange (v : oval) : result nat :=
  match v with OInt z => Ok (Z.to_nat z) | ONum _ => Err TypeError end.

(** algorithms.py 285: elementwise operations of keras' update *)
Definition vzip (f : R -> R -> R) (a b : list R) : list R :=
  map (fun p => f (fst p) (snd p)) (combine a b).

Section Sgd.
(* the gradient of the goal at a point, None when the goal does not depend on the variable *)
Variable grad : list R -> option (list R).

(** algorithms.py 284-286: one pass of the loop.  [minimize] calls the function once to
    differentiate it, then keras' rule [velocity = momentum * velocity - lr * g;
    w = w + velocity]; without a gradient it raises ValueError after the call.
    The print statement calls the function again at the new point.
    The calls are recorded oldest first. *)
Definition sgd_step (lr mom : R) (s : list R * list R * list (list R))
  : list R * list R * list (list R) * option exn :=
  let '(x, vel, calls) := s in
  match grad x with
  | None => (x, vel, calls ++ [x], Some ValueError)
  | Some g =>
      let vel' := vzip (fun v g => mom * v - lr * g)%R vel g in
      let x' := vzip Rplus x vel' in
      (x', vel', calls ++ [x; x'], None)
  end.

(** algorithms.py 284: the loop *)
Fixpoint sgd_loop (n : nat) (lr mom : R) (s : list R * list R * list (list R))
  : list R * list R * list (list R) * option exn :=
  match n with
  | O => (s, None)
  | S n' => match sgd_step lr mom s with
            | (s', None) => sgd_loop n' lr mom s'
            | (s', Some e) => (s', Some e)
            end
  end.

(** algorithms.py 265-289: what tf_sgd returns (the field x) and the points at which the goal was called;
    keras refuses a momentum outside of [0, 1] *)
Definition tf_sgd (x_init : list R) (options : dict oval) : result (list R) * list (list R) :=
  if dmem "maxfun" options then (Err KeyError, []) else
  match dget "maxiters" options with
  | None => (Err KeyError, [])
  | Some it =>
      let lr := match dget "learning_rate" options with Some v => onum v | None => (1 / 10)%R end in
      let mom := match dget "momentum" options with Some v => onum v | None => (9 / 10)%R end in
      if Rltb mom 0 || Rltb 1 mom then (Err ValueError, []) else
      match orange it with
      | Err e => (Err e, [])
      | Ok n =>
          match sgd_loop n lr mom (x_init, repeat 0%R (List.length x_init), []) with
          | (x, _, calls, None) => (Ok x, calls)
          | (_, _, calls, Some e) => (Err e, calls)
          end
      end
  end.
End Sgd.

(** algorithms.py 187-190: an entry of the probe list: a string or already a number *)
Inductive probe : Type := PText (s : string) | PNumber (r : R).

(** algorithms.py 163-234: the options of adaptive_scan; the accuracy only reaches the library *)
Record ascan_options : Type := mkAS {
  as_probes : option (list probe);   (* probe_list *)
  as_init : option bool;             (* init_point *)
  as_bounds : option (list (R * R))  (* bounds *)
}.

(** algorithms.py 201, 203: min(a, b) *)
Definition lower (a b : R) : R := if Rltb b a then b else a.

(** algorithms.py 202, 204: max(a, b) *)
Definition upper (a b : R) : R := if Rltb a b then b else a.

Section Scan.
(* ast.literal_eval on a string *)
Variable literal : string -> result R.
(* the sampling library: interval and points told so far to the next point, None when the goal is reached *)
Variable next : R * R -> list R -> option R.

(** algorithms.py 189-190: the probes read; literal_eval raises ValueError on a number *)
Fixpoint read_probes (l : list probe) : result (list R) :=
  match l with
  | [] => Ok []
  | PNumber _ :: _ => Err ValueError
  | PText s :: r => rbind (literal s) (fun x => rbind (read_probes r) (fun xs => Ok (x :: xs)))
  end.

(** algorithms.py 232-234: adaptive.runner.simple; None when out of fuel *)
Fixpoint learn (fuel : nat) (iv : R * R) (told : list R) : list R * bool :=
  match fuel with
  | O => (told, false)
  | S f => match next iv told with
           | None => (told, true)
           | Some x => learn f iv (told ++ [x])
           end
  end.

(** algorithms.py 187-234: the options afterwards, the interval, the points at which the goal was called
    and whether the runner finished.  x_init is the only parameter. *)
Definition adaptive_scan (fuel : nat) (x_init : R) (o : ascan_options)
  : result ((R * R) * list R * bool) * ascan_options :=
  match read_probes (match as_probes o with Some l => l | None => [] end) with
  | Err e => (Err e, o)
  | Ok ps =>
      let o' := mkAS (as_probes o) None (as_bounds o) in
      let ps := match as_init o with Some true => ps ++ [x_init] | _ => ps end in
      match as_bounds o with
      | None => (Err KeyError, o')
      | Some [] => (Err IndexError, o')
      | Some ((bmin, bmax) :: _) =>
          match ps with
          | [] => (Err ValueError, o')
          | p :: r =>
              let iv := (lower bmin (fold_left lower r p), upper bmax (fold_left upper r p)) in
              (Ok (iv, fst (learn fuel iv ps), snd (learn fuel iv ps)), o')
          end
      end
  end.
End Scan.

Section GCma.
(* the evolution strategy, as in OptModel, and the result (x, fun) of scipy's L-BFGS from a point *)
Variable es_stop : list (list (list R * R)) -> bool.
Variable es_sigma : list (list (list R * R)) -> R.
Variable es_ask : list (list (list R * R)) -> list (list R).
Variable local : list R -> list R * R.

(** algorithms.py 648-657: every sample optimised; options["lbfgs"] is looked up for each *)
Definition refine (has_lbfgs : bool) (samples : list (list R)) : result (list (list R * R)) :=
  match samples with
  | [] => Ok []
  | _ => if has_lbfgs then Ok (map local samples) else Err KeyError
  end.

(** algorithms.py 624-661: the loop; [hist] are the generations told so far *)
Fixpoint gcma_loop (fuel : nat) (has_lbfgs : bool) (o : cma_options) (x_init : list R)
         (iter : nat) (sigmas : list R) (hist : list (list (list R * R)))
  : list (list (list R * R)) * cma_stop :=
  match fuel with
  | 0 => (hist, StopFuel)
  | S fuel' =>
      if es_stop hist then (hist, StopEs) else
      let sigmas' := match co_conv o with Some _ => es_sigma hist :: sigmas | None => sigmas end in
      let shrunk := match co_conv o with
                    | Some c => if Nat.ltb c iter then all_shrunk (c - 1) sigmas' else Ok false
                    | None => Ok false
                    end in
      match shrunk with
      | Err e => (hist, StopError e)
      | Ok true => (hist, StopShrunk)
      | Ok false =>
          if match co_sigma o with Some s => Rltb (es_sigma hist) (py_int s) | None => false end
          then (hist, StopSigma)
          else
            let samples := es_ask hist in
            let samples := if co_init o && Nat.eqb iter 0 then x_init :: samples else samples in
            match refine has_lbfgs samples with
            | Err e => (hist, StopError e)
            | Ok told => gcma_loop fuel' has_lbfgs o x_init (S iter) sigmas' (hist ++ [told])
            end
      end
  end.

(** algorithms.py 594-662: gcmaes; options["cmaes"] read first *)
Definition gcmaes (fuel : nat) (cma_opts : option cma_options) (has_lbfgs : bool) (x_init : list R)
  : list (list (list R * R)) * cma_stop :=
  match cma_opts with
  | None => ([], StopError KeyError)
  | Some o => gcma_loop fuel has_lbfgs o x_init 0 [] []
  end.
End GCma.
