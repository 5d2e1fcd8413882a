(** Model of the matrix-product reductions, batching and sequence evaluation
    (c3/utils/tf_utils.py 120-195, c3/experiment.py 93-107 and 273-335,
    c3/libraries/propagation.py 426-516 and 588-627).

    The matrices are an arbitrary type [M] with a product; a TensorFlow tensor of
    shape (N, n, n) is the list of its N matrices. *)
From Verif Require Import Base.
Local Open Scope list_scope.

Section Products.
  Context {M : Type}.
  Variable mul : M -> M -> M.

  (** tf_utils.py 120-129: [tf_matmul_left] = tf.foldr without initial value:
      the accumulator starts with the last matrix and is multiplied from the
      right by the earlier ones.  tf.foldr raises on an empty tensor. *)
  Definition tf_matmul_left (l : list M) : result M :=
    match rev l with
    | [] => Err ValueError
    | a :: r => Ok (fold_left (fun a x => mul a x) r a)
    end.

  (** tf_utils.py 132-141: [tf_matmul_right] = tf.foldl. *)
  Definition tf_matmul_right (l : list M) : result M :=
    match l with
    | [] => Err ValueError
    | a :: r => Ok (fold_left (fun a x => mul a x) r a)
    end.

  (** tf_utils.py 144-195: Python slices [l[0::2]] and [l[1::2]]. *)
  Fixpoint evens {A} (l : list A) : list A :=
    match l with
    | [] => []
    | [a] => [a]
    | a :: _ :: r => a :: evens r
    end.
  (** l[1::2], tf_utils.py 144-195 *)
  Definition odds {A} (l : list A) : list A := evens (tl l).

  (** tf.matmul entry by entry of two batches, tf_utils.py 166-195 *)
  Fixpoint zip_mul (a b : list M) : list M :=
    match a, b with
    | x :: a', y :: b' => mul x y :: zip_mul a' b'
    | _, _ => []
    end.

  (** tf_utils.py 166-195: tf.matmul on two batches: equal batch sizes, or one of them is one
      (broadcast), else InvalidArgumentError (modelled as ValueError). *)
  Definition batch_matmul (a b : list M) : result (list M) :=
    if Nat.eqb (List.length a) (List.length b) then Ok (zip_mul a b)
    else match a, b with
         | [x], _ => Ok (map (mul x) b)
         | _, [y] => Ok (map (fun x => mul x y) a)
         | _, _ => Err ValueError
         end.

  (** experiment.py 93-107: the functions in the folding stack *)
  Inductive layer : Type := LEven | LOdd.

  (** tf_utils.py 166-195: [_tf_matmul_n_even], [_tf_matmul_n_odd]. *)
  Definition apply_layer (f : layer) (odd even : list M) : result (list M) :=
    match f with
    | LEven => batch_matmul odd even
    | LOdd => match rev even with
              | [] => Err IndexError
              | e :: r => rbind (batch_matmul odd (rev r)) (fun p => Ok (p ++ [e]))
              end
    end.

  (** tf_utils.py 144-163: [tf_matmul_n]. *)
  Fixpoint tf_matmul_n (l : list M) (stack : list layer) : result M :=
    match stack with
    | [] => match l with [] => Err IndexError | x :: _ => Ok x end
    | f :: stack' => rbind (apply_layer f (odds l) (evens l)) (fun l' => tf_matmul_n l' stack')
    end.

  (** experiment.py 98-104: folding stack for [n_steps]; np.ceil(n/2) is
      [(n + 1) / 2].  The loop runs while n > 1; [fuel] only makes it structural. *)
  Fixpoint folding_stack_aux (fuel n : nat) : list layer :=
    match fuel with
    | 0 => []
    | S f => if Nat.ltb 1 n
             then (if Nat.even n then LEven else LOdd) :: folding_stack_aux f (Nat.div2 (S n))
             else []
    end.
  (** experiment.py 93-107 *)
  Definition folding_stack (n : nat) : list layer := folding_stack_aux n n.

  (** experiment.py 297-298 and 329-330: the state loop
      [psi_t = tf.matmul(U, psi_t)]; [act] is the matrix-vector product and [look]
      resolves a gate (dictionary lookup or virtual Z). *)
  Fixpoint evolve {S G} (act : M -> S -> S) (look : G -> result M) (seq : list G) (psi : S) : result S :=
    match seq with
    | [] => Ok psi
    | g :: seq' => rbind (look g) (fun u => evolve act look seq' (act u psi))
    end.

  (** propagation.py 606-620: the gates of one sequence *)
  Fixpoint lookups {G} (look : G -> result M) (seq : list G) : result (list M) :=
    match seq with
    | [] => Ok []
    | g :: seq' => rbind (look g) (fun u => rbind (lookups look seq') (fun us => Ok (u :: us)))
    end.

  (** propagators[gate], KeyError if absent (propagation.py 606-620) *)
  Definition dlook (d : dict M) (k : string) : result M :=
    match dget k d with Some u => Ok u | None => Err KeyError end.

  (** propagation.py 588-627: [evaluate_sequences]; [eye] is the identity of
      the size of the first propagator in the dictionary. *)
  Definition evaluate_sequence (eye : M -> M) (props : dict M) (seq : list string) : result M :=
    match props with
    | [] => Err IndexError
    | (_, u0) :: _ =>
        match seq with
        | [] => Ok (eye u0)
        | _ => rbind (lookups (dlook props) seq) tf_matmul_left
        end
    end.
  (** propagation.py 588-627 *)
  Fixpoint evaluate_sequences (eye : M -> M) (props : dict M) (seqs : list (list string))
    : result (list M) :=
    match props with
    | [] => Err IndexError
    | _ =>
      match seqs with
      | [] => Ok []
      | s :: seqs' => rbind (evaluate_sequence eye props s) (fun u =>
                      rbind (evaluate_sequences eye props seqs') (fun us => Ok (u :: us)))
      end
    end.
End Products.

(** experiment.py 290-302: [evaluate_legacy] up to the population read-out
    [pop]. *)
Definition evaluate_legacy {M S P} (act : M -> S -> S) (pop : S -> P)
           (props : dict M) (psi0 : S) (seqs : list (list string)) : result (list P) :=
  (fix go seqs := match seqs with
   | [] => Ok []
   | s :: seqs' => rbind (evolve act (dlook props) s psi0) (fun psi =>
                   rbind (go seqs') (fun ps => Ok (pop psi :: ps)))
   end) seqs.

Section Batching.
  (** [K] scalars (complex numbers), [H] matrices with addition and scaling;
      [expm] the matrix exponential and [lind_kernel] the Lindblad slice map
      h |-> expm(lind_op(h) * dt) of [tf_propagation_lind] (551-585), both
      arbitrary here. *)
  Context {K H : Type}.
  Variables (hadd : H -> H -> H) (hscale : K -> H -> H) (hzero : H) (expm : H -> H)
            (lind_kernel : H -> H).

  (** propagation.py 426-440: Hamiltonian of one time slice,
      h0 + sum_k c_k H_k.  TensorFlow requires as many signals as control
      Hamiltonians; [combine] is only used in that case. *)
  Definition slice_ham (h0 : H) (hks : list H) (cs : list K) : H :=
    hadd h0 (fold_right hadd hzero (map (fun ck => hscale (fst ck) (snd ck)) (combine cs hks))).
  (** propagation.py 426-440, 551-585: One slice propagator; [mi_dt] is -i dt. *)
  Definition slice_prop (lindbladian : bool) (mi_dt : K) (h : H) : H :=
    if lindbladian then lind_kernel h else expm (hscale mi_dt h).

  (** propagation.py 460-516: Column t of the signal array (channels x time). *)
  Definition column (z : K) (signals : list (list K)) (t : nat) : list K :=
    map (fun ch => nth t ch z) signals.
  (** propagation.py 470-480: signals.shape[1] *)
  Definition width (signals : list (list K)) : nat :=
    match signals with [] => 0 | ch :: _ => List.length ch end.

  (** propagation.py 426-440 ([tf_propagation_vectorized]) and 551-585
      ([tf_propagation_lind]): all time slices of a signal array. *)
  Definition propagate_vec (lindbladian : bool) (z : K) (h0 : H) (hks : list H)
             (signals : list (list K)) (mi_dt : K) : list H :=
    map (fun t => slice_prop lindbladian mi_dt (slice_ham h0 hks (column z signals t)))
        (seq 0 (width signals)).

  (** propagation.py 485-510: Python slice [l[a : a + n]]. *)
  Definition pslice {A} (a n : nat) (l : list A) : list A := firstn n (skipn a l).

  (** propagation.py 475-480: Number of batches: int(ceil(len / batch_size)). *)
  Definition num_batches (len b : nat) : nat := (len + b - 1) / b.

  (** propagation.py 460-516: [tf_batch_propagate] with control signals.  A zero
      batch size makes the division fail (ValueError here). *)
  Definition batch_propagate (lindbladian : bool) (z : K) (h0 : H) (hks : list H)
             (signals : list (list K)) (mi_dt : K) (b : nat) : result (list H) :=
    if Nat.eqb b 0 then Err ValueError
    else Ok (List.concat
               (map (fun i => propagate_vec lindbladian z h0 hks
                                            (map (pslice (i * b) b) signals) mi_dt)
                    (seq 0 (num_batches (width signals) b)))).

  (** propagation.py 460-516: Same function without control signals ([signals is None]): [hs] is a
      time-dependent Hamiltonian, one matrix per slice.  With [lindbladian] the
      code calls tf_propagation_lind(x, None, None, None, dt), whose first
      statement casts col_ops = None and raises.  (An empty Hamiltonian is taken
      to give an empty result.) *)
  Definition batch_propagate_h (lindbladian : bool) (hs : list H) (mi_dt : K) (b : nat)
    : result (list H) :=
    if Nat.eqb b 0 then Err ValueError
    else if lindbladian then
      match hs with [] => Ok [] | _ => Err ValueError end
    else Ok (List.concat (map (fun i => map (slice_prop false mi_dt) (pslice (i * b) b hs))
                              (seq 0 (num_batches (List.length hs) b)))).
End Batching.
