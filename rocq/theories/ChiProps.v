(** Property C96: the Pauli basis and the chi matrix of a unitary process. *)
From Coq Require Import Reals Lra Lia Setoid Morphisms.
From Coquelicot Require Import Coquelicot.
From Verif Require Import Base Mat RSum HilbertModel HilbertProofs GateModel PropModel SuperProofs FidModel FidProofs.
Local Open Scope list_scope.
Local Open Scope nat_scope.
Local Notation length := List.length.

(** The single-qubit operators 1, X, Y, Z. *)
Definition sigma (a i j : nat) : C :=
  match a, i, j with
  | 0, 0, 0 | 0, 1, 1 | 1, 0, 1 | 1, 1, 0 | 3, 0, 0 => RtoC 1
  | 2, 0, 1 => (- Ci)%C
  | 2, 1, 0 => Ci
  | 3, 1, 1 => RtoC (-1)
  | _, _, _ => RtoC 0
  end.
(** The Pauli string number [a] on [k] qubits: the base 4 digits of [a] name the
    operators, the bits of the row and column their entries, first qubit leading. *)
Fixpoint pauli (k a i j : nat) : C :=
  match k with
  | 0 => RtoC 1
  | S k' => (sigma (a / 4 ^ k') (i / 2 ^ k') (j / 2 ^ k') * pauli k' (a mod 4 ^ k') (i mod 2 ^ k') (j mod 2 ^ k'))%C
  end.

Definition single_paulis : list smat := map lit_smat PAULI_LITERALS.
Lemma single_entry : forall a i j, a < 4 -> i < 2 -> j < 2 -> ent (nth a single_paulis (seye 1 1)) i j = sigma a i j.
Proof.
  intros a i j Ha Hi Hj. unfold single_paulis, lit_smat, gl.
  destruct a as [|[|[|[|a]]]]; [| | | |lia]; (destruct i as [|[|i]]; [| |lia]); (destruct j as [|[|j]]; [| |lia]);
    cbn; unfold gev; apply C_ext; cbn; ring.
Qed.
Lemma single_shape : forall P, In P single_paulis -> rows P = 2 /\ cols P = 2.
Proof. intros P [<-|[<-|[<-|[<-|[]]]]]; split; reflexivity. Qed.
Lemma nth_blocks : forall {A} (R : list (list A)) (L : list A) q r d e, q < length L -> r < length R ->
  nth (q * length R + r) (flat_map (fun x => map (cons x) R) L) e = nth q L d :: nth r R e.
Proof.
  intros A R L. induction L as [|x L IH]; intros q r d e Hq Hr; cbn [length] in Hq; [lia|]. cbn [flat_map].
  destruct q as [|q].
  - rewrite Nat.mul_0_l, Nat.add_0_l, app_nth1 by (rewrite map_length; exact Hr).
    rewrite (nth_indep _ e (cons x e)) by (rewrite map_length; exact Hr). rewrite (map_nth (cons x)). reflexivity.
  - rewrite app_nth2 by (rewrite map_length; nia). rewrite map_length.
    replace (S q * length R + r - length R) with (q * length R + r) by nia.
    rewrite (IH q r d e) by lia. reflexivity.
Qed.
Lemma string_step : forall k a, a < 4 ^ S k ->
  nth a (pauli_strings (S k)) [] = nth (a / 4 ^ k) single_paulis (seye 1 1) :: nth (a mod 4 ^ k) (pauli_strings k) [].
Proof.
  intros k a Ha. pose proof (pauli_length k) as L.
  assert (P : 4 ^ k <> 0) by (apply Nat.pow_nonzero; lia).
  assert (D : a / 4 ^ k < 4) by (apply Nat.div_lt_upper_bound; [exact P|]; cbn [Nat.pow] in Ha; lia).
  assert (M : a mod 4 ^ k < 4 ^ k) by (apply Nat.mod_upper_bound; exact P).
  pose proof (nth_blocks (pauli_strings k) single_paulis (a / 4 ^ k) (a mod 4 ^ k) (seye 1 1) []) as B.
  rewrite L in B. rewrite <- B; [|exact D|exact M].
  replace (a / 4 ^ k * 4 ^ k + a mod 4 ^ k) with a; [reflexivity|].
  rewrite (Nat.div_mod a (4 ^ k) P) at 1. lia.
Qed.
Lemma string_shape : forall k a, a < 4 ^ k -> map rows (nth a (pauli_strings k) []) = repeat 2 k
  /\ map cols (nth a (pauli_strings k) []) = repeat 2 k.
Proof.
  induction k as [|k IH]; intros a Ha.
  - cbn in Ha. assert (a = 0) by lia. subst a. split; reflexivity.
  - rewrite string_step by exact Ha.
    assert (P : 4 ^ k <> 0) by (apply Nat.pow_nonzero; lia).
    assert (D : a / 4 ^ k < 4) by (apply Nat.div_lt_upper_bound; [exact P|]; cbn [Nat.pow] in Ha; lia).
    destruct (IH (a mod 4 ^ k) (Nat.mod_upper_bound _ _ P)) as [A B].
    destruct (single_shape (nth (a / 4 ^ k) single_paulis (seye 1 1))) as [E F]; [apply nth_In; exact D|].
    cbn [map repeat]. rewrite A, B, E, F. auto.
Qed.
Lemma prod_twos : forall k, prod_dims (repeat 2 k) = 2 ^ k.
Proof. induction k as [|k IH]; [reflexivity|]. cbn [repeat]. rewrite prod_dims_cons, IH. reflexivity. Qed.

Lemma string_entry : forall k a i j, a < 4 ^ k -> i < 2 ^ k -> j < 2 ^ k ->
  ent (np_kron_n (nth a (pauli_strings k) [])) i j = pauli k a i j.
Proof.
  intros k a i j Ha Hi Hj. destruct (string_shape k a Ha) as [Sr Sc].
  destruct (pos_surj (repeat 2 k) i) as (l & Vl & <-); [rewrite prod_twos; exact Hi|].
  destruct (pos_surj (repeat 2 k) j) as (l' & Vl' & <-); [rewrite prod_twos; exact Hj|].
  pose proof (kron_n_entry (nth a (pauli_strings k) []) l l') as E. rewrite Sr, Sc in E. rewrite E by assumption.
  clear E Sr Sc Hi Hj. revert a Ha l l' Vl Vl'. induction k as [|k IH]; intros a Ha l l' Vl Vl'.
  - cbn in Ha. assert (a = 0) by lia. subst a. inversion Vl. inversion Vl'. reflexivity.
  - cbn [repeat] in Vl, Vl'. inversion Vl as [|x d ls ds Hx H]; subst. inversion Vl' as [|y d' ls' ds' Hy H']; subst.
    rewrite string_step by exact Ha. cbn [kron_entry repeat pos pauli]. rewrite !prod_twos.
    assert (P : 4 ^ k <> 0) by (apply Nat.pow_nonzero; lia).
    assert (D : a / 4 ^ k < 4) by (apply Nat.div_lt_upper_bound; [exact P|]; cbn [Nat.pow] in Ha; lia).
    pose proof (pos_lt _ _ H) as Q. pose proof (pos_lt _ _ H') as Q'. rewrite prod_twos in Q, Q'.
    destruct (divmod_add x _ _ Q) as [-> ->]. destruct (divmod_add y _ _ Q') as [-> ->].
    rewrite single_entry by assumption. f_equal. apply IH; [apply Nat.mod_upper_bound; exact P|assumption|assumption].
Qed.

Lemma sigma_herm : forall a i j, Cconj (sigma a j i) = sigma a i j.
Proof.
  intros a i j. destruct a as [|[|[|[|a]]]]; destruct i as [|[|i]]; destruct j as [|[|j]]; cbn; apply C_ext; cbn; ring.
Qed.
Lemma pauli_herm : forall k a i j, Cconj (pauli k a j i) = pauli k a i j.
Proof.
  induction k as [|k IH]; intros a i j; cbn [pauli]; [apply conj_R|]. rewrite conj_mult, IH, sigma_herm. reflexivity.
Qed.

(** Column [a] of the basis is the flattened Pauli string number [a]. *)
Theorem C96_pauli_basis_columns :
  forall k a x, a < 4 ^ k -> x < 2 ^ k * 2 ^ k -> pauli_basis k x a = pauli k a (x / 2 ^ k) (x mod 2 ^ k).
Proof.
  intros k a x Ha Hx. destruct (divmod_lt _ _ _ Hx) as [H1 H2].
  unfold pauli_basis, mtrans. rewrite string_entry by assumption. apply pauli_herm.
Qed.
Print Assumptions C96_pauli_basis_columns.

Lemma four_pow : forall k, 2 ^ k * 2 ^ k = 4 ^ k.
Proof. intro k. rewrite <- Nat.pow_mul_l. reflexivity. Qed.
Lemma two_pos : forall k, 0 < 2 ^ k.
Proof. intro k. apply Nat.neq_0_lt_0, Nat.pow_nonzero. lia. Qed.

(** Sums over rows, columns and string numbers split into first qubit and rest. *)
Lemma csum_conv : forall n m f, n = m -> csum n f = csum m f.
Proof. intros; subst; reflexivity. Qed.
Lemma sum_bits : forall k f, csum (2 ^ S k) f = csum 2 (fun x => csum (2 ^ k) (fun y => f (x * 2 ^ k + y))).
Proof. intros. cbn [Nat.pow]. rewrite <- csum_prod. apply csum_conv. lia. Qed.
Lemma sum_digits : forall k f, csum (4 ^ S k) f = csum 4 (fun x => csum (4 ^ k) (fun y => f (x * 4 ^ k + y))).
Proof. intros. rewrite <- csum_prod. apply csum_conv. reflexivity. Qed.
Lemma csum_mult2 : forall n m f g, (csum n f * csum m g = csum n (fun i => csum m (fun j => f i * g j)))%C.
Proof. intros. rewrite <- csum_scale_r. apply csum_ext. intros i _. symmetry. apply csum_scale. Qed.

Lemma sigma_orth : forall a b, a < 4 -> b < 4 ->
  csum 2 (fun i => csum 2 (fun j => Cconj (sigma a i j) * sigma b i j))%C = if Nat.eqb a b then RtoC 2 else RtoC 0.
Proof.
  intros a b Ha Hb. destruct a as [|[|[|[|a]]]]; [| | | |lia]; (destruct b as [|[|[|[|b]]]]; [| | | |lia]); cbn; apply C_ext; cbn; ring.
Qed.
Lemma sigma_complete : forall i j i' j', i < 2 -> j < 2 -> i' < 2 -> j' < 2 ->
  csum 4 (fun a => sigma a i j * Cconj (sigma a i' j'))%C
  = if Nat.eqb i i' && Nat.eqb j j' then RtoC 2 else RtoC 0.
Proof.
  intros i j i' j' Hi Hj Hi' Hj'.
  destruct i as [|[|i]]; [| |lia]; (destruct j as [|[|j]]; [| |lia]); (destruct i' as [|[|i']]; [| |lia]); (destruct j' as [|[|j']]; [| |lia]);
    cbn; apply C_ext; cbn; ring.
Qed.
Lemma two_step : forall k, (RtoC 2 * RtoC (INR (2 ^ k)))%C = RtoC (INR (2 ^ S k)).
Proof. intro k. rewrite <- RtoC_mult. f_equal. rewrite Nat.pow_succ_r', mult_INR. reflexivity. Qed.
Lemma eqb_split : forall a b m, m <> 0 -> Nat.eqb a b = Nat.eqb (a / m) (b / m) && Nat.eqb (a mod m) (b mod m).
Proof.
  intros a b m Hm. destruct (Nat.eqb_spec a b) as [->|N].
  - rewrite !Nat.eqb_refl. reflexivity.
  - destruct (Nat.eqb_spec (a / m) (b / m)) as [E|]; [|reflexivity].
    destruct (Nat.eqb_spec (a mod m) (b mod m)) as [E'|]; [|reflexivity].
    exfalso. apply N. rewrite (Nat.div_mod a m Hm), (Nat.div_mod b m Hm), E, E'. reflexivity.
Qed.

Lemma pauli_orth : forall k a b, a < 4 ^ k -> b < 4 ^ k ->
  csum (2 ^ k) (fun i => csum (2 ^ k) (fun j => Cconj (pauli k a i j) * pauli k b i j))%C
  = if Nat.eqb a b then RtoC (INR (2 ^ k)) else RtoC 0.
Proof.
  induction k as [|k IH]; intros a b Ha Hb.
  - cbn in Ha, Hb. assert (a = 0) by lia. assert (b = 0) by lia. subst. cbn. apply C_ext; cbn; ring.
  - assert (P : 4 ^ k <> 0) by (apply Nat.pow_nonzero; lia).
    assert (Da : a / 4 ^ k < 4) by (apply Nat.div_lt_upper_bound; [exact P|]; cbn [Nat.pow] in Ha; lia).
    assert (Db : b / 4 ^ k < 4) by (apply Nat.div_lt_upper_bound; [exact P|]; cbn [Nat.pow] in Hb; lia).
    pose proof (Nat.mod_upper_bound a _ P) as Ma. pose proof (Nat.mod_upper_bound b _ P) as Mb.
    rewrite sum_bits.
    transitivity (csum 2 (fun x => csum 2 (fun u => Cconj (sigma (a / 4 ^ k) x u) * sigma (b / 4 ^ k) x u
       * csum (2 ^ k) (fun y => csum (2 ^ k) (fun v => Cconj (pauli k (a mod 4 ^ k) y v) * pauli k (b mod 4 ^ k) y v))))%C).
    { apply csum_ext. intros x Hx.
      transitivity (csum (2 ^ k) (fun y => csum 2 (fun u => csum (2 ^ k) (fun v =>
          Cconj (sigma (a / 4 ^ k) x u) * sigma (b / 4 ^ k) x u * (Cconj (pauli k (a mod 4 ^ k) y v) * pauli k (b mod 4 ^ k) y v))))%C).
      - apply csum_ext. intros y Hy. rewrite sum_bits. apply csum_ext. intros u Hu. apply csum_ext. intros v Hv.
        cbn [pauli]. destruct (divmod_add x y _ Hy) as [-> ->]. destruct (divmod_add u v _ Hv) as [-> ->].
        rewrite conj_mult. ring.
      - rewrite csum_swap. apply csum_ext. intros u Hu. rewrite <- csum_scale. apply csum_ext. intros y Hy. apply csum_scale. }
    rewrite (IH _ _ Ma Mb).
    rewrite (csum_ext 2 _ (fun x => csum 2 (fun u => Cconj (sigma (a / 4 ^ k) x u) * sigma (b / 4 ^ k) x u)
        * (if Nat.eqb (a mod 4 ^ k) (b mod 4 ^ k) then RtoC (INR (2 ^ k)) else RtoC 0))%C)
      by (intros; apply csum_scale_r).
    rewrite csum_scale_r, sigma_orth by assumption. rewrite (eqb_split a b (4 ^ k) P).
    destruct (Nat.eqb (a / 4 ^ k) (b / 4 ^ k)), (Nat.eqb (a mod 4 ^ k) (b mod 4 ^ k)); cbn [andb]; try ring.
    apply two_step.
Qed.
Lemma pauli_complete : forall k i j i' j', i < 2 ^ k -> j < 2 ^ k -> i' < 2 ^ k -> j' < 2 ^ k ->
  csum (4 ^ k) (fun a => pauli k a i j * Cconj (pauli k a i' j'))%C
  = if Nat.eqb i i' && Nat.eqb j j' then RtoC (INR (2 ^ k)) else RtoC 0.
Proof.
  induction k as [|k IH]; intros i j i' j' Hi Hj Hi' Hj'.
  - cbn in *. assert (i = 0) by lia. assert (j = 0) by lia. assert (i' = 0) by lia. assert (j' = 0) by lia. subst. cbn.
    apply C_ext; cbn; ring.
  - pose proof (two_pos k) as P. assert (N : 2 ^ k <> 0) by lia.
    assert (L : forall x, x < 2 ^ S k -> x / 2 ^ k < 2 /\ x mod 2 ^ k < 2 ^ k).
    { intros x Hx. split; [apply Nat.div_lt_upper_bound; [exact N|]; cbn [Nat.pow] in Hx; lia|apply Nat.mod_upper_bound; exact N]. }
    destruct (L i Hi), (L j Hj), (L i' Hi'), (L j' Hj').
    rewrite sum_digits.
    transitivity (csum 4 (fun x => sigma x (i / 2 ^ k) (j / 2 ^ k) * Cconj (sigma x (i' / 2 ^ k) (j' / 2 ^ k))
       * csum (4 ^ k) (fun y => pauli k y (i mod 2 ^ k) (j mod 2 ^ k) * Cconj (pauli k y (i' mod 2 ^ k) (j' mod 2 ^ k))))%C).
    { apply csum_ext. intros x Hx. rewrite <- csum_scale. apply csum_ext. intros y Hy. cbn [pauli].
      destruct (divmod_add x y _ Hy) as [-> ->]. rewrite conj_mult. ring. }
    rewrite csum_scale_r, IH, sigma_complete by assumption.
    rewrite (eqb_split i i' (2 ^ k) N), (eqb_split j j' (2 ^ k) N).
    destruct (Nat.eqb (i / 2 ^ k) (i' / 2 ^ k)), (Nat.eqb (j / 2 ^ k) (j' / 2 ^ k)),
      (Nat.eqb (i mod 2 ^ k) (i' mod 2 ^ k)), (Nat.eqb (j mod 2 ^ k) (j' mod 2 ^ k)); cbn [andb]; try ring.
    apply two_step.
Qed.

(** The columns are orthogonal with squared norm 2^k and form a complete basis. *)
Theorem C96_pauli_basis_orthogonal :
  forall k, let N := 4 ^ k in
  meq N N (mmul N (madj (pauli_basis k)) (pauli_basis k)) (mscale (RtoC (INR (2 ^ k))) mid)
  /\ meq N N (mmul N (pauli_basis k) (madj (pauli_basis k))) (mscale (RtoC (INR (2 ^ k))) mid).
Proof.
  intros k N. pose proof (four_pow k) as F. fold N in F. split.
  - intros a b Ha Hb. unfold mmul. rewrite (csum_conv N (2 ^ k * 2 ^ k)) by (symmetry; exact F). rewrite csum_prod.
    rewrite (csum_ext (2 ^ k) _ (fun i => csum (2 ^ k) (fun j => Cconj (pauli k a i j) * pauli k b i j))%C).
    + rewrite pauli_orth by assumption. unfold mscale, mid. destruct (Nat.eqb a b); ring.
    + intros i Hi. apply csum_ext. intros j Hj. unfold madj.
      rewrite !C96_pauli_basis_columns by (try assumption; nia). destruct (divmod_add i j _ Hj) as [-> ->]. reflexivity.
  - intros x y Hx Hy. rewrite <- F in Hx, Hy. destruct (divmod_lt _ _ _ Hx) as [H1 H2]. destruct (divmod_lt _ _ _ Hy) as [H3 H4].
    unfold mmul. rewrite (csum_ext N _ (fun a => pauli k a (x / 2 ^ k) (x mod 2 ^ k) * Cconj (pauli k a (y / 2 ^ k) (y mod 2 ^ k)))%C).
    + unfold N. rewrite pauli_complete by assumption. unfold mscale, mid.
      pose proof (two_pos k). rewrite (eqb_split x y (2 ^ k)) by lia.
      destruct (Nat.eqb (x / 2 ^ k) (y / 2 ^ k) && Nat.eqb (x mod 2 ^ k) (y mod 2 ^ k)); ring.
    + intros a Ha. unfold madj. rewrite !C96_pauli_basis_columns by assumption. reflexivity.
Qed.
Print Assumptions C96_pauli_basis_orthogonal.

(** The chi matrix of the process rho -> U rho U+ is the outer product of the Pauli
    coefficients tr(P_a U) (the strings are Hermitian). *)
Definition coefficient (k : nat) (U : mat) (a : nat) : C := mtrace (2 ^ k) (mmul (2 ^ k) (pauli k a) U).
Theorem C96_chi_of_unitary_process :
  forall k U a b, a < 4 ^ k -> b < 4 ^ k ->
  tf_choi_to_chi k (super_to_choi (2 ^ k) (tf_super (2 ^ k) U)) a b
  = (Cconj (coefficient k U a) * coefficient k U b)%C.
Proof.
  intros k U a b Ha Hb. unfold tf_choi_to_chi. cbv zeta. set (n := 2 ^ k).
  assert (Co : forall c, coefficient k U c = csum (n * n) (fun x => pauli k c (x / n) (x mod n) * U (x mod n)%nat (x / n)%nat)%C).
  { intro c. unfold coefficient. fold n. rewrite csum_prod. unfold mtrace. apply csum_ext. intros i Hi.
    unfold mmul. apply csum_ext. intros j Hj. destruct (divmod_add i j n Hj) as [-> ->]. reflexivity. }
  unfold mmul at 1.
  transitivity (csum (n * n) (fun y => Cconj (coefficient k U a) * (pauli k b (y / n) (y mod n) * U (y mod n)%nat (y / n)%nat))%C).
  - apply csum_ext. intros y Hy. rewrite C96_pauli_basis_columns by assumption.
    destruct (divmod_lt _ _ _ Hy) as [H3 H4].
    assert (E : mmul (n * n) (madj (pauli_basis k)) (super_to_choi n (tf_super n U)) a y
                = (Cconj (coefficient k U a) * U (y mod n)%nat (y / n)%nat)%C).
    { rewrite Co, conj_sum, <- csum_scale_r. unfold mmul. apply csum_ext. intros x Hx. destruct (divmod_lt _ _ _ Hx) as [H1 H2].
      unfold madj. rewrite C96_pauli_basis_columns by assumption. fold n. rewrite conj_mult. rewrite <- Cmult_assoc. f_equal.
      unfold super_to_choi. rewrite (super_kron n U) by nia. unfold kron, mconj.
      destruct (divmod_add (y mod n) (x mod n) n H2) as [-> ->]. destruct (divmod_add (y / n) (x / n) n H1) as [-> ->]. ring. }
    rewrite E. fold n. ring.
  - rewrite csum_scale. rewrite <- Co. reflexivity.
Qed.
Print Assumptions C96_chi_of_unitary_process.

(** Its diagonal are squared moduli that sum to d tr(U+ U) (d^2 for a unitary). *)
Theorem C96_chi_diagonal :
  forall k U,
  (forall a, a < 4 ^ k -> tf_choi_to_chi k (super_to_choi (2 ^ k) (tf_super (2 ^ k) U)) a a = RtoC (Cmod (coefficient k U a) ^ 2))
  /\ mtrace (4 ^ k) (tf_choi_to_chi k (super_to_choi (2 ^ k) (tf_super (2 ^ k) U)))
     = (RtoC (INR (2 ^ k)) * mtrace (2 ^ k) (mmul (2 ^ k) (madj U) U))%C
  /\ (unitary (2 ^ k) U ->
      mtrace (4 ^ k) (tf_choi_to_chi k (super_to_choi (2 ^ k) (tf_super (2 ^ k) U))) = RtoC (INR (4 ^ k))).
Proof.
  intros k U.
  assert (D : forall a, a < 4 ^ k -> tf_choi_to_chi k (super_to_choi (2 ^ k) (tf_super (2 ^ k) U)) a a
     = (Cconj (coefficient k U a) * coefficient k U a)%C) by (intros; apply C96_chi_of_unitary_process; assumption).
  assert (T : mtrace (4 ^ k) (tf_choi_to_chi k (super_to_choi (2 ^ k) (tf_super (2 ^ k) U)))
     = (RtoC (INR (2 ^ k)) * mtrace (2 ^ k) (mmul (2 ^ k) (madj U) U))%C).
  { unfold mtrace at 1. rewrite (csum_ext _ _ _ D). set (n := 2 ^ k).
    transitivity (csum (4 ^ k) (fun a => csum n (fun p => csum n (fun q => csum n (fun r => csum n (fun s =>
        (pauli k a p q * Cconj (pauli k a r s)) * (U q p * Cconj (U s r)))))))%C).
    { apply csum_ext. intros a Ha. unfold coefficient, mtrace. fold n. rewrite Cmult_comm.
      unfold mmul. rewrite <- csum_scale_r. apply csum_ext. intros p Hp. rewrite <- csum_scale_r. apply csum_ext. intros q Hq.
      rewrite conj_sum, <- csum_scale. apply csum_ext. intros r Hr. rewrite conj_sum, <- csum_scale. apply csum_ext. intros s Hs.
      rewrite conj_mult. ring. }
    rewrite csum_swap.
    transitivity (csum n (fun p => csum n (fun q => RtoC (INR n) * (U q p * Cconj (U q p))))%C).
    { apply csum_ext. intros p Hp. rewrite csum_swap. apply csum_ext. intros q Hq. rewrite csum_swap.
      rewrite (csum_single n p); [|exact Hp|].
      - rewrite csum_swap. rewrite (csum_single n q); [|exact Hq|].
        + rewrite csum_scale_r. unfold n. rewrite pauli_complete by assumption. rewrite !Nat.eqb_refl. reflexivity.
        + intros s Hs Ns. rewrite csum_scale_r. rewrite pauli_complete by assumption. rewrite Nat.eqb_refl.
          destruct (Nat.eqb_spec q s); [congruence|]. cbn [andb]. ring.
      - intros r Hr Nr. rewrite csum_swap. rewrite (csum_ext n _ (fun _ => RtoC 0)).
        + induction n as [|m IHm]; cbn [csum]; [reflexivity|]. clear. induction m as [|m IHm]; cbn [csum]; [ring|]. rewrite IHm. ring.
        + intros s Hs. rewrite csum_scale_r. rewrite pauli_complete by assumption.
          destruct (Nat.eqb_spec p r); [congruence|]. cbn [andb]. ring. }
    unfold mtrace. rewrite <- csum_scale. apply csum_ext. intros p Hp. unfold mmul. rewrite <- csum_scale.
    apply csum_ext. intros q Hq. unfold madj. ring. }
  split; [|split; [exact T|]].
  - intros a Ha. rewrite (D a Ha). apply conj_mod2.
  - intros [HU _]. rewrite T. rewrite (mtrace_proper _ _ _ HU), mtrace_id.
    rewrite <- RtoC_mult, <- mult_INR, four_pow. reflexivity.
Qed.
Print Assumptions C96_chi_diagonal.

(** The phase gate diag(1, i) has coefficients (1 + i) and (1 - i) of 1 and Z. *)
Example C96_example :
  let s : mat := fun i j => if Nat.eqb i j then (if Nat.eqb i 0 then RtoC 1 else Ci) else RtoC 0 in
  coefficient 1 s 0 = (RtoC 1 + Ci)%C /\ coefficient 1 s 1 = RtoC 0 /\ coefficient 1 s 3 = (RtoC 1 - Ci)%C.
Proof.
  cbv zeta. unfold coefficient, mtrace, mmul. cbn [Nat.pow Nat.mul Nat.add csum pauli sigma Nat.eqb Nat.div Nat.modulo Nat.divmod fst snd Nat.sub].
  repeat split; apply C_ext; cbn; ring.
Qed.
