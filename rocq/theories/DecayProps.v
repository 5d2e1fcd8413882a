(** Property C142: simulated relaxation and dephasing follow the exponential laws of the
    times given. *)
From Coq Require Import Reals Lra Lia.
From Coquelicot Require Import Coquelicot.
From Verif Require Import Base Mat RSum MExp MExp2 Euler HilbertModel HilbertProofs HilbertProps PropModel PropProofs SuperProofs Prop2Props ChipModel Chip2Props FoldModel FoldProps ExpModel ExpProps IndepProps SplitProps.
Local Open Scope list_scope.
Local Open Scope nat_scope.
Local Notation length := List.length.

(** The complex exponential. *)
Definition number (z : C) : mat := fun _ _ => z.
Definition cexp (z : C) : C := mexp 1 (number z) 0 0.
Lemma cexp_real : forall x, cexp (RtoC x) = RtoC (exp x).
Proof.
  intro x. unfold cexp. apply mexp_eq.
  assert (P : forall k, mpow 1 (number (RtoC x)) k 0 0 = RtoC (x ^ k)).
  { induction k as [|k IH]; [reflexivity|]. cbn [mpow]. unfold mmul. cbn [csum]. rewrite IH. unfold number.
    rewrite <- RtoC_mult, <- RtoC_plus. f_equal. cbn [pow]. ring. }
  assert (Z : is_series (fun _ : nat => 0%R) 0%R) by apply is_series_zero.
  split; cbn [fst snd RtoC].
  - eapply is_series_ext; [|apply exp_series]. intro k. unfold taylor_term, mscale. rewrite P.
    rewrite <- RtoC_inv, <- RtoC_mult by (apply not_0_INR, fact_neq_0). reflexivity.
  - eapply is_series_ext; [|exact Z]. intro k. unfold taylor_term, mscale. rewrite P.
    rewrite <- RtoC_inv, <- RtoC_mult by (apply not_0_INR, fact_neq_0). reflexivity.
Qed.
Lemma cexp_add : forall a b, cexp (a + b)%C = (cexp a * cexp b)%C.
Proof.
  intros a b. unfold cexp.
  assert (K : meq 1 1 (mmul 1 (number a) (number b)) (mmul 1 (number b) (number a))).
  { intros i j _ _. unfold mmul, number. cbn [csum]. ring. }
  pose proof (mexp_commute 1 (number a) (number b) K 0 0 ltac:(lia) ltac:(lia)) as E.
  change (madd (number a) (number b)) with (number (a + b)%C) in E. rewrite E. unfold mmul. cbn [csum]. ring.
Qed.
Lemma cexp_imag : forall t, cexp (Ci * RtoC t)%C = expi t.
Proof.
  intro t. unfold cexp. rewrite (mexp_diag 1 (number (Ci * RtoC t)%C) (fun _ => t)); try lia; [reflexivity|].
  intros i j Hi Hj. replace i with 0 by lia. replace j with 0 by lia. reflexivity.
Qed.
Lemma cexp_0 : cexp (RtoC 0) = RtoC 1.
Proof. rewrite cexp_real, exp_0. reflexivity. Qed.

(** A row that A multiplies by z, exp(A) multiplies by exp(z). *)
Lemma mexp_row_eigen : forall n (v : nat -> C) A z,
  (forall j, j < n -> csum n (fun i => v i * A i j)%C = (z * v j)%C) ->
  forall j, j < n -> csum n (fun i => v i * mexp n A i j)%C = (cexp z * v j)%C.
Proof.
  intros n v A z H j Hj. set (p := fun k => mpow 1 (number z) k 0 0).
  assert (P : forall k i, i < n -> csum n (fun l => v l * mpow n A k l i)%C = (p k * v i)%C).
  { induction k as [|k IH]; intros i Hi.
    - unfold p. cbn [mpow]. unfold mid at 2. cbn [Nat.eqb]. rewrite Cmult_1_l. apply (csum_delta_r n i v Hi).
    - transitivity (csum n (fun l => csum n (fun m => v l * A l m * mpow n A k m i)%C)).
      + apply csum_ext. intros l Hl. rewrite (mpow_S_l n A k l i Hl Hi). unfold mmul.
        rewrite <- csum_scale. apply csum_ext. intros; ring.
      + rewrite csum_swap. transitivity (csum n (fun m => z * (v m * mpow n A k m i))%C).
        * apply csum_ext. intros m Hm. rewrite csum_scale_r, H by auto. ring.
        * rewrite csum_scale, IH by auto. unfold p. rewrite (mpow_S_l 1 (number z) k 0 0) by lia. unfold mmul. cbn [csum]. unfold number at 2. ring. }
  apply (is_cser_det (fun k => csum n (fun i => v i * taylor_term n A k i j)%C)).
  - apply (is_cser_sum n (fun k i => v i * taylor_term n A k i j)%C). intros i Hi. apply is_cser_scale, mexp_is; auto.
  - rewrite Cmult_comm. eapply is_cser_ext; [|apply is_cser_scale, (mexp_is 1 (number z) 0 0); lia].
    intro k. cbv beta. unfold taylor_term at 1. unfold mscale. fold (p k).
    transitivity (/ RtoC (INR (fact k)) * csum n (fun l => v l * mpow n A k l j))%C.
    + rewrite P by auto. ring.
    + rewrite <- csum_scale. apply csum_ext. intros i Hi. unfold taylor_term, mscale. ring.
Qed.

Section Observable.
  Variables (n : nat) (O : mat).
  (** The expectation value of [O] as a row acting on the stacked density matrix. *)
  Let v (q : nat) : C := O (q mod n) (q / n).
  Lemma expectation_row : forall X, mtrace n (mmul n O X) = csum (n * n) (fun q => v q * row_stack n X q 0)%C.
  Proof.
    intro X. rewrite csum_prod. unfold mtrace, mmul. rewrite csum_swap. apply csum_ext. intros i Hi. apply csum_ext. intros j Hj.
    unfold v, row_stack. destruct (divmod_add i j n Hj) as [-> ->]. reflexivity.
  Qed.
  (** [O] decays with the complex rate [z] under the master equation. *)
  Definition decays (cols : list mat) (h : mat) (z : C) : Prop :=
    forall rho, mtrace n (mmul n O (lindblad n cols 1 rho h)) = (z * mtrace n (mmul n O rho))%C.
  Lemma decays_slice : forall cols h z dt rho, decays cols h z ->
    mtrace n (mmul n O (evolved n (lind_slice n h cols dt) rho)) = (cexp (RtoC dt * z) * mtrace n (mmul n O rho))%C.
  Proof.
    intros cols h z dt rho D.
    assert (Q : forall p, p < n * n -> csum (n * n) (fun q => v q * mscale (RtoC dt) (lind_op_vec n h cols) q p)%C = (RtoC dt * z * v p)%C).
    { intros p Hp. set (e := (fun q _ => if Nat.eqb q p then RtoC 1 else RtoC 0) : mat).
      assert (Ep : mtrace n (mmul n O (row_unstack n e)) = v p).
      { rewrite expectation_row. transitivity (csum (n * n) (fun q => v q * (if Nat.eqb q p then RtoC 1 else RtoC 0))%C).
        - apply csum_ext. intros q Hq. rewrite (row_stack_unstack n e q 0 Hq ltac:(lia)). reflexivity.
        - apply csum_delta_r. exact Hp. }
      specialize (D (row_unstack n e)). rewrite Ep in D. rewrite <- Cmult_assoc, <- D, expectation_row, <- csum_scale.
      apply csum_ext. intros q Hq. destruct (C39_generator_is_lindblad n h cols 1 (row_unstack n e)) as [_ G].
      rewrite <- (G q 0 Hq ltac:(lia)). unfold mmul.
      transitivity (RtoC dt * (v q * lind_op_vec n h cols q p))%C; [unfold mscale; ring|]. f_equal. f_equal.
      rewrite (csum_ext _ _ (fun x => lind_op_vec n h cols q x * (if Nat.eqb x p then RtoC 1 else RtoC 0))%C).
      - symmetry. apply csum_delta_r. exact Hp.
      - intros x Hx. rewrite (row_stack_unstack n e x 0 Hx ltac:(lia)). unfold mscale, e. ring. }
    unfold evolved. rewrite !expectation_row.
    transitivity (csum (n * n) (fun q => csum (n * n) (fun p => v q * lind_slice n h cols dt q p * row_stack n rho p 0))%C).
    - apply csum_ext. intros q Hq. rewrite (row_stack_unstack n _ q 0 Hq ltac:(lia)). unfold mmul. rewrite <- csum_scale. apply csum_ext. intros; ring.
    - rewrite csum_swap, <- csum_scale. apply csum_ext. intros p Hp. rewrite csum_scale_r. unfold lind_slice.
      rewrite (mexp_row_eigen (n * n) v _ _ Q p Hp). ring.
  Qed.
End Observable.

Lemma expectation_mor : forall n O X Y, meq n n X Y -> mtrace n (mmul n O X) = mtrace n (mmul n O Y).
Proof.
  intros n O X Y E. unfold mtrace, mmul. apply csum_ext. intros i Hi. apply csum_ext. intros j Hj. rewrite (E j i Hj Hi). reflexivity.
Qed.
(** Over a whole gate the rates of the slices add up. *)
Lemma decays_gate : forall m s n ts batch r O z, p_lind m = true -> common_grid s n ts -> 0 < n ->
  pwc_controlled m s (folding_stack n) batch = Ok r ->
  (forall t, t < n -> decays (p_dim m) O (p_cols m) (driven_hamiltonian m s t) (z t)) ->
  forall rho, mtrace (p_dim m) (mmul (p_dim m) O (evolved (p_dim m) (pr_U r) rho))
  = (cexp (RtoC (first_step ts) * csum n z) * mtrace (p_dim m) (mmul (p_dim m) O rho))%C.
Proof.
  intros m s n ts batch r O z L G Hn R D. destruct (slices_ordered m s n ts batch r G Hn R) as (T & Ln & S).
  unfold udim in T. rewrite L in T, S. set (d := p_dim m) in *. set (dt := first_step ts) in *.
  assert (Q : forall us U, TimeOrdered (mmul (d * d)) us U ->
    (forall t u, nth_error us t = Some u -> forall rho, mtrace d (mmul d O (evolved d u rho)) = (cexp (RtoC dt * z t) * mtrace d (mmul d O rho))%C) ->
    forall rho, mtrace d (mmul d O (evolved d U rho)) = (cexp (RtoC dt * csum (length us) z) * mtrace d (mmul d O rho))%C).
  { intros us U H. induction H as [u|us u p P IH]; intros F rho.
    - cbn [length csum]. rewrite Cplus_0_l. apply (F 0). reflexivity.
    - rewrite (expectation_mor d O _ _ (evolved_mmul d u p rho)).
      rewrite (F (length us) u) by (rewrite nth_error_app2, Nat.sub_diag by lia; reflexivity).
      rewrite IH.
      + rewrite app_length. cbn [length]. rewrite Nat.add_1_r. cbn [csum].
        replace (RtoC dt * (csum (length us) z + z (length us)))%C with (RtoC dt * z (length us) + RtoC dt * csum (length us) z)%C by ring.
        rewrite cexp_add. ring.
      + intros t x Hx. apply F. rewrite nth_error_app1; [exact Hx|]. apply nth_error_Some. congruence. }
  intro rho. rewrite <- Ln. apply (Q _ _ T). intros t u Hu rho'.
  assert (Lt : t < n) by (rewrite <- Ln; apply nth_error_Some; congruence).
  rewrite (S t Lt) in Hu. injection Hu as <-. apply decays_slice, D, Lt.
Qed.
Lemma one_collapse : forall n L h rho, meq n n (lindblad n [L] 1 rho h) (madd (mscale (- Ci)%C (commutator n h rho)) (rate n L rho)).
Proof.
  intros n L h rho. unfold rate, lindblad. cbn [fold_left]. unfold lindblad_add, commutator. rewrite mmul_zero_l, mmul_zero_r.
  intros i j _ _. unfold mscale, msub, madd, mzero. ring.
Qed.

Lemma relaxes : forall m s n ts batch r L N c,
  p_lind m = true -> p_cols m = [L] -> common_grid s n ts -> 0 < n ->
  pwc_controlled m s (folding_stack n) batch = Ok r ->
  (forall X, mtrace (p_dim m) (mmul (p_dim m) N (rate (p_dim m) L X)) = (- RtoC c * mtrace (p_dim m) (mmul (p_dim m) N X))%C) ->
  (forall t, t < n -> meq (p_dim m) (p_dim m) (mmul (p_dim m) N (driven_hamiltonian m s t)) (mmul (p_dim m) (driven_hamiltonian m s t) N)) ->
  forall rho, mtrace (p_dim m) (mmul (p_dim m) N (evolved (p_dim m) (pr_U r) rho))
  = (RtoC (exp (- (INR n * first_step ts) * c)) * mtrace (p_dim m) (mmul (p_dim m) N rho))%C.
Proof.
  intros m s n ts batch r L N c Lm Cm G Hn R E K rho.
  rewrite (decays_gate m s n ts batch r N (fun _ => RtoC (- c)) Lm G Hn R).
  - f_equal. rewrite csum_const, <- !RtoC_mult, cexp_real. f_equal. f_equal. ring.
  - intros t Lt X. rewrite Cm, (expectation_mor _ N _ _ (one_collapse _ L _ X)).
    rewrite RtoC_opp, <- E. clear E R. specialize (K t Lt). set (H := driven_hamiltonian m s t) in *. set (d := p_dim m) in *.
    assert (Z : mtrace d (mmul d N (mscale (- Ci)%C (commutator d H X))) = RtoC 0).
    { rewrite (mtrace_proper d _ _ (mmul_scale_r d d d (- Ci)%C N (commutator d H X))), mtrace_scale.
      replace (mtrace d (mmul d N (commutator d H X))) with (RtoC 0); [ring|]. unfold commutator.
      rewrite (mtrace_proper d _ _ (mmul_sub_l d d d N (mmul d H X) (mmul d X H))), mtrace_sub.
      assert (E1 : mtrace d (mmul d N (mmul d H X)) = mtrace d (mmul d (mmul d H N) X)).
      { apply mtrace_proper. rewrite mmul_assoc. apply mmul_mor_l. exact K. }
      assert (E2 : mtrace d (mmul d N (mmul d X H)) = mtrace d (mmul d (mmul d H N) X)).
      { rewrite (mtrace_proper d _ _ (mmul_assoc d d d d N X H)), mtrace_mmul. apply mtrace_proper. rewrite mmul_assoc. reflexivity. }
      rewrite E1, E2. ring. }
    rewrite (mtrace_proper d _ _ (mmul_add_l d d d N _ _)), mtrace_add, Z. ring.
Qed.

(** ** C142: relaxation.  A qubit with relaxation time t1, whatever the other parts of the chip do:
    while no Hamiltonian changes its number of excitations, the mean number falls by
    exp(-T/t1) during a gate of duration T. *)
Theorem C142_relaxation : forall kb hbar emb dims k a t1 L m s n ts batch r,
  k < length dims -> ann_oper dims k = Ok a -> (0 < t1)%R ->
  qubit_lindbladian (prod_dims dims) kb hbar emb (nth k dims 0) (only_t1 t1) (ent a) = Ok L ->
  p_dim m = prod_dims dims -> p_lind m = true -> p_cols m = [L] -> common_grid s n ts -> 0 < n ->
  pwc_controlled m s (folding_stack n) batch = Ok r ->
  let N := mmul (p_dim m) (madj (ent a)) (ent a) in
  (forall t, t < n -> meq (p_dim m) (p_dim m) (mmul (p_dim m) N (driven_hamiltonian m s t)) (mmul (p_dim m) (driven_hamiltonian m s t) N)) ->
  forall rho, mtrace (p_dim m) (mmul (p_dim m) N (evolved (p_dim m) (pr_U r) rho))
  = (RtoC (exp (- (INR n * first_step ts) / t1)) * mtrace (p_dim m) (mmul (p_dim m) N rho))%C.
Proof.
  intros kb hbar emb dims k a t1 L m s n ts batch r Hk Ha Ht HL Ed Lm Cm G Hn R N K rho.
  rewrite (relaxes m s n ts batch r L N (1 / t1) Lm Cm G Hn R); [|intro X|exact K].
  - f_equal. f_equal. f_equal. field. lra.
  - destruct (C94_relaxation kb hbar emb dims k a t1 X Hk Ha Ht) as (L' & HL' & E). rewrite HL in HL'. injection HL' as <-.
    rewrite <- Ed in E. exact E.
Qed.
Print Assumptions C142_relaxation.

(** Finding: for a Transmon the same figure falls with half the rate: its simulated lifetime is
    twice the t1 given. *)
Theorem C142_transmon_relaxation_refuted : forall kb hbar emb dims k a t1 L m s n ts batch r,
  k < length dims -> ann_oper dims k = Ok a -> (0 < t1)%R ->
  transmon_lindbladian (prod_dims dims) kb hbar emb (nth k dims 0) (only_t1 t1) (ent a) = Ok L ->
  p_dim m = prod_dims dims -> p_lind m = true -> p_cols m = [L] -> common_grid s n ts -> 0 < n ->
  pwc_controlled m s (folding_stack n) batch = Ok r ->
  let N := mmul (p_dim m) (madj (ent a)) (ent a) in
  (forall t, t < n -> meq (p_dim m) (p_dim m) (mmul (p_dim m) N (driven_hamiltonian m s t)) (mmul (p_dim m) (driven_hamiltonian m s t) N)) ->
  forall rho, mtrace (p_dim m) (mmul (p_dim m) N (evolved (p_dim m) (pr_U r) rho))
  = (RtoC (exp (- (INR n * first_step ts) / (2 * t1))) * mtrace (p_dim m) (mmul (p_dim m) N rho))%C.
Proof.
  intros kb hbar emb dims k a t1 L m s n ts batch r Hk Ha Ht HL Ed Lm Cm G Hn R N K rho.
  rewrite (relaxes m s n ts batch r L N (1 / (2 * t1)) Lm Cm G Hn R); [|intro X|exact K].
  - f_equal. f_equal. f_equal. field. lra.
  - destruct (C94_transmon_relaxation_refuted kb hbar emb dims k a t1 X Hk Ha Ht) as (L' & HL' & E). rewrite HL in HL'. injection HL' as <-.
    rewrite <- Ed in E. exact E.
Qed.
Print Assumptions C142_transmon_relaxation_refuted.

(** ** Dephasing *)
Lemma element_trace : forall n x y X, x < n -> y < n ->
  mtrace n (mmul n (fun i j => if andb (Nat.eqb i y) (Nat.eqb j x) then RtoC 1 else RtoC 0) X) = X x y.
Proof.
  intros n x y X Hx Hy. unfold mtrace, mmul. rewrite (csum_single n y); [|exact Hy|].
  - rewrite (csum_single n x); [rewrite !Nat.eqb_refl; cbn [andb]; ring|exact Hx|].
    intros j Hj Nj. destruct (Nat.eqb_spec j x); [contradiction|]. rewrite Bool.andb_false_r. ring.
  - intros i Hi Ni. apply csum_0. intros j Hj. destruct (Nat.eqb_spec i y); [contradiction|]. cbn [andb]. ring.
Qed.
Lemma csum_parts : forall n (e : nat -> R) c, csum n (fun t => RtoC c + - Ci * RtoC (e t))%C = (RtoC (INR n * c) + Ci * RtoC (- rs n e))%C.
Proof.
  induction n as [|n IH]; intros e c; cbn [csum rs].
  - cbn [INR]. rewrite Rmult_0_l, Ropp_0. ring.
  - rewrite IH, S_INR. rewrite Ropp_plus_distr, Rmult_plus_distr_r, !RtoC_plus, !RtoC_opp, !RtoC_mult. ring.
Qed.
(** While the Hamiltonians are diagonal, with energies e, the coherence between two basis states turns
    with the difference of their energies, and falls by exp(-(n - n')^2 T/t2) where n and
    n' are their numbers of excitations of the qubit with dephasing time t2; other populations and
    coherences keep their size. *)
Theorem C142_dephasing : forall kb hbar emb dims k a t2 L m s n ts batch r e,
  k < length dims -> ann_oper dims k = Ok a -> (0 < t2)%R ->
  (qubit_lindbladian (prod_dims dims) kb hbar emb (nth k dims 0) (only_t2 t2) (ent a) = Ok L
   \/ transmon_lindbladian (prod_dims dims) kb hbar emb (nth k dims 0) (only_t2 t2) (ent a) = Ok L) ->
  p_dim m = prod_dims dims -> p_lind m = true -> p_cols m = [L] -> common_grid s n ts -> 0 < n ->
  pwc_controlled m s (folding_stack n) batch = Ok r ->
  (forall t, t < n -> meq (p_dim m) (p_dim m) (driven_hamiltonian m s t) (fun i j => if Nat.eqb i j then RtoC (e t i) else RtoC 0)) ->
  forall rho l l', valid dims l -> valid dims l' ->
  let x := pos dims l in let y := pos dims l' in
  evolved (p_dim m) (pr_U r) rho x y
  = (RtoC (exp (- (INR (nth k l 0) - INR (nth k l' 0)) ^ 2 * (INR n * first_step ts) / t2))
     * expi (- (first_step ts * rs n (fun t => e t x - e t y)))%R * rho x y)%C.
Proof.
  intros kb hbar emb dims k a t2 L m s n ts batch r e Hk Ha Ht HL Ed Lm Cm G Hn R K rho l l' V V' x y.
  assert (Hx : x < p_dim m) by (rewrite Ed; apply pos_lt; exact V). assert (Hy : y < p_dim m) by (rewrite Ed; apply pos_lt; exact V').
  set (c := (- (INR (nth k l 0%nat) - INR (nth k l' 0%nat)) ^ 2 / t2)%R).
  rewrite <- (element_trace (p_dim m) x y (evolved (p_dim m) (pr_U r) rho) Hx Hy).
  rewrite (decays_gate m s n ts batch r _ (fun t => RtoC c + - Ci * RtoC (e t x - e t y)%R)%C Lm G Hn R).
  - rewrite element_trace by assumption. f_equal.
    rewrite csum_parts, Cmult_plus_distr_l, cexp_add. f_equal.
    + rewrite <- RtoC_mult, cexp_real. f_equal. f_equal. unfold c. field. lra.
    + replace (RtoC (first_step ts) * (Ci * RtoC (- rs n (fun t => e t x - e t y)%R)))%C
        with (Ci * RtoC (- (first_step ts * rs n (fun t => e t x - e t y)%R)))%C; [apply cexp_imag|].
      rewrite !RtoC_opp, RtoC_mult. ring.
  - intros t Lt X. rewrite Cm, !element_trace by assumption. rewrite (one_collapse _ L _ X x y Hx Hy).
    destruct (C94_dephasing kb hbar emb dims k a t2 X Hk Ha Ht) as (L' & HL1 & HL2 & E).
    assert (L' = L) as -> by (destruct HL as [H|H]; congruence).
    specialize (E l l' V V'). rewrite <- Ed in E. fold x y in E. fold c in E. unfold madd at 1. rewrite E.
    unfold mscale, commutator, msub, mmul. specialize (K t Lt).
    rewrite (csum_single _ x), (csum_single _ y); auto.
    + rewrite (K x x Hx Hx), (K y y Hy Hy), !Nat.eqb_refl. rewrite RtoC_minus. ring.
    + intros i Hi Ni. rewrite (K i y Hi Hy). destruct (Nat.eqb_spec i y); [contradiction|]. ring.
    + intros i Hi Ni. rewrite (K x i Hx Hi). destruct (Nat.eqb_spec x i); [congruence|]. ring.
Qed.
Print Assumptions C142_dephasing.

(** A qubit with a drift and a flux line, and a gate of four samples. *)
Definition flux_qubit (L : mat) : pmodel :=
  {| p_dim := 2; p_h0 := sz; p_hctrls := [("d1"%string, sz)]; p_lind := true; p_cols := [L]; p_dims := [2]; p_max_ex := 0 |}.
Example C142_example : exists a L L2, ann_oper [2] 0 = Ok a
  /\ qubit_lindbladian 2 1 1 diag_list 2 (only_t1 3) (ent a) = Ok L /\ qubit_lindbladian 2 1 1 diag_list 2 (only_t2 3) (ent a) = Ok L2
  /\ common_grid [("d1"%string, pulse 7)] 4 [0%R; 1%R; 2%R; 3%R]
  /\ (exists r, pwc_controlled (flux_qubit L) [("d1"%string, pulse 7)] (folding_stack 4) None = Ok r)
  /\ (exists r, pwc_controlled (flux_qubit L2) [("d1"%string, pulse 7)] (folding_stack 4) None = Ok r)
  /\ (exists e, forall Q t, meq 2 2 (driven_hamiltonian (flux_qubit Q) [("d1"%string, pulse 7)] t) (fun i j => if Nat.eqb i j then RtoC (e t i) else RtoC 0))
  /\ (forall Q t, let N := mmul 2 (madj (ent a)) (ent a) in let H := driven_hamiltonian (flux_qubit Q) [("d1"%string, pulse 7)] t in
      meq 2 2 (mmul 2 N H) (mmul 2 H N)).
Proof.
  destruct (ann_oper [2] 0) as [a|] eqn:Ea; [|discriminate Ea].
  exists a. eexists. eexists. split; [reflexivity|]. split; [reflexivity|]. split; [reflexivity|].
  split; [intros k w [H|[]]; injection H as <- <-; split; reflexivity|]. split; [eexists; reflexivity|]. split; [eexists; reflexivity|].
  set (e := fun t i => ((if Nat.eqb i 0 then 1 else -1) * (1 + nth t (w_values (pulse 7)) 0))%R).
  assert (D : forall Q t, meq 2 2 (driven_hamiltonian (flux_qubit Q) [("d1"%string, pulse 7)] t) (fun i j => if Nat.eqb i j then RtoC (e t i) else RtoC 0)).
  { intros Q t i j Hi Hj. unfold driven_hamiltonian. cbn [fold_right fst snd flux_qubit p_h0 p_hctrls dget]. cbn [String.eqb Ascii.eqb Bool.eqb].
    unfold madd, mscale, sz, mzero, e. destruct (Nat.eqb i j); [|ring]. destruct (Nat.eqb i 0); rewrite RtoC_mult, RtoC_plus; ring. }
  split; [exists e; exact D|]. intros Q t N H i j Hi Hj.
  assert (Nd : forall p q, p < 2 -> q < 2 -> p <> q -> N p q = RtoC 0).
  { intros p q Hp Hq Npq. pose proof (C29_number_operator [2] 0 a ltac:(cbn; lia) Ea [p] [q]
      ltac:(repeat (apply Forall2_cons; [assumption|]); apply Forall2_nil) ltac:(repeat (apply Forall2_cons; [assumption|]); apply Forall2_nil)) as E.
    cbn [pos prod_dims fold_right list_eqb] in E. replace (p * 1 + 0) with p in E by lia. replace (q * 1 + 0) with q in E by lia.
    destruct (Nat.eqb_spec p q); [contradiction|]. exact E. }
  unfold mmul. cbn [csum]. unfold H. rewrite !(D Q t) by lia.
  destruct i as [|[|]]; [| |lia]; destruct j as [|[|]]; try lia; cbn [Nat.eqb]; rewrite ?(Nd 0 1), ?(Nd 1 0) by lia; ring.
Qed.
