From Coq Require Import Reals Lra Lia.
From Coquelicot Require Import Complex.
From Verif Require Import Base Mat MExp HilbertModel HilbertProofs HilbertProps PropModel PropProofs Prop2Props ChipModel.
Local Open Scope R_scope.
Local Notation length := List.length.

(** ** C93: Hamiltonians of the chip components *)
(** Energy of [n] excitations of an anharmonic oscillator. *)
Definition level_energy (freq anhar : R) (n : nat) : R := freq * INR n + anhar * (INR n * (INR n - 1) / 2).

Lemma resonator_entry : forall dims k a, (k < length dims)%nat -> ann_oper dims k = Ok a ->
  forall l l', valid dims l -> valid dims l' ->
  h_resonator (prod_dims dims) (ent a) (pos dims l) (pos dims l') = if list_eqb l l' then RtoC (INR (nth k l 0%nat)) else RtoC 0.
Proof. intros. apply C29_number_operator; assumption. Qed.
Lemma level_small : forall dims k l n, (k < length dims)%nat -> valid dims l -> nth k dims 0%nat = n -> Nat.ltb 2 n = false ->
  (INR (nth k l 0%nat) * (INR (nth k l 0%nat) - 1) = 0)%R.
Proof.
  intros dims k l n Hk Hl Hn H2. apply Nat.ltb_ge in H2. pose proof (valid_nth dims l k Hl Hk) as B.
  assert (nth k l 0 = 0 \/ nth k l 0 = 1)%nat as [->| ->] by lia; cbn; ring.
Qed.
(** A qubit of any number of levels embedded in any system: the state with n of its
    excitations has energy freq n + anhar n (n - 1) / 2. *)
Theorem C93_qubit_levels :
  forall dims k a freq anhar, (k < length dims)%nat -> ann_oper dims k = Ok a ->
  exists h, qubit_hamiltonian (prod_dims dims) (nth k dims 0%nat) freq (Some anhar) (ent a) false None = Ok h
  /\ forall l l', valid dims l -> valid dims l' ->
     h (pos dims l) (pos dims l') = if list_eqb l l' then RtoC (level_energy freq anhar (nth k l 0%nat)) else RtoC 0.
Proof.
  intros dims k a freq anhar Hk Ha. unfold qubit_hamiltonian. cbn [transformed].
  destruct (Nat.ltb 2 (nth k dims 0%nat)) eqn:E; eexists; (split; [reflexivity|]); intros l l' Hl Hl'.
  - unfold madd, mscale. rewrite (resonator_entry dims k a Hk Ha l l' Hl Hl'), (C44_duffing_energies dims k a Hk Ha l l' Hl Hl').
    unfold level_energy. destruct (list_eqb l l'); apply C_ext; cbn; ring.
  - unfold mscale. rewrite (resonator_entry dims k a Hk Ha l l' Hl Hl'). unfold level_energy.
    pose proof (level_small dims k l _ Hk Hl eq_refl E) as Z.
    destruct (list_eqb l l'); apply C_ext; cbn; try ring. unfold Rdiv. rewrite Z. ring.
Qed.
Print Assumptions C93_qubit_levels.
(** A transmon: the same with the tuned frequency; both at every sample of a flux
    signal and without one. *)
Theorem C93_transmon_levels :
  forall dims k a s freq anhar phi phi_0 sig, (k < length dims)%nat -> ann_oper dims k = Ok a ->
  forall l l', valid dims l -> valid dims l' ->
  transmon_hamiltonian (prod_dims dims) (nth k dims 0%nat) s freq anhar phi phi_0 (ent a) sig None (pos dims l) (pos dims l')
  = if list_eqb l l'
    then RtoC (level_energy (transmon_freq s freq anhar phi phi_0 (match sig with Some x => x | None => 0 end)) anhar (nth k l 0%nat))
    else RtoC 0.
Proof.
  intros dims k a s freq anhar phi phi_0 sig Hk Ha l l' Hl Hl'. unfold transmon_hamiltonian. cbn [transformed].
  destruct (Nat.ltb 2 (nth k dims 0%nat)) eqn:E.
  - unfold madd, mscale. rewrite (resonator_entry dims k a Hk Ha l l' Hl Hl'), (C44_duffing_energies dims k a Hk Ha l l' Hl Hl').
    unfold level_energy. destruct (list_eqb l l'); apply C_ext; cbn; ring.
  - unfold mscale. rewrite (resonator_entry dims k a Hk Ha l l' Hl Hl'). unfold level_energy.
    pose proof (level_small dims k l _ Hk Hl eq_refl E) as Z.
    destruct (list_eqb l l'); apply C_ext; cbn; try ring. unfold Rdiv. rewrite Z. ring.
Qed.
Print Assumptions C93_transmon_levels.
(** A SNAIL has the same levels; beta couples neighbouring levels n and n + 1 of the
    element with the three-wave-mixing matrix element n sqrt(n + 1), and nothing else. *)
Definition one_more (dims : list nat) (k : nat) (l l' : list nat) : Prop :=
  nth k l' 0%nat = S (nth k l 0%nat) /\ (forall q, (q < length dims)%nat -> q <> k -> nth q l 0%nat = nth q l' 0%nat).
Theorem C93_snail_levels :
  forall dims k a freq beta anhar, (k < length dims)%nat -> ann_oper dims k = Ok a ->
  exists h, snail_hamiltonian (prod_dims dims) (nth k dims 0%nat) freq beta anhar (ent a) false None = Ok h
  /\ forall l l', valid dims l -> valid dims l' ->
     (l = l' -> h (pos dims l) (pos dims l') = RtoC (level_energy freq anhar (nth k l 0%nat)))
     /\ (one_more dims k l l' -> h (pos dims l) (pos dims l') = RtoC (beta * (INR (nth k l 0%nat) * sqrt (INR (nth k l' 0%nat)))))
     /\ (one_more dims k l' l -> h (pos dims l) (pos dims l') = RtoC (beta * (INR (nth k l' 0%nat) * sqrt (INR (nth k l 0%nat)))))
     /\ (l <> l' -> ~ one_more dims k l l' -> ~ one_more dims k l' l -> h (pos dims l) (pos dims l') = RtoC 0).
Proof.
  intros dims k a freq beta anhar Hk Ha. unfold snail_hamiltonian. eexists. split; [reflexivity|]. intros l l' Hl Hl'.
  set (n := prod_dims dims).
  assert (N : forall u v, valid dims u -> valid dims v ->
    h_resonator n (ent a) (pos dims u) (pos dims v) = if list_eqb u v then RtoC (INR (nth k u 0%nat)) else RtoC 0).
  { intros. apply resonator_entry; assumption. }
  pose proof (pos_lt _ _ Hl) as P. pose proof (pos_lt _ _ Hl') as P'. fold n in P, P'.
  assert (T : h_third_order n (ent a) (pos dims l) (pos dims l')
    = (RtoC (INR (nth k l 0%nat)) * ent a (pos dims l) (pos dims l')
       + Cconj (ent a (pos dims l') (pos dims l)) * RtoC (INR (nth k l' 0%nat)))%C).
  { unfold h_third_order. cbv zeta. unfold madd. f_equal.
    - unfold mmul at 1. rewrite (csum_single n (pos dims l)); [|exact P|].
      + change (mmul n (madj (ent a)) (ent a)) with (h_resonator n (ent a)). rewrite N by assumption.
        rewrite (proj2 (list_eqb_eq _ _) eq_refl). reflexivity.
      + intros x Hx E. destruct (pos_surj _ _ Hx) as (u & Hu & <-). change (mmul n (madj (ent a)) (ent a)) with (h_resonator n (ent a)).
        rewrite N by assumption. destruct (list_eqb l u) eqn:Y; [apply list_eqb_eq in Y; congruence|]. ring.
    - unfold mmul at 1. rewrite (csum_single n (pos dims l')); [|exact P'|].
      + change (mmul n (madj (ent a)) (ent a)) with (h_resonator n (ent a)). rewrite N by assumption.
        rewrite (proj2 (list_eqb_eq _ _) eq_refl). reflexivity.
      + intros x Hx E. destruct (pos_surj _ _ Hx) as (u & Hu & <-). change (mmul n (madj (ent a)) (ent a)) with (h_resonator n (ent a)).
        rewrite N by assumption. destruct (list_eqb u l') eqn:Y; [apply list_eqb_eq in Y; congruence|]. ring. }
  pose proof (C44_duffing_energies dims k a Hk Ha l l' Hl Hl') as D. fold n in D.
  assert (H : forall t, h_third_order n (ent a) (pos dims l) (pos dims l') = t ->
    (if Nat.ltb 2 (nth k dims 0%nat)
     then madd (madd (mscale (RtoC freq) (h_resonator n (ent a))) (mscale (RtoC beta) (h_third_order n (ent a)))) (mscale (RtoC anhar) (h_duffing n (ent a)))
     else madd (mscale (RtoC freq) (h_resonator n (ent a))) (mscale (RtoC beta) (h_third_order n (ent a)))) (pos dims l) (pos dims l')
    = ((if list_eqb l l' then RtoC (level_energy freq anhar (nth k l 0%nat)) else RtoC 0) + RtoC beta * t)%C).
  { intros t Et. unfold level_energy. destruct (Nat.ltb 2 (nth k dims 0%nat)) eqn:E.
    - unfold madd, mscale. rewrite N, D, Et by assumption. destruct (list_eqb l l'); apply C_ext; cbn; ring.
    - unfold madd, mscale. rewrite N, Et by assumption. pose proof (level_small dims k l _ Hk Hl eq_refl E) as Z.
      destruct (list_eqb l l'); apply C_ext; cbn; try ring. unfold Rdiv. rewrite Z. ring. }
  rewrite (H _ T). clear H T D.
  destruct (C29_annihilator_lowers dims k a Hk Ha l l' Hl Hl') as [A1 A0].
  destruct (C29_annihilator_lowers dims k a Hk Ha l' l Hl' Hl) as [B1 B0].
  fold (one_more dims k l l') in A1, A0. fold (one_more dims k l' l) in B1, B0.
  assert (F : l <> l' -> list_eqb l l' = false).
  { intro X. destruct (list_eqb l l') eqn:Y; [apply list_eqb_eq in Y; contradiction|reflexivity]. }
  split; [|split; [|split]].
  - intros <-. assert (X : ~ one_more dims k l l) by (intros [X _]; lia). rewrite (A0 X), (proj2 (list_eqb_eq _ _) eq_refl).
    apply C_ext; cbn; ring.
  - intro X. assert (Y : ~ one_more dims k l' l) by (intros [Y _]; destruct X as [X _]; lia).
    rewrite F by (intros ->; destruct X as [X _]; lia). rewrite (A1 X), (B0 Y). apply C_ext; cbn; ring.
  - intro X. assert (Y : ~ one_more dims k l l') by (intros [Y _]; destruct X as [X _]; lia).
    rewrite F by (intros ->; destruct X as [X _]; lia). rewrite (B1 X), (A0 Y). apply C_ext; cbn; ring.
  - intros X Y Z. rewrite (F X), (A0 Y), (B0 Z). apply C_ext; cbn; ring.
Qed.
Print Assumptions C93_snail_levels.

Lemma herm_transformed : forall n T h, hermitian n h -> hermitian n (transformed n T h).
Proof.
  intros n [T|] h Hh; [|exact Hh]. cbn [transformed]. pose proof (herm_sandwich n (madj T) h Hh) as H.
  rewrite madj_madj in H. exact H.
Qed.
Lemma herm_square : forall n A, hermitian n A -> hermitian n (mmul n A A).
Proof. intros n A H. unfold hermitian in *. rewrite madj_mmul, H. reflexivity. Qed.
Lemma herm_quad : forall n a, hermitian n (madd (madj a) a).
Proof. intros n a. unfold hermitian. rewrite madj_add, madj_madj. apply madd_comm. Qed.
(** All of them are Hermitian, in every frame and at every sample. *)
Theorem C93_hermitian :
  forall n dim s freq anhar phi phi_0 EC EJ beta a sig T,
  (forall h x, qubit_hamiltonian n dim freq x a false T = Ok h -> hermitian n h)
  /\ (forall h, resonator_hamiltonian n freq a false T = Ok h -> hermitian n h)
  /\ hermitian n (transmon_hamiltonian n dim s freq anhar phi phi_0 a sig T)
  /\ hermitian n (expanded_hamiltonian n s EC EJ phi phi_0 a sig T)
  /\ (forall h, snail_hamiltonian n dim freq beta anhar a false None = Ok h -> hermitian n h).
Proof.
  intros n dim s freq anhar phi phi_0 EC EJ beta a sig T. destruct (C44_single_mode_hermitian n a) as (HR & HD & HT & _).
  split; [|split; [|split; [|split]]].
  - intros h x H. unfold qubit_hamiltonian in H. destruct (Nat.ltb 2 dim).
    + destruct x; [|discriminate]. injection H as <-. apply herm_add; apply herm_scale, herm_transformed; assumption.
    + injection H as <-. apply herm_scale, herm_transformed; assumption.
  - intros h H. injection H as <-. apply herm_scale, herm_transformed; assumption.
  - unfold transmon_hamiltonian. cbv zeta. destruct (Nat.ltb 2 dim); [apply herm_add|]; apply herm_scale, herm_transformed; assumption.
  - unfold expanded_hamiltonian. cbv zeta. set (q := madd (madj a) a).
    assert (Hq : hermitian n q) by apply herm_quad.
    assert (H2 : hermitian n (mmul n q q)) by (apply herm_square; exact Hq).
    assert (H4 : hermitian n (mmul n (mmul n q q) (mmul n q q))) by (apply herm_square; exact H2).
    assert (H6 : hermitian n (mmul n (mmul n (mmul n q q) (mmul n q q)) (mmul n q q))).
    { set (p := mmul n q q) in *. unfold hermitian in *. rewrite madj_mmul, madj_mmul, H2. apply mmul_assoc. }
    repeat apply herm_add; try apply herm_zero; apply herm_scale, herm_transformed; try assumption.
  - intros h H. unfold snail_hamiltonian in H. injection H as <-.
    destruct (Nat.ltb 2 dim); repeat apply herm_add; apply herm_scale; assumption.
Qed.
Print Assumptions C93_hermitian.
(** A transformation turns the Hamiltonian h into T+ h T. *)
Theorem C93_transform_is_similarity :
  forall n dim s freq anhar phi phi_0 EC EJ a sig T,
  (forall h x, qubit_hamiltonian n dim freq x a false None = Ok h ->
     exists h', qubit_hamiltonian n dim freq x a false (Some T) = Ok h' /\ meq n n h' (mmul n (mmul n (madj T) h) T))
  /\ meq n n (transmon_hamiltonian n dim s freq anhar phi phi_0 a sig (Some T))
       (mmul n (mmul n (madj T) (transmon_hamiltonian n dim s freq anhar phi phi_0 a sig None)) T)
  /\ meq n n (expanded_hamiltonian n s EC EJ phi phi_0 a sig (Some T))
       (mmul n (mmul n (madj T) (expanded_hamiltonian n s EC EJ phi phi_0 a sig None)) T).
Proof.
  intros n dim s freq anhar phi phi_0 EC EJ a sig T. split; [|split].
  - intros h x H. unfold qubit_hamiltonian in *. cbn [transformed] in *. destruct (Nat.ltb 2 dim).
    + destruct x as [x|]; [|discriminate]. injection H as <-. eexists. split; [reflexivity|].
      rewrite mmul_add_l, mmul_add_r, !mmul_scale_r, !mmul_scale_l. reflexivity.
    + injection H as <-. eexists. split; [reflexivity|]. rewrite !mmul_scale_r, !mmul_scale_l. reflexivity.
  - unfold transmon_hamiltonian. cbn [transformed]. cbv zeta. destruct (Nat.ltb 2 dim).
    + rewrite mmul_add_l, mmul_add_r, !mmul_scale_r, !mmul_scale_l. reflexivity.
    + rewrite !mmul_scale_r, !mmul_scale_l. reflexivity.
  - unfold expanded_hamiltonian. cbn [transformed]. cbv zeta.
    set (q := madd (madj a) a). set (q6 := mmul n (mmul n (mmul n q q) (mmul n q q)) (mmul n q q)). clearbody q6.
    set (q4 := mmul n (mmul n q q) (mmul n q q)). clearbody q4.
    rewrite !mmul_add_l, !mmul_add_r, mmul_zero_r, mmul_zero_l, !mmul_scale_r, !mmul_scale_l. reflexivity.
Qed.
Print Assumptions C93_transform_is_similarity.
(** With more than two levels the anharmonicity must be given; a transformation of a
    SNAIL fails; of the elements only a transmon takes a signal. *)
Theorem C93_requirements :
  forall n dim freq beta anhar x a T, (2 < dim)%nat ->
  is_ok (qubit_hamiltonian n dim freq None a false T) = false
  /\ is_ok (snail_hamiltonian n dim freq beta anhar a false (Some mid)) = false
  /\ qubit_hamiltonian n dim freq x a true T = Err NotImplemented
  /\ resonator_hamiltonian n freq a true T = Err NotImplemented
  /\ snail_hamiltonian n dim freq beta anhar a true T = Err NotImplemented.
Proof.
  intros n dim freq beta anhar x a T H. split; [|repeat split]. unfold qubit_hamiltonian.
  rewrite (proj2 (Nat.ltb_lt 2 dim) H). reflexivity.
Qed.
Print Assumptions C93_requirements.

(** The cosine model of the flux qubit is not Hermitian: its charge term is the real,
    antisymmetric matrix a - a+, entering linearly. *)
Theorem C93_cos_qubit_hermitian_refuted :
  forall n EC EJ gamma phi phi_0, (2 <= n)%nat -> 0 < EC -> 0 < EJ ->
  ~ hermitian n (cos_hamiltonian n EC EJ gamma phi phi_0 lowering).
Proof.
  intros n EC EJ gamma phi phi_0 Hn HC HJ H. specialize (H 0%nat 1%nat ltac:(lia) ltac:(lia)).
  unfold cos_hamiltonian in H. cbv zeta in H. set (v := phase_variable EC EJ lowering) in *.
  set (c := Rpower (EJ / EC / 32) (1 / 4)) in *.
  assert (Hc : 0 < c) by apply exp_pos.
  assert (S : forall x b, fst (cosm n v x b 1%nat 0%nat) = fst (cosm n v x b 0%nat 1%nat)).
  { intros x b. unfold cosm. cbv zeta. generalize (mscale (expi b) (mexp n (mscale (Ci * RtoC x)%C v))). intro e.
    unfold mscale, madd, madj. cbn. ring. }
  pose proof (S 2 (2 * PI * phi / phi_0)) as S1. pose proof (S 1 0) as S2.
  assert (F : forall r g N A B i j,
    mreal (madd (mscale (RtoC r) N) (mscale (RtoC EJ) (msub (mscale (RtoC (- 1)) A) (mscale (RtoC g) B)))) i j
    = RtoC (r * fst (N i j) + EJ * (- fst (A i j) - g * fst (B i j)))).
  { intros. unfold mreal, madd, msub, mscale. cbn. f_equal. ring. }
  unfold madj in H. rewrite !F, conj_R, S1, S2 in H.
  assert (N1 : fst (n_variable EC EJ lowering 1%nat 0%nat) = - c).
  { unfold n_variable, mscale, madd, mopp, madj, lowering. fold c. cbn. rewrite sqrt_1. ring. }
  assert (N2 : fst (n_variable EC EJ lowering 0%nat 1%nat) = c).
  { unfold n_variable, mscale, madd, mopp, madj, lowering. fold c. cbn. rewrite sqrt_1. ring. }
  rewrite N1, N2 in H. apply RtoC_inj in H. assert (E : 8 * EC * c = 0) by lra.
  assert (0 < 8 * EC * c) by (repeat apply Rmult_lt_0_compat; lra). lra.
Qed.
Print Assumptions C93_cos_qubit_hermitian_refuted.
Example C93_example : exists a h, ann_oper [2; 3]%nat 1 = Ok a /\
  qubit_hamiltonian 6 3 5 (Some (- (1 / 5))) (ent a) false None = Ok h /\ h 2%nat 2%nat = RtoC (49 / 5) /\ h 5%nat 5%nat = RtoC (49 / 5)
  /\ h 1%nat 1%nat = RtoC 5.
Proof.
  destruct (ann_oper [2; 3]%nat 1) as [a|] eqn:Ea; [|discriminate Ea].
  destruct (C93_qubit_levels [2; 3]%nat 1 a 5 (- (1 / 5)) ltac:(cbn; lia) Ea) as (h & H & L).
  exists a, h. split; [reflexivity|]. split; [exact H|].
  assert (V : forall x y, (x < 2)%nat -> (y < 3)%nat -> valid [2; 3]%nat [x; y]) by (intros; constructor; [assumption|constructor; [assumption|constructor]]).
  pose proof (L [0; 2] [0; 2] ltac:(apply V; lia) ltac:(apply V; lia))%nat as A.
  pose proof (L [1; 2] [1; 2] ltac:(apply V; lia) ltac:(apply V; lia))%nat as B.
  pose proof (L [0; 1] [0; 1] ltac:(apply V; lia) ltac:(apply V; lia))%nat as D.
  cbn in A, B, D. rewrite A, B, D. unfold level_energy. repeat split; f_equal; cbn; field.
Qed.

(** ** C94: decay and dephasing rates *)
Lemma mrefl : forall n (A : mat), meq n n A A.
Proof. reflexivity. Qed.
(** Rate of change of the density matrix under one collapse operator. *)
Definition rate (n : nat) (L rho : mat) : mat := lindblad n [L] 1 rho mzero.
Lemma rate_entries : forall n L rho,
  meq n n (rate n L rho)
    (msub (mmul n (mmul n L rho) (madj L)) (mscale (RtoC (1 / 2)) (madd (mmul n (mmul n (madj L) L) rho) (mmul n rho (mmul n (madj L) L))))).
Proof.
  intros n L rho. unfold rate, lindblad. cbn [fold_left]. unfold lindblad_add, anticommutator, commutator.
  rewrite mscale_1, mmul_zero_l, mmul_zero_r. apply meq_ext. intros i j. unfold msub, madd, mscale, mzero. ring.
Qed.
(** <A> changes like <L+ A L - (A L+L + L+L A)/2>. *)
Lemma rate_expect : forall n L A rho,
  mtrace n (mmul n A (rate n L rho))
  = (mtrace n (mmul n (mmul n (madj L) (mmul n A L)) rho)
     - RtoC (1 / 2) * (mtrace n (mmul n (mmul n A (mmul n (madj L) L)) rho) + mtrace n (mmul n (mmul n (mmul n (madj L) L) A) rho)))%C.
Proof.
  intros n L A rho.
  rewrite (mtrace_proper n _ _ (mmul_proper n A A (mrefl n _) _ _ (rate_entries n L rho))).
  rewrite (mtrace_proper n _ _ (mmul_sub_l n n n A _ _)), mtrace_sub. f_equal.
  - rewrite mtrace_mmul. rewrite <- (mtrace_proper n _ _ (mmul_assoc n n n n (mmul n L rho) (madj L) A)).
    rewrite mtrace_mmul. rewrite (mtrace_proper n _ _ (mmul_assoc n n n n (mmul n (madj L) A) L rho)).
    apply mtrace_proper. rewrite (mmul_assoc n n n n (madj L) A L). reflexivity.
  - rewrite (mtrace_proper n _ _ (mmul_scale_r n n n _ A _)), mtrace_scale. f_equal. f_equal.
    rewrite (mtrace_proper n _ _ (mmul_add_l n n n A _ _)), mtrace_add. f_equal.
    + apply mtrace_proper. apply mmul_assoc.
    + rewrite (mtrace_proper n _ _ (mmul_assoc n n n n A rho (mmul n (madj L) L))). rewrite mtrace_mmul.
      apply mtrace_proper. apply mmul_assoc.
Qed.
Lemma number_lowers : forall dims k a, (k < length dims)%nat -> ann_oper dims k = Ok a ->
  let n := prod_dims dims in
  meq n n (mmul n (h_resonator n (ent a)) (ent a)) (msub (mmul n (ent a) (h_resonator n (ent a))) (ent a)).
Proof.
  intros dims k a Hk Ha n. apply meq_labels. intros l l' Hl Hl'.
  pose proof (pos_lt _ _ Hl) as P. pose proof (pos_lt _ _ Hl') as P'. fold n in P, P'.
  assert (N : forall u v, valid dims u -> valid dims v ->
    h_resonator n (ent a) (pos dims u) (pos dims v) = if list_eqb u v then RtoC (INR (nth k u 0%nat)) else RtoC 0).
  { intros. apply resonator_entry; assumption. }
  unfold msub, mmul at 1 2.
  rewrite (csum_single n (pos dims l)); [|exact P|].
  2:{ intros x Hx E. destruct (pos_surj _ _ Hx) as (u & Hu & <-). rewrite N by assumption.
      destruct (list_eqb l u) eqn:Y; [apply list_eqb_eq in Y; congruence|]. ring. }
  rewrite (csum_single n (pos dims l')); [|exact P'|].
  2:{ intros x Hx E. destruct (pos_surj _ _ Hx) as (u & Hu & <-). rewrite N by assumption.
      destruct (list_eqb u l') eqn:Y; [apply list_eqb_eq in Y; congruence|]. ring. }
  rewrite !N by assumption. rewrite !(proj2 (list_eqb_eq _ _) eq_refl).
  destruct (C29_annihilator_lowers dims k a Hk Ha l l' Hl Hl') as [A B].
  destruct (Nat.eq_dec (nth k l' 0%nat) (S (nth k l 0%nat))) as [E|E].
  - rewrite E, S_INR. apply C_ext; cbn; ring.
  - rewrite B; [apply C_ext; cbn; ring|]. intros [X _]. apply E, X.
Qed.
Lemma number_decay : forall dims k a g rho, (k < length dims)%nat -> ann_oper dims k = Ok a ->
  let n := prod_dims dims in let N := h_resonator n (ent a) in
  mtrace n (mmul n N (rate n (mscale (RtoC g) (ent a)) rho)) = (- RtoC (g * g) * mtrace n (mmul n N rho))%C.
Proof.
  intros dims k a g rho Hk Ha n N. rewrite rate_expect.
  pose proof (number_lowers dims k a Hk Ha) as NL. cbv zeta in NL. fold n in NL. fold N in NL.
  set (A := ent a) in *.
  assert (LL : meq n n (mmul n (madj (mscale (RtoC g) A)) (mscale (RtoC g) A)) (mscale (RtoC (g * g)) N)).
  { rewrite madj_scale, conj_R, mmul_scale_l, mmul_scale_r, mscale_mscale. apply mscale_proper; [|reflexivity]. apply C_ext; cbn; ring. }
  assert (X : meq n n (mmul n (madj (mscale (RtoC g) A)) (mmul n N (mscale (RtoC g) A)))
                (mscale (RtoC (g * g)) (msub (mmul n N N) N))).
  { rewrite madj_scale, conj_R, mmul_scale_l, !mmul_scale_r, mscale_mscale, NL, mmul_sub_l.
    apply mscale_proper; [apply C_ext; cbn; ring|]. apply msub_proper; [|reflexivity].
    rewrite (mmul_assoc n n n n). reflexivity. }
  rewrite (mtrace_proper n _ _ (mmul_proper n _ _ X rho rho (mrefl n _))).
  rewrite (mtrace_proper n _ _ (mmul_proper n _ _ (mmul_proper n N N (mrefl n _) _ _ LL) rho rho (mrefl n _))).
  rewrite (mtrace_proper n _ _ (mmul_proper n _ _ (mmul_proper n _ _ LL N N (mrefl n _)) rho rho (mrefl n _))).
  rewrite (mtrace_proper n _ _ (mmul_scale_l n n n _ _ rho)), mtrace_scale.
  rewrite (mtrace_proper n _ _ (mmul_sub_r n n n _ _ rho)), mtrace_sub.
  rewrite (mtrace_proper n _ _ (mmul_proper n _ _ (mmul_scale_r n n n (RtoC (g * g)) N N) rho rho (mrefl n _))).
  rewrite (mtrace_proper n _ _ (mmul_proper n _ _ (mmul_scale_l n n n (RtoC (g * g)) N N) rho rho (mrefl n _))).
  rewrite !(mtrace_proper n _ _ (mmul_scale_l n n n _ (mmul n N N) rho)), !mtrace_scale.
  apply C_ext; cbn; field.
Qed.
Definition only_t1 (t1 : R) : lindpars := {| lp_t1 := Some t1; lp_t2star := None; lp_temp := None; lp_freq := 0; lp_anhar := 0 |}.
Definition only_t2 (t2 : R) : lindpars := {| lp_t1 := None; lp_t2star := Some t2; lp_temp := None; lp_freq := 0; lp_anhar := 0 |}.
Lemma rate_proper : forall n L L' rho, meq n n L L' -> meq n n (rate n L rho) (rate n L' rho).
Proof. intros n L L' rho E. rewrite !rate_entries, E. reflexivity. Qed.

(** With a relaxation time t1 the mean excitation of a qubit with any number of levels,
    in any state of any system, decays at the rate 1/t1. *)
Theorem C94_relaxation :
  forall kb hbar emb dims k a t1 rho, (k < length dims)%nat -> ann_oper dims k = Ok a -> 0 < t1 ->
  let n := prod_dims dims in let N := mmul n (madj (ent a)) (ent a) in
  exists L, qubit_lindbladian n kb hbar emb (nth k dims 0%nat) (only_t1 t1) (ent a) = Ok L
  /\ mtrace n (mmul n N (rate n L rho)) = (- RtoC (1 / t1) * mtrace n (mmul n N rho))%C.
Proof.
  intros kb hbar emb dims k a t1 rho Hk Ha Ht n N. exists (sum_ops [mscale (RtoC (sqrt (1 / t1))) (op_t1 (ent a))]). split; [reflexivity|].
  assert (E : meq n n (sum_ops [mscale (RtoC (sqrt (1 / t1))) (op_t1 (ent a))]) (mscale (RtoC (sqrt (1 / t1))) (ent a))).
  { cbn. apply madd_zero_l. }
  rewrite (mtrace_proper n _ _ (mmul_proper n N N (mrefl n _) _ _ (rate_proper n _ _ rho E))).
  etransitivity; [exact (number_decay dims k a (sqrt (1 / t1)) rho Hk Ha)|]. f_equal. f_equal. f_equal.
  apply sqrt_sqrt. apply Rlt_le, Rdiv_lt_0_compat; lra.
Qed.
Print Assumptions C94_relaxation.
(** A qubit has a collapse operator exactly when it has a relaxation or a dephasing time. *)
Theorem C94_needs_times :
  forall n kb hbar emb dim p a,
  (is_ok (qubit_lindbladian n kb hbar emb dim p a) = true <-> lp_t1 p <> None \/ lp_t2star p <> None)
  /\ (is_ok (transmon_lindbladian n kb hbar emb dim p a) = true <-> lp_t1 p <> None \/ lp_t2star p <> None).
Proof.
  intros n kb hbar emb dim p a. unfold qubit_lindbladian, transmon_lindbladian, get_lindbladian, lind_ops.
  destruct (lp_t1 p) as [t1|], (lp_t2star p) as [t2|]; cbn; split; split; intro H; try reflexivity; try discriminate;
    try (left; discriminate); try (right; discriminate); destruct H as [H|H]; contradiction.
Qed.
Print Assumptions C94_needs_times.
(** For a Transmon the rate is half of that: its lifetime is twice the t1 given. *)
Theorem C94_transmon_relaxation_refuted :
  forall kb hbar emb dims k a t1 rho, (k < length dims)%nat -> ann_oper dims k = Ok a -> 0 < t1 ->
  let n := prod_dims dims in let N := mmul n (madj (ent a)) (ent a) in
  exists L, transmon_lindbladian n kb hbar emb (nth k dims 0%nat) (only_t1 t1) (ent a) = Ok L
  /\ mtrace n (mmul n N (rate n L rho)) = (- RtoC (1 / (2 * t1)) * mtrace n (mmul n N rho))%C.
Proof.
  intros kb hbar emb dims k a t1 rho Hk Ha Ht n N. exists (sum_ops [mscale (RtoC (sqrt (1 / 2 / t1))) (op_t1 (ent a))]). split; [reflexivity|].
  assert (E : meq n n (sum_ops [mscale (RtoC (sqrt (1 / 2 / t1))) (op_t1 (ent a))]) (mscale (RtoC (sqrt (1 / 2 / t1))) (ent a))).
  { cbn. apply madd_zero_l. }
  rewrite (mtrace_proper n _ _ (mmul_proper n N N (mrefl n _) _ _ (rate_proper n _ _ rho E))).
  etransitivity; [exact (number_decay dims k a (sqrt (1 / 2 / t1)) rho Hk Ha)|]. f_equal. f_equal. f_equal.
  rewrite sqrt_sqrt; [field; lra|]. apply Rlt_le, Rdiv_lt_0_compat; lra.
Qed.
Print Assumptions C94_transmon_relaxation_refuted.

Lemma diag_left : forall dims (d : list nat -> C) (D A : mat) l l', valid dims l -> valid dims l' ->
  (forall u v, valid dims u -> valid dims v -> D (pos dims u) (pos dims v) = if list_eqb u v then d u else RtoC 0) ->
  mmul (prod_dims dims) D A (pos dims l) (pos dims l') = (d l * A (pos dims l) (pos dims l'))%C.
Proof.
  intros dims d D A l l' Hl Hl' HD. unfold mmul. rewrite (csum_single _ (pos dims l)); [|apply pos_lt; exact Hl|].
  - rewrite HD by assumption. rewrite (proj2 (list_eqb_eq _ _) eq_refl). reflexivity.
  - intros x Hx E. destruct (pos_surj _ _ Hx) as (u & Hu & <-). rewrite HD by assumption.
    destruct (list_eqb l u) eqn:Y; [apply list_eqb_eq in Y; congruence|]. ring.
Qed.
Lemma diag_right : forall dims (d : list nat -> C) (D A : mat) l l', valid dims l -> valid dims l' ->
  (forall u v, valid dims u -> valid dims v -> D (pos dims u) (pos dims v) = if list_eqb u v then d u else RtoC 0) ->
  mmul (prod_dims dims) A D (pos dims l) (pos dims l') = (A (pos dims l) (pos dims l') * d l')%C.
Proof.
  intros dims d D A l l' Hl Hl' HD. unfold mmul. rewrite (csum_single _ (pos dims l')); [|apply pos_lt; exact Hl'|].
  - rewrite HD by assumption. rewrite (proj2 (list_eqb_eq _ _) eq_refl). reflexivity.
  - intros x Hx E. destruct (pos_surj _ _ Hx) as (u & Hu & <-). rewrite HD by assumption.
    destruct (list_eqb u l') eqn:Y; [apply list_eqb_eq in Y; congruence|]. ring.
Qed.
(** With a dephasing time t2star, for Qubit and Transmon, the element between states
    whose excitations of the qubit differ by m decays at the rate m^2/t2star;
    populations do not change. *)
Theorem C94_dephasing :
  forall kb hbar emb dims k a t2 rho, (k < length dims)%nat -> ann_oper dims k = Ok a -> 0 < t2 ->
  let n := prod_dims dims in
  exists L, qubit_lindbladian n kb hbar emb (nth k dims 0%nat) (only_t2 t2) (ent a) = Ok L
  /\ transmon_lindbladian n kb hbar emb (nth k dims 0%nat) (only_t2 t2) (ent a) = Ok L
  /\ forall l l', valid dims l -> valid dims l' ->
     rate n L rho (pos dims l) (pos dims l')
     = (RtoC (- (INR (nth k l 0%nat) - INR (nth k l' 0%nat)) ^ 2 / t2) * rho (pos dims l) (pos dims l'))%C.
Proof.
  intros kb hbar emb dims k a t2 rho Hk Ha Ht n. exists (sum_ops [mscale (RtoC (sqrt (1 / 2 / t2))) (op_t2star n (ent a))]). split; [reflexivity|]. split; [reflexivity|].
  intros l l' Hl Hl'. set (g := sqrt (1 / 2 / t2)).
  set (D := mscale (RtoC g) (op_t2star n (ent a))).
  assert (E : meq n n (sum_ops [D]) D) by (cbn; apply madd_zero_l).
  rewrite (rate_proper n _ _ rho E _ _ (pos_lt _ _ Hl) (pos_lt _ _ Hl')).
  rewrite (rate_entries n D rho _ _ (pos_lt _ _ Hl) (pos_lt _ _ Hl')).
  assert (Gg : g * g = 1 / 2 / t2) by (apply sqrt_sqrt; apply Rlt_le, Rdiv_lt_0_compat; lra).
  pose (d := fun u : list nat => RtoC (g * 2 * INR (nth k u 0%nat))).
  assert (HD : forall u v, valid dims u -> valid dims v -> D (pos dims u) (pos dims v) = if list_eqb u v then d u else RtoC 0).
  { intros u v Hu Hv. unfold D, op_t2star, mscale. pose proof (resonator_entry dims k a Hk Ha u v Hu Hv) as RE. unfold h_resonator in RE. fold n in RE.
    rewrite RE. unfold d. destruct (list_eqb u v); apply C_ext; cbn; ring. }
  assert (HA : forall u v, valid dims u -> valid dims v -> madj D (pos dims u) (pos dims v) = if list_eqb u v then d u else RtoC 0).
  { intros u v Hu Hv. unfold madj. rewrite (HD v u Hv Hu). destruct (list_eqb v u) eqn:Y.
    - apply list_eqb_eq in Y. subst. rewrite (proj2 (list_eqb_eq _ _) eq_refl). unfold d. apply conj_R.
    - destruct (list_eqb u v) eqn:Y'; [apply list_eqb_eq in Y'; subst; rewrite (proj2 (list_eqb_eq _ _) eq_refl) in Y; discriminate|]. apply conj_R. }
  assert (HB : forall u v, valid dims u -> valid dims v -> mmul n (madj D) D (pos dims u) (pos dims v) = if list_eqb u v then (d u * d u)%C else RtoC 0).
  { intros u v Hu Hv. unfold n. rewrite (diag_left dims d _ _ u v Hu Hv HA), HD by assumption. destruct (list_eqb u v); [reflexivity|ring]. }
  unfold msub, mscale, madd, n.
  rewrite (diag_right dims d _ _ l l' Hl Hl' HA), (diag_left dims d _ _ l l' Hl Hl' HD).
  rewrite (diag_left dims (fun u => (d u * d u)%C) _ _ l l' Hl Hl' HB), (diag_right dims (fun u => (d u * d u)%C) _ _ l l' Hl Hl' HB).
  replace (- (INR (nth k l 0%nat) - INR (nth k l' 0%nat)) ^ 2 / t2)
    with (- 2 * (g * g) * (INR (nth k l 0%nat) - INR (nth k l' 0%nat)) ^ 2) by (rewrite Gg; field; lra).
  unfold d. apply C_ext; cbn; field.
Qed.
Print Assumptions C94_dephasing.
(** Populations [p0], [p1] of a two-level system. *)
Definition populations2 (p0 p1 : R) : mat :=
  fun i j => if Nat.eqb i j then (if Nat.eqb i 0 then RtoC p0 else RtoC p1) else RtoC 0.
Definition diag_list (l : list R) : mat := fun i j => if Nat.eqb i j then RtoC (nth i l 0) else RtoC 0.
Definition relax_thermal (t1 temp freq : R) : lindpars :=
  {| lp_t1 := Some t1; lp_t2star := None; lp_temp := Some temp; lp_freq := freq; lp_anhar := 0 |}.
Lemma rate2 : forall (L : mat) u v p0 p1, L 0%nat 0%nat = RtoC 0 -> L 1%nat 1%nat = RtoC 0 ->
  L 0%nat 1%nat = RtoC u -> L 1%nat 0%nat = RtoC v ->
  rate 2 L (populations2 p0 p1) 1%nat 1%nat = RtoC (v * v * p0 - u * u * p1).
Proof.
  intros L u v p0 p1 H00 H11 H01 H10. rewrite (rate_entries 2 L _ 1%nat 1%nat) by lia.
  unfold msub, mscale, madd, mmul, madj, populations2. cbn [csum Nat.eqb]. rewrite H00, H11, H01, H10, !conj_R.
  apply C_ext; cbn; field.
Qed.
(** Heating and relaxation of a two-level qubit: the excited state is filled at the
    rate exp(-2x)/t1 and emptied at the rate 1/t1, with x = hbar freq / (kb temp). *)
Theorem C94_thermal_rates :
  forall kb hbar t1 temp freq p0 p1, 0 < t1 ->
  exists L, qubit_lindbladian 2 kb hbar diag_list 2 (relax_thermal t1 temp freq) lowering = Ok L
  /\ rate 2 L (populations2 p0 p1) 1%nat 1%nat = RtoC ((exp (- 2 * (hbar * freq * (1 / (temp * kb)))) * p0 - p1) / t1).
Proof.
  intros kb hbar t1 temp freq p0 p1 Ht. set (g := sqrt (1 / t1)).
  set (L := sum_ops [mscale (RtoC g) (op_t1 lowering);
                     mscale (RtoC g) (mmul 2 (op_temp lowering) (diag_list (det_bal kb hbar temp [freq; 0])))]).
  exists L. split; [reflexivity|]. set (x := hbar * freq * (1 / (temp * kb))).
  assert (Gg : g * g = 1 / t1) by (apply sqrt_sqrt; apply Rlt_le, Rdiv_lt_0_compat; lra).
  rewrite (rate2 L g (g * exp (- x))).
  - f_equal. replace (- 2 * x) with (- x + - x) by ring. rewrite exp_plus.
    replace (g * exp (- x) * (g * exp (- x)) * p0 - g * g * p1) with (g * g * (exp (- x) * exp (- x) * p0 - p1)) by ring.
    rewrite Gg. field. lra.
  - unfold L, sum_ops, op_t1, op_temp, mscale, madd, mmul, madj, lowering, mzero, diag_list. cbn. apply C_ext; cbn; ring.
  - unfold L, sum_ops, op_t1, op_temp, mscale, madd, mmul, madj, lowering, mzero, diag_list. cbn. apply C_ext; cbn; ring.
  - unfold L, sum_ops, op_t1, op_temp, mscale, madd, mmul, madj, lowering, mzero, diag_list. cbn. rewrite sqrt_1. apply C_ext; cbn; ring.
  - unfold L, sum_ops, op_t1, op_temp, mscale, madd, mmul, madj, lowering, mzero, diag_list. cbn. rewrite sqrt_1.
    replace (- hbar * freq * (1 / (temp * kb))) with (- x) by (unfold x; ring). apply C_ext; cbn; ring.
Qed.
Print Assumptions C94_thermal_rates.
(** So the Boltzmann distribution, with p1/p0 = exp(-x), is not stationary. *)
Theorem C94_thermal_equilibrium_refuted :
  forall kb hbar t1 temp freq p0 L, 0 < kb -> 0 < hbar -> 0 < t1 -> 0 < temp -> 0 < freq -> 0 < p0 ->
  qubit_lindbladian 2 kb hbar diag_list 2 (relax_thermal t1 temp freq) lowering = Ok L ->
  rate 2 L (populations2 p0 (exp (- (hbar * freq / (kb * temp))) * p0)) 1%nat 1%nat <> RtoC 0.
Proof.
  intros kb hbar t1 temp freq p0 L Hk Hh Ht HT Hf Hp HL.
  destruct (C94_thermal_rates kb hbar t1 temp freq p0 (exp (- (hbar * freq / (kb * temp))) * p0) Ht) as (L' & HL' & R).
  rewrite HL in HL'. injection HL' as <-. rewrite R. intro E. apply RtoC_inj in E.
  set (x := hbar * freq / (kb * temp)) in *.
  assert (Hx : 0 < x) by (unfold x; apply Rdiv_lt_0_compat; apply Rmult_lt_0_compat; lra).
  replace (hbar * freq * (1 / (temp * kb))) with x in E by (unfold x; field; split; lra).
  replace (- 2 * x) with (- x + - x) in E by ring. rewrite exp_plus in E.
  assert (H1 : exp (- x) < 1) by (rewrite <- exp_0; apply exp_increasing; lra). pose proof (exp_pos (- x)) as H2.
  assert (F : (exp (- x) * exp (- x) * p0 - exp (- x) * p0) = 0).
  { apply (Rmult_eq_reg_r (/ t1)); [|apply Rinv_neq_0_compat; lra]. rewrite Rmult_0_l. exact E. }
  assert (0 < exp (- x) * p0 * (1 - exp (- x))) by (repeat apply Rmult_lt_0_compat; lra). nra.
Qed.
Print Assumptions C94_thermal_equilibrium_refuted.
(** The operators of one component are added before use, so relaxation and dephasing
    together are not the sum of the two processes: an excited qubit acquires coherence. *)
Theorem C94_independent_processes_refuted :
  exists L1 L2 L, let both := {| lp_t1 := Some 1; lp_t2star := Some (1 / 2); lp_temp := None; lp_freq := 0; lp_anhar := 0 |} in
  (forall kb hbar emb, qubit_lindbladian 2 kb hbar emb 2 (only_t1 1) lowering = Ok L1
   /\ qubit_lindbladian 2 kb hbar emb 2 (only_t2 (1 / 2)) lowering = Ok L2
   /\ qubit_lindbladian 2 kb hbar emb 2 both lowering = Ok L)
  /\ rate 2 L1 (populations2 0 1) 0%nat 1%nat = RtoC 0 /\ rate 2 L2 (populations2 0 1) 0%nat 1%nat = RtoC 0
  /\ rate 2 L (populations2 0 1) 0%nat 1%nat = RtoC 2.
Proof.
  set (A := mscale (RtoC (sqrt (1 / 1))) (op_t1 lowering)).
  set (B := mscale (RtoC (sqrt (1 / 2 / (1 / 2)))) (op_t2star 2 lowering)).
  exists (sum_ops [A]), (sum_ops [B]), (sum_ops [A; B]). split; [intros; repeat split; reflexivity|].
  assert (S1 : sqrt (1 / 1) = 1) by (replace (1 / 1) with 1 by field; apply sqrt_1).
  assert (S2 : sqrt (1 / 2 / (1 / 2)) = 1) by (replace (1 / 2 / (1 / 2)) with 1 by field; apply sqrt_1).
  assert (EA : forall i j, A i j = lowering i j) by (intros; unfold A, op_t1, mscale; rewrite S1; apply C_ext; cbn; ring).
  assert (EB : forall i j, (i < 2)%nat -> (j < 2)%nat -> B i j = if Nat.eqb i 1 && Nat.eqb j 1 then RtoC 2 else RtoC 0).
  { intros i j Hi Hj. unfold B, op_t2star, mscale, mmul, madj, lowering. rewrite S2.
    destruct i as [|[|i]]; destruct j as [|[|j]]; try lia; cbn; rewrite ?sqrt_1; apply C_ext; cbn; ring. }
  assert (X : forall L l01 l11, L 0%nat 0%nat = RtoC 0 -> L 1%nat 0%nat = RtoC 0 -> L 0%nat 1%nat = RtoC l01 -> L 1%nat 1%nat = RtoC l11 ->
    rate 2 L (populations2 0 1) 0%nat 1%nat = RtoC (l01 * l11)).
  { intros L l01 l11 H00 H10 H01 H11. rewrite (rate_entries 2 L _ 0%nat 1%nat) by lia.
    unfold msub, mscale, madd, mmul, madj, populations2. cbn [csum Nat.eqb]. rewrite H00, H10, H01, H11, !conj_R. apply C_ext; cbn; field. }
  split; [|split].
  - rewrite (X _ 1 0); [f_equal; ring| | | |]; cbn; unfold madd, mzero; rewrite EA; unfold lowering; cbn; rewrite ?sqrt_1; apply C_ext; cbn; ring.
  - rewrite (X _ 0 2); [f_equal; ring| | | |]; cbn; unfold madd, mzero; rewrite EB by lia; cbn; apply C_ext; cbn; ring.
  - rewrite (X _ 1 2); [f_equal; ring| | | |]; cbn; unfold madd, mzero; rewrite EB, EA by lia; unfold lowering; cbn; rewrite ?sqrt_1; apply C_ext; cbn; ring.
Qed.
Print Assumptions C94_independent_processes_refuted.
Example C94_example : exists a, ann_oper [2; 3]%nat 1 = Ok a /\ (1 < length [2; 3]%nat)%nat
  /\ exists L, qubit_lindbladian 6 1 1 diag_list 3 (only_t2 4) (ent a) = Ok L
  /\ forall rho, rate 6 L rho 0%nat 2%nat = (RtoC (- 1) * rho 0%nat 2%nat)%C.
Proof.
  destruct (ann_oper [2; 3]%nat 1) as [a|] eqn:Ea; [|discriminate Ea]. exists a. split; [reflexivity|]. split; [cbn; lia|].
  exists (sum_ops [mscale (RtoC (sqrt (1 / 2 / 4))) (op_t2star 6 (ent a))]). split; [reflexivity|]. intro rho.
  destruct (C94_dephasing 1 1 diag_list [2; 3]%nat 1 a 4 rho ltac:(cbn; lia) Ea ltac:(lra)) as (L & H & _ & D).
  assert (V : forall x y, (x < 2)%nat -> (y < 3)%nat -> valid [2; 3]%nat [x; y]) by (intros; constructor; [assumption|constructor; [assumption|constructor]]).
  pose proof (D [0; 0] [0; 2] ltac:(apply V; lia) ltac:(apply V; lia))%nat as E. injection H as <-.
  etransitivity; [exact E|]. cbn. f_equal. f_equal. field.
Qed.
