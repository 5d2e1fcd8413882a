(** Property C140: selection rules.  States the Hamiltonians do not connect exchange no population. *)
From Coq Require Import Reals Lra Lia.
From Coquelicot Require Import Complex.
From Verif Require Import Base Mat RSum MExp MExp2 HilbertModel HilbertProofs HilbertProps Hilbert2Props PropModel FoldModel FoldProps FidModel FidProofs FidProps ExpModel ExpProps IndepProps LimitProps.
Local Open Scope list_scope.
Local Open Scope nat_scope.
Local Notation length := List.length.

(** The states 0 .. n-1 fall into the classes [f]; no element of [A] connects two classes. *)
Definition selects (n : nat) (f : nat -> nat) (A : mat) : Prop :=
  forall i j, i < n -> j < n -> f i <> f j -> A i j = RtoC 0.
(** Drift and controls select, and are Hermitian. *)
Definition selecting (m : pmodel) (f : nat -> nat) : Prop :=
  p_lind m = false /\ selects (p_dim m) f (p_h0 m) /\ hermitian (p_dim m) (p_h0 m)
  /\ forall k h, dget k (p_hctrls m) = Some h -> selects (p_dim m) f h /\ hermitian (p_dim m) h.
(** The population of class [c]. *)
Definition class_population (n : nat) (f : nat -> nat) (c : nat) (pop : nat -> R) : R :=
  rs n (fun i => if Nat.eqb (f i) c then pop i else 0%R).

Section Sectors.
  Variables (n : nat) (f : nat -> nat).
  Lemma selects_id : selects n f mid.
  Proof. intros i j _ _ N. unfold mid. destruct (Nat.eqb_spec i j) as [->|_]; [congruence|reflexivity]. Qed.
  Lemma selects_mul : forall A B, selects n f A -> selects n f B -> selects n f (mmul n A B).
  Proof.
    intros A B HA HB i j Hi Hj N. unfold mmul. apply csum_0. intros x Hx.
    destruct (Nat.eq_dec (f i) (f x)) as [E|E].
    - rewrite (HB x j) by (auto; congruence). ring.
    - rewrite (HA i x) by auto. ring.
  Qed.
  Lemma selects_pow : forall A k, selects n f A -> selects n f (mpow n A k).
  Proof. intros A k H. induction k as [|k IH]; cbn [mpow]; [apply selects_id|apply selects_mul; auto]. Qed.
  Lemma selects_scale : forall c A, selects n f A -> selects n f (mscale c A).
  Proof. intros c A H i j Hi Hj N. unfold mscale. rewrite (H i j Hi Hj N). ring. Qed.
  Lemma selects_add : forall A B, selects n f A -> selects n f B -> selects n f (madd A B).
  Proof. intros A B HA HB i j Hi Hj N. unfold madd. rewrite (HA i j Hi Hj N), (HB i j Hi Hj N). ring. Qed.
  Lemma selects_zero : selects n f mzero.
  Proof. intros i j _ _ _. reflexivity. Qed.
  Lemma selects_exp : forall A, selects n f A -> selects n f (mexp n A).
  Proof.
    intros A H i j Hi Hj N. apply mexp_eq. eapply is_cser_ext; [|apply is_cser_0]. intro k. cbv beta.
    unfold taylor_term, mscale. rewrite (selects_pow A k H i j Hi Hj N). ring.
  Qed.
  (** A unitary matrix that selects keeps the population of every class. *)
  Lemma selects_population : forall U psi c, unitary n U -> selects n f U ->
    class_population n f c (fun i => Cmod (mmul n U psi i 0%nat) ^ 2)%R = class_population n f c (fun i => Cmod (psi i 0%nat) ^ 2)%R.
  Proof.
    intros U psi c HU HS.
    set (phi := (fun i j => if Nat.eqb (f i) c then psi i j else RtoC 0) : mat).
    assert (Z : (Cmod (RtoC 0) ^ 2)%R = 0%R) by (rewrite Cmod_0; ring).
    transitivity (nrm2 n 1 (mmul n U phi)).
    - unfold class_population, nrm2. apply rs_ext. intros i Hi. cbn [rs]. rewrite Rplus_0_l.
      destruct (Nat.eqb_spec (f i) c) as [E|E].
      + f_equal. f_equal. unfold mmul. apply csum_ext. intros x Hx. unfold phi.
        destruct (Nat.eqb_spec (f x) c) as [Ex|Ex]; [reflexivity|]. rewrite (HS i x) by (auto; congruence). ring.
      + rewrite <- Z. f_equal. f_equal. symmetry. unfold mmul. apply csum_0. intros x Hx. unfold phi.
        destruct (Nat.eqb_spec (f x) c) as [Ex|Ex]; [rewrite (HS i x) by (auto; congruence)|]; ring.
    - rewrite unitary_norm by exact HU. unfold nrm2, class_population. apply rs_ext. intros i Hi. cbn [rs]. rewrite Rplus_0_l.
      unfold phi. destruct (Nat.eqb (f i) c); [reflexivity|exact Z].
  Qed.
End Sectors.

Lemma driven_selects : forall m f signal t, selecting m f -> selects (p_dim m) f (driven_hamiltonian m signal t).
Proof.
  intros m f signal t (_ & H0 & _ & Hc). unfold driven_hamiltonian. apply selects_add; [exact H0|].
  induction signal as [|kv signal IH]; cbn [fold_right]; [apply selects_zero|].
  destruct (dget (fst kv) (p_hctrls m)) as [h|] eqn:E; [|exact IH].
  apply selects_add; [|exact IH]. apply selects_scale. apply (Hc _ _ E).
Qed.

(** ** C140: The propagator of a gate, and every partial propagator, connects no two classes
    the drift and the controls do not connect: whatever the pulses, their number of
    samples, the batch size and the stack. *)
Theorem C140_selection_rule : forall m f signal stack batch r,
  selecting m f -> pwc_controlled m signal stack batch = Ok r ->
  selects (p_dim m) f (pr_U r) /\ Forall (selects (p_dim m) f) (pr_dUs r).
Proof.
  intros m f signal stack batch r S H. pose proof S as (Hl & _).
  destruct (controlled_split _ _ _ _ _ H) as (dt & A & B & D & E). rewrite Hl in *.
  assert (F : Forall (selects (p_dim m) f) (pr_dUs r)).
  { apply Forall_forall. intros u Hu. apply In_nth_error in Hu. destruct Hu as (t & Ht).
    assert (Lt : t < samples signal) by (rewrite <- B; apply nth_error_Some; congruence).
    rewrite (D t Lt) in Ht. injection Ht as <-. apply selects_exp, selects_scale, driven_selects, S. }
  split; [|exact F]. apply (matmul_n_closed _ (mmul (p_dim m)) (selects (p_dim m) f) (selects_mul (p_dim m) f) _ _ _ F E).
Qed.
Print Assumptions C140_selection_rule.

(** Every propagator of the experiment is one of the model's gates. *)
Definition gates_of (m : pmodel) (props : dict mat) : Prop :=
  forall g U, dget g props = Some U -> exists signal stack batch r, pwc_controlled m signal stack batch = Ok r /\ U = pr_U r.

(** The populations an experiment reports after any sequence of gates add up, in every
    class, to what the initial state had there. *)
Theorem C140_class_populations : forall m f props psi seqs pops,
  selecting m f -> gates_of m props ->
  evaluate_legacy (p_dim m) false props psi seqs = Ok pops ->
  length pops = length seqs
  /\ Forall (fun p => length p = p_dim m /\ forall c,
       class_population (p_dim m) f c (fun i => nth i p 0%R) = class_population (p_dim m) f c (fun i => Cmod (psi i 0%nat) ^ 2)%R) pops.
Proof.
  intros m f props psi seqs pops S G. pose proof S as (Hl & _ & H0 & Hc).
  assert (K : forall g U, dget g props = Some U -> unitary (p_dim m) U /\ selects (p_dim m) f U).
  { intros g U Hg. destruct (G g U Hg) as (signal & stack & batch & r & R & ->). split.
    - apply (C82_closed_unitary m signal stack batch r Hl H0); [|exact R]. intros k h Hk. apply (Hc k h Hk).
    - apply (C140_selection_rule m f signal stack batch r S R). }
  assert (Q : forall s phi phi', apply_gates (p_dim m) props s phi = Ok phi' -> forall c,
    class_population (p_dim m) f c (fun i => Cmod (phi' i 0%nat) ^ 2)%R = class_population (p_dim m) f c (fun i => Cmod (phi i 0%nat) ^ 2)%R).
  { induction s as [|g s IH]; intros phi phi' H c; cbn [apply_gates] in H; [injection H as <-; reflexivity|].
    destruct (dget g props) as [U|] eqn:Eg; [|discriminate]. destruct (K g U Eg) as [K1 K2].
    rewrite (IH _ _ H c). apply selects_population; auto. }
  revert pops. induction seqs as [|s seqs IH]; intros pops H; cbn [evaluate_legacy] in H.
  - injection H as <-. auto.
  - destruct (apply_gates (p_dim m) props s psi) as [phi|] eqn:E; [|discriminate]. cbn [rbind] in H.
    destruct (evaluate_legacy (p_dim m) false props psi seqs) as [l|] eqn:E2; [|discriminate]. cbn [rbind] in H. injection H as <-.
    destruct (IH l eq_refl) as [A B]. split; [cbn; lia|]. constructor; [|exact B]. split.
    + unfold populations. rewrite map_length, seq_length. reflexivity.
    + intro c. rewrite <- (Q s psi phi E c). unfold class_population. apply rs_ext. intros i Hi. destruct (Nat.eqb (f i) c); [|reflexivity].
      pose proof (map_nth (fun n => (Cmod (phi n 0%nat) ^ 2)%R) (seq 0 (p_dim m)) 0 i) as M. rewrite seq_nth in M by exact Hi.
      cbv beta in M. cbn [plus] in M. rewrite <- M. unfold populations. apply nth_indep. rewrite map_length, seq_length. exact Hi.
Qed.
Print Assumptions C140_class_populations.

(** Diagonal Hamiltonians (detunings, flux pulses) move no population at all. *)
Theorem C140_diagonal : forall m props psi seqs pops p i,
  selecting m (fun x => x) -> gates_of m props ->
  evaluate_legacy (p_dim m) false props psi seqs = Ok pops -> In p pops -> i < p_dim m ->
  nth i p 0%R = (Cmod (psi i 0%nat) ^ 2)%R.
Proof.
  intros m props psi seqs pops p i S G H Ip Hi.
  destruct (C140_class_populations m (fun x => x) props psi seqs pops S G H) as [_ F].
  pose proof (proj1 (Forall_forall _ _) F p Ip) as [_ P]. specialize (P i). unfold class_population in P.
  rewrite !(rs_single (p_dim m) i) in P; auto.
  - rewrite Nat.eqb_refl in P. exact P.
  - intros j Hj Nj. destruct (Nat.eqb_spec j i); [contradiction|reflexivity].
  - intros j Hj Nj. destruct (Nat.eqb_spec j i); [contradiction|reflexivity].
Qed.
Print Assumptions C140_diagonal.

(** If every Hamiltonian conserves the number of excitations, each number of excitations keeps
    its population. *)
Definition excitations (dims : list nat) (x : nat) : nat := list_sum (nth x (labels dims) []).
Theorem C140_excitations : forall dims m props psi seqs pops p k,
  p_dim m = prod_dims dims -> p_lind m = false -> conserves dims (p_h0 m) -> hermitian (p_dim m) (p_h0 m) ->
  (forall k h, dget k (p_hctrls m) = Some h -> conserves dims h /\ hermitian (p_dim m) h) ->
  gates_of m props -> evaluate_legacy (p_dim m) false props psi seqs = Ok pops -> In p pops ->
  class_population (p_dim m) (excitations dims) k (fun i => nth i p 0%R)
  = class_population (p_dim m) (excitations dims) k (fun i => Cmod (psi i 0%nat) ^ 2)%R.
Proof.
  intros dims m props psi seqs pops p k Ed Hl C0 H0 Hc G E Ip.
  assert (Hf : forall l, valid dims l -> excitations dims (pos dims l) = list_sum l).
  { intros l V. unfold excitations. rewrite (nth_error_nth _ _ [] (labels_nth dims l V)). reflexivity. }
  assert (Q : forall A, conserves dims A -> selects (p_dim m) (excitations dims) A).
  { intros A HA i j Hi Hj N. rewrite Ed in Hi, Hj. destruct (pos_surj dims i Hi) as (l & V & <-). destruct (pos_surj dims j Hj) as (l' & V' & <-).
    apply HA; auto. rewrite <- !Hf by auto. exact N. }
  assert (S : selecting m (excitations dims)).
  { split; [exact Hl|]. split; [apply Q, C0|]. split; [exact H0|]. intros q h Hk. destruct (Hc q h Hk). split; auto. }
  destruct (C140_class_populations m _ props psi seqs pops S G E) as [_ F].
  apply (proj1 (Forall_forall _ _) F p Ip).
Qed.
Print Assumptions C140_excitations.

(** Two qubits that exchange excitations, with a flux line on the first, and a gate of four samples. *)
Definition swap_term : mat := fun i j => if orb (andb (Nat.eqb i 1) (Nat.eqb j 2)) (andb (Nat.eqb i 2) (Nat.eqb j 1)) then RtoC 1 else RtoC 0.
Definition flux_term : mat := fun i j => if andb (Nat.eqb i j) (Nat.leb 2 i) then RtoC 1 else RtoC 0.
Definition swap_model : pmodel :=
  {| p_dim := 4; p_h0 := swap_term; p_hctrls := [("d1"%string, flux_term)]; p_lind := false; p_cols := []; p_dims := [2; 2]; p_max_ex := 0 |}.
Example C140_example :
  selecting swap_model (excitations [2; 2]) /\ map (excitations [2; 2]) [0; 1; 2; 3] = [0; 1; 1; 2]
  /\ exists r, pwc_controlled swap_model [("d1"%string, pulse 7%R)] (folding_stack 4) None = Ok r /\ gates_of swap_model [("swap"%string, pr_U r)].
Proof.
  split; [|split; [reflexivity|]].
  - assert (Z : Cconj (RtoC 0) = RtoC 0) by apply conj_R. assert (O : Cconj (RtoC 1) = RtoC 1) by apply conj_R.
    split; [reflexivity|]. cbn [swap_model p_dim p_h0 p_hctrls]. split; [|split].
    + intros i j Hi Hj N. destruct i as [|[|[|[|i]]]]; try lia; destruct j as [|[|[|[|j]]]]; try lia; try reflexivity; exfalso; apply N; reflexivity.
    + intros i j Hi Hj. unfold madj. destruct i as [|[|[|[|i]]]]; try lia; destruct j as [|[|[|[|j]]]]; try lia; cbn; first [exact Z|exact O|symmetry; exact Z|symmetry; exact O].
    + intros k h Hk. cbn in Hk. destruct (String.eqb_spec k "d1") as [->|]; [|discriminate]. injection Hk as <-. split.
      * intros i j Hi Hj N. destruct i as [|[|[|[|i]]]]; try lia; destruct j as [|[|[|[|j]]]]; try lia; try reflexivity; exfalso; apply N; reflexivity.
      * intros i j Hi Hj. unfold madj. destruct i as [|[|[|[|i]]]]; try lia; destruct j as [|[|[|[|j]]]]; try lia; cbn; first [exact Z|exact O|symmetry; exact Z|symmetry; exact O].
  - eexists. split; [reflexivity|]. intros g U H. cbn [dget] in H. destruct (String.eqb g "swap"); [|discriminate]. injection H as <-.
    exists [("d1"%string, pulse 7%R)], (folding_stack 4), None. eexists. split; reflexivity.
Qed.
