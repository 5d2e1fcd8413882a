(** C127: the tomography sequences determine the gate. *)
From Coq Require Import Reals Lra Lia Setoid Morphisms.
From Coquelicot Require Import Coquelicot.
From Verif Require Import Base Mat MExp HilbertModel GateModel GateProofs PropModel SuperProofs FidModel TomoModel.
Local Open Scope list_scope.
Local Open Scope nat_scope.
Local Notation length := List.length.

(** ** Specification *)
(** What a single-qubit name means: the tabulated gate, and "Id" is no gate. *)
Definition single (x : string) : mat := if String.eqb x "Id" then mid else gate2 x.
(** The set of single-qubit names. *)
Definition singles : list string := ["Id"; "rx90p"; "ry90p"]%string.
(** Perfect preparation and analysis gates among the propagators of an open system of two qubits. *)
Definition perfect_super (P : dict mat) : Prop := forall x y, In x singles -> In y singles ->
  exists M, dget (x ++ ":" ++ y)%string P = Some M /\ meq 16 16 M (tf_super 4 (kron 2 2 (single x) (single y))).
(** The same for a closed system. *)
Definition perfect_unitary (P : dict mat) : Prop := forall x y, In x singles -> In y singles ->
  exists M, dget (x ++ ":" ++ y)%string P = Some M /\ meq 4 4 M (kron 2 2 (single x) (single y)).
(** A superoperator that maps Hermitian matrices to Hermitian matrices. *)
Definition hermiticity_preserving (n : nat) (E : mat) : Prop := forall i j k l, i < n -> j < n -> k < n -> l < n ->
  E (j * n + i) (l * n + k) = Cconj (E (i * n + j) (k * n + l)).

Local Open Scope C_scope.

(** ** Linear functionals of 2 x 2 matrices *)
Definition unit_mat (i j : nat) : mat := fun a b => if (Nat.eqb a i && Nat.eqb b j)%bool then RtoC 1 else RtoC 0.
Record lin (f : mat -> C) : Prop := {
  lin_add : forall A B, f (madd A B) = f A + f B;
  lin_scale : forall c A, f (mscale c A) = c * f A;
  lin_ext : forall A B, meq 2 2 A B -> f A = f B }.
(** Preparation and analysis gates on one qubit. *)
Definition prod2 (l : list string) : mat := mmul 2 (single (nth 1 l ""%string)) (single (nth 0 l ""%string)).
Definition inn (V : mat) : mat := fun p q => V p 0%nat * Cconj (V q 0%nat).
Definition out (V : mat) (n : nat) : mat := fun k l => V n k * Cconj (V n l).

Lemma s2_sq : s2 * s2 = RtoC (/ 2).
Proof.
  unfold s2. rewrite <- RtoC_mult. f_equal. rewrite <- Rinv_mult by (apply Rgt_not_eq, sqrt_lt_R0; lra). rewrite sqrt_sqrt by lra. reflexivity.
Qed.
Lemma s2_two : s2 * s2 + s2 * s2 = RtoC 1.
Proof. rewrite s2_sq, <- RtoC_plus. f_equal. field. Qed.
Lemma s2_conj : Cconj s2 = s2.
Proof. apply conj_R. Qed.
Lemma rx90p_entries : forall i j, (i < 2)%nat -> (j < 2)%nat -> gate2 "rx90p" i j = if Nat.eqb i j then s2 else s2 * - Ci.
Proof.
  intros [|[|i]] [|[|j]] Hi Hj; try lia; cbn [Nat.eqb]; unfold gate2; rewrite gates_get; cbn; unfold gl, gentry, gev; cbn; unfold s2, Cmult, Ci, RtoC, Copp; cbn [fst snd]; f_equal; ring.
Qed.
Lemma ry90p_entries : forall i j, (i < 2)%nat -> (j < 2)%nat -> gate2 "ry90p" i j = if (Nat.eqb i 0 && Nat.eqb j 1)%bool then - s2 else s2.
Proof.
  intros [|[|i]] [|[|j]] Hi Hj; try lia; cbn [Nat.eqb andb]; unfold gate2; rewrite gates_get; cbn; unfold gl, gentry, gev; cbn; unfold s2, Cmult, Ci, RtoC, Copp; cbn [fst snd]; f_equal; ring.
Qed.
Ltac two := let i := fresh in let j := fresh in let Hi := fresh in let Hj := fresh in intros i j Hi Hj; destruct i as [|[|i]]; [| |lia]; (destruct j as [|[|j]]; [| |lia]).
Lemma prod2_0 : meq 2 2 (prod2 ["Id"; "Id"]%string) mid.
Proof. unfold prod2. cbn [nth]. change (single "Id") with mid. apply mmul_id_l. Qed.
Lemma prod2_1 : meq 2 2 (prod2 ["rx90p"; "Id"]%string) (gate2 "rx90p").
Proof. unfold prod2. cbn [nth]. change (single "Id") with mid. apply mmul_id_l. Qed.
Lemma prod2_2 : meq 2 2 (prod2 ["ry90p"; "Id"]%string) (gate2 "ry90p").
Proof. unfold prod2. cbn [nth]. change (single "Id") with mid. apply mmul_id_l. Qed.
Lemma prod2_3 : meq 2 2 (prod2 ["rx90p"; "rx90p"]%string) (fun i j => if Nat.eqb i j then RtoC 0 else - Ci).
Proof.
  unfold prod2. cbn [nth]. change (single "rx90p") with (gate2 "rx90p"). two; unfold mmul; cbn [csum]; rewrite !rx90p_entries by lia; cbn [Nat.eqb].
  - transitivity (s2 * s2 + Ci * Ci * (s2 * s2)); [ring|]. rewrite Ci_sqr. ring.
  - transitivity (- Ci * (s2 * s2 + s2 * s2)); [ring|]. rewrite s2_two. ring.
  - transitivity (- Ci * (s2 * s2 + s2 * s2)); [ring|]. rewrite s2_two. ring.
  - transitivity (s2 * s2 + Ci * Ci * (s2 * s2)); [ring|]. rewrite Ci_sqr. ring.
Qed.
Lemma inn_mor : forall V W, meq 2 2 V W -> meq 2 2 (inn V) (inn W).
Proof. intros V W H i j Hi Hj. unfold inn. rewrite !(H _ 0%nat) by lia. reflexivity. Qed.
Lemma out_mor : forall V W n, (n < 2)%nat -> meq 2 2 V W -> meq 2 2 (out V n) (out W n).
Proof. intros V W n Hn H i j Hi Hj. unfold out. rewrite !(H n) by lia. reflexivity. Qed.

Lemma lin_sub : forall f A B, lin f -> f (madd A (mscale (- RtoC 1) B)) = f A - f B.
Proof. intros f A B L. rewrite (lin_add f L), (lin_scale f L). ring. Qed.

(** The four prepared states span the matrices, and so do the four measured projectors. *)
Lemma prep_span : forall f, lin f -> (forall b, In b tomography_base -> f (inn (prod2 b)) = RtoC 0) ->
  forall i j, (i < 2)%nat -> (j < 2)%nat -> f (unit_mat i j) = RtoC 0.
Proof.
  intros f L H.
  assert (H0 := H ["Id"; "Id"]%string ltac:(cbn; auto)). assert (H1 := H ["rx90p"; "Id"]%string ltac:(cbn; auto)).
  assert (H2 := H ["ry90p"; "Id"]%string ltac:(cbn; auto)). assert (H3 := H ["rx90p"; "rx90p"]%string ltac:(cbn; auto 6)).
  rewrite (lin_ext f L _ _ (inn_mor _ _ prod2_0)) in H0. rewrite (lin_ext f L _ _ (inn_mor _ _ prod2_1)) in H1.
  rewrite (lin_ext f L _ _ (inn_mor _ _ prod2_2)) in H2. rewrite (lin_ext f L _ _ (inn_mor _ _ prod2_3)) in H3.
  assert (E0 : f (unit_mat 0 0) = RtoC 0).
  { rewrite <- H0. apply (lin_ext f L). two; unfold unit_mat, inn, mid; cbn [Nat.eqb andb]; rewrite ?conj_R; ring. }
  assert (E3 : f (unit_mat 1 1) = RtoC 0).
  { rewrite <- H3. apply (lin_ext f L). two; unfold unit_mat, inn; cbn [Nat.eqb andb]; rewrite ?conj_R, ?conj_opp, ?conj_i; try ring.
    transitivity (- (Ci * Ci)); [rewrite Ci_sqr|]; ring. }
  assert (EX : f (unit_mat 0 1) + f (unit_mat 1 0) = RtoC 0).
  { rewrite <- (lin_add f L).
    replace (RtoC 0) with (RtoC 2 * f (inn (gate2 "ry90p")) - f (unit_mat 0 0) - f (unit_mat 1 1)) by (rewrite H2, E0, E3; ring).
    rewrite <- (lin_scale f L), <- (lin_sub f _ _ L), <- (lin_sub f _ _ L). apply (lin_ext f L).
    two; unfold unit_mat, inn, madd, mscale; rewrite !ry90p_entries by lia; cbn [Nat.eqb andb]; rewrite s2_conj, s2_sq, <- RtoC_mult; replace (2 * / 2)%R with 1%R by field; ring. }
  assert (EY : Ci * f (unit_mat 0 1) - Ci * f (unit_mat 1 0) = RtoC 0).
  { rewrite <- !(lin_scale f L), <- (lin_sub f _ _ L).
    replace (RtoC 0) with (RtoC 2 * f (inn (gate2 "rx90p")) - f (unit_mat 0 0) - f (unit_mat 1 1)) by (rewrite H1, E0, E3; ring).
    rewrite <- (lin_scale f L), <- (lin_sub f _ _ L), <- (lin_sub f _ _ L). apply (lin_ext f L).
    assert (T : RtoC 2 * (s2 * s2) = RtoC 1) by (rewrite s2_sq, <- RtoC_mult; f_equal; field).
    two; unfold unit_mat, inn, madd, mscale; rewrite !rx90p_entries by lia; cbn [Nat.eqb andb]; rewrite ?conj_mult, ?conj_opp, ?conj_i, ?s2_conj.
    - transitivity (RtoC 0); [ring|]. transitivity (RtoC 2 * (s2 * s2) - RtoC 1); [rewrite T|]; ring.
    - transitivity Ci; [ring|]. transitivity (Ci * (RtoC 2 * (s2 * s2))); [rewrite T|]; ring.
    - transitivity (- Ci); [ring|]. transitivity (- Ci * (RtoC 2 * (s2 * s2))); [rewrite T|]; ring.
    - transitivity (RtoC 0); [ring|]. transitivity (- (Ci * Ci) * (RtoC 2 * (s2 * s2)) - RtoC 1); [rewrite T, Ci_sqr|]; ring. }
  assert (E1 : f (unit_mat 0 1) = RtoC 0 /\ f (unit_mat 1 0) = RtoC 0).
  { assert (D : f (unit_mat 0 1) - f (unit_mat 1 0) = RtoC 0).
    { transitivity (- Ci * (Ci * f (unit_mat 0 1) - Ci * f (unit_mat 1 0))); [|rewrite EY; ring].
      transitivity (- (Ci * Ci) * (f (unit_mat 0 1) - f (unit_mat 1 0))); [rewrite Ci_sqr|]; ring. }
    revert EX D. generalize (f (unit_mat 0 1)), (f (unit_mat 1 0)). intros [a b] [c d] X Y. unfold Cplus, Cminus, Copp, RtoC in X, Y; cbn [fst snd] in X, Y.
    injection X as X1 X2. injection Y as Y1 Y2. split; unfold RtoC; f_equal; lra. }
  destruct E1. two; assumption.
Qed.
Lemma meas_span : forall f, lin f -> (forall b n, In b tomography_base -> (n < 2)%nat -> f (out (prod2 b) n) = RtoC 0) ->
  forall i j, (i < 2)%nat -> (j < 2)%nat -> f (unit_mat i j) = RtoC 0.
Proof.
  intros f L H.
  assert (H0 := H ["Id"; "Id"]%string 0%nat ltac:(cbn; auto) ltac:(lia)). assert (H1 := H ["rx90p"; "Id"]%string 0%nat ltac:(cbn; auto) ltac:(lia)).
  assert (H2 := H ["ry90p"; "Id"]%string 0%nat ltac:(cbn; auto) ltac:(lia)). assert (H3 := H ["Id"; "Id"]%string 1%nat ltac:(cbn; auto) ltac:(lia)).
  rewrite (lin_ext f L _ _ (out_mor _ _ 0 ltac:(lia) prod2_0)) in H0. rewrite (lin_ext f L _ _ (out_mor _ _ 0 ltac:(lia) prod2_1)) in H1.
  rewrite (lin_ext f L _ _ (out_mor _ _ 0 ltac:(lia) prod2_2)) in H2. rewrite (lin_ext f L _ _ (out_mor _ _ 1 ltac:(lia) prod2_0)) in H3.
  assert (E0 : f (unit_mat 0 0) = RtoC 0).
  { rewrite <- H0. apply (lin_ext f L). two; unfold unit_mat, out, mid; cbn [Nat.eqb andb]; rewrite ?conj_R; ring. }
  assert (E3 : f (unit_mat 1 1) = RtoC 0).
  { rewrite <- H3. apply (lin_ext f L). two; unfold unit_mat, out, mid; cbn [Nat.eqb andb]; rewrite ?conj_R; ring. }
  assert (T : RtoC 2 * (s2 * s2) = RtoC 1) by (rewrite s2_sq, <- RtoC_mult; f_equal; field).
  assert (EX : f (unit_mat 0 1) + f (unit_mat 1 0) = RtoC 0).
  { rewrite <- (lin_add f L).
    replace (RtoC 0) with (f (unit_mat 0 0) + f (unit_mat 1 1) - RtoC 2 * f (out (gate2 "ry90p") 0)) by (rewrite H2, E0, E3; ring).
    rewrite <- (lin_scale f L), <- (lin_add f L), <- (lin_sub f _ _ L). apply (lin_ext f L).
    two; unfold unit_mat, out, madd, mscale; rewrite !ry90p_entries by lia; cbn [Nat.eqb andb]; rewrite ?conj_opp, s2_conj.
    - transitivity (RtoC 1 - RtoC 2 * (s2 * s2)); [rewrite T|]; ring.
    - transitivity (RtoC 2 * (s2 * s2)); [rewrite T|]; ring.
    - transitivity (RtoC 2 * (s2 * s2)); [rewrite T|]; ring.
    - transitivity (RtoC 1 - RtoC 2 * (s2 * s2)); [rewrite T|]; ring. }
  assert (EY : Ci * f (unit_mat 0 1) - Ci * f (unit_mat 1 0) = RtoC 0).
  { rewrite <- !(lin_scale f L), <- (lin_sub f _ _ L).
    replace (RtoC 0) with (RtoC 2 * f (out (gate2 "rx90p") 0) - f (unit_mat 0 0) - f (unit_mat 1 1)) by (rewrite H1, E0, E3; ring).
    rewrite <- (lin_scale f L), <- (lin_sub f _ _ L), <- (lin_sub f _ _ L). apply (lin_ext f L).
    two; unfold unit_mat, out, madd, mscale; rewrite !rx90p_entries by lia; cbn [Nat.eqb andb]; rewrite ?conj_mult, ?conj_opp, ?conj_i, ?s2_conj.
    - transitivity (RtoC 0); [ring|]. transitivity (RtoC 2 * (s2 * s2) - RtoC 1); [rewrite T|]; ring.
    - transitivity Ci; [ring|]. transitivity (Ci * (RtoC 2 * (s2 * s2))); [rewrite T|]; ring.
    - transitivity (- Ci); [ring|]. transitivity (- Ci * (RtoC 2 * (s2 * s2))); [rewrite T|]; ring.
    - transitivity (RtoC 0); [ring|]. transitivity (- (Ci * Ci) * (RtoC 2 * (s2 * s2)) - RtoC 1); [rewrite T, Ci_sqr|]; ring. }
  assert (E1 : f (unit_mat 0 1) = RtoC 0 /\ f (unit_mat 1 0) = RtoC 0).
  { assert (D : f (unit_mat 0 1) - f (unit_mat 1 0) = RtoC 0).
    { transitivity (- Ci * (Ci * f (unit_mat 0 1) - Ci * f (unit_mat 1 0))); [|rewrite EY; ring].
      transitivity (- (Ci * Ci) * (f (unit_mat 0 1) - f (unit_mat 1 0))); [rewrite Ci_sqr|]; ring. }
    revert EX D. generalize (f (unit_mat 0 1)), (f (unit_mat 1 0)). intros [a b] [c d] X Y. unfold Cplus, Cminus, Copp, RtoC in X, Y; cbn [fst snd] in X, Y.
    injection X as X1 X2. injection Y as Y1 Y2. split; unfold RtoC; f_equal; lra. }
  destruct E1. two; assumption.
Qed.

(** ** The measured numbers as a form of four 2 x 2 matrices *)
Definition form (D : mat) (X1 X2 Y1 Y2 : mat) : C :=
  csum 4 (fun k => csum 4 (fun l => csum 4 (fun p => csum 4 (fun q =>
    kron 2 2 X1 X2 k l * D (k * 4 + l)%nat (p * 4 + q)%nat * kron 2 2 Y1 Y2 p q)))).
Lemma half2 : forall k, (k < 4)%nat -> (k / 2 < 2)%nat /\ (k mod 2 < 2)%nat.
Proof. intros k H. apply (divmod_lt k 2 2). exact H. Qed.
Ltac lin_form := split;
  [ intros A B; unfold form; repeat (rewrite <- csum_plus; apply csum_ext; intros); unfold kron, madd; ring
  | intros c A; unfold form; repeat (rewrite <- csum_scale; apply csum_ext; intros); unfold kron, mscale; ring
  | intros A B HE; unfold form; repeat (apply csum_ext; let i := fresh in let Hi := fresh "Q" in intros i Hi; apply half2 in Hi; destruct Hi); unfold kron; rewrite HE by assumption; reflexivity ].
Lemma form_lin1 : forall D X2 Y1 Y2, lin (fun X => form D X X2 Y1 Y2).
Proof. intros. lin_form. Qed.
Lemma form_lin2 : forall D X1 Y1 Y2, lin (fun X => form D X1 X Y1 Y2).
Proof. intros. lin_form. Qed.
Lemma form_lin3 : forall D X1 X2 Y2, lin (fun Y => form D X1 X2 Y Y2).
Proof. intros. lin_form. Qed.
Lemma form_lin4 : forall D X1 X2 Y1, lin (fun Y => form D X1 X2 Y1 Y).
Proof. intros. lin_form. Qed.

Lemma kron_unit : forall u1 v1 u2 v2 a b, (u1 < 2)%nat -> (v1 < 2)%nat -> (u2 < 2)%nat -> (v2 < 2)%nat -> (a < 4)%nat -> (b < 4)%nat ->
  kron 2 2 (unit_mat u1 v1) (unit_mat u2 v2) a b = if (Nat.eqb a (u1 * 2 + u2) && Nat.eqb b (v1 * 2 + v2))%bool then RtoC 1 else RtoC 0.
Proof.
  intros u1 v1 u2 v2 a b A B D E F G. unfold kron, unit_mat.
  destruct u1 as [|[|u1]]; [| |lia]; (destruct v1 as [|[|v1]]; [| |lia]); (destruct u2 as [|[|u2]]; [| |lia]); (destruct v2 as [|[|v2]]; [| |lia]);
  (destruct a as [|[|[|[|a]]]]; [| | | |lia]); (destruct b as [|[|[|[|b]]]]; [| | | |lia]); cbn -[RtoC Cmult]; ring.
Qed.
Lemma form_unit : forall D i j k l, (i < 4)%nat -> (j < 4)%nat -> (k < 4)%nat -> (l < 4)%nat ->
  form D (unit_mat (i / 2) (j / 2)) (unit_mat (i mod 2) (j mod 2)) (unit_mat (k / 2) (l / 2)) (unit_mat (k mod 2) (l mod 2)) = D (i * 4 + j)%nat (k * 4 + l)%nat.
Proof.
  intros D i j k l Hi Hj Hk Hl. unfold form.
  destruct (half2 i Hi), (half2 j Hj), (half2 k Hk), (half2 l Hl).
  assert (R : forall x, (x / 2 * 2 + x mod 2)%nat = x) by (intro x; pose proof (Nat.div_mod x 2 ltac:(lia)); lia).
  rewrite (csum_single 4 i) by (auto; intros a Ha Na; apply csum_0; intros b Hb; apply csum_0; intros p Hp; apply csum_0; intros q Hq;
    rewrite kron_unit by assumption; rewrite !R; apply Nat.eqb_neq in Na; rewrite Na; cbn [andb]; ring).
  rewrite (csum_single 4 j) by (auto; intros b Hb Nb; apply csum_0; intros p Hp; apply csum_0; intros q Hq;
    rewrite kron_unit by assumption; rewrite !R; apply Nat.eqb_neq in Nb; rewrite Nb, Bool.andb_false_r; ring).
  rewrite (csum_single 4 k) by (auto; intros p Hp Np; apply csum_0; intros q Hq;
    rewrite (kron_unit (k / 2)) by assumption; rewrite !R; apply Nat.eqb_neq in Np; rewrite Np; cbn [andb]; ring).
  rewrite (csum_single 4 l) by (auto; intros q Hq Nq;
    rewrite (kron_unit (k / 2)) by assumption; rewrite !R; apply Nat.eqb_neq in Nq; rewrite Nq, Bool.andb_false_r; ring).
  rewrite !kron_unit by assumption. rewrite !R, !Nat.eqb_refl. cbn [andb]. ring.
Qed.
Lemma form_determines : forall D,
  (forall b1 b2 a1 a2 n1 n2, In b1 tomography_base -> In b2 tomography_base -> In a1 tomography_base -> In a2 tomography_base -> (n1 < 2)%nat -> (n2 < 2)%nat ->
     form D (out (prod2 b1) n1) (out (prod2 b2) n2) (inn (prod2 a1)) (inn (prod2 a2)) = RtoC 0) ->
  meq 16 16 D mzero.
Proof.
  intros D H r c Hr Hc. unfold mzero.
  destruct (divmod_lt r 4 4 Hr) as [R1 R2], (divmod_lt c 4 4 Hc) as [C1 C2].
  replace r with (r / 4 * 4 + r mod 4)%nat by (pose proof (Nat.div_mod r 4 ltac:(lia)); lia).
  replace c with (c / 4 * 4 + c mod 4)%nat by (pose proof (Nat.div_mod c 4 ltac:(lia)); lia).
  set (i := (r / 4)%nat) in *. set (j := (r mod 4)%nat) in *. set (k := (c / 4)%nat) in *. set (l := (c mod 4)%nat) in *.
  rewrite <- form_unit by assumption. destruct (half2 i R1), (half2 j R2), (half2 k C1), (half2 l C2).
  apply (meas_span (fun X => form D X (unit_mat (i mod 2) (j mod 2)) (unit_mat (k / 2) (l / 2)) (unit_mat (k mod 2) (l mod 2))) (form_lin1 _ _ _ _)); auto. intros b1 n1 B1 N1.
  apply (meas_span (fun X => form D (out (prod2 b1) n1) X (unit_mat (k / 2) (l / 2)) (unit_mat (k mod 2) (l mod 2))) (form_lin2 _ _ _ _)); auto. intros b2 n2 B2 N2.
  apply (prep_span (fun X => form D (out (prod2 b1) n1) (out (prod2 b2) n2) X (unit_mat (k mod 2) (l mod 2))) (form_lin3 _ _ _ _)); auto. intros a1 A1.
  apply (prep_span (fun X => form D (out (prod2 b1) n1) (out (prod2 b2) n2) (inn (prod2 a1)) X) (form_lin4 _ _ _ _)); auto.
Qed.

(** ** From sequences to the form *)
Lemma base_singles : forall b, In b tomography_base -> In (nth 0 b ""%string) singles /\ In (nth 1 b ""%string) singles.
Proof. intros b H. cbn in H. destruct H as [<-|[<-|[<-|[<-|[]]]]]; cbn; auto. Qed.
Lemma base2_in : forall x, In x tomography_base2 <-> exists a b, In a tomography_base /\ In b tomography_base /\ x = joined a b.
Proof.
  intro x. unfold tomography_base2. rewrite in_flat_map. split.
  - intros (a & Ia & Ix). apply in_map_iff in Ix. destruct Ix as (b & <- & Ib). exists a, b. auto.
  - intros (a & b & Ia & Ib & ->). exists a. split; [exact Ia|]. apply in_map_iff. exists b. auto.
Qed.
Lemma tomo_in : forall gate s, In s (two_qubit_gate_tomography gate) <->
  exists a1 a2 b1 b2, In a1 tomography_base /\ In a2 tomography_base /\ In b1 tomography_base /\ In b2 tomography_base
    /\ s = (joined a1 a2 ++ [gate] ++ joined b1 b2)%list.
Proof.
  intros gate s. unfold two_qubit_gate_tomography. rewrite in_flat_map. split.
  - intros (x & Ix & Is). apply in_map_iff in Is. destruct Is as (y & <- & Iy). apply base2_in in Ix. apply base2_in in Iy.
    destruct Ix as (a1 & a2 & I1 & I2 & ->), Iy as (b1 & b2 & J1 & J2 & ->). exists a1, a2, b1, b2. auto 6.
  - intros (a1 & a2 & b1 & b2 & I1 & I2 & J1 & J2 & ->). exists (joined a1 a2). split; [apply base2_in; exists a1, a2; auto|].
    apply in_map_iff. exists (joined b1 b2). split; [reflexivity|]. apply base2_in. exists b1, b2. auto.
Qed.

Definition both (a1 a2 : list string) : mat := kron 2 2 (prod2 a1) (prod2 a2).
Lemma both_split : forall a1 a2, meq 4 4 (mmul 4 (kron 2 2 (single (nth 1 a1 ""%string)) (single (nth 1 a2 ""%string))) (kron 2 2 (single (nth 0 a1 ""%string)) (single (nth 0 a2 ""%string)))) (both a1 a2).
Proof. intros a1 a2. apply (kron_mmul 2 2 2 2 2 2). Qed.
(** The two gates before or after the gate under test. *)
Lemma apply_joined : forall P psi a1 a2 rest, perfect_super P -> In a1 tomography_base -> In a2 tomography_base ->
  exists v, apply_gates 16 P (joined a1 a2 ++ rest) psi = apply_gates 16 P rest v /\ meq 16 1 v (mmul 16 (tf_super 4 (both a1 a2)) psi).
Proof.
  intros P psi a1 a2 rest HP I1 I2. destruct (base_singles a1 I1) as [S1 S2], (base_singles a2 I2) as [S3 S4].
  destruct (HP _ _ S1 S3) as (M0 & G0 & E0), (HP _ _ S2 S4) as (M1 & G1 & E1).
  exists (mmul 16 M1 (mmul 16 M0 psi)). split.
  - unfold joined. cbn [seq map app]. cbn [apply_gates]. rewrite G0. cbn [apply_gates]. rewrite G1. reflexivity.
  - rewrite (mmul_assoc 16 1 16 16). apply mmul_mor; [|reflexivity]. rewrite (mmul_mor 16 16 16 _ _ _ _ E1 E0).
    etransitivity; [symmetry; exact (super_mmul 4 _ _)|]. exact (super_mor 4 _ _ (both_split a1 a2)).
Qed.
Lemma apply_joined_u : forall P psi a1 a2 rest, perfect_unitary P -> In a1 tomography_base -> In a2 tomography_base ->
  exists v, apply_gates 4 P (joined a1 a2 ++ rest) psi = apply_gates 4 P rest v /\ meq 4 1 v (mmul 4 (both a1 a2) psi).
Proof.
  intros P psi a1 a2 rest HP I1 I2. destruct (base_singles a1 I1) as [S1 S2], (base_singles a2 I2) as [S3 S4].
  destruct (HP _ _ S1 S3) as (M0 & G0 & E0), (HP _ _ S2 S4) as (M1 & G1 & E1).
  exists (mmul 4 M1 (mmul 4 M0 psi)). split.
  - unfold joined. cbn [seq map app]. cbn [apply_gates]. rewrite G0. cbn [apply_gates]. rewrite G1. reflexivity.
  - rewrite (mmul_assoc 4 1 4 4). apply mmul_mor; [|reflexivity]. rewrite (mmul_mor 4 4 4 _ _ _ _ E1 E0). apply both_split.
Qed.
Lemma apply_rest_mor : forall N P s v w, meq N 1 v w ->
  match apply_gates N P s v, apply_gates N P s w with Ok x, Ok y => meq N 1 x y | Err a, Err b => a = b | _, _ => False end.
Proof.
  intros N P. induction s as [|g s IH]; intros v w H; cbn [apply_gates]; [exact H|].
  destruct (dget g P) as [U|]; [|reflexivity]. apply IH. apply mmul_mor; [reflexivity|exact H].
Qed.
Lemma run_super : forall P gate E psi a1 a2 b1 b2, perfect_super P -> dget gate P = Some E ->
  In a1 tomography_base -> In a2 tomography_base -> In b1 tomography_base -> In b2 tomography_base ->
  exists v, apply_gates 16 P (joined a1 a2 ++ [gate] ++ joined b1 b2) psi = Ok v
    /\ meq 16 1 v (mmul 16 (tf_super 4 (both b1 b2)) (mmul 16 E (mmul 16 (tf_super 4 (both a1 a2)) psi))).
Proof.
  intros P gate E psi a1 a2 b1 b2 HP HG A1 A2 B1 B2.
  destruct (apply_joined P psi a1 a2 ([gate] ++ joined b1 b2) HP A1 A2) as (v & -> & Ev).
  cbn [app apply_gates]. rewrite HG. rewrite <- (app_nil_r (joined b1 b2)).
  destruct (apply_joined P (mmul 16 E v) b1 b2 [] HP B1 B2) as (w & -> & Ew).
  cbn [apply_gates]. exists w. split; [reflexivity|]. rewrite Ew. apply mmul_mor; [reflexivity|]. apply mmul_mor; [reflexivity|]. exact Ev.
Qed.
Lemma run_unitary : forall P gate U psi a1 a2 b1 b2, perfect_unitary P -> dget gate P = Some U ->
  In a1 tomography_base -> In a2 tomography_base -> In b1 tomography_base -> In b2 tomography_base ->
  exists v, apply_gates 4 P (joined a1 a2 ++ [gate] ++ joined b1 b2) psi = Ok v
    /\ meq 4 1 v (mmul 4 (both b1 b2) (mmul 4 U (mmul 4 (both a1 a2) psi))).
Proof.
  intros P gate U psi a1 a2 b1 b2 HP HG A1 A2 B1 B2.
  destruct (apply_joined_u P psi a1 a2 ([gate] ++ joined b1 b2) HP A1 A2) as (v & -> & Ev).
  cbn [app apply_gates]. rewrite HG. rewrite <- (app_nil_r (joined b1 b2)).
  destruct (apply_joined_u P (mmul 4 U v) b1 b2 [] HP B1 B2) as (w & -> & Ew).
  cbn [apply_gates]. exists w. split; [reflexivity|]. rewrite Ew. apply mmul_mor; [reflexivity|]. apply mmul_mor; [reflexivity|]. exact Ev.
Qed.

Lemma super_entry : forall A n m k l, (n < 4)%nat -> (m < 4)%nat -> (k < 4)%nat -> (l < 4)%nat ->
  tf_super 4 A (n * 4 + m)%nat (k * 4 + l)%nat = A n k * Cconj (A m l).
Proof.
  intros A n m k l Hn Hm Hk Hl. rewrite (super_kron 4 A) by lia. unfold kron, mconj.
  destruct (divmod_add n m 4 Hm) as [-> ->], (divmod_add k l 4 Hl) as [-> ->]. reflexivity.
Qed.
Lemma both_out : forall b1 b2 n k l, both b1 b2 n k * Cconj (both b1 b2 n l) = kron 2 2 (out (prod2 b1) (n / 2)) (out (prod2 b2) (n mod 2)) k l.
Proof. intros. unfold both, kron, out. rewrite conj_mult. ring. Qed.
Lemma both_inn : forall a1 a2 p q, both a1 a2 p 0%nat * Cconj (both a1 a2 q 0%nat) = kron 2 2 (inn (prod2 a1)) (inn (prod2 a2)) p q.
Proof. intros. unfold both, kron, inn. rewrite conj_mult. cbn [Nat.div Nat.divmod fst Nat.modulo Nat.sub snd]. ring. Qed.
(** The number measured. *)
Lemma measured : forall E a1 a2 b1 b2 n, (n < 4)%nat ->
  mmul 16 (tf_super 4 (both b1 b2)) (mmul 16 E (mmul 16 (tf_super 4 (both a1 a2)) (one_hot 0))) (n * 4 + n)%nat 0%nat
  = form E (out (prod2 b1) (n / 2)) (out (prod2 b2) (n mod 2)) (inn (prod2 a1)) (inn (prod2 a2)).
Proof.
  intros E a1 a2 b1 b2 n Hn.
  assert (MP : forall A v r, mmul 16 A v r 0%nat = csum 4 (fun k => csum 4 (fun l => A r (k * 4 + l)%nat * v (k * 4 + l)%nat 0%nat))) by (intros A v r; apply (csum_prod 4 4)).
  assert (PR : forall p q, (p < 4)%nat -> (q < 4)%nat -> mmul 16 (tf_super 4 (both a1 a2)) (one_hot 0) (p * 4 + q)%nat 0%nat = kron 2 2 (inn (prod2 a1)) (inn (prod2 a2)) p q).
  { intros p q Hp Hq. unfold mmul. rewrite (csum_single 16 0) by (try lia; intros s Hs Ns; unfold one_hot; apply Nat.eqb_neq in Ns; rewrite Ns; ring).
    unfold one_hot. rewrite Nat.eqb_refl. rewrite <- both_inn. pose proof (super_entry (both a1 a2) p q 0 0 Hp Hq ltac:(lia) ltac:(lia)) as SE. cbn [Nat.mul Nat.add] in SE. rewrite SE. ring. }
  unfold form. rewrite MP. apply csum_ext. intros k Hk. apply csum_ext. intros l Hl. rewrite super_entry by assumption. rewrite both_out, MP.
  rewrite <- csum_scale. apply csum_ext. intros p Hp. rewrite <- csum_scale. apply csum_ext. intros q Hq. rewrite PR by assumption. ring.
Qed.

(** ** Reality *)
Lemma form_sub : forall D E X1 X2 Y1 Y2, form (msub D E) X1 X2 Y1 Y2 = form D X1 X2 Y1 Y2 - form E X1 X2 Y1 Y2.
Proof.
  intros D E X1 X2 Y1 Y2. assert (R : form D X1 X2 Y1 Y2 = form (msub D E) X1 X2 Y1 Y2 + form E X1 X2 Y1 Y2); [|rewrite R; ring].
  unfold form. do 4 (rewrite <- csum_plus; apply csum_ext; intros). unfold msub. ring.
Qed.
Lemma form_real : forall D b1 b2 a1 a2 n1 n2, hermiticity_preserving 4 D ->
  snd (form D (out (prod2 b1) n1) (out (prod2 b2) n2) (inn (prod2 a1)) (inn (prod2 a2))) = 0%R.
Proof.
  intros D b1 b2 a1 a2 n1 n2 H. set (X := kron 2 2 (out (prod2 b1) n1) (out (prod2 b2) n2)). set (Y := kron 2 2 (inn (prod2 a1)) (inn (prod2 a2))).
  assert (HX : forall k l, Cconj (X k l) = X l k) by (intros k l; unfold X, kron, out; rewrite !conj_mult, !conj_conj; ring).
  assert (HY : forall k l, Cconj (Y k l) = Y l k) by (intros k l; unfold Y, kron, inn; rewrite !conj_mult, !conj_conj; ring).
  set (z := form _ _ _ _ _). assert (E : Cconj z = z); [|destruct z as [x y]; cbn in *; injection E; lra].
  unfold z, form. fold X Y. rewrite conj_sum. etransitivity; [|apply csum_swap]. apply csum_ext. intros k Hk. rewrite conj_sum. apply csum_ext. intros l Hl.
  rewrite conj_sum. etransitivity; [|apply csum_swap]. apply csum_ext. intros p Hp. rewrite conj_sum. apply csum_ext. intros q Hq.
  rewrite !conj_mult, HX, HY. rewrite <- (H k l p q) by assumption. reflexivity.
Qed.

(** ** The properties *)
Lemma evaluate_ok : forall N b P psi seqs (f : list string -> mat), (forall s, In s seqs -> apply_gates N P s psi = Ok (f s)) ->
  evaluate_legacy N b P psi seqs = Ok (map (fun s => populations N (f s) b) seqs).
Proof.
  intros N b P psi. induction seqs as [|s r IH]; intros f H; cbn [evaluate_legacy map]; [reflexivity|].
  rewrite (H s) by (left; reflexivity). cbn [rbind]. rewrite (IH f) by (intros; apply H; right; assumption). reflexivity.
Qed.
Lemma map_eq_in : forall A B (f g : A -> B) l, map f l = map g l -> forall x, In x l -> f x = g x.
Proof.
  intros A B f g. induction l as [|s r IH]; intros E x; [intros []|]. cbn [map] in E. injection E as E1 E2. intros [<-|I]; [exact E1|]. apply IH; assumption.
Qed.
Lemma Ok_inj : forall A (x y : A), Ok x = Ok y -> x = y.
Proof. intros A x y H. injection H as H. exact H. Qed.
Definition final (N : nat) (P : dict mat) (psi : mat) (s : list string) : mat := match apply_gates N P s psi with Ok v => v | Err _ => mzero end.

(** 256 sequences: two gates that prepare, the gate under test, two gates that analyse. *)
Theorem C127_sequences : forall gate,
  length (two_qubit_gate_tomography gate) = 256%nat
  /\ forall s, In s (two_qubit_gate_tomography gate) -> exists w x y z, s = [w; x; gate; y; z]
     /\ forall g, In g [w; x; y; z] -> exists a b, In a singles /\ In b singles /\ g = (a ++ ":" ++ b)%string.
Proof.
  intro gate. split; [reflexivity|]. intros s H. apply tomo_in in H. destruct H as (a1 & a2 & b1 & b2 & A1 & A2 & B1 & B2 & ->).
  destruct (base_singles a1 A1), (base_singles a2 A2), (base_singles b1 B1), (base_singles b2 B2).
  unfold joined. cbn [seq map app]. eexists _, _, _, _. split; [reflexivity|].
  intros g [<-|[<-|[<-|[<-|[]]]]]; eexists _, _; (split; [|split; [|reflexivity]]); assumption.
Qed.
Print Assumptions C127_sequences.

(** Open system: with perfect preparation and analysis, from the ground state, the populations after all sequences are
    the same for two gates if and only if the gates are the same. *)
Theorem C127_tomography_complete : forall P1 P2 gate E1 E2,
  perfect_super P1 -> perfect_super P2 -> dget gate P1 = Some E1 -> dget gate P2 = Some E2 ->
  hermiticity_preserving 4 E1 -> hermiticity_preserving 4 E2 ->
  is_ok (evaluate_legacy 16 true P1 (one_hot 0) (two_qubit_gate_tomography gate)) = true
  /\ (evaluate_legacy 16 true P1 (one_hot 0) (two_qubit_gate_tomography gate) = evaluate_legacy 16 true P2 (one_hot 0) (two_qubit_gate_tomography gate)
      <-> meq 16 16 E1 E2).
Proof.
  intros P1 P2 gate E1 E2 HP1 HP2 G1 G2 H1 H2.
  assert (RUN : forall P E, perfect_super P -> dget gate P = Some E -> forall s, In s (two_qubit_gate_tomography gate) -> apply_gates 16 P s (one_hot 0) = Ok (final 16 P (one_hot 0) s)).
  { intros P E HP G s Is. apply tomo_in in Is. destruct Is as (a1 & a2 & b1 & b2 & A1 & A2 & B1 & B2 & ->).
    destruct (run_super P gate E (one_hot 0) a1 a2 b1 b2 HP G A1 A2 B1 B2) as (v & Ev & _). unfold final. rewrite Ev. reflexivity. }
  assert (VAL : forall P E a1 a2 b1 b2 n, perfect_super P -> dget gate P = Some E -> In a1 tomography_base -> In a2 tomography_base -> In b1 tomography_base -> In b2 tomography_base -> (n < 4)%nat ->
    nth n (populations 16 (final 16 P (one_hot 0) (joined a1 a2 ++ [gate] ++ joined b1 b2)) true) 0%R
    = fst (form E (out (prod2 b1) (n / 2)) (out (prod2 b2) (n mod 2)) (inn (prod2 a1)) (inn (prod2 a2)))).
  { intros P E a1 a2 b1 b2 n HP G A1 A2 B1 B2 Hn. destruct (run_super P gate E (one_hot 0) a1 a2 b1 b2 HP G A1 A2 B1 B2) as (v & Ev & Mv). unfold final. rewrite Ev.
    unfold populations. change (Nat.sqrt 16) with 4%nat. rewrite <- measured by exact Hn. rewrite <- (Mv (n * 4 + n)%nat 0%nat) by lia.
    rewrite (nth_indep _ 0%R ((fun n => fst (tf_vec_to_dm 4 v n n)) 0%nat)) by (rewrite map_length, seq_length; exact Hn).
    rewrite (map_nth (fun n => fst (tf_vec_to_dm 4 v n n))), seq_nth by exact Hn. reflexivity. }
  rewrite (evaluate_ok _ _ P1 _ _ _ (RUN P1 E1 HP1 G1)), (evaluate_ok _ _ P2 _ _ _ (RUN P2 E2 HP2 G2)). split; [reflexivity|]. split.
  - intro E. apply Ok_inj in E.
    assert (EQ : forall s, In s (two_qubit_gate_tomography gate) -> populations 16 (final 16 P1 (one_hot 0) s) true = populations 16 (final 16 P2 (one_hot 0) s) true).
    { exact (map_eq_in _ _ _ _ _ E). }
    assert (Z : meq 16 16 (msub E1 E2) mzero).
    { apply form_determines. intros b1 b2 a1 a2 n1 n2 B1 B2 A1 A2 N1 N2.
      assert (Hn : (n1 * 2 + n2 < 4)%nat) by lia. destruct (divmod_add n1 n2 2 N2) as [D1 D2].
      assert (S : In (joined a1 a2 ++ [gate] ++ joined b1 b2)%list (two_qubit_gate_tomography gate)) by (apply tomo_in; exists a1, a2, b1, b2; auto 6).
      specialize (EQ _ S). apply (f_equal (fun l => nth (n1 * 2 + n2) l 0%R)) in EQ.
      rewrite (VAL P1 E1), (VAL P2 E2) in EQ by assumption. rewrite D1, D2 in EQ.
      apply C_ext.
      - rewrite form_sub. unfold Cminus, Cplus, Copp. cbn [fst RtoC]. rewrite EQ. ring.
      - apply (form_real (msub E1 E2)). intros i j k l Hi Hj Hk Hl. unfold msub. rewrite (H1 i j k l), (H2 i j k l) by assumption. rewrite conj_minus. reflexivity. }
    intros i j Hi Hj. specialize (Z i j Hi Hj). unfold msub, mzero in Z. replace (E1 i j) with (E1 i j - E2 i j + E2 i j) by ring. rewrite Z. ring.
  - intro EE. f_equal. apply map_ext_in. intros s Is. apply tomo_in in Is. destruct Is as (a1 & a2 & b1 & b2 & A1 & A2 & B1 & B2 & ->).
    apply (nth_ext _ _ 0%R 0%R); [unfold populations; rewrite !map_length; reflexivity|]. intros n Hn. unfold populations in Hn. rewrite map_length, seq_length in Hn. change (Nat.sqrt 16) with 4%nat in Hn.
    rewrite (VAL P1 E1), (VAL P2 E2) by assumption. f_equal. unfold form. do 2 (apply csum_ext; intros). do 2 (apply csum_ext; intros). rewrite EE by lia. reflexivity.
Qed.
Print Assumptions C127_tomography_complete.

Lemma super_phase : forall U1 U2, unitary 4 U2 -> meq 16 16 (tf_super 4 U1) (tf_super 4 U2) -> exists c, Cmod c = 1%R /\ meq 4 4 U1 (mscale c U2).
Proof.
  intros U1 U2 [HU _] HS.
  assert (EN : forall i j k l, (i < 4)%nat -> (j < 4)%nat -> (k < 4)%nat -> (l < 4)%nat -> U1 i k * Cconj (U1 j l) = U2 i k * Cconj (U2 j l)).
  { intros i j k l Hi Hj Hk Hl. rewrite <- !super_entry by assumption. apply HS; lia. }
  assert (NZ : exists j, (j < 4)%nat /\ U2 j 0%nat <> RtoC 0).
  { specialize (HU 0%nat 0%nat ltac:(lia) ltac:(lia)). unfold mmul, madj, mid in HU. cbn [Nat.eqb csum] in HU.
    destruct (Ceq_dec (U2 0%nat 0%nat) (RtoC 0)) as [Z0|N]; [|exists 0%nat; split; [lia|exact N]].
    destruct (Ceq_dec (U2 1%nat 0%nat) (RtoC 0)) as [Z1|N]; [|exists 1%nat; split; [lia|exact N]].
    destruct (Ceq_dec (U2 2%nat 0%nat) (RtoC 0)) as [Z2|N]; [|exists 2%nat; split; [lia|exact N]].
    destruct (Ceq_dec (U2 3%nat 0%nat) (RtoC 0)) as [Z3|N]; [|exists 3%nat; split; [lia|exact N]].
    exfalso. rewrite Z0, Z1, Z2, Z3 in HU. apply (f_equal fst) in HU. unfold RtoC, Cconj, Cmult, Cplus in HU. cbn in HU. lra. }
  destruct NZ as (j & Hj & NZ).
  assert (M : (Cmod (U1 j 0%nat) ^ 2 = Cmod (U2 j 0%nat) ^ 2)%R).
  { specialize (EN j j 0%nat 0%nat Hj Hj ltac:(lia) ltac:(lia)). rewrite (Cmult_comm (U1 j _)), (Cmult_comm (U2 j _)), !conj_mod2 in EN. apply RtoC_inj in EN. exact EN. }
  assert (P2 : (0 < Cmod (U2 j 0%nat))%R) by (apply Cmod_gt_0; exact NZ).
  assert (M1 : Cmod (U1 j 0%nat) = Cmod (U2 j 0%nat)).
  { pose proof (Cmod_ge_0 (U1 j 0%nat)). apply Rsqr_inj; [assumption|lra|]. rewrite !Rsqr_pow2. exact M. }
  assert (N1 : Cconj (U1 j 0%nat) <> RtoC 0).
  { intro Z. apply (f_equal Cmod) in Z. rewrite conj_mod, Cmod_R, Rabs_R0 in Z. lra. }
  exists (Cconj (U2 j 0%nat) / Cconj (U1 j 0%nat)). split.
  - unfold Cdiv. rewrite Cmod_mult, Cmod_inv by exact N1. rewrite !conj_mod, M1. apply Rinv_r. lra.
  - intros i k Hi Hk. unfold mscale. specialize (EN i j k 0%nat Hi Hj Hk ltac:(lia)).
    transitivity (U1 i k * Cconj (U1 j 0%nat) / Cconj (U1 j 0%nat)); [field; exact N1|]. rewrite EN. field. exact N1.
Qed.
Lemma phase_super : forall U1 U2 c, Cmod c = 1%R -> meq 4 4 U1 (mscale c U2) -> meq 16 16 (tf_super 4 U1) (tf_super 4 U2).
Proof.
  intros U1 U2 c Hc HE r s Hr Hs. destruct (divmod_lt r 4 4 Hr), (divmod_lt s 4 4 Hs).
  replace r with (r / 4 * 4 + r mod 4)%nat by (pose proof (Nat.div_mod r 4 ltac:(lia)); lia).
  replace s with (s / 4 * 4 + s mod 4)%nat by (pose proof (Nat.div_mod s 4 ltac:(lia)); lia).
  rewrite !super_entry by assumption. rewrite !HE by assumption. unfold mscale. rewrite conj_mult.
  transitivity (Cconj c * c * (U2 (r / 4)%nat (s / 4)%nat * Cconj (U2 (r mod 4)%nat (s mod 4)%nat))); [ring|]. rewrite conj_mod2, Hc.
  replace (1 ^ 2)%R with 1%R by ring. ring.
Qed.
(** Closed system: two unitary gates give the same populations after all sequences if and only if they are equal up to a
    phase. *)
Theorem C127_tomography_unitary : forall P1 P2 gate U1 U2,
  perfect_unitary P1 -> perfect_unitary P2 -> dget gate P1 = Some U1 -> dget gate P2 = Some U2 -> unitary 4 U1 -> unitary 4 U2 ->
  is_ok (evaluate_legacy 4 false P1 (one_hot 0) (two_qubit_gate_tomography gate)) = true
  /\ (evaluate_legacy 4 false P1 (one_hot 0) (two_qubit_gate_tomography gate) = evaluate_legacy 4 false P2 (one_hot 0) (two_qubit_gate_tomography gate)
      <-> exists c, Cmod c = 1%R /\ meq 4 4 U1 (mscale c U2)).
Proof.
  intros P1 P2 gate U1 U2 HP1 HP2 G1 G2 H1 H2.
  assert (RUN : forall P E, perfect_unitary P -> dget gate P = Some E -> forall s, In s (two_qubit_gate_tomography gate) -> apply_gates 4 P s (one_hot 0) = Ok (final 4 P (one_hot 0) s)).
  { intros P E HP G s Is. apply tomo_in in Is. destruct Is as (a1 & a2 & b1 & b2 & A1 & A2 & B1 & B2 & ->).
    destruct (run_unitary P gate E (one_hot 0) a1 a2 b1 b2 HP G A1 A2 B1 B2) as (v & Ev & _). unfold final. rewrite Ev. reflexivity. }
  assert (VAL : forall P U a1 a2 b1 b2 n, perfect_unitary P -> dget gate P = Some U -> In a1 tomography_base -> In a2 tomography_base -> In b1 tomography_base -> In b2 tomography_base -> (n < 4)%nat ->
    RtoC (nth n (populations 4 (final 4 P (one_hot 0) (joined a1 a2 ++ [gate] ++ joined b1 b2)) false) 0%R)
    = form (tf_super 4 U) (out (prod2 b1) (n / 2)) (out (prod2 b2) (n mod 2)) (inn (prod2 a1)) (inn (prod2 a2))).
  { intros P U a1 a2 b1 b2 n HP G A1 A2 B1 B2 Hn. destruct (run_unitary P gate U (one_hot 0) a1 a2 b1 b2 HP G A1 A2 B1 B2) as (v & Ev & Mv). unfold final. rewrite Ev.
    unfold populations.
    rewrite (nth_indep _ 0%R ((fun n => (Cmod (v n 0%nat) ^ 2)%R) 0%nat)) by (rewrite map_length, seq_length; exact Hn).
    rewrite (map_nth (fun n => (Cmod (v n 0%nat) ^ 2)%R)), seq_nth by exact Hn. cbn [Nat.add]. rewrite <- conj_mod2, Cmult_comm.
    set (A := mmul 4 (both b1 b2) (mmul 4 U (both a1 a2))).
    assert (VA : v n 0%nat = A n 0%nat).
    { rewrite (Mv n 0%nat) by lia.
      assert (OH : meq 4 1 (mmul 4 (both a1 a2) (one_hot 0)) (both a1 a2)).
      { intros i j Hi Hj. replace j with 0%nat by lia. unfold mmul. rewrite (csum_single 4 0) by (try lia; intros s Hs Ns; unfold one_hot; apply Nat.eqb_neq in Ns; rewrite Ns; ring). unfold one_hot. rewrite Nat.eqb_refl. ring. }
      assert (Q : meq 4 1 (mmul 4 (both b1 b2) (mmul 4 U (mmul 4 (both a1 a2) (one_hot 0)))) A) by (unfold A; apply mmul_mor; [reflexivity|]; apply mmul_mor; [reflexivity|exact OH]).
      apply Q; lia. }
    rewrite VA. pose proof (super_entry A n n 0 0 Hn Hn ltac:(lia) ltac:(lia)) as SE. cbn [Nat.mul Nat.add] in SE. rewrite <- SE. rewrite <- measured by exact Hn.
    assert (SA : meq 16 16 (tf_super 4 A) (mmul 16 (tf_super 4 (both b1 b2)) (mmul 16 (tf_super 4 U) (tf_super 4 (both a1 a2))))).
    { unfold A. etransitivity; [exact (super_mmul 4 _ _)|]. apply mmul_mor; [reflexivity|]. exact (super_mmul 4 _ _). }
    rewrite SA by lia.
    assert (OH : meq 16 1 (mmul 16 (tf_super 4 (both a1 a2)) (one_hot 0)) (tf_super 4 (both a1 a2))).
    { intros i j Hi Hj. replace j with 0%nat by lia. unfold mmul. rewrite (csum_single 16 0) by (try lia; intros s Hs Ns; unfold one_hot; apply Nat.eqb_neq in Ns; rewrite Ns; ring). unfold one_hot. rewrite Nat.eqb_refl. ring. }
    symmetry. assert (Q : meq 16 1 (mmul 16 (tf_super 4 (both b1 b2)) (mmul 16 (tf_super 4 U) (mmul 16 (tf_super 4 (both a1 a2)) (one_hot 0)))) (mmul 16 (tf_super 4 (both b1 b2)) (mmul 16 (tf_super 4 U) (tf_super 4 (both a1 a2))))) by (apply mmul_mor; [reflexivity|]; apply mmul_mor; [reflexivity|exact OH]).
    apply Q; lia. }
  rewrite (evaluate_ok _ _ P1 _ _ _ (RUN P1 U1 HP1 G1)), (evaluate_ok _ _ P2 _ _ _ (RUN P2 U2 HP2 G2)). split; [reflexivity|]. split.
  - intro E. apply Ok_inj in E. apply super_phase; [exact H2|].
    assert (EQ : forall s, In s (two_qubit_gate_tomography gate) -> populations 4 (final 4 P1 (one_hot 0) s) false = populations 4 (final 4 P2 (one_hot 0) s) false).
    { exact (map_eq_in _ _ _ _ _ E). }
    assert (Z : meq 16 16 (msub (tf_super 4 U1) (tf_super 4 U2)) mzero).
    { apply form_determines. intros b1 b2 a1 a2 n1 n2 B1 B2 A1 A2 N1 N2.
      assert (Hn : (n1 * 2 + n2 < 4)%nat) by lia. destruct (divmod_add n1 n2 2 N2) as [D1 D2].
      assert (S : In (joined a1 a2 ++ [gate] ++ joined b1 b2)%list (two_qubit_gate_tomography gate)) by (apply tomo_in; exists a1, a2, b1, b2; auto 6).
      specialize (EQ _ S). apply (f_equal (fun l => RtoC (nth (n1 * 2 + n2) l 0%R))) in EQ.
      rewrite (VAL P1 U1), (VAL P2 U2) in EQ by assumption. rewrite D1, D2 in EQ. rewrite form_sub, EQ. ring. }
    intros i j Hi Hj. specialize (Z i j Hi Hj). unfold msub, mzero in Z. replace (tf_super 4 U1 i j) with (tf_super 4 U1 i j - tf_super 4 U2 i j + tf_super 4 U2 i j) by ring. rewrite Z. ring.
  - intros (c & Hc & EE). f_equal. apply map_ext_in. intros s Is. apply tomo_in in Is. destruct Is as (a1 & a2 & b1 & b2 & A1 & A2 & B1 & B2 & ->).
    apply (nth_ext _ _ 0%R 0%R); [unfold populations; rewrite !map_length; reflexivity|]. intros n Hn. unfold populations in Hn. rewrite map_length, seq_length in Hn.
    apply RtoC_inj. rewrite (VAL P1 U1), (VAL P2 U2) by assumption. pose proof (phase_super U1 U2 c Hc EE) as PS.
    unfold form. do 2 (apply csum_ext; intros). do 2 (apply csum_ext; intros). rewrite PS by lia. reflexivity.
Qed.
Print Assumptions C127_tomography_unitary.

(** Gates of a closed system keep Hermitian matrices Hermitian. *)
Lemma super_herm : forall A, hermiticity_preserving 4 (tf_super 4 A).
Proof. intros A i j k l Hi Hj Hk Hl. rewrite !super_entry by assumption. rewrite conj_mult, conj_conj. ring. Qed.

(** Finding: the sequences name the identity "Id", which is not a tabulated gate (the table has "id"): the ideal gate of an
    instruction named "rx90p:Id" acts on one qubit only and that of "Id:Id" on none. *)
Theorem C127_names_refuted :
  ~ (forall gate s g, In s (two_qubit_gate_tomography gate) -> In g s -> g <> gate -> rows (set_ideal g None) = 4%nat).
Proof.
  intro H. specialize (H "cz"%string ["rx90p:Id"; "Id:Id"; "cz"; "Id:Id"; "Id:Id"]%string "rx90p:Id"%string).
  assert (X : rows (set_ideal "rx90p:Id" None) = 2%nat) by (vm_compute; reflexivity).
  rewrite H in X; [discriminate| |left; reflexivity|discriminate].
  apply tomo_in. exists ["rx90p"; "Id"]%string, ["Id"; "Id"]%string, ["Id"; "Id"]%string, ["Id"; "Id"]%string. cbn; auto 10.
Qed.
Print Assumptions C127_names_refuted.

(** Perfect propagators exist, and the sequences tell a controlled phase from no gate. *)
Definition perfect_table (gate : string) (E : mat) : dict mat :=
  (gate, E) :: flat_map (fun x => map (fun y => ((x ++ ":" ++ y)%string, tf_super 4 (kron 2 2 (single x) (single y)))) singles) singles.
Example C127_example :
  perfect_super (perfect_table "cz" (tf_super 4 mid)) /\ perfect_super (perfect_table "cz" (tf_super 4 (gate2 "cz")))
  /\ evaluate_legacy 16 true (perfect_table "cz" (tf_super 4 mid)) (one_hot 0) (two_qubit_gate_tomography "cz")
     <> evaluate_legacy 16 true (perfect_table "cz" (tf_super 4 (gate2 "cz"))) (one_hot 0) (two_qubit_gate_tomography "cz").
Proof.
  assert (PT : forall E, perfect_super (perfect_table "cz" E)).
  { intros E x y Ix Iy. exists (tf_super 4 (kron 2 2 (single x) (single y))). split; [|reflexivity].
    cbn in Ix, Iy. destruct Ix as [<-|[<-|[<-|[]]]], Iy as [<-|[<-|[<-|[]]]]; reflexivity. }
  split; [apply PT|]. split; [apply PT|]. intro E.
  apply (C127_tomography_complete _ _ "cz" (tf_super 4 mid) (tf_super 4 (gate2 "cz"))) in E; [|apply PT|apply PT|reflexivity|reflexivity|apply super_herm|apply super_herm].
  specialize (E 12%nat 12%nat ltac:(lia) ltac:(lia)). change 12%nat with (3 * 4 + 0)%nat in E. rewrite !super_entry in E by lia.
  unfold gate2 in E. rewrite gates_get in E. cbn in E. apply (f_equal fst) in E. unfold gl, gentry, gev, mid in E. cbn in E. lra.
Qed.
