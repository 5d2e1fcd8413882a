(** Proofs about right-hand sides, solvers and superoperators. *)
From Coq Require Import Reals Lra Lia Setoid Morphisms Permutation Sorted.
From Coquelicot Require Import Coquelicot.
From Verif Require Import Base Mat MExp HilbertModel PropModel.
Local Open Scope list_scope.
Local Notation length := List.length.

(** ** Trace and Hermiticity of the right-hand sides *)
Section Rhs.
  Variable n : nat.

  Lemma mtrace_commutator : forall A B, mtrace n (commutator n A B) = RtoC 0.
  Proof. intros. unfold commutator. rewrite mtrace_sub, (mtrace_mmul n n A B). ring. Qed.

  Lemma mtrace_von_neumann : forall dt rho h, mtrace n (von_neumann n dt rho h) = RtoC 0.
  Proof. intros. unfold von_neumann. rewrite !mtrace_scale, mtrace_commutator. ring. Qed.

  Lemma half_half : forall x : C, (RtoC (1/2) * (x + x))%C = x.
  Proof. intros [a b]. apply C_ext; cbn; field. Qed.

  Lemma mtrace_lindblad_add : forall rho d c,
      mtrace n (lindblad_add n rho d c) = mtrace n d.
  Proof.
    intros. unfold lindblad_add, anticommutator.
    rewrite mtrace_sub, mtrace_add, mtrace_scale, mtrace_add.
    rewrite (mtrace_mmul n n (mmul n c rho) (madj c)).
    rewrite (mtrace_mmul n n rho (mmul n (madj c) c)).
    rewrite (mtrace_proper n _ _ (mmul_assoc n n n n (madj c) c rho)).
    rewrite half_half. ring.
  Qed.

  Lemma mtrace_lindblad : forall cols dt rho h, mtrace n (lindblad n cols dt rho h) = RtoC 0.
  Proof.
    intros. unfold lindblad. rewrite mtrace_scale.
    assert (G : forall cols d, mtrace n (fold_left (lindblad_add n rho) cols d) = mtrace n d).
    { induction cols0 as [|c cs IH]; intro d; [reflexivity|]. cbn [fold_left].
      rewrite IH. apply mtrace_lindblad_add. }
    rewrite G, mtrace_scale, mtrace_commutator. ring.
  Qed.

  Lemma herm_add : forall A B, hermitian n A -> hermitian n B -> hermitian n (madd A B).
  Proof. unfold hermitian. intros. rewrite madj_add, H, H0. reflexivity. Qed.
  Lemma herm_sub : forall A B, hermitian n A -> hermitian n B -> hermitian n (msub A B).
  Proof. unfold hermitian. intros. rewrite madj_sub, H, H0. reflexivity. Qed.
  Lemma herm_scale : forall r A, hermitian n A -> hermitian n (mscale (RtoC r) A).
  Proof. unfold hermitian. intros. rewrite madj_scale, conj_R, H. reflexivity. Qed.
  Lemma herm_opp : forall A, hermitian n A -> hermitian n (mopp A).
  Proof. unfold hermitian. intros A H i j Hi Hj. unfold madj, mopp. rewrite conj_opp.
    f_equal. apply (H i j Hi Hj). Qed.
  Lemma herm_zero : hermitian n mzero.
  Proof. unfold hermitian. apply madj_zero. Qed.
  Lemma herm_id : hermitian n mid.
  Proof. apply madj_id. Qed.
  Lemma herm_sq : forall A, hermitian n (mmul n (madj A) A).
  Proof. unfold hermitian. intros. rewrite madj_mmul, madj_madj. reflexivity. Qed.
  Lemma herm_anti : forall A B, hermitian n A -> hermitian n B -> hermitian n (anticommutator n A B).
  Proof. unfold hermitian, anticommutator. intros A B H H0.
    rewrite madj_add, !madj_mmul, H, H0. apply madd_comm. Qed.
  Lemma herm_sandwich : forall A B, hermitian n B -> hermitian n (mmul n (mmul n A B) (madj A)).
  Proof. unfold hermitian. intros A B H. rewrite !madj_mmul, madj_madj, H.
    apply mmul_assoc. Qed.
  Lemma herm_i_commutator : forall A B, hermitian n A -> hermitian n B ->
    hermitian n (mscale (- Ci)%C (commutator n A B)).
  Proof. unfold hermitian, commutator. intros A B H H0.
    rewrite madj_scale, madj_sub, !madj_mmul, H, H0, conj_opp, conj_i.
    intros i j Hi Hj. unfold mscale, msub. ring. Qed.

  Lemma herm_von_neumann : forall dt rho h, hermitian n rho -> hermitian n h ->
    hermitian n (von_neumann n dt rho h).
  Proof. intros. apply herm_scale, herm_i_commutator; assumption. Qed.

  Lemma herm_lindblad : forall cols dt rho h, hermitian n rho -> hermitian n h ->
    hermitian n (lindblad n cols dt rho h).
  Proof.
    intros cols dt rho h Hr Hh. apply herm_scale.
    assert (G : forall cols d, hermitian n d -> hermitian n (fold_left (lindblad_add n rho) cols d)).
    { induction cols0 as [|c cs IH]; intros d Hd; [exact Hd|]. cbn [fold_left].
      apply IH. unfold lindblad_add. apply herm_sub.
      - apply herm_add; [exact Hd|]. apply herm_sandwich, Hr.
      - apply herm_scale, herm_anti; [apply herm_sq|exact Hr]. }
    apply G, herm_i_commutator; assumption.
  Qed.
End Rhs.

(** ** Solvers preserve linear predicates and linear functionals *)
Section SolverClosure.
  Variables (f : mat -> mat -> mat) (P Q : mat -> Prop).
  Hypotheses (Padd : forall A B, P A -> P B -> P (madd A B))
             (Psub : forall A B, P A -> P B -> P (msub A B))
             (Popp : forall A, P A -> P (mopp A))
             (Pscale : forall r A, P A -> P (mscale (RtoC r) A))
             (Hf : forall rho h, P rho -> Q h -> P (f rho h)).
  Lemma solver_closed : forall s rho h, P rho -> (forall k, Q (hs h k)) -> P (solver_fun s f rho h).
  Proof.
    intros s rho h Hr Hh.
    destruct s; cbn [solver_fun]; unfold rk4, rk38, rk5, tsit5; cbv zeta;
      repeat match goal with
             | |- P (madd _ _) => apply Padd
             | |- P (msub _ _) => apply Psub
             | |- P (mopp _) => apply Popp
             | |- P (mscale _ _) => apply Pscale
             | |- P (f _ _) => apply Hf; [|apply Hh]
             | |- P rho => exact Hr
             end.
  Qed.
End SolverClosure.

Section SolverTrace.
  Variables (n : nat) (f : mat -> mat -> mat).
  Hypothesis Hf : forall rho h, mtrace n (f rho h) = RtoC 0.
  Lemma mtrace_opp : forall A, mtrace n (mopp A) = (- mtrace n A)%C.
  Proof. intro. unfold mtrace, mopp. apply csum_opp. Qed.
  Lemma solver_trace : forall s rho h, mtrace n (solver_fun s f rho h) = mtrace n rho.
  Proof.
    intros s rho h.
    destruct s; cbn [solver_fun]; unfold rk4, rk38, rk5, tsit5; cbv zeta;
      rewrite ?mtrace_add, ?mtrace_sub, ?mtrace_scale, ?mtrace_add, ?mtrace_sub, ?mtrace_scale, ?Hf; ring.
  Qed.
End SolverTrace.
