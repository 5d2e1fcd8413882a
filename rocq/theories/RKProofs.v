(** Runge-Kutta steps for a constant linear right-hand side are polynomials in
    that right-hand side. *)
From Coq Require Import Reals Lra Lia Setoid Morphisms QArith Qreals.
From Coquelicot Require Import Coquelicot.
From Verif Require Import Base Mat PropModel.
Local Open Scope list_scope.
Local Notation length := List.length.

Section Poly.
  Variables (n m : nat) (F : mat -> mat).
  Hypotheses (Fproper : forall A B, meq n m A B -> meq n m (F A) (F B))
             (Fadd : forall A B, meq n m (F (madd A B)) (madd (F A) (F B)))
             (Fscale : forall c A, meq n m (F (mscale c A)) (mscale c (F A))).

  Fixpoint pe (cs : list Q) (x : mat) : mat :=
    match cs with
    | [] => mzero
    | c :: r => madd (mscale (RtoC (Q2R c)) x) (pe r (F x))
    end.
  Fixpoint ladd (a b : list Q) : list Q :=
    match a, b with
    | [], _ => b
    | _, [] => a
    | x :: a', y :: b' => Qred (x + y) :: ladd a' b'
    end.
  Definition lscale (c : Q) (a : list Q) : list Q := map (fun x => Qred (c * x)) a.

  Lemma Q2R_red : forall q, Q2R (Qred q) = Q2R q.
  Proof. intro q. apply Qeq_eqR, Qred_correct. Qed.

  Lemma pe_add : forall a b x, meq n m (madd (pe a x) (pe b x)) (pe (ladd a b) x).
  Proof.
    induction a as [|p a IH]; intros [|q b] x; cbn [pe ladd].
    - apply madd_zero_l.
    - apply madd_zero_l.
    - apply madd_zero_r.
    - rewrite <- IH, Q2R_red, Q2R_plus.
      intros i j Hi Hj. unfold madd, mscale. rewrite RtoC_plus. ring.
  Qed.
  Lemma pe_scale : forall c a x, meq n m (mscale (RtoC (Q2R c)) (pe a x)) (pe (lscale c a) x).
  Proof.
    induction a as [|p a IH]; intro x; cbn [pe lscale map].
    - intros i j _ _. unfold mscale, mzero. ring.
    - unfold lscale in IH. rewrite <- IH, Q2R_red, Q2R_mult.
      intros i j Hi Hj. unfold madd, mscale. rewrite RtoC_mult. ring.
  Qed.
  Lemma Fzero : meq n m (F mzero) mzero.
  Proof.
    transitivity (F (mscale (RtoC 0) mzero)).
    - apply Fproper. intros i j _ _. unfold mscale, mzero. ring.
    - rewrite Fscale. intros i j _ _. unfold mscale, mzero. ring.
  Qed.
  Lemma pe_F : forall a x, meq n m (F (pe a x)) (pe a (F x)).
  Proof.
    induction a as [|p a IH]; intro x; cbn [pe]; [apply Fzero|].
    rewrite Fadd, Fscale, IH. reflexivity.
  Qed.
  Lemma pe_shift : forall a x, meq n m (F (pe a x)) (pe (0 :: a)%Q x).
  Proof.
    intros. rewrite pe_F. cbn [pe]. intros i j _ _. unfold madd, mscale.
    replace (Q2R 0) with 0%R by (unfold Q2R; cbn; field). ring.
  Qed.

  (** Composition rules for the proof search. *)
  Lemma r_base : forall x, meq n m x (pe [1%Q] x).
  Proof. intro x. cbn [pe]. rewrite madd_zero_r. replace (Q2R 1) with 1%R by (unfold Q2R; cbn; field).
    symmetry. apply mscale_1. Qed.
  Lemma r_add : forall A B a b x, meq n m A (pe a x) -> meq n m B (pe b x) ->
    meq n m (madd A B) (pe (ladd a b) x).
  Proof. intros. rewrite H, H0. apply pe_add. Qed.
  Lemma r_scale : forall A a x r c, r = Q2R c -> meq n m A (pe a x) ->
    meq n m (mscale (RtoC r) A) (pe (lscale c a) x).
  Proof. intros. subst r. rewrite H0. apply pe_scale. Qed.
  Lemma r_sub : forall A B a b x, meq n m A (pe a x) -> meq n m B (pe b x) ->
    meq n m (msub A B) (pe (ladd a (lscale (-1) b)) x).
  Proof.
    intros. rewrite H, H0, <- pe_add, <- pe_scale. replace (Q2R (-1)) with (-1)%R by (unfold Q2R; cbn; field).
    intros i j _ _. unfold msub, madd, mscale.
    replace (RtoC (-1)) with (- RtoC 1)%C by (rewrite <- RtoC_opp; reflexivity). ring.
  Qed.
  Lemma r_opp : forall A a x, meq n m A (pe a x) -> meq n m (mopp A) (pe (lscale (-1) a) x).
  Proof.
    intros. rewrite H, <- pe_scale. replace (Q2R (-1)) with (-1)%R by (unfold Q2R; cbn; field).
    intros i j _ _. unfold mopp, mscale.
    replace (RtoC (-1)) with (- RtoC 1)%C by (rewrite <- RtoC_opp; reflexivity). ring.
  Qed.
  Lemma r_F : forall A a x, meq n m A (pe a x) -> meq n m (F A) (pe (0 :: a)%Q x).
  Proof. intros. rewrite (Fproper _ _ H). apply pe_shift. Qed.
  Lemma r_eval : forall A a b x, meq n m A (pe a x) -> a = b -> meq n m A (pe b x).
  Proof. intros. subst. assumption. Qed.
End Poly.

Ltac toQ r :=
  lazymatch r with
  | (- ?a)%R => let q := toQ a in constr:(Qopp q)
  | (?a / ?b)%R => let p := toQ a in let q := toQ b in constr:(Qdiv p q)
  | Q2R ?q => constr:(q)
  | (/ ?b)%R => let q := toQ b in constr:(Qinv q)
  | IZR ?z => constr:(inject_Z z)
  end.
Lemma Q2R_inject : forall z, Q2R (inject_Z z) = IZR z.
Proof. intro z. unfold Q2R, inject_Z. cbn. field. Qed.
Ltac solveQ :=
  lazymatch goal with
  | |- ?r = Q2R _ =>
      let q := toQ r in
      transitivity (Q2R q);
      [ rewrite ?Q2R_opp, ?Q2R_div, ?Q2R_inv, ?Q2R_inject by (intro; discriminate);
        rewrite ?Q2R_inject, ?Q2R_opp; reflexivity
      | reflexivity ]
  end.
Ltac peval F :=
  lazymatch goal with
  | |- meq _ _ (madd _ _) _ => eapply r_add; [peval F|peval F]
  | |- meq _ _ (msub _ _) _ => eapply r_sub; [peval F|peval F]
  | |- meq _ _ (mopp _) _ => eapply r_opp; peval F
  | |- meq _ _ (mscale _ _) _ => eapply r_scale; [solveQ|peval F]
  | |- meq _ _ ?x _ => first [eassumption | apply r_base]
  end.
(** Replaces the innermost evaluation of [F] by a variable with a known
    polynomial. *)
Ltac stage F :=
  match goal with
  | |- context [F ?a] => lazymatch goal with |- meq ?n ?m _ (pe _ _ ?x) =>
      lazymatch a with
      | context [F _] => fail
      | _ =>
        let k := fresh "k" in let K := fresh "K" in
        set (k := F a);
        eassert (K : meq n m k (pe F _ x));
        [ eapply r_eval; [ eapply r_F; [eassumption|eassumption|eassumption|peval F] | vm_compute; reflexivity ]
        | clearbody k ]
      end end
  end.

Definition tsit5_coeffs : list Q :=
  [1#1;
   1031249999999999851#1031250000000000000;
   82499999999999604763071433805025839#165000000000000000000000000000000000;
   109999999999999770581717867607832970137538751375481#660000000000000000000000000000000000000000000000000;
   916666666666665046436170638077427689804088015869873909932368349707#22000000000000000000000000000000000000000000000000000000000000000000;
   770863253695538807867008762674123421940388763099907123545670758430156430727374243#88000000000000000000000000000000000000000000000000000000000000000000000000000000000;
   28077676110892057777383423939711456150921164141109679867930145755088362781773293#22000000000000000000000000000000000000000000000000000000000000000000000000000000000;
   1909615099743130498508645883234279906913535591568754368211185804484792173492297#88000000000000000000000000000000000000000000000000000000000000000000000000000000000]%Q.

Section Steps.
  Variables (n m : nat) (F : mat -> mat).
  Hypotheses (Fproper : forall A B, meq n m A B -> meq n m (F A) (F B))
             (Fadd : forall A B, meq n m (F (madd A B)) (madd (F A) (F B)))
             (Fscale : forall c A, meq n m (F (mscale c A)) (mscale c (F A))).

  Definition const_rhs (f : mat -> mat -> mat) (stop : nat) (h : list mat) : Prop :=
    forall k rho, (k < stop)%nat -> f rho (hs h k) = F rho.

  Lemma rk4_poly : forall f h x, const_rhs f 3 h ->
      meq n m (rk4 f x h) (pe F [1; 1; 1#2; 1#6; 1#24]%Q x).
  Proof.
    intros f h x Hc. unfold rk4. cbv zeta. rewrite !Hc by lia.
    repeat stage F.
    eapply r_eval; [peval F|vm_compute; reflexivity].
  Qed.
  Lemma rk38_poly : forall f h x, const_rhs f 4 h ->
      meq n m (rk38 f x h) (pe F [1; 1; 1#2; 1#6; 1#24]%Q x).
  Proof.
    intros f h x Hc. unfold rk38. cbv zeta. rewrite !Hc by lia.
    repeat stage F.
    eapply r_eval; [peval F|vm_compute; reflexivity].
  Qed.
  Lemma rk5_poly : forall f h x, const_rhs f 6 h ->
      meq n m (rk5 f x h) (pe F [1; 1; 1#2; 1#6; 1#24; 1097#120000; 161#120000; 1#24000]%Q x).
  Proof.
    intros f h x Hc. unfold rk5. cbv zeta. rewrite !Hc by lia.
    repeat stage F.
    eapply r_eval; [peval F|vm_compute; reflexivity].
  Qed.

  (** The exact coefficients of one tsit5 step. *)
  Lemma tsit5_poly : forall f h x, const_rhs f 6 h ->
      meq n m (tsit5 f x h) (pe F tsit5_coeffs x).
  Proof.
    intros f h x Hc. unfold tsit5. cbv zeta. rewrite !Hc by lia.
    repeat stage F.
    eapply r_eval; [peval F|vm_compute; reflexivity].
  Qed.
End Steps.
