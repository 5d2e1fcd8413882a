(** Property C139: an excitation limit is exact when the dynamics does not cross it. *)
From Coq Require Import Reals Lra Lia FunctionalExtensionality.
From Coquelicot Require Import Complex.
From Verif Require Import Base Mat MExp MExp2 HilbertModel HilbertProofs HilbertProps Hilbert2Proofs Hilbert2Props PropModel FoldModel FoldProps ExpModel ExpProps Exp4Props IndepProps.
Local Open Scope list_scope.
Local Open Scope nat_scope.
Local Notation length := List.length.

(** No element of [A] connects a state within the limit and one above it. *)
Definition respects (dims : list nat) (m : nat) (A : mat) : Prop :=
  forall l l', valid dims l -> valid dims l' ->
  list_sum l <= m < list_sum l' \/ list_sum l' <= m < list_sum l -> A (pos dims l) (pos dims l') = RtoC 0.
(** No element of [A] connects states of different numbers of excitations. *)
Definition conserves (dims : list nat) (A : mat) : Prop :=
  forall l l', valid dims l -> valid dims l' -> list_sum l <> list_sum l' -> A (pos dims l) (pos dims l') = RtoC 0.

Lemma mmul_assoc_eq : forall l k (A B D : mat), mmul l A (mmul k B D) = mmul k (mmul l A B) D.
Proof.
  intros l k A B D. apply functional_extensionality. intro i. apply functional_extensionality. intro j.
  apply (mmul_assoc (S i) (S j)); lia.
Qed.

Section Limit.
  Variables (dims : list nat) (m : nat).
  Let N := prod_dims dims.
  Let ks := kept dims m.
  Let d := length ks.
  Let K (r : nat) := pos dims (nth r ks []).
  Let cut := cut_excitations dims m.

  Lemma cut_entry : forall A r c, r < d -> c < d -> cut A r c = A (K r) (K c).
  Proof. intros A r c Hr Hc. apply (C31_cut_keeps_low_excitations dims m A); auto. Qed.
  Lemma K_lt : forall r, r < d -> K r < N.
  Proof. intros r Hr. apply pos_lt. apply (kept_valid dims m r Hr). Qed.

  Lemma respects_id : respects dims m mid.
  Proof.
    intros l l' V V' H. unfold mid. destruct (Nat.eqb_spec (pos dims l) (pos dims l')) as [E|E]; [|reflexivity].
    apply pos_inj in E; auto. subst. lia.
  Qed.
  Lemma respects_mul : forall A B, respects dims m A -> respects dims m B -> respects dims m (mmul N A B).
  Proof.
    intros A B HA HB l l' V V' H. unfold mmul. apply csum_0. intros x Hx.
    destruct (pos_surj dims x Hx) as (k & Vk & <-).
    destruct (Nat.le_gt_cases (list_sum k) m) as [L|L]; destruct H as [H|H].
    - rewrite (HB k l') by (auto; left; lia). ring.
    - rewrite (HA l k) by (auto; right; lia). ring.
    - rewrite (HA l k) by (auto; left; lia). ring.
    - rewrite (HB k l') by (auto; right; lia). ring.
  Qed.
  Lemma respects_pow : forall A k, respects dims m A -> respects dims m (mpow N A k).
  Proof. intros A k H. induction k as [|k IH]; cbn [mpow]; [apply respects_id|apply respects_mul; auto]. Qed.
  Lemma respects_scale : forall c A, respects dims m A -> respects dims m (mscale c A).
  Proof. intros c A H l l' V V' X. unfold mscale. rewrite (H l l' V V' X). ring. Qed.
  Lemma respects_exp : forall A, respects dims m A -> respects dims m (mexp N A).
  Proof.
    intros A H l l' V V' X. apply mexp_eq. eapply is_cser_ext; [|apply is_cser_0]. intro k. cbv beta.
    unfold taylor_term, mscale. rewrite (respects_pow A k H l l' V V' X). ring.
  Qed.

  (** Cutting respects products. *)
  Lemma cut_mul : forall A B, respects dims m A -> meq d d (mmul d (cut A) (cut B)) (cut (mmul N A B)).
  Proof.
    intros A B HA r c Hr Hc. rewrite (cut_entry _ r c Hr Hc).
    set (Cu := ent (ex_cutter dims m)).
    transitivity (mmul N (mmul N A (mmul d (mtrans Cu) Cu)) B (K r) (K c)).
    - rewrite <- (cut_entry _ r c Hr Hc). unfold cut, cut_excitations. cbv zeta.
      rewrite (proj2 (cutter_shape dims m)). fold N Cu. rewrite !mmul_assoc_eq. reflexivity.
    - set (X := mmul N A (mmul d (mtrans Cu) Cu)). unfold mmul. apply csum_ext. intros x Hx. f_equal. unfold X. clear X.
      destruct (pos_surj dims x Hx) as (l & Vl & <-). destruct (kept_valid dims m r Hr) as [Vr Lr].
      assert (P : forall l', valid dims l' -> mmul d (mtrans Cu) Cu (pos dims l') (pos dims l)
                  = if andb (list_eqb l' l) (Nat.leb (list_sum l) m) then RtoC 1 else RtoC 0).
      { intros l' V'.
        assert (E : mmul d (mtrans Cu) Cu (pos dims l') (pos dims l) = blowup_excitations dims m mid (pos dims l') (pos dims l)).
        { unfold blowup_excitations. cbv zeta. rewrite (proj1 (cutter_shape dims m)). fold ks d Cu. unfold mmul.
          apply csum_ext. intros s Hs. f_equal. symmetry. apply csum_delta_r. exact Hs. }
        rewrite E. destruct (C31_blowup_places_elements dims m mid) as [B1 B2].
        destruct (Nat.leb_spec (list_sum l) m) as [L|L].
        - destruct (Nat.leb_spec (list_sum l') m) as [L'|L'].
          + destruct (C31_cut_keeps_low_excitations dims m mid) as (_ & M & _ & _).
            destruct (In_nth _ _ [] (proj2 (M l) (conj Vl L))) as (x & Xx & <-).
            destruct (In_nth _ _ [] (proj2 (M l') (conj V' L'))) as (y & Xy & <-).
            rewrite (B1 y x Xy Xx). unfold mid. rewrite Bool.andb_true_r.
            destruct (Nat.eqb_spec y x) as [->|Ny]; [rewrite (proj2 (list_eqb_eq _ _)) by auto; reflexivity|].
            destruct (list_eqb _ _) eqn:Eq; [|reflexivity]. apply list_eqb_eq in Eq. exfalso. apply Ny.
            apply (proj1 (NoDup_nth _ []) (kept_nodup dims m)); auto.
          + rewrite B2 by auto. destruct (list_eqb l' l) eqn:Eq; [|reflexivity]. apply list_eqb_eq in Eq. subst. lia.
        - rewrite B2 by auto. rewrite Bool.andb_false_r. reflexivity. }
      unfold mmul at 1. rewrite (csum_single _ (pos dims l)); [|exact Hx|].
      2:{ intros y Hy Ny. destruct (pos_surj dims y Hy) as (l' & V' & <-). rewrite P by auto.
          destruct (list_eqb l' l) eqn:Eq; [apply list_eqb_eq in Eq; congruence|cbn [andb]; ring]. }
      rewrite P by auto. rewrite (proj2 (list_eqb_eq _ _)) by auto. cbn [andb].
      destruct (Nat.leb_spec (list_sum l) m) as [L|L]; [ring|].
      unfold K, ks. rewrite (HA (nth r (kept dims m) []) l) by (auto; left; lia). ring.
  Qed.
  Lemma cut_pow : forall A k, respects dims m A -> meq d d (mpow d (cut A) k) (cut (mpow N A k)).
  Proof.
    intros A k HA. induction k as [|k IH]; cbn [mpow].
    - intros r c Hr Hc. rewrite cut_entry by auto. unfold mid.
      destruct (Nat.eqb_spec r c) as [->|Nr]; [rewrite Nat.eqb_refl; reflexivity|].
      destruct (Nat.eqb_spec (K r) (K c)) as [E|E]; [|reflexivity]. exfalso. apply Nr.
      apply pos_inj in E; [|apply (kept_valid dims m r Hr)|apply (kept_valid dims m c Hc)].
      apply (proj1 (NoDup_nth _ []) (kept_nodup dims m)); auto.
    - rewrite IH. apply cut_mul. apply respects_pow. exact HA.
  Qed.
  Lemma cut_exp : forall A, respects dims m A -> meq d d (mexp d (cut A)) (cut (mexp N A)).
  Proof.
    intros A HA r c Hr Hc. rewrite cut_entry by auto. apply mexp_eq.
    eapply is_cser_ext; [|apply (mexp_is N A (K r) (K c)); apply K_lt; auto].
    intro k. cbv beta. unfold taylor_term, mscale. rewrite (cut_pow A k HA r c Hr Hc), cut_entry by auto. reflexivity.
  Qed.
  Lemma cut_ordered : forall us U, TimeOrdered (mmul N) us U -> Forall (respects dims m) us ->
    forall vs V, Forall2 (fun v u => meq d d v (cut u)) vs us -> TimeOrdered (mmul d) vs V ->
    meq d d V (cut U) /\ respects dims m U.
  Proof.
    intros us U H. induction H as [u|us u p P IH]; intros F vs V Fv T.
    - inversion Fv as [|v ? vs' ? E Fv']; subst. inversion Fv'; subst. inversion F; subst.
      rewrite (to_one_inv _ _ _ _ T). split; auto.
    - apply Forall_app in F. destruct F as [F1 F2]. inversion F2; subst.
      apply Forall2_app_inv_r in Fv. destruct Fv as (vs1 & vs2 & G1 & G2 & ->).
      inversion G2 as [|v ? vs' ? E G3]; subst. inversion G3; subst.
      assert (Ne : vs1 <> []) by (intros ->; inversion G1; subst; exact (to_nil _ _ _ _ P eq_refl)).
      destruct (to_snoc_inv _ _ _ _ _ Ne T) as (q & Q & ->).
      destruct (IH F1 vs1 q G1 Q) as [E1 R1]. split.
      + rewrite E, E1. apply cut_mul. auto.
      + apply respects_mul; auto.
  Qed.
End Limit.

Lemma mscale_cut : forall dims m c A, meq (length (kept dims m)) (length (kept dims m))
  (mscale c (cut_excitations dims m A)) (cut_excitations dims m (mscale c A)).
Proof.
  intros dims m c A r s Hr Hs. unfold mscale at 1. rewrite !cut_entry by auto. reflexivity.
Qed.

(** ** C139: With a limit, the propagator of a gate is that of the full model between the
    states within the limit, and zero elsewhere, if no Hamiltonian of the gate connects
    a state within the limit and one above it. *)
Theorem C139_exact_limit : forall full lim hs signal batch batch' r r' l l',
  p_lind full = false -> p_lind lim = false ->
  p_max_ex full = 0 -> p_max_ex lim <> 0 -> p_dims lim = p_dims full -> p_dim full = prod_dims (p_dims full) ->
  Forall (respects (p_dims full) (p_max_ex lim)) hs -> hs <> [] ->
  pwc_uncontrolled full hs signal (folding_stack (length hs)) batch = Ok r ->
  pwc_uncontrolled lim (map (cut_excitations (p_dims full) (p_max_ex lim)) hs) signal (folding_stack (length hs)) batch' = Ok r' ->
  valid (p_dims full) l -> valid (p_dims full) l' ->
  pr_U r' (pos (p_dims full) l) (pos (p_dims full) l')
  = if andb (Nat.leb (list_sum l) (p_max_ex lim)) (Nat.leb (list_sum l') (p_max_ex lim))
    then pr_U r (pos (p_dims full) l) (pos (p_dims full) l') else RtoC 0.
Proof.
  intros full lim hs signal batch batch' r r' l l' Lf Ll Mf Ml Ed En F Hn R R' V V'.
  unfold pwc_uncontrolled in R, R'.
  destruct (map (fun kv => tl (w_ts (snd kv))) signal) as [|t0 tss] eqn:Et; [discriminate|].
  destruct (ragged (t0 :: tss)); [discriminate|].
  destruct (map (fun j => rmean (time_column (t0 :: tss) j)) (seq 0 (length t0))) as [|a [|b ts]] eqn:Ets; try discriminate.
  destruct (negb (forallb _ _)); [discriminate|]. destruct (negb (rltb _ _)); [discriminate|].
  rewrite Lf, Mf in R. rewrite Ll in R'. rewrite Nat.eqb_refl in R. apply Nat.eqb_neq in Ml as Mb. rewrite Mb, Ed in R'. clear Mb.
  set (dims := p_dims full) in *. set (m := p_max_ex lim) in *. rewrite (proj1 (cutter_shape dims m)) in R'.
  set (d := length (kept dims m)) in *. rewrite En in R. set (N := prod_dims dims) in *.
  set (c := (- Ci * RtoC (b - a))%C) in *.
  assert (B1 : batch_of batch (a :: b :: ts) <> 0).
  { intro Eb. unfold batch_propagate_h in R. rewrite Eb in R. discriminate R. }
  assert (B2 : batch_of batch' (a :: b :: ts) <> 0).
  { intro Eb. unfold batch_propagate_h in R'. rewrite Eb in R'. discriminate R'. }
  rewrite C23_batching_hamiltonian in R by lia. rewrite C23_batching_hamiltonian in R' by lia. cbn [rbind] in R, R'.
  set (us := map (fun h => mexp N (mscale c h)) hs) in *.
  set (vs := map (fun h => mexp d (mscale c h)) (map (cut_excitations dims m) hs)) in *.
  assert (Lu : length us = length hs) by (unfold us; apply map_length).
  assert (Lv : length vs = length hs) by (unfold vs; rewrite !map_length; reflexivity).
  assert (Nu : us <> []) by (intro X; rewrite X in Lu; destruct hs; [congruence|discriminate]).
  assert (Nv : vs <> []) by (intro X; rewrite X in Lv; destruct hs; [congruence|discriminate]).
  destruct (C21_folded_product mat (mmul N) (mmul_assoc_leibniz N) us Nu) as (U & PU & TU).
  rewrite Lu in PU. rewrite PU in R. cbn [rbind] in R. injection R as <-. cbn [pr_U].
  destruct (C22_left_right_products mat (mmul d) (mmul_assoc_leibniz d) vs Nv) as [(W & PW & TW & PW') _].
  rewrite Lv in PW'. rewrite PW', PW in R'. cbn [rbind] in R'. injection R' as <-. cbn [pr_U].
  assert (Fu : Forall (respects dims m) us).
  { unfold us. apply Forall_map. eapply Forall_impl; [|exact F]. intros h Hh. apply respects_exp, respects_scale, Hh. }
  assert (Fv : Forall2 (fun v u => meq d d v (cut_excitations dims m u)) vs us).
  { unfold us, vs. clear - F. induction F as [|h hs Hh _ IH]; cbn [map]; constructor; [|exact IH].
    assert (Q : meq d d (mexp d (mscale c (cut_excitations dims m h))) (mexp d (cut_excitations dims m (mscale c h)))) by (apply mexp_proper, mscale_cut).
    assert (Q2 := cut_exp dims m (mscale c h) (respects_scale dims m c h Hh)). intros x y Hx Hy. rewrite (Q x y Hx Hy). apply Q2; auto. }
  destruct (cut_ordered dims m us U TU Fu vs W Fv TW) as [E _].
  destruct (C31_blowup_places_elements dims m W) as [P1 P2].
  destruct (Nat.leb_spec (list_sum l) m) as [L|L]; cbn [andb]; [|apply P2; auto].
  destruct (Nat.leb_spec (list_sum l') m) as [L'|L']; [|apply P2; auto].
  destruct (C31_cut_keeps_low_excitations dims m U) as (_ & M & _ & EU).
  destruct (In_nth _ _ [] (proj2 (M l) (conj V L))) as (x & Xx & <-).
  destruct (In_nth _ _ [] (proj2 (M l') (conj V' L'))) as (y & Xy & <-).
  rewrite (P1 x y Xx Xy), (E x y Xx Xy). apply EU; auto.
Qed.
Print Assumptions C139_exact_limit.

(** ** Which Hamiltonians conserve excitations *)
Lemma list_sum_split : forall l l' k, length l = length l' -> k < length l ->
  (forall q, q < length l -> q <> k -> nth q l 0 = nth q l' 0) -> list_sum l + nth k l' 0 = list_sum l' + nth k l 0.
Proof.
  induction l as [|x l IH]; intros [|y l'] k E Hk H; try discriminate E; [cbn in Hk; lia|].
  change (x + list_sum l + nth k (y :: l') 0 = y + list_sum l' + nth k (x :: l) 0).
  injection E as E. destruct k as [|k].
  - assert (l = l') as ->; [|cbn [nth]; lia]. apply (nth_ext _ _ 0 0 E). intros q Hq. apply (H (S q)); cbn; lia.
  - cbn [nth]. pose proof (H 0 ltac:(cbn; lia) ltac:(lia)) as H0. cbn [nth] in H0. subst y.
    cbn [length] in Hk. specialize (IH l' k E ltac:(lia)). rewrite <- Nat.add_assoc, IH; [lia|].
    intros q Hq Nq. apply (H (S q)); cbn; lia.
Qed.
Lemma valid_length : forall dims l, valid dims l -> length l = length dims.
Proof. intros dims l V. induction V; cbn; congruence. Qed.

(** [A] moves [s] excitations: an element (l, l') other than zero has s more in l'. *)
Definition lowers (dims : list nat) (s : Z) (A : mat) : Prop :=
  forall l l', valid dims l -> valid dims l' -> (Z.of_nat (list_sum l) + s <> Z.of_nat (list_sum l'))%Z -> A (pos dims l) (pos dims l') = RtoC 0.
Lemma lowers_ann : forall dims k a, k < length dims -> ann_oper dims k = Ok a -> lowers dims 1 (ent a).
Proof.
  intros dims k a Hk Ha l l' V V' N. apply (C29_annihilator_lowers dims k a Hk Ha l l' V V'). intros [E Q].
  pose proof (valid_length _ _ V) as L. pose proof (valid_length _ _ V') as L'.
  pose proof (list_sum_split l l' k ltac:(congruence) ltac:(lia)) as S. rewrite L in S. specialize (S Q). lia.
Qed.
Lemma lowers_adj : forall dims s A, lowers dims s A -> lowers dims (- s) (madj A).
Proof. intros dims s A H l l' V V' N. unfold madj. rewrite (H l' l V' V) by lia. unfold Cconj, RtoC. cbn. f_equal; lra. Qed.
Lemma lowers_mul : forall dims s t A B, lowers dims s A -> lowers dims t B -> lowers dims (s + t) (mmul (prod_dims dims) A B).
Proof.
  intros dims s t A B HA HB l l' V V' N. unfold mmul. apply csum_0. intros x Hx. destruct (pos_surj dims x Hx) as (k & Vk & <-).
  destruct (Z.eq_dec (Z.of_nat (list_sum l) + s) (Z.of_nat (list_sum k))) as [E|E].
  - rewrite (HB k l') by (auto; lia). ring.
  - rewrite (HA l k) by auto. ring.
Qed.
Lemma lowers_conserves : forall dims A, lowers dims 0 A -> conserves dims A.
Proof. intros dims A H l l' V V' N. apply H; auto. lia. Qed.
Lemma conserves_lowers : forall dims A, conserves dims A -> lowers dims 0 A.
Proof. intros dims A H l l' V V' N. apply H; auto. lia. Qed.
Lemma lowers_id : forall dims, lowers dims 0 mid.
Proof.
  intros dims l l' V V' N. unfold mid. destruct (Nat.eqb_spec (pos dims l) (pos dims l')) as [E|]; [|reflexivity].
  apply pos_inj in E; auto. subst. lia.
Qed.

(** Conservation respects every limit. *)
Theorem C139_conserving_respects : forall dims A m, conserves dims A -> respects dims m A.
Proof. intros dims A m H l l' V V' X. apply H; auto. lia. Qed.
Print Assumptions C139_conserving_respects.

(** The number terms, the anharmonicity and the exchange coupling XX + YY conserve the
    number of excitations, and so do their sums and multiples. *)
Theorem C139_conserving_hamiltonians : forall dims j k a b,
  j < length dims -> k < length dims -> ann_oper dims j = Ok a -> ann_oper dims k = Ok b ->
  let n := prod_dims dims in
  conserves dims (h_resonator n (ent a)) /\ conserves dims (h_duffing n (ent a)) /\ conserves dims (h_z_drive n (ent a))
  /\ conserves dims (madd (h_int_XX n (ent a) (ent b)) (h_int_YY n (ent a) (ent b)))
  /\ (forall A B c, conserves dims A -> conserves dims B -> conserves dims (madd (mscale c A) B)).
Proof.
  intros dims j k a b Hj Hk Ha Hb n.
  pose proof (lowers_ann dims j a Hj Ha) as La. pose proof (lowers_ann dims k b Hk Hb) as Lb.
  pose proof (lowers_mul dims _ _ _ _ (lowers_adj _ _ _ La) La) as Na. cbn in Na. fold n in Na.
  split; [|split; [|split; [|split]]].
  - apply lowers_conserves. exact Na.
  - apply lowers_conserves. unfold h_duffing. cbv zeta.
    intros l l' V V' X. unfold mscale.
    assert (M : lowers dims 0 (msub (mmul n (madj (ent a)) (ent a)) mid)).
    { intros u u' Vu Vu' Y. unfold msub. rewrite (Na u u' Vu Vu' Y), (lowers_id dims u u' Vu Vu' Y). ring. }
    pose proof (lowers_mul dims 0 0 _ _ M Na) as D. fold n in D. rewrite (D l l' V V' X). ring.
  - apply lowers_conserves. exact Na.
  - apply lowers_conserves. intros l l' V V' X.
    pose proof (lowers_mul dims _ _ _ _ (lowers_adj _ _ _ La) Lb) as P1. pose proof (lowers_mul dims _ _ _ _ La (lowers_adj _ _ _ Lb)) as P2.
    cbn in P1, P2. fold n in P1, P2.
    transitivity (RtoC 2 * (mmul n (madj (ent a)) (ent b) (pos dims l) (pos dims l') + mmul n (ent a) (madj (ent b)) (pos dims l) (pos dims l')))%C.
    + unfold madd, h_int_XX, h_int_YY, mopp, mmul, msub, madd. rewrite <- csum_plus, <- csum_scale, <- csum_opp, <- csum_plus.
      apply csum_ext. intros x Hx. change (RtoC 2) with (RtoC (1 + 1)). rewrite RtoC_plus. ring.
    + rewrite (P1 l l' V V' X), (P2 l l' V V' X). ring.
  - intros A B c HA HB l l' V V' X. unfold madd, mscale. rewrite (HA l l' V V' X), (HB l l' V V' X). ring.
Qed.
Print Assumptions C139_conserving_hamiltonians.

(** Finding: the coupling of the library's examples, [h_int_XX], creates two excitations at once.  A limit
    of one excitation per state cuts a term out of it, even for a system at rest in its ground state. *)
Theorem C139_xx_refuted : exists a b, ann_oper [2; 2] 0 = Ok a /\ ann_oper [2; 2] 1 = Ok b
  /\ h_int_XX 4 (ent a) (ent b) (pos [2; 2] [0; 0]) (pos [2; 2] [1; 1]) = RtoC 1
  /\ ~ respects [2; 2] 1 (h_int_XX 4 (ent a) (ent b)).
Proof.
  destruct (ann_oper [2; 2] 0) as [a|] eqn:Ea; [|discriminate Ea]. destruct (ann_oper [2; 2] 1) as [b|] eqn:Eb; [|discriminate Eb].
  exists a, b. split; [reflexivity|]. split; [reflexivity|].
  assert (V : forall i j, i < 2 -> j < 2 -> valid [2; 2] [i; j]) by (intros; repeat (apply Forall2_cons; [assumption|]); apply Forall2_nil).
  assert (X : h_int_XX 4 (ent a) (ent b) (pos [2; 2] [0; 0]) (pos [2; 2] [1; 1]) = RtoC 1).
  { pose proof (C29_annihilator_lowers [2; 2] 0 a ltac:(cbn; lia) Ea) as A. pose proof (C29_annihilator_lowers [2; 2] 1 b ltac:(cbn; lia) Eb) as Bq.
    assert (A2 : forall i j, i < 2 -> j < 2 -> ent a (pos [2; 2] [0; 0]) (pos [2; 2] [i; j]) = if (Nat.eqb i 1 && Nat.eqb j 0)%bool then RtoC 1 else RtoC 0).
    { intros i j Hi Hj. destruct (A [0; 0] [i; j] (V 0 0 ltac:(lia) ltac:(lia)) (V _ _ Hi Hj)) as [A1 A0]. cbn [nth length] in A1, A0.
      destruct i as [|[|]], j as [|[|]]; try lia; cbn [Nat.eqb andb].
      - apply A0. intros [E _]. lia.
      - apply A0. intros [E _]. lia.
      - rewrite A1; [cbn; rewrite sqrt_1; reflexivity|]. split; [reflexivity|]. intros [|[|]] Q N; cbn; lia.
      - apply A0. intros [_ E]. specialize (E 1 ltac:(lia) ltac:(lia)). cbn in E. lia. }
    assert (A3 : forall i j, i < 2 -> j < 2 -> ent a (pos [2; 2] [i; j]) (pos [2; 2] [0; 0]) = RtoC 0).
    { intros i j Hi Hj. destruct (A [i; j] [0; 0] (V _ _ Hi Hj) (V 0 0 ltac:(lia) ltac:(lia))) as [_ A0]. apply A0. cbn [nth]. intros [E _]. lia. }
    assert (B2 : ent b (pos [2; 2] [1; 0]) (pos [2; 2] [1; 1]) = RtoC 1).
    { destruct (Bq [1; 0] [1; 1] (V 1 0 ltac:(lia) ltac:(lia)) (V 1 1 ltac:(lia) ltac:(lia))) as [B1 _]. cbn [nth length] in B1.
      rewrite B1; [cbn; rewrite sqrt_1; reflexivity|]. split; [reflexivity|]. intros [|[|]] Q N; cbn; lia. }
    assert (B3 : ent b (pos [2; 2] [1; 1]) (pos [2; 2] [1; 0]) = RtoC 0).
    { destruct (Bq [1; 1] [1; 0] (V 1 1 ltac:(lia) ltac:(lia)) (V 1 0 ltac:(lia) ltac:(lia))) as [_ B0]. apply B0. cbn [nth]. intros [E _]. lia. }
    unfold h_int_XX, mmul, madd, madj. rewrite (csum_single 4 (pos [2; 2] [1; 0]));
      [| cbn; lia |].
    - rewrite (A3 1 0), (A2 1 0), B2, B3 by lia. cbn [Nat.eqb andb]. unfold Cconj, RtoC, Cplus, Cmult. cbn. f_equal; ring.
    - intros x Hx Nx. destruct (pos_surj [2; 2] x Hx) as (k & Vk & <-). inversion Vk as [|i ? k' ? Hi Vk']; subst. inversion Vk' as [|j ? k'' ? Hj Vk'']; subst. inversion Vk''; subst.
      rewrite (A3 i j), (A2 i j) by auto. destruct (Nat.eqb i 1 && Nat.eqb j 0)%bool eqn:E.
      + apply andb_prop in E as [E1 E2]. apply Nat.eqb_eq in E1, E2. subst. congruence.
      + unfold Cconj, RtoC, Cplus, Cmult. cbn. f_equal; ring. }
  split; [exact X|]. intro R. rewrite (R [0; 0] [1; 1]) in X; try (apply V; lia); [|cbn; lia].
  apply (f_equal fst) in X. cbn in X. lra.
Qed.
Print Assumptions C139_xx_refuted.

(** Two qutrits with an exchange coupling meet the hypotheses for a limit of two. *)
Example C139_example : exists a b, ann_oper [3; 3] 0 = Ok a /\ ann_oper [3; 3] 1 = Ok b
  /\ (forall g, respects [3; 3] 2 (madd (mscale g (madd (h_int_XX 9 (ent a) (ent b)) (h_int_YY 9 (ent a) (ent b)))) (h_duffing 9 (ent a))))
  /\ length (kept [3; 3] 2) = 6.
Proof.
  destruct (ann_oper [3; 3] 0) as [a|] eqn:Ea; [|discriminate Ea]. destruct (ann_oper [3; 3] 1) as [b|] eqn:Eb; [|discriminate Eb].
  exists a, b. split; [reflexivity|]. split; [reflexivity|]. split; [|reflexivity]. intro g.
  destruct (C139_conserving_hamiltonians [3; 3] 0 1 a b ltac:(cbn; lia) ltac:(cbn; lia) Ea Eb) as (_ & H2 & _ & H4 & H5).
  apply C139_conserving_respects. apply H5; auto.
Qed.
