(** Property C145: open subsystems without a coupling evolve independently. *)
From Coq Require Import Reals Lra Lia.
From Coquelicot Require Import Coquelicot.
From Verif Require Import Base Mat RSum MExp MExp2 HilbertModel HilbertProofs PropModel SuperProofs Prop2Props FoldModel FoldProps ExpModel ExpProps IndepProps SplitProps DecayProps.
Local Open Scope list_scope.
Local Open Scope nat_scope.
Local Notation length := List.length.

Lemma msub_mor : forall n m A A' B B', meq n m A A' -> meq n m B B' -> meq n m (msub A B) (msub A' B').
Proof. intros n m A A' B B' E F. rewrite E, F. reflexivity. Qed.
Lemma madd_mor : forall n m A A' B B', meq n m A A' -> meq n m B B' -> meq n m (madd A B) (madd A' B').
Proof. intros n m A A' B B' E F. rewrite E, F. reflexivity. Qed.
Lemma mscale_mor : forall n m c A A', meq n m A A' -> meq n m (mscale c A) (mscale c A').
Proof. intros n m c A A' E. rewrite E. reflexivity. Qed.

(** exp(A) W = W exp(B) if A W = W B *)
Lemma mexp_intertwine : forall n m A B W, meq n m (mmul n A W) (mmul m W B) -> meq n m (mmul n (mexp n A) W) (mmul m W (mexp m B)).
Proof.
  intros n m A B W H.
  assert (P : forall k, meq n m (mmul n (mpow n A k) W) (mmul m W (mpow m B k))).
  { induction k as [|k IH]; cbn [mpow].
    - rewrite mmul_id_l, mmul_id_r. reflexivity.
    - transitivity (mmul n (mpow n A k) (mmul n A W)); [symmetry; apply mmul_assoc|].
      transitivity (mmul n (mpow n A k) (mmul m W B)); [apply mmul_mor; [reflexivity|exact H]|].
      transitivity (mmul m (mmul n (mpow n A k) W) B); [apply mmul_assoc|].
      transitivity (mmul m (mmul m W (mpow m B k)) B); [apply mmul_mor; [exact IH|reflexivity]|]. symmetry. apply mmul_assoc. }
  intros i j Hi Hj. apply (is_cser_det (fun k => csum n (fun x => W x j * taylor_term n A k i x)%C)).
  - unfold mmul. rewrite (csum_ext n _ (fun x => W x j * mexp n A i x)%C) by (intros; ring).
    apply (is_cser_sum n (fun k x => W x j * taylor_term n A k i x)%C). intros x Hx. apply is_cser_scale, mexp_is; auto.
  - eapply is_cser_ext; [|apply (is_cser_sum m (fun k y => W i y * taylor_term m B k y j)%C (fun y => W i y * mexp m B y j)%C); intros y Hy; apply is_cser_scale, mexp_is; auto].
    intro k. cbv beta. specialize (P k i j Hi Hj). unfold mmul in P. unfold taylor_term, mscale.
    transitivity (/ RtoC (INR (fact k)) * csum m (fun y => W i y * mpow m B k y j))%C; [rewrite <- csum_scale; apply csum_ext; intros; ring|].
    rewrite <- P, <- csum_scale. apply csum_ext. intros; ring.
Qed.

Section Pair.
  Variables (da db : nat).
  Let N := da * db.
  (** Where the entry at place p of the stacked density matrix of both is found in the product of
      the stacked density matrices of each. *)
  Let place (p : nat) : nat := (p / N / db * da + p mod N / db) * (db * db) + ((p / N) mod db * db + (p mod N) mod db).
  Let W : mat := fun p q => if Nat.eqb (place p) q then RtoC 1 else RtoC 0.
  Lemma place_lt : forall p, p < N * N -> place p < da * da * (db * db)
    /\ place p / (db * db) = p / N / db * da + p mod N / db /\ place p mod (db * db) = (p / N) mod db * db + (p mod N) mod db
    /\ p mod N / db < da /\ (p mod N) mod db < db /\ p / N / db < da /\ (p / N) mod db < db.
  Proof.
    intros p Hp. destruct (divmod_lt p N N Hp) as [A B]. unfold N in A at 2. unfold N in B at 2.
    destruct (divmod_lt _ _ _ A) as [A1 A2]. destruct (divmod_lt _ _ _ B) as [B1 B2].
    assert (Q : (p / N) mod db * db + (p mod N) mod db < db * db) by nia.
    unfold place. destruct (divmod_add (p / N / db * da + p mod N / db) _ _ Q) as [-> ->].
    repeat split; auto. assert (p / N / db * da + p mod N / db < da * da) by nia. nia.
  Qed.
  Lemma W_apply : forall v p j, p < N * N -> mmul (da * da * (db * db)) W v p j = v (place p) j.
  Proof.
    intros v p j Hp. destruct (place_lt p Hp) as [L _]. unfold mmul, W. rewrite (csum_single _ (place p)); [rewrite Nat.eqb_refl; ring|exact L|].
    intros x _ Nx. destruct (Nat.eqb_spec (place p) x); [congruence|]. ring.
  Qed.
  Lemma W_product : forall X Y, meq (N * N) 1 (mmul (da * da * (db * db)) W (kron (db * db) 1 (row_stack da X) (row_stack db Y))) (row_stack N (kron db db X Y)).
  Proof.
    intros X Y p j Hp _. rewrite W_apply by exact Hp. unfold kron, row_stack. destruct (place_lt p Hp) as (_ & -> & -> & A & B & _).
    destruct (divmod_add (p / N / db) _ _ A) as [-> ->]. destruct (divmod_add ((p / N) mod db) _ _ B) as [-> ->]. reflexivity.
  Qed.

  (** ** The generator *)
  Definition diss (n : nat) (rho c : mat) : mat :=
    msub (mmul n (mmul n c rho) (madj c)) (mscale (RtoC (1/2)) (anticommutator n (mmul n (madj c) c) rho)).
  Definition disses (n : nat) (rho : mat) (cols : list mat) : mat := fold_right (fun c acc => madd (diss n rho c) acc) mzero cols.
  Lemma fold_disses : forall n rho cols D, meq n n (fold_left (lindblad_add n rho) cols D) (madd D (disses n rho cols)).
  Proof.
    intros n rho. induction cols as [|c cols IH]; intro D; cbn [fold_left disses fold_right].
    - intros i j _ _. unfold madd, mzero. ring.
    - rewrite IH. fold (disses n rho cols). unfold lindblad_add, diss. intros i j _ _. unfold madd, msub. ring.
  Qed.
  Lemma lindblad_parts : forall n cols rho h, meq n n (lindblad n cols 1 rho h) (madd (mscale (- Ci)%C (commutator n h rho)) (disses n rho cols)).
  Proof. intros n cols rho h. unfold lindblad. rewrite fold_disses. apply mscale_1. Qed.
  Lemma lindblad_linear_h : forall n cols rho h h', meq n n h h' -> meq n n (lindblad n cols 1 rho h) (lindblad n cols 1 rho h').
  Proof. intros n cols rho h h' E. rewrite !lindblad_parts. unfold commutator. rewrite E. reflexivity. Qed.
  Lemma diss_mor : forall n rho c c', meq n n c c' -> meq n n (diss n rho c) (diss n rho c').
  Proof.
    intros n rho c c' E. unfold diss, anticommutator. rewrite E. reflexivity.
  Qed.
  Lemma diss_0 : forall X Y c, meq N N (diss N (kron db db X Y) (kron db db c mid)) (kron db db (diss da X c) Y).
  Proof.
    intros X Y c. unfold diss, anticommutator, N. rewrite (kron_madj da da db db), !kron_mmul.
    assert (I : meq db db (madj mid) mid) by apply madj_id.
    transitivity (msub (kron db db (mmul da (mmul da c X) (madj c)) Y)
      (mscale (RtoC (1/2)) (madd (kron db db (mmul da (mmul da (madj c) c) X) Y) (kron db db (mmul da X (mmul da (madj c) c)) Y)))).
    - apply msub_mor; [|apply mscale_mor, madd_mor]; (apply kron_mor; [reflexivity|]); rewrite ?I, ?mmul_id_l, ?mmul_id_r; reflexivity.
    - intros i j _ _. unfold msub, mscale, madd, kron. ring.
  Qed.
  Lemma diss_1 : forall X Y c, meq N N (diss N (kron db db X Y) (kron db db mid c)) (kron db db X (diss db Y c)).
  Proof.
    intros X Y c. unfold diss, anticommutator, N. rewrite (kron_madj da da db db), !kron_mmul.
    assert (I : meq da da (madj mid) mid) by apply madj_id.
    transitivity (msub (kron db db X (mmul db (mmul db c Y) (madj c)))
      (mscale (RtoC (1/2)) (madd (kron db db X (mmul db (mmul db (madj c) c) Y)) (kron db db X (mmul db Y (mmul db (madj c) c)))))).
    - apply msub_mor; [|apply mscale_mor, madd_mor]; (apply kron_mor; [|reflexivity]); rewrite ?I, ?mmul_id_l, ?mmul_id_r; reflexivity.
    - intros i j _ _. unfold msub, mscale, madd, kron. ring.
  Qed.
  Lemma disses_app : forall n rho l1 l2, meq n n (disses n rho (l1 ++ l2)) (madd (disses n rho l1) (disses n rho l2)).
  Proof.
    intros n rho l1 l2. unfold disses. induction l1 as [|c l1 IH]; cbn [app fold_right].
    - rewrite madd_zero_l. reflexivity.
    - rewrite IH. apply madd_assoc.
  Qed.
  Lemma disses_0 : forall X Y cs ls, Forall2 (acts_on da db 0) cs ls -> meq N N (disses N (kron db db X Y) ls) (kron db db (disses da X cs) Y).
  Proof.
    intros X Y cs ls F. induction F as [|c l cs ls A F IH]; cbn [disses fold_right].
    - intros i j _ _. unfold kron, mzero. ring.
    - fold (disses N (kron db db X Y) ls). fold (disses da X cs). rewrite IH, (diss_mor N _ _ _ (acts_kron_0 _ _ _ _ A)), diss_0.
      intros i j _ _. unfold madd, kron. ring.
  Qed.
  Lemma disses_1 : forall X Y cs ls, Forall2 (acts_on da db 1) cs ls -> meq N N (disses N (kron db db X Y) ls) (kron db db X (disses db Y cs)).
  Proof.
    intros X Y cs ls F. induction F as [|c l cs ls A F IH]; cbn [disses fold_right].
    - intros i j _ _. unfold kron, mzero. ring.
    - fold (disses N (kron db db X Y) ls). fold (disses db Y cs). rewrite IH, (diss_mor N _ _ _ (acts_kron_1 _ _ _ _ A)), diss_1.
      intros i j _ _. unfold madd, kron. ring.
  Qed.
  Variables (ca cb la lb : list mat) (A B H : mat).
  Hypothesis Fa : Forall2 (acts_on da db 0) ca la.
  Hypothesis Fb : Forall2 (acts_on da db 1) cb lb.
  Hypothesis EH : meq N N H (madd (kron db db A mid) (kron db db mid B)).
  (** The master equation of both, for a product. *)
  Lemma lindblad_product : forall X Y, meq N N (lindblad N (la ++ lb) 1 (kron db db X Y) H)
    (madd (kron db db (lindblad da ca 1 X A) Y) (kron db db X (lindblad db cb 1 Y B))).
  Proof.
    intros X Y. rewrite lindblad_parts, disses_app, (disses_0 X Y ca la Fa), (disses_1 X Y cb lb Fb).
    assert (K : meq N N (commutator N H (kron db db X Y)) (madd (kron db db (commutator da A X) Y) (kron db db X (commutator db B Y)))).
    { unfold commutator. rewrite EH, mmul_add_l, mmul_add_r. unfold N. rewrite !kron_mmul.
      transitivity (msub (madd (kron db db (mmul da A X) Y) (kron db db X (mmul db B Y))) (madd (kron db db (mmul da X A) Y) (kron db db X (mmul db Y B)))).
      - apply msub_mor; apply madd_mor; apply kron_mor; rewrite ?mmul_id_l, ?mmul_id_r; reflexivity.
      - intros i j _ _. unfold msub, madd, kron. ring. }
    rewrite K.
    transitivity (madd (kron db db (madd (mscale (- Ci)%C (commutator da A X)) (disses da X ca)) Y)
                       (kron db db X (madd (mscale (- Ci)%C (commutator db B Y)) (disses db Y cb)))).
    - intros i j _ _. unfold madd, mscale, kron. ring.
    - unfold N. apply madd_mor; apply kron_mor; try reflexivity; symmetry; apply lindblad_parts.
  Qed.
  (** The generators are intertwined. *)
  Let GA := lind_op da A ca.
  Let GB := lind_op db B cb.
  Let G := lind_op N H (la ++ lb).
  Let K := madd (kron (db * db) (db * db) GA mid) (kron (db * db) (db * db) mid GB).
  Lemma generator_1 : forall n h cols rho, meq (n * n) 1 (mmul (n * n) (lind_op n h cols) (row_stack n rho)) (row_stack n (lindblad n cols 1 rho h)).
  Proof.
    intros n h cols rho. destruct (C39_generator_is_lindblad n h cols 1 rho) as [Q _]. rewrite <- Q.
    apply mmul_mor; [|reflexivity]. symmetry. apply mscale_1.
  Qed.
  Lemma on_products : forall X Y, meq (N * N) 1
    (mmul (N * N) G (mmul (da * da * (db * db)) W (kron (db * db) 1 (row_stack da X) (row_stack db Y))))
    (mmul (da * da * (db * db)) W (mmul (da * da * (db * db)) K (kron (db * db) 1 (row_stack da X) (row_stack db Y)))).
  Proof.
    intros X Y. rewrite (mmul_mor_r _ _ _ _ _ _ (W_product X Y)). unfold G. rewrite generator_1, (row_stack_mor N _ _ (lindblad_product X Y)).
    transitivity (mmul (da * da * (db * db)) W (madd (kron (db * db) 1 (row_stack da (lindblad da ca 1 X A)) (row_stack db Y))
      (kron (db * db) 1 (row_stack da X) (row_stack db (lindblad db cb 1 Y B))))).
    - rewrite mmul_add_l, !W_product. intros p j _ _. unfold row_stack, madd. reflexivity.
    - apply mmul_mor; [reflexivity|]. unfold K. rewrite mmul_add_r. apply madd_mor.
      + transitivity (kron (db * db) 1 (mmul (da * da) GA (row_stack da X)) (mmul (db * db) mid (row_stack db Y))).
        * apply (kron_mor (da * da) 1 (db * db) 1); [symmetry; apply generator_1|symmetry; apply mmul_id_l].
        * symmetry. apply (kron_mmul (da * da) 1 (da * da) (db * db) 1 (db * db)).
      + transitivity (kron (db * db) 1 (mmul (da * da) mid (row_stack da X)) (mmul (db * db) GB (row_stack db Y))).
        * apply (kron_mor (da * da) 1 (db * db) 1); [symmetry; apply mmul_id_l|symmetry; apply generator_1].
        * symmetry. apply (kron_mmul (da * da) 1 (da * da) (db * db) 1 (db * db)).
  Qed.
  Lemma intertwined : meq (N * N) (da * da * (db * db)) (mmul (N * N) G W) (mmul (da * da * (db * db)) W K).
  Proof.
    intros p q Hp Hq. destruct (divmod_lt _ _ _ Hq) as [Q1 Q2].
    set (ex := (fun x _ => if Nat.eqb x (q / (db * db)) then RtoC 1 else RtoC 0) : mat).
    set (ey := (fun x _ => if Nat.eqb x (q mod (db * db)) then RtoC 1 else RtoC 0) : mat).
    set (e := kron (db * db) 1 (row_stack da (row_unstack da ex)) (row_stack db (row_unstack db ey))).
    assert (Ee : meq (da * da * (db * db)) 1 e (fun x _ => if Nat.eqb x q then RtoC 1 else RtoC 0)).
    { intros x j Hx Hj. replace j with 0 by lia. destruct (divmod_lt _ _ _ Hx) as [X1 X2]. unfold e, kron.
      change (0 / 1) with 0. change (0 mod 1) with 0.
      rewrite (row_stack_unstack da ex _ 0 X1 ltac:(lia)), (row_stack_unstack db ey _ 0 X2 ltac:(lia)). unfold ex, ey.
      destruct (Nat.eqb_spec x q) as [->|Nx]; [rewrite !Nat.eqb_refl; ring|].
      destruct (Nat.eqb_spec (x / (db * db)) (q / (db * db))) as [E1|]; [|ring]. destruct (Nat.eqb_spec (x mod (db * db)) (q mod (db * db))) as [E2|]; [|ring].
      exfalso. apply Nx. assert (NZ : db * db <> 0) by lia. rewrite (Nat.div_mod x _ NZ), (Nat.div_mod q _ NZ), E1, E2. reflexivity. }
    assert (Col : forall M, mmul (da * da * (db * db)) M e p 0 = M p q).
    { intro M. unfold mmul. rewrite (csum_single _ q); [rewrite (Ee q 0 Hq ltac:(lia)), Nat.eqb_refl; ring|exact Hq|].
      intros x Hx Nx. rewrite (Ee x 0 Hx ltac:(lia)). destruct (Nat.eqb_spec x q); [contradiction|]. ring. }
    rewrite <- (Col (mmul (N * N) G W)), <- (Col (mmul (da * da * (db * db)) W K)).
    pose proof (on_products (row_unstack da ex) (row_unstack db ey)) as P. fold e in P.
    rewrite (mmul_assoc (N * N) 1 (da * da * (db * db)) (N * N) G W e) in P.
    rewrite (mmul_assoc (N * N) 1 (da * da * (db * db)) (da * da * (db * db)) W K e) in P.
    apply P; [exact Hp|lia].
  Qed.
  (** A slice takes products to products. *)
  Lemma slice_product : forall dt X Y, meq N N (evolved N (lind_slice N H (la ++ lb) dt) (kron db db X Y))
    (kron db db (evolved da (lind_slice da A ca dt) X) (evolved db (lind_slice db B cb dt) Y)).
  Proof.
    intros dt X Y. unfold evolved.
    set (vx := row_stack da X). set (vy := row_stack db Y).
    assert (E : meq (N * N) 1 (mmul (N * N) (lind_slice N H (la ++ lb) dt) (row_stack N (kron db db X Y)))
       (row_stack N (kron db db (evolved da (lind_slice da A ca dt) X) (evolved db (lind_slice db B cb dt) Y)))).
    { rewrite (mmul_mor_l _ _ _ _ _ _ (lind_slice_eq N H (la ++ lb) dt)). fold G.
      rewrite <- (mmul_mor_r _ _ _ _ _ _ (W_product X Y)). fold vx vy. rewrite mmul_assoc.
      assert (I : meq (N * N) (da * da * (db * db)) (mmul (N * N) (mexp (N * N) (mscale (RtoC dt) G)) W)
                    (mmul (da * da * (db * db)) W (kron (db * db) (db * db) (lind_slice da A ca dt) (lind_slice db B cb dt)))).
      { rewrite (mexp_intertwine (N * N) (da * da * (db * db)) (mscale (RtoC dt) G) (mscale (RtoC dt) K) W).
        - apply mmul_mor; [reflexivity|]. transitivity (kron (db * db) (db * db) (mexp (da * da) (mscale (RtoC dt) GA)) (mexp (db * db) (mscale (RtoC dt) GB))).
          + apply (slice_kron (da * da) (db * db)); reflexivity.
          + apply kron_mor; symmetry; apply lind_slice_eq.
        - rewrite mmul_scale_l, mmul_scale_r. apply mscale_mor. apply intertwined. }
      rewrite (mmul_mor_l _ _ _ _ _ _ I), <- mmul_assoc.
      rewrite <- W_product. apply mmul_mor; [reflexivity|].
      transitivity (kron (db * db) 1 (mmul (da * da) (lind_slice da A ca dt) vx) (mmul (db * db) (lind_slice db B cb dt) vy)).
      - apply (kron_mmul (da * da) 1 (da * da) (db * db) 1 (db * db)).
      - apply (kron_mor (da * da) 1 (db * db) 1); symmetry; apply row_stack_unstack. }
    rewrite (row_unstack_mor N _ _ E). apply row_unstack_stack.
  Qed.
End Pair.

Lemma ordered_rel : forall M1 M2 M3 (m1 : M1 -> M1 -> M1) (m2 : M2 -> M2 -> M2) (m3 : M3 -> M3 -> M3) (R : M1 -> M2 -> M3 -> Prop),
  (forall u x y u' x' y', R u x y -> R u' x' y' -> R (m1 u u') (m2 x x') (m3 y y')) ->
  forall us U, TimeOrdered m1 us U -> forall uas ubs Ua Ub, length uas = length us -> length ubs = length us ->
  TimeOrdered m2 uas Ua -> TimeOrdered m3 ubs Ub ->
  (forall t u x y, nth_error us t = Some u -> nth_error uas t = Some x -> nth_error ubs t = Some y -> R u x y) -> R U Ua Ub.
Proof.
  intros M1 M2 M3 m1 m2 m3 R C us U H. induction H as [u|us u p P IH]; intros uas ubs Ua Ub La Lb Ta Tb E.
  - destruct uas as [|x [|? ?]]; try discriminate La. destruct ubs as [|y [|? ?]]; try discriminate Lb.
    rewrite (to_one_inv _ _ _ _ Ta), (to_one_inv _ _ _ _ Tb). apply (E 0); reflexivity.
  - rewrite app_length in La, Lb. cbn [length] in La, Lb.
    destruct uas as [|x va _] using rev_ind; [cbn in La; lia|]. destruct ubs as [|y vb _] using rev_ind; [cbn in Lb; lia|].
    rewrite app_length in La, Lb. cbn [length] in La, Lb.
    assert (Na : va <> []) by (intros ->; apply (to_nil _ _ _ _ P); destruct us; [reflexivity|cbn in La; lia]).
    assert (Nb : vb <> []) by (intros ->; apply (to_nil _ _ _ _ P); destruct us; [reflexivity|cbn in Lb; lia]).
    destruct (to_snoc_inv _ _ _ _ _ Na Ta) as (qa & Qa & ->). destruct (to_snoc_inv _ _ _ _ _ Nb Tb) as (qb & Qb & ->).
    apply C.
    + apply (E (length us)); rewrite nth_error_app2 by lia; [|replace (length us - length va) with 0 by lia|replace (length us - length vb) with 0 by lia];
        [rewrite Nat.sub_diag| |]; reflexivity.
    + apply (IH va vb); auto; try lia. intros t w w1 w2 H1 H2 H3. apply (E t); (rewrite nth_error_app1; [auto|]); apply nth_error_Some; congruence.
Qed.
Lemma evolved_mor : forall n S X Y, meq n n X Y -> meq n n (evolved n S X) (evolved n S Y).
Proof. intros n S X Y E. unfold evolved. apply row_unstack_mor, mmul_mor_r, row_stack_mor, E. Qed.

(** The same model with the master equation switched off. *)
Definition isolated (m : pmodel) : pmodel :=
  {| p_dim := p_dim m; p_h0 := p_h0 m; p_hctrls := p_hctrls m; p_lind := false; p_cols := []; p_dims := p_dims m; p_max_ex := p_max_ex m |}.
(** [m] is the model of the open systems [a] and [b] together: there is no coupling between them,
    and each collapse operator acts on one of them. *)
Definition uncoupled_open (a b m : pmodel) : Prop :=
  uncoupled (isolated a) (isolated b) (isolated m) /\ p_lind a = true /\ p_lind b = true /\ p_lind m = true
  /\ exists la lb, p_cols m = la ++ lb /\ Forall2 (acts_on (p_dim a) (p_dim b) 0) (p_cols a) la
                   /\ Forall2 (acts_on (p_dim a) (p_dim b) 1) (p_cols b) lb.

(** ** C145: A gate on both takes a product of density matrices to the product of what the gate
    makes of each alone, driven by its own lines and losing energy on its own. *)
Theorem C145_independent : forall a b m signal n ts batch batch_a batch_b r ra rb,
  uncoupled_open a b m -> common_grid signal n ts -> 0 < n ->
  pwc_controlled a (of_a a signal) (folding_stack n) batch_a = Ok ra ->
  pwc_controlled b (not_of_a a signal) (folding_stack n) batch_b = Ok rb ->
  pwc_controlled m signal (folding_stack n) batch = Ok r ->
  forall X Y, meq (p_dim m) (p_dim m) (evolved (p_dim m) (pr_U r) (kron (p_dim b) (p_dim b) X Y))
    (kron (p_dim b) (p_dim b) (evolved (p_dim a) (pr_U ra) X) (evolved (p_dim b) (pr_U rb) Y)).
Proof.
  intros a b m signal n ts batch batch_a batch_b r ra rb (Un & La & Lb & Lm & la & lb & Ec & Fa & Fb) G Hn Ra Rb R.
  pose proof Un as (Ed & _). cbn [isolated p_dim] in Ed.
  pose proof (grid_filter signal n ts (fun kv => dmem (fst kv) (p_hctrls a)) G) as Ga.
  pose proof (grid_filter signal n ts (fun kv => negb (dmem (fst kv) (p_hctrls a))) G) as Gb.
  fold (of_a a signal) in Ga. fold (not_of_a a signal) in Gb.
  assert (K : forall k w, In (k, w) (not_of_a a signal) -> exists h, dget k (p_hctrls b) = Some h).
  { intros k w I. unfold pwc_controlled in Rb. destruct (negb _); [discriminate|].
    destruct (lookup_controls (p_hctrls b) (keys (not_of_a a signal))) as [hks|] eqn:El; [|discriminate].
    apply controls_found in El. clear - El I. induction El as [|kv h s hs E _ IH]; [destruct I|].
    destruct I as [->|I]; [exists h; exact E|exact (IH I)]. }
  destruct (slices_ordered m signal n ts batch r G Hn R) as (T & L & D).
  destruct (slices_ordered a _ n ts batch_a ra Ga Hn Ra) as (Ta & L_a & D_a).
  destruct (slices_ordered b _ n ts batch_b rb Gb Hn Rb) as (Tb & L_b & D_b).
  unfold udim in T, Ta, Tb. rewrite Lm in T, D. rewrite La in Ta, D_a. rewrite Lb in Tb, D_b.
  set (da := p_dim a) in *. set (db := p_dim b) in *. rewrite Ed in *. set (N := da * db) in *.
  apply (ordered_rel mat mat mat (mmul (N * N)) (mmul (da * da)) (mmul (db * db))
    (fun u x y => forall X Y, meq N N (evolved N u (kron db db X Y)) (kron db db (evolved da x X) (evolved db y Y)))) with (us := pr_dUs r) (uas := pr_dUs ra) (ubs := pr_dUs rb);
    auto; try lia.
  - intros u x y u' x' y' H1 H2 X Y. rewrite (evolved_mmul N u u'), (evolved_mor N u _ _ (H2 X Y)), H1.
    apply kron_mor; symmetry; apply evolved_mmul.
  - intros t u x y H1 H2 H3 X Y. assert (Lt : t < n) by (rewrite <- L; apply nth_error_Some; congruence).
    rewrite (D t Lt) in H1. rewrite (D_a t Lt) in H2. rewrite (D_b t Lt) in H3. injection H1 as <-. injection H2 as <-. injection H3 as <-.
    rewrite Ec. apply slice_product; auto.
    pose proof (driven_sum (isolated a) (isolated b) (isolated m) signal t Un K) as S.
    cbn [isolated p_dim] in S. rewrite Ed in S. exact S.
Qed.
Print Assumptions C145_independent.

(** ** Reduced states *)
(** The density matrix of the first subsystem: the trace over the second. *)
Definition reduced (db : nat) (rho : mat) : mat := fun i j => csum db (fun k => rho (i * db + k) (j * db + k)).
Definition linear (f : mat -> C) : Prop :=
  forall n c F, f (fun i j => csum n (fun q => c q * F q i j)%C) = csum n (fun q => c q * f (F q))%C.
Lemma linear_entry : forall x y, linear (fun rho => rho x y).
Proof. intros x y n c F. reflexivity. Qed.
Lemma linear_sum : forall N a (g : nat -> mat -> C), (forall k, linear (g k)) -> linear (fun rho => csum N (fun k => a k * g k rho)%C).
Proof.
  intros N a g H n c F. transitivity (csum N (fun k => csum n (fun q => a k * (c q * g k (F q)))%C)).
  - apply csum_ext. intros k _. rewrite (H k n c F), <- csum_scale. reflexivity.
  - rewrite csum_swap. apply csum_ext. intros q _. rewrite <- csum_scale. apply csum_ext. intros; ring.
Qed.
(** Two linear functions of the state that agree on products agree on all states. *)
Lemma products_suffice : forall da db f g, linear f -> linear g ->
  (forall X Y, meq (da * db) (da * db) X Y -> f X = f Y) -> (forall X Y, meq (da * db) (da * db) X Y -> g X = g Y) ->
  (forall X Y, f (kron db db X Y) = g (kron db db X Y)) -> forall rho, f rho = g rho.
Proof.
  intros da db f g Lf Lg Mf Mg E rho. set (N := da * db) in *.
  set (unit := fun x y => (fun i j => if andb (Nat.eqb i x) (Nat.eqb j y) then RtoC 1 else RtoC 0) : mat).
  set (F := fun q => kron db db (unit (q / N / db) (q mod N / db)) (unit ((q / N) mod db) ((q mod N) mod db))).
  set (c := fun q => rho (q / N) (q mod N)).
  assert (S : meq N N rho (fun i j => csum (N * N) (fun q => c q * F q i j)%C)).
  { intros i j Hi Hj. rewrite (csum_single _ (i * N + j)).
    - unfold c, F, kron, unit. destruct (divmod_add i j N Hj) as [-> ->]. rewrite !Nat.eqb_refl. cbn [andb]. ring.
    - nia.
    - intros q Hq Nq. unfold F, kron, unit.
      assert (db <> 0) as Nz by (intros ->; unfold N in Hi; lia).
      destruct (Nat.eqb_spec (i / db) (q / N / db)) as [E1|]; cbn [andb]; [|ring]. destruct (Nat.eqb_spec (j / db) (q mod N / db)) as [E2|]; [|ring].
      destruct (Nat.eqb_spec (i mod db) ((q / N) mod db)) as [E3|]; cbn [andb]; [|ring]. destruct (Nat.eqb_spec (j mod db) ((q mod N) mod db)) as [E4|]; [|ring].
      exfalso. apply Nq. assert (NZ : N <> 0) by lia.
      rewrite (Nat.div_mod q N NZ). rewrite (Nat.div_mod (q / N) db Nz), (Nat.div_mod (q mod N) db Nz), <- E1, <- E2, <- E3, <- E4.
      rewrite <- !Nat.div_mod by assumption. lia. }
  rewrite (Mf _ _ S), (Mg _ _ S), (Lf (N * N) c F), (Lg (N * N) c F). apply csum_ext. intros q _. unfold F. rewrite E. reflexivity.
Qed.
Lemma evolved_scale : forall n S c X, meq n n (evolved n S (mscale c X)) (mscale c (evolved n S X)).
Proof.
  intros n S c X i j _ _. unfold evolved, row_unstack, mmul, mscale, row_stack. rewrite <- csum_scale. apply csum_ext. intros; ring.
Qed.

(** No cross talk: what is done to the second subsystem, and what it loses, never shows in the
    first: its reduced state after the gate is the one the gate makes of its reduced state
    before, for all states of both, entangled or not. *)
Theorem C145_no_crosstalk : forall a b m signal n ts batch batch_a batch_b r ra rb,
  uncoupled_open a b m -> common_grid signal n ts -> 0 < n ->
  hermitian (p_dim b) (p_h0 b) -> (forall k h, dget k (p_hctrls b) = Some h -> hermitian (p_dim b) h) ->
  pwc_controlled a (of_a a signal) (folding_stack n) batch_a = Ok ra ->
  pwc_controlled b (not_of_a a signal) (folding_stack n) batch_b = Ok rb ->
  pwc_controlled m signal (folding_stack n) batch = Ok r ->
  forall rho, meq (p_dim a) (p_dim a) (reduced (p_dim b) (evolved (p_dim m) (pr_U r) rho))
                  (evolved (p_dim a) (pr_U ra) (reduced (p_dim b) rho)).
Proof.
  intros a b m signal n ts batch batch_a batch_b r ra rb Un G Hn H0 Hc Ra Rb R rho i j Hi Hj.
  pose proof (C145_independent a b m signal n ts batch batch_a batch_b r ra rb Un G Hn Ra Rb R) as P.
  destruct Un as ((Ed & _) & La & Lb & Lm & _). cbn [isolated p_dim] in Ed.
  assert (Tr : forall Y, mtrace (p_dim b) (evolved (p_dim b) (pr_U rb) Y) = mtrace (p_dim b) Y).
  { intro Y. apply (C82_open_density b (not_of_a a signal) (folding_stack n) batch_b rb Lb H0 Hc Rb). }
  set (da := p_dim a) in *. set (db := p_dim b) in *. rewrite Ed in *. set (N := da * db) in *.
  revert rho. apply (products_suffice da db (fun rho => reduced db (evolved N (pr_U r) rho) i j) (fun rho => evolved da (pr_U ra) (reduced db rho) i j)).
  - intros n' c F. assert (Q : linear (fun rho => csum db (fun k => RtoC 1 * csum (N * N)%nat (fun q => pr_U r ((i * db + k) * N + (j * db + k))%nat q * rho (q / N)%nat (q mod N)%nat))%C)).
    { apply (linear_sum db (fun _ => RtoC 1) (fun k rho => csum (N * N)%nat (fun q => pr_U r ((i * db + k) * N + (j * db + k))%nat q * rho (q / N)%nat (q mod N)%nat)%C)).
      intro k. apply linear_sum. intro q. apply linear_entry. }
    assert (V : forall rho, reduced db (evolved N (pr_U r) rho) i j = csum db (fun k => RtoC 1 * csum (N * N)%nat (fun q => pr_U r ((i * db + k) * N + (j * db + k))%nat q * rho (q / N)%nat (q mod N)%nat))%C).
    { intro rho. unfold reduced, evolved, row_unstack, mmul, row_stack. apply csum_ext. intros k _. ring. }
    rewrite V, (Q n' c F). apply csum_ext. intros q _. rewrite V. reflexivity.
  - intros n' c F. assert (Q : linear (fun rho => csum (da * da)%nat (fun p => pr_U ra (i * da + j)%nat p * csum db (fun k => RtoC 1 * rho (p / da * db + k)%nat (p mod da * db + k)%nat))%C)).
    { apply (linear_sum (da * da) (fun p => pr_U ra (i * da + j)%nat p) (fun p rho => csum db (fun k => RtoC 1 * rho (p / da * db + k)%nat (p mod da * db + k)%nat)%C)).
      intro p. apply (linear_sum db (fun _ => RtoC 1) (fun k rho => rho (p / da * db + k)%nat (p mod da * db + k)%nat)). intro k. apply linear_entry. }
    assert (V : forall rho, evolved da (pr_U ra) (reduced db rho) i j = csum (da * da)%nat (fun p => pr_U ra (i * da + j)%nat p * csum db (fun k => RtoC 1 * rho (p / da * db + k)%nat (p mod da * db + k)%nat))%C).
    { intro rho. unfold reduced, evolved, row_unstack, mmul, row_stack. apply csum_ext. intros p _. f_equal. apply csum_ext. intros k _. ring. }
    rewrite V, (Q n' c F). apply csum_ext. intros q _. rewrite V. reflexivity.
  - intros X Y E. unfold reduced. apply csum_ext. intros k Hk. apply (evolved_mor N _ _ _ E); unfold N; nia.
  - intros X Y E. apply (evolved_mor da); auto. intros x y Hx Hy. unfold reduced. apply csum_ext. intros k Hk. apply E; unfold N; nia.
  - intros X Y. transitivity (evolved da (pr_U ra) X i j * mtrace db Y)%C.
    + unfold reduced. transitivity (csum db (fun k => evolved da (pr_U ra) X i j * evolved db (pr_U rb) Y k k)%C).
      * apply csum_ext. intros k Hk. rewrite (P X Y (i * db + k) (j * db + k)) by (unfold N; nia).
        unfold kron. destruct (divmod_add i k db Hk) as [-> ->]. destruct (divmod_add j k db Hk) as [-> ->]. reflexivity.
      * rewrite csum_scale. f_equal. exact (Tr Y).
    + assert (Q : meq da da (reduced db (kron db db X Y)) (mscale (mtrace db Y) X)).
      { intros x y Hx Hy. unfold reduced, mscale, kron, mtrace. rewrite <- csum_scale_r. apply csum_ext. intros k Hk.
        destruct (divmod_add x k db Hk) as [-> ->]. destruct (divmod_add y k db Hk) as [-> ->]. ring. }
      rewrite (evolved_mor da _ _ _ Q i j Hi Hj), (evolved_scale da _ _ _ i j Hi Hj). unfold mscale. ring.
Qed.
Print Assumptions C145_no_crosstalk.

(** The two qubits of [C138_example], both losing energy, the second faster. *)
Definition lowering (x : R) : mat := fun i j => if andb (Nat.eqb i 0) (Nat.eqb j 1) then RtoC x else RtoC 0.
Definition open_one (x : R) (line : string) : pmodel :=
  {| p_dim := 2; p_h0 := sz; p_hctrls := [(line, sx)]; p_lind := true; p_cols := [lowering x]; p_dims := [2]; p_max_ex := 0 |}.
Definition open_two : pmodel :=
  {| p_dim := 4; p_h0 := p_h0 two_qubits; p_hctrls := p_hctrls two_qubits; p_lind := true;
     p_cols := [embed 0 (lowering 1); embed 1 (lowering 2)]; p_dims := [2; 2]; p_max_ex := 0 |}.
Example C145_example :
  uncoupled_open (open_one 1 "d1") (open_one 2 "d2") open_two
  /\ common_grid both_lines 4 [0%R; 1%R; 2%R; 3%R]
  /\ hermitian 2 sz /\ (forall k h, dget k (p_hctrls (open_one 2 "d2")) = Some h -> hermitian 2 h)
  /\ (exists r, pwc_controlled (open_one 1 "d1") (of_a (open_one 1 "d1") both_lines) (folding_stack 4) None = Ok r)
  /\ (exists r, pwc_controlled (open_one 2 "d2") (not_of_a (open_one 1 "d1") both_lines) (folding_stack 4) None = Ok r)
  /\ (exists r, pwc_controlled open_two both_lines (folding_stack 4) None = Ok r).
Proof.
  assert (E : forall k A, k < 2 -> acts_on 2 2 k A (embed k A)).
  { intros k A Hk. unfold acts_on, embed. destruct k as [|[|k]]; [| |lia]; eexists; split; reflexivity. }
  assert (Z : hermitian 2 sz) by (intros [|[|i]] [|[|j]] Hi Hj; try lia; apply injective_projections; cbn; ring).
  assert (X : hermitian 2 sx) by (intros [|[|i]] [|[|j]] Hi Hj; try lia; apply injective_projections; cbn; ring).
  split; [|split; [|split; [exact Z|split; [|split; [|split]]]]].
  - split; [|split; [reflexivity|split; [reflexivity|split; [reflexivity|]]]].
    + exact (proj1 C138_example).
    + exists [embed 0 (lowering 1)], [embed 1 (lowering 2)]. repeat split; repeat constructor; apply E; lia.
  - intros k w [H|[H|[]]]; injection H as <- <-; split; reflexivity.
  - intros k h. cbn. destruct (String.eqb _ _); [intro H; injection H as <-; exact X|discriminate].
  - eexists. reflexivity.
  - eexists. reflexivity.
  - eexists. reflexivity.
Qed.
