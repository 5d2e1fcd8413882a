From Verif Require Import Base Mat MExp HilbertModel HilbertProofs GateModel.
Local Open Scope list_scope.
Local Open Scope nat_scope.
Local Notation length := List.length.

(** ** Gaussian integers *)
Definition gadd (a b : gz) : gz := (fst a + fst b, snd a + snd b)%Z.
Definition gmul (a b : gz) : gz := (fst a * fst b - snd a * snd b, fst a * snd b + snd a * fst b)%Z.
Definition gconj (a : gz) : gz := (fst a, - snd a)%Z.
Definition gnorm (a : gz) : Z := (fst a * fst a + snd a * snd a)%Z.
Definition gofz (z : Z) : gz := (z, 0%Z).
Definition geqb (a b : gz) : bool := (Z.eqb (fst a) (fst b) && Z.eqb (snd a) (snd b))%bool.

Lemma gev_add : forall a b, gev (gadd a b) = Cplus (gev a) (gev b).
Proof. intros. unfold gev, gadd, Cplus. simpl. rewrite !plus_IZR. reflexivity. Qed.
Lemma gev_mul : forall a b, gev (gmul a b) = Cmult (gev a) (gev b).
Proof. intros. unfold gev, gmul, Cmult. simpl. rewrite minus_IZR, plus_IZR, !mult_IZR. reflexivity. Qed.
Lemma gev_conj : forall a, gev (gconj a) = Cconj (gev a).
Proof. intros. unfold gev, gconj, Cconj. simpl. rewrite opp_IZR. reflexivity. Qed.
Lemma gev_z : forall z, gev (gofz z) = RtoC (IZR z).
Proof. reflexivity. Qed.
Lemma geqb_eq : forall a b, geqb a b = true -> a = b.
Proof.
  intros [a a'] [b b'] H. unfold geqb in H. apply andb_true_iff in H. destruct H as [H1 H2].
  apply Z.eqb_eq in H1, H2. simpl in *. congruence.
Qed.
Lemma gev_norm : forall a, (Cmod (gev a) ^ 2)%R = IZR (gnorm a).
Proof.
  intros a. unfold Cmod. rewrite pow2_sqrt.
  - unfold gev, gnorm. cbn [fst snd]. rewrite plus_IZR, !mult_IZR. ring.
  - apply Rplus_le_le_0_compat; apply pow2_ge_0.
Qed.

Fixpoint gsum (n : nat) (f : nat -> gz) : gz :=
  match n with 0 => i0 | S k => gadd (gsum k f) (f k) end.
Lemma gsum_ev : forall n f, gev (gsum n f) = csum n (fun i => gev (f i)).
Proof. induction n; intros f; [reflexivity|]. cbn [gsum csum]. rewrite gev_add, IHn. reflexivity. Qed.

Lemma nth_map_seq : forall {A} (f : nat -> A) n i d, i < n -> nth i (map f (seq 0 n)) d = f i.
Proof.
  intros A f n i d H. rewrite (nth_indep _ d (f 0)) by (rewrite map_length, seq_length; auto).
  rewrite map_nth, seq_nth; auto.
Qed.
Definition gtab (n : nat) (f : nat -> nat -> gz) : list (list gz) :=
  map (fun i => map (fun j => f i j) (seq 0 n)) (seq 0 n).
Lemma gtab_entry : forall n f i j, i < n -> j < n -> gentry (gtab n f) i j = f i j.
Proof.
  intros n f i j Hi Hj. unfold gentry, gtab.
  rewrite (nth_map_seq (fun i => map (fun j => f i j) (seq 0 n))) by auto.
  apply (nth_map_seq (fun j => f i j)); auto.
Qed.

Definition lit := (nat * list (list gz))%type.
Definition lev (x : lit) : mat := gl (fst x) (snd x).
Definition lmul (n : nat) (x y : lit) : lit :=
  (fst x + fst y, gtab n (fun i j => gsum n (fun l => gmul (gentry (snd x) i l) (gentry (snd y) l j)))).
Definition ladj (n : nat) (x : lit) : lit := (fst x, gtab n (fun i j => gconj (gentry (snd x) j i))).
Definition lid (n : nat) : lit := (0, gtab n (fun i j => if Nat.eqb i j then i1 else i0)).

Lemma Cpow_plus : forall a m n, Cpow a (m + n) = Cmult (Cpow a m) (Cpow a n).
Proof. intros a m n. induction m; simpl; [ring|]. rewrite IHm. ring. Qed.
Lemma Cpow_conj_R : forall r n, Cconj (Cpow (RtoC r) n) = Cpow (RtoC r) n.
Proof. intros r n. induction n; simpl; [apply conj_R|]. rewrite conj_mult, conj_R, IHn. reflexivity. Qed.

Lemma lmul_ev : forall n x y, meq n n (lev (lmul n x y)) (mmul n (lev x) (lev y)).
Proof.
  intros n x y i j Hi Hj. unfold lev, lmul, gl, mmul. cbn [fst snd]. rewrite gtab_entry by auto.
  rewrite gsum_ev, <- csum_scale. apply csum_ext. intros l Hl. rewrite gev_mul, Cpow_plus. ring.
Qed.
Lemma ladj_ev : forall n x, meq n n (lev (ladj n x)) (madj (lev x)).
Proof.
  intros n x i j Hi Hj. unfold lev, ladj, gl, madj. cbn [fst snd]. rewrite gtab_entry by auto.
  rewrite gev_conj, conj_mult. unfold s2. rewrite Cpow_conj_R. reflexivity.
Qed.
Lemma lid_ev : forall n, meq n n (lev (lid n)) mid.
Proof.
  intros n i j Hi Hj. unfold lev, lid, gl, mid. cbn [fst snd Cpow]. rewrite gtab_entry by auto.
  destruct (Nat.eqb i j); unfold gev; cbn [fst snd].
  - change (IZR 1, IZR 0) with (RtoC 1). ring.
  - change (IZR 0, IZR 0) with (RtoC 0). ring.
Qed.

Lemma s2_sqr : Cmult s2 s2 = RtoC (/ 2).
Proof.
  unfold s2. rewrite <- RtoC_mult. f_equal. rewrite <- Rinv_mult. rewrite sqrt_sqrt; [reflexivity|lra].
Qed.
Lemma s2_pow : forall k, Cmult (Cpow s2 (k + k)) (RtoC (IZR (2 ^ Z.of_nat k))) = RtoC 1.
Proof.
  induction k as [|k IH].
  - simpl. ring.
  - replace (S k + S k) with (S (S (k + k))) by lia. cbn [Cpow].
    rewrite Nat2Z.inj_succ, Z.pow_succ_r by lia. rewrite mult_IZR, RtoC_mult.
    transitivity (Cmult (Cmult (Cmult s2 s2) (RtoC 2)) (Cmult (Cpow s2 (k + k)) (RtoC (IZR (2 ^ Z.of_nat k))))).
    + ring.
    + rewrite IH, s2_sqr, <- RtoC_mult. rewrite Rinv_l by lra. ring.
Qed.
Lemma s2_nz : forall k, Cpow s2 k <> RtoC 0.
Proof.
  intros k H. pose proof (s2_pow k) as P. rewrite Cpow_plus, H in P.
  apply (f_equal fst) in P. unfold Cmult in P. simpl in P. lra.
Qed.

(** ** Checks by computation *)
Definition forall2b (n : nat) (f : nat -> nat -> bool) : bool :=
  forallb (fun i => forallb (f i) (seq 0 n)) (seq 0 n).
Lemma forall2b_spec : forall n f, forall2b n f = true -> forall i j, i < n -> j < n -> f i j = true.
Proof.
  intros n f H i j Hi Hj. unfold forall2b in H. rewrite forallb_forall in H.
  specialize (H i ltac:(apply in_seq; lia)). rewrite forallb_forall in H. apply H. apply in_seq; lia.
Qed.

(** x is the identity after scaling: entries 2^k on the diagonal, weight 2 k. *)
Definition unitb (n : nat) (x : lit) : bool :=
  forall2b n (fun i j => geqb (gentry (snd (lmul n (ladj n x) x)) i j)
                              (if Nat.eqb i j then gofz (2 ^ Z.of_nat (fst x)) else i0))
  && forall2b n (fun i j => geqb (gentry (snd (lmul n x (ladj n x))) i j)
                              (if Nat.eqb i j then gofz (2 ^ Z.of_nat (fst x)) else i0)).
Lemma unitb_spec : forall n x, unitb n x = true -> unitary n (lev x).
Proof.
  intros n x H. unfold unitb in H. apply andb_true_iff in H. destruct H as [H1 H2].
  assert (G : forall y, fst y = fst x + fst x ->
     (forall i j, i < n -> j < n -> gentry (snd y) i j = if Nat.eqb i j then gofz (2 ^ Z.of_nat (fst x)) else i0) ->
     meq n n (lev y) mid).
  { intros y E H i j Hi Hj. unfold lev, gl, mid. rewrite H, E by auto. destruct (Nat.eqb i j).
    - rewrite gev_z. apply s2_pow.
    - change (gev i0) with (RtoC 0). ring. }
  split.
  - rewrite <- (ladj_ev n x), <- lmul_ev. apply G; [reflexivity|].
    intros i j Hi Hj. apply geqb_eq. apply (forall2b_spec _ _ H1); auto.
  - rewrite <- (ladj_ev n x), <- lmul_ev. apply G; [reflexivity|].
    intros i j Hi Hj. apply geqb_eq. apply (forall2b_spec _ _ H2); auto.
Qed.

(** ** Equality up to a global phase *)
Definition peq (n : nat) (A B : mat) : Prop := exists c, Cmod c = 1%R /\ meq n n A (mscale c B).
Lemma peq_refl : forall n A, peq n A A.
Proof. intros n A. exists (RtoC 1). split; [apply Cmod_1|]. rewrite mscale_1. reflexivity. Qed.
Lemma peq_meq : forall n A B, meq n n A B -> peq n A B.
Proof. intros n A B H. exists (RtoC 1). split; [apply Cmod_1|]. rewrite mscale_1. exact H. Qed.
Lemma peq_trans : forall n A B D, peq n A B -> peq n B D -> peq n A D.
Proof.
  intros n A B D (c & Hc & H) (d & Hd & H'). exists (Cmult c d). split.
  - rewrite Cmod_mult, Hc, Hd. ring.
  - rewrite H, H'. apply mscale_mscale.
Qed.
Lemma conj_unit : forall c, Cmod c = 1%R -> Cmult (Cconj c) c = RtoC 1.
Proof. intros c H. rewrite conj_mod2, H. f_equal. ring. Qed.
Lemma peq_sym : forall n A B, peq n A B -> peq n B A.
Proof.
  intros n A B (c & Hc & H). exists (Cconj c). split; [rewrite conj_mod; auto|].
  rewrite H, mscale_mscale, conj_unit by auto. rewrite mscale_1. reflexivity.
Qed.
Lemma peq_mul : forall n A A' B B', peq n A A' -> peq n B B' -> peq n (mmul n A B) (mmul n A' B').
Proof.
  intros n A A' B B' (c & Hc & H) (d & Hd & H'). exists (Cmult c d). split.
  - rewrite Cmod_mult, Hc, Hd. ring.
  - rewrite H, H', mmul_scale_l, mmul_scale_r, mscale_mscale. reflexivity.
Qed.
Lemma peq_trace : forall n A B, peq n A B -> Cmod (mtrace n A) = Cmod (mtrace n B).
Proof.
  intros n A B (c & Hc & H). rewrite (mtrace_proper n A (mscale c B) H), mtrace_scale, Cmod_mult, Hc. ring.
Qed.

(** 2x2: the phase is tr(B+ A)/2. *)
Definition ltr (x y : lit) : gz := gsum 2 (fun i => gentry (snd (lmul 2 (ladj 2 y) x)) i i).
Definition peqb (x y : lit) : bool :=
  Z.eqb (gnorm (ltr x y)) (4 * 2 ^ Z.of_nat (fst x + fst y))
  && forall2b 2 (fun i j => geqb (gmul (gentry (snd x) i j) (gofz (2 * 2 ^ Z.of_nat (fst y))))
                                 (gmul (ltr x y) (gentry (snd y) i j))).
Lemma s2_mod : forall k, (Cmod (Cpow s2 k) ^ 2 * IZR (2 ^ Z.of_nat k))%R = 1%R.
Proof.
  intros k. pose proof (s2_pow k) as P. apply (f_equal Cmod) in P.
  rewrite Cmod_mult, Cpow_plus, Cmod_mult, Cmod_1, Cmod_R, Rabs_pos_eq in P.
  - rewrite <- P. ring.
  - apply IZR_le. apply Z.pow_nonneg. lia.
Qed.
Lemma peqb_spec : forall x y, peqb x y = true -> peq 2 (lev x) (lev y).
Proof.
  intros x y H. unfold peqb in H. apply andb_true_iff in H. destruct H as [H1 H2]. apply Z.eqb_eq in H1.
  set (t := ltr x y) in *.
  exists (Cmult (Cmult (Cpow s2 (fst x + fst y)) (gev t)) (RtoC (/ 2))). split.
  - assert (S : (Cmod (Cmult (Cmult (Cpow s2 (fst x + fst y)) (gev t)) (RtoC (/ 2))) ^ 2)%R = 1%R).
    { rewrite !Cmod_mult, !Rpow_mult_distr, gev_norm, H1, Cmod_R, mult_IZR.
      rewrite (Rabs_pos_eq (/ 2)) by lra.
      transitivity ((Cmod (Cpow s2 (fst x + fst y)) ^ 2 * IZR (2 ^ Z.of_nat (fst x + fst y))) * (4 * (/ 2) ^ 2))%R.
      - ring.
      - rewrite s2_mod. field. }
    pose proof (Cmod_ge_0 (Cmult (Cmult (Cpow s2 (fst x + fst y)) (gev t)) (RtoC (/ 2)))) as P.
    apply Rsqr_inj; [exact P|lra|]. unfold Rsqr. rewrite Rmult_1_l. rewrite <- S. ring.
  - intros i j Hi Hj. pose proof (geqb_eq _ _ (forall2b_spec _ _ H2 i j Hi Hj)) as E.
    apply (f_equal gev) in E. rewrite !gev_mul, gev_z, mult_IZR, RtoC_mult in E.
    unfold lev, gl, mscale. rewrite Cpow_plus.
    transitivity (Cmult (Cmult (Cpow s2 (fst x)) (Cmult (Cpow s2 (fst y + fst y)) (RtoC (/ 2))))
                        (Cmult (gev t) (gev (gentry (snd y) i j)))).
    + rewrite <- E.
      transitivity (Cmult (Cmult (Cpow s2 (fst x)) (gev (gentry (snd x) i j)))
         (Cmult (Cmult (Cpow s2 (fst y + fst y)) (RtoC (IZR (2 ^ Z.of_nat (fst y))))) (Cmult (RtoC (/ 2)) (RtoC 2)))).
      * rewrite s2_pow, <- RtoC_mult, Rinv_l by lra. ring.
      * ring.
    + rewrite Cpow_plus. ring.
Qed.

(** Trace of a product, squared modulus. *)
Definition ltrace (x : lit) : gz := gsum 2 (fun i => gentry (snd x) i i).
Lemma ltrace_ev : forall x, (Cmod (mtrace 2 (lev x)) ^ 2 * IZR (2 ^ Z.of_nat (fst x)))%R = IZR (gnorm (ltrace x)).
Proof.
  intros x. unfold mtrace, lev, gl. rewrite csum_scale. rewrite <- gsum_ev. fold (ltrace x).
  rewrite Cmod_mult, Rpow_mult_distr, gev_norm.
  transitivity (Cmod (Cpow s2 (fst x)) ^ 2 * IZR (2 ^ Z.of_nat (fst x)) * IZR (gnorm (ltrace x)))%R; [ring|].
  rewrite s2_mod. ring.
Qed.

(** ** The Clifford table *)
Definition glit (name : string) : lit := match dget name GATE_LITERALS with Some x => x | None => (0, []) end.
Lemma gates_get : forall name, dget name GATES = match dget name GATE_LITERALS with Some x => Some (lit_smat x) | None => None end.
Proof.
  intros name. unfold GATES. induction GATE_LITERALS as [|[k v] d IH]; [reflexivity|].
  cbn [map dget fst snd]. destruct (String.eqb name k); auto.
Qed.
Lemma gate2_lit : forall name, dget name GATE_LITERALS <> None -> gate2 name = lev (glit name).
Proof.
  intros name H. unfold gate2, glit. rewrite gates_get. destruct (dget name GATE_LITERALS); [reflexivity|congruence].
Qed.

(** a @ b @ c on literals, and products in time order. *)
Definition lat_prod (l : list lit) : lit := match l with [] => lid 2 | a :: r => fold_left (lmul 2) r a end.
Definition knownb (names : list string) : bool :=
  forallb (fun n => match dget n GATE_LITERALS with Some _ => true | None => false end) names.
Lemma at_prod_fold : forall (ls : list lit) (ms : list mat) x A,
    Forall2 (fun l m => meq 2 2 (lev l) m) ls ms -> meq 2 2 (lev x) A ->
    meq 2 2 (lev (fold_left (lmul 2) ls x)) (fold_left (mmul 2) ms A).
Proof.
  intros ls ms x A H. revert x A. induction H as [|l m ls ms Hlm H IH]; intros x A HA; [exact HA|].
  cbn [fold_left]. apply IH. rewrite lmul_ev, HA, Hlm. reflexivity.
Qed.
Lemma at_prod_lit : forall names, knownb names = true ->
    meq 2 2 (at_prod (map gate2 names)) (lev (lat_prod (map glit names))).
Proof.
  intros names H.
  assert (F : Forall2 (fun l m => meq 2 2 (lev l) m) (map glit names) (map gate2 names)).
  { unfold knownb in H. rewrite forallb_forall in H. induction names as [|n ns IH]; simpl; constructor.
    - rewrite gate2_lit; [reflexivity|]. specialize (H n (or_introl eq_refl)).
      destruct (dget n GATE_LITERALS); congruence.
    - apply IH. intros x Hx. apply H. right; auto. }
  destruct names as [|n ns]; [symmetry; apply lid_ev|]. cbn [map at_prod lat_prod] in *. symmetry.
  inversion F; subst. apply at_prod_fold; auto.
Qed.

Definition cliff_lits : list lit := Eval vm_compute in map (fun fs => lat_prod (map glit fs)) CLIFFORD_FACTORS.
Lemma cliff_lits_eq : cliff_lits = map (fun fs => lat_prod (map glit fs)) CLIFFORD_FACTORS.
Proof. vm_compute. reflexivity. Qed.
Definition clit (i : nat) : lit := nth (i - 1) cliff_lits (0, []).
Lemma clifford_lit : forall i, 1 <= i <= 24 -> meq 2 2 (clifford i) (lev (clit i)).
Proof.
  intros i Hi. unfold clifford, clit, CLIFFORDS. rewrite cliff_lits_eq.
  assert (K : forallb knownb CLIFFORD_FACTORS = true) by (vm_compute; reflexivity).
  rewrite forallb_forall in K.
  assert (L : i - 1 < length CLIFFORD_FACTORS) by (simpl length; lia).
  rewrite (nth_indep _ mzero (at_prod (map gate2 []))) by (rewrite map_length; auto).
  rewrite (map_nth (fun fs => at_prod (map gate2 fs))).
  rewrite (nth_indep _ (0, []) (lat_prod (map glit []))) by (rewrite map_length; auto).
  rewrite (map_nth (fun fs => lat_prod (map glit fs))).
  apply at_prod_lit. apply K. apply nth_In. auto.
Qed.

Definition all24 (P : nat -> bool) : bool := forallb P (seq 1 24).
Lemma all24_spec : forall P, all24 P = true -> forall i, 1 <= i <= 24 -> P i = true.
Proof. intros P H i Hi. unfold all24 in H. rewrite forallb_forall in H. apply H. apply in_seq. lia. Qed.
Definition ex24 (P : nat -> bool) : bool := existsb P (seq 1 24).
Lemma ex24_spec : forall P, ex24 P = true -> exists i, 1 <= i <= 24 /\ P i = true.
Proof.
  intros P H. apply existsb_exists in H. destruct H as (i & Hi & H). apply in_seq in Hi. exists i. split; [lia|auto].
Qed.

Lemma cliff_closed : forall i j, 1 <= i <= 24 -> 1 <= j <= 24 ->
    exists t, 1 <= t <= 24 /\ peq 2 (mmul 2 (clifford i) (clifford j)) (clifford t).
Proof.
  assert (K : all24 (fun i => all24 (fun j => ex24 (fun t => peqb (lmul 2 (clit i) (clit j)) (clit t)))) = true)
    by (vm_compute; reflexivity).
  intros i j Hi Hj. pose proof (all24_spec _ (all24_spec _ K i Hi) j Hj) as E.
  destruct (ex24_spec _ E) as (t & Ht & P). exists t. split; auto. apply peqb_spec in P.
  eapply peq_trans; [|eapply peq_trans; [exact P|]].
  - apply peq_meq. rewrite lmul_ev, (clifford_lit i Hi), (clifford_lit j Hj). reflexivity.
  - apply peq_meq. symmetry. apply clifford_lit; auto.
Qed.
Lemma cliff_inverse : forall i, 1 <= i <= 24 ->
    exists t, 1 <= t <= 24 /\ peq 2 (mmul 2 (clifford t) (clifford i)) mid /\ peq 2 (mmul 2 (clifford i) (clifford t)) mid.
Proof.
  assert (K : all24 (fun i => ex24 (fun t => peqb (lmul 2 (clit t) (clit i)) (lid 2)
                                           && peqb (lmul 2 (clit i) (clit t)) (lid 2))) = true)
    by (vm_compute; reflexivity).
  intros i Hi. destruct (ex24_spec _ (all24_spec _ K i Hi)) as (t & Ht & P). exists t. split; auto.
  apply andb_true_iff in P. destruct P as [P1 P2]. apply peqb_spec in P1, P2.
  split.
  - eapply peq_trans; [|eapply peq_trans; [exact P1|apply peq_meq; apply lid_ev]]. apply peq_meq.
    rewrite lmul_ev, (clifford_lit i Hi), (clifford_lit t Ht). reflexivity.
  - eapply peq_trans; [|eapply peq_trans; [exact P2|apply peq_meq; apply lid_ev]]. apply peq_meq.
    rewrite lmul_ev, (clifford_lit i Hi), (clifford_lit t Ht). reflexivity.
Qed.
(** Squared trace modulus of a product of two Cliffords is 4 or at most 2. *)
Lemma cliff_trace : forall i j, 1 <= i <= 24 -> 1 <= j <= 24 ->
    peq 2 (mmul 2 (clifford i) (clifford j)) mid
    \/ (Cmod (mtrace 2 (mmul 2 (clifford i) (clifford j))) ^ 2 <= 2)%R.
Proof.
  assert (K : all24 (fun i => all24 (fun j => let x := lmul 2 (clit i) (clit j) in
       (peqb x (lid 2) || Z.leb (gnorm (ltrace x)) (2 * 2 ^ Z.of_nat (fst x)))%bool)) = true)
    by (vm_compute; reflexivity).
  intros i j Hi Hj. pose proof (all24_spec _ (all24_spec _ K i Hi) j Hj) as E. cbv zeta in E.
  assert (M : meq 2 2 (mmul 2 (clifford i) (clifford j)) (lev (lmul 2 (clit i) (clit j)))).
  { rewrite lmul_ev, (clifford_lit i Hi), (clifford_lit j Hj). reflexivity. }
  apply orb_true_iff in E. destruct E as [E|E].
  - left. apply peqb_spec in E. eapply peq_trans; [apply peq_meq, M|]. eapply peq_trans; [exact E|].
    apply peq_meq, lid_ev.
  - right. apply Z.leb_le in E. apply IZR_le in E. rewrite mult_IZR in E.
    pose proof (ltrace_ev (lmul 2 (clit i) (clit j))) as T.
    rewrite (mtrace_proper 2 _ _ M). rewrite <- T in E.
    assert (P : (0 < IZR (2 ^ Z.of_nat (fst (lmul 2 (clit i) (clit j)))))%R).
    { apply IZR_lt. apply Z.pow_pos_nonneg; lia. }
    eapply Rmult_le_reg_r; eauto.
Qed.
Lemma cliff_distinct : forall i j, 1 <= i <= 24 -> 1 <= j <= 24 -> i <> j -> ~ peq 2 (clifford i) (clifford j).
Proof.
  assert (K : all24 (fun i => all24 (fun j => let x := lmul 2 (ladj 2 (clit j)) (clit i) in
       (Nat.eqb i j || negb (Z.eqb (gnorm (ltrace x)) (4 * 2 ^ Z.of_nat (fst x))))%bool)) = true)
    by (vm_compute; reflexivity).
  assert (KU : all24 (fun i => unitb 2 (clit i)) = true) by (vm_compute; reflexivity).
  intros i j Hi Hj Hne Hp. pose proof (all24_spec _ (all24_spec _ K i Hi) j Hj) as E. cbv zeta in E.
  apply orb_true_iff in E. destruct E as [E|E]; [apply Nat.eqb_eq in E; contradiction|].
  apply negb_true_iff, Z.eqb_neq in E. apply E.
  apply eq_IZR. rewrite mult_IZR. rewrite <- ltrace_ev.
  assert (U : unitary 2 (clifford j)).
  { destruct (unitb_spec _ _ (all24_spec _ KU j Hj)) as [U1 U2]. split; rewrite (clifford_lit j Hj); auto. }
  assert (T : Cmod (mtrace 2 (lev (lmul 2 (ladj 2 (clit j)) (clit i)))) = 2%R).
  { assert (Q : peq 2 (lev (lmul 2 (ladj 2 (clit j)) (clit i))) mid).
    { eapply peq_trans.
      - apply peq_meq. rewrite lmul_ev, ladj_ev, <- (clifford_lit i Hi), <- (clifford_lit j Hj). reflexivity.
      - eapply peq_trans; [apply peq_mul; [apply peq_refl|exact Hp]|]. apply peq_meq. apply U. }
    rewrite (peq_trace _ _ _ Q), mtrace_id, Cmod_R. simpl. rewrite Rabs_pos_eq; lra. }
  rewrite T. ring.
Qed.
