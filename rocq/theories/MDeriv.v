(** Derivatives of matrix valued functions of the time, the derivative of the matrix
    exponential, and a mean value inequality for the Euclidean (Frobenius) norm. *)
From Coq Require Import Reals Lra Lia Setoid Morphisms.
From Coquelicot Require Import Coquelicot.
From Verif Require Import Base Mat MExp RSum.
Local Open Scope R_scope.

(** ** Complex valued functions *)
Definition cderive (f : R -> C) (t : R) (d : C) : Prop :=
  is_derive (fun s => fst (f s)) t (fst d) /\ is_derive (fun s => snd (f s)) t (snd d).
Lemma cderive_ext : forall f g t d, (forall s, f s = g s) -> cderive f t d -> cderive g t d.
Proof.
  intros f g t d H [A B]. split; (eapply is_derive_ext; [|eassumption]); intro s; cbv beta; rewrite H; reflexivity.
Qed.
Lemma cderive_eq : forall f t d d', d = d' -> cderive f t d -> cderive f t d'.
Proof. intros f t d d' ->. auto. Qed.
Lemma cderive_const : forall c t, cderive (fun _ => c) t (RtoC 0).
Proof. intros c t. split; apply (is_derive_const (V := R_NormedModule)). Qed.
Lemma cderive_plus : forall f g t a b, cderive f t a -> cderive g t b -> cderive (fun s => f s + g s)%C t (a + b)%C.
Proof.
  intros f g t a b [A1 A2] [B1 B2]. split; cbn [fst snd Cplus];
    [apply (is_derive_plus (V := R_NormedModule) (fun s => fst (f s)) (fun s => fst (g s)))
    |apply (is_derive_plus (V := R_NormedModule) (fun s => snd (f s)) (fun s => snd (g s)))]; auto.
Qed.
Lemma cderive_opp : forall f t a, cderive f t a -> cderive (fun s => - f s)%C t (- a)%C.
Proof.
  intros f t a [A1 A2]. split; cbn [fst snd Copp];
    [apply (is_derive_opp (V := R_NormedModule) (fun s => fst (f s)))
    |apply (is_derive_opp (V := R_NormedModule) (fun s => snd (f s)))]; auto.
Qed.
Lemma rderive_mult : forall f g t a b, is_derive f t a -> is_derive g t b ->
  is_derive (fun s : R => f s * g s) t (a * g t + f t * b).
Proof.
  intros f g t a b A B. apply (is_derive_mult (K := R_AbsRing)); auto. intros x y. apply Rmult_comm.
Qed.
Lemma rderive_minus : forall f g t (a b : R), is_derive f t a -> is_derive g t b -> is_derive (fun s : R => f s - g s) t (a - b).
Proof. intros f g t a b A B. apply (is_derive_minus (V := R_NormedModule) f g); auto. Qed.
Lemma rderive_plus : forall f g t (a b : R), is_derive f t a -> is_derive g t b -> is_derive (fun s : R => f s + g s) t (a + b).
Proof. intros f g t a b A B. apply (is_derive_plus (V := R_NormedModule) f g); auto. Qed.
Lemma cderive_mult : forall f g t a b, cderive f t a -> cderive g t b ->
  cderive (fun s => f s * g s)%C t (a * g t + f t * b)%C.
Proof.
  intros f g t a b [A1 A2] [B1 B2]. split; cbn [fst snd Cplus Cmult].
  - eapply (is_derive_ext (fun s => fst (f s) * fst (g s) - snd (f s) * snd (g s))); [reflexivity|].
    replace (fst a * fst (g t) - snd a * snd (g t) + (fst (f t) * fst b - snd (f t) * snd b))
      with ((fst a * fst (g t) + fst (f t) * fst b) - (snd a * snd (g t) + snd (f t) * snd b)) by ring.
    apply (rderive_minus (fun s => fst (f s) * fst (g s)) (fun s => snd (f s) * snd (g s))).
    + apply (rderive_mult (fun s => fst (f s)) (fun s => fst (g s))); auto.
    + apply (rderive_mult (fun s => snd (f s)) (fun s => snd (g s))); auto.
  - eapply (is_derive_ext (fun s => fst (f s) * snd (g s) + snd (f s) * fst (g s))); [reflexivity|].
    replace (fst a * snd (g t) + snd a * fst (g t) + (fst (f t) * snd b + snd (f t) * fst b))
      with ((fst a * snd (g t) + fst (f t) * snd b) + (snd a * fst (g t) + snd (f t) * fst b)) by ring.
    apply (rderive_plus (fun s => fst (f s) * snd (g s)) (fun s => snd (f s) * fst (g s))).
    + apply (rderive_mult (fun s => fst (f s)) (fun s => snd (g s))); auto.
    + apply (rderive_mult (fun s => snd (f s)) (fun s => fst (g s))); auto.
Qed.
Lemma cderive_scale : forall c f t a, cderive f t a -> cderive (fun s => c * f s)%C t (c * a)%C.
Proof.
  intros c f t a H. eapply cderive_eq; [|apply (cderive_mult (fun _ => c) f); [apply cderive_const|exact H]]. ring.
Qed.
Lemma cderive_conj : forall f t a, cderive f t a -> cderive (fun s => Cconj (f s)) t (Cconj a).
Proof.
  intros f t a [A B]. split; cbn [fst snd Cconj]; [exact A|].
  apply (is_derive_opp (V := R_NormedModule) (fun s => snd (f s))). exact B.
Qed.
Lemma cderive_sum : forall n (f : nat -> R -> C) t (d : nat -> C), (forall k, (k < n)%nat -> cderive (f k) t (d k)) ->
  cderive (fun s => csum n (fun k => f k s)) t (csum n d).
Proof.
  induction n as [|n IH]; intros f t d H; cbn [csum]; [apply cderive_const|].
  apply (cderive_plus (fun s => csum n (fun k => f k s)) (f n)); [apply IH; intros; apply H; lia|apply H; lia].
Qed.

(** ** Matrix valued functions: entry by entry *)
Definition mderive (n m : nat) (F : R -> mat) (t : R) (D : mat) : Prop :=
  forall i j, (i < n)%nat -> (j < m)%nat -> cderive (fun s => F s i j) t (D i j).
Lemma mderive_eq : forall n m F t D D', meq n m D D' -> mderive n m F t D -> mderive n m F t D'.
Proof. intros n m F t D D' E H i j Hi Hj. eapply cderive_eq; [apply E; auto|apply H; auto]. Qed.
Lemma mderive_const : forall n m A t, mderive n m (fun _ => A) t mzero.
Proof. intros n m A t i j _ _. apply cderive_const. Qed.
Lemma mderive_mul : forall n k m F G t A B, mderive n k F t A -> mderive k m G t B ->
  mderive n m (fun s => mmul k (F s) (G s)) t (madd (mmul k A (G t)) (mmul k (F t) B)).
Proof.
  intros n k m F G t A B HA HB i j Hi Hj. unfold mmul, madd. rewrite <- csum_plus.
  apply (cderive_sum k (fun l s => F s i l * G s l j)%C). intros l Hl.
  apply (cderive_mult (fun s => F s i l) (fun s => G s l j)); auto.
Qed.
Lemma mderive_adj : forall n m F t A, mderive n m F t A -> mderive m n (fun s => madj (F s)) t (madj A).
Proof. intros n m F t A H i j Hi Hj. unfold madj. apply (cderive_conj (fun s => F s j i)). auto. Qed.

(** ** The exponential *)
Lemma disk_radius : forall a r, (forall x, CV_disk a x) -> Rbar_lt (Finite r) (CV_radius a).
Proof.
  intros a r H. unfold CV_radius. destruct (Lub_Rbar_correct (CV_disk a)) as [U _].
  apply Rbar_lt_le_trans with (Finite (r + 1)); [cbn; lra|]. apply U. apply H.
Qed.
(** Real power series in s with coefficients c_k/k!. *)
Lemma exp_pseries : forall (c : nat -> R), (forall s : R, ex_series (fun k => Rabs (c k / INR (fact k) * s ^ k))) ->
  forall s, is_derive (fun x => Series (fun k => c k / INR (fact k) * x ^ k)) s
                      (Series (fun k => c (S k) / INR (fact k) * s ^ k)).
Proof.
  intros c H s.
  pose proof (is_derive_PSeries (fun k => c k / INR (fact k)) s) as D.
  specialize (D (disk_radius _ (Rabs s) H)).
  replace (Series (fun k => c (S k) / INR (fact k) * s ^ k)) with (PSeries (PS_derive (fun k => c k / INR (fact k))) s); [exact D|].
  unfold PSeries. apply Series_ext. intro k. unfold PS_derive. f_equal.
  rewrite fact_simpl, mult_INR. field. split; [apply INR_fact_neq_0|]. apply not_0_INR. lia.
Qed.
Lemma mexp_derive : forall n A t, mderive n n (fun s => mexp n (mscale (RtoC s) A)) t (mmul n A (mexp n (mscale (RtoC t) A))).
Proof.
  intros n A t i j Hi Hj.
  assert (T1 : forall s k, fst (taylor_term n (mscale (RtoC s) A) k i j) = fst (mpow n A k i j) / INR (fact k) * s ^ k).
  { intros s k. rewrite taylor_real by auto. unfold Cmult, RtoC. cbn [fst snd]. unfold Rdiv. ring. }
  assert (T2 : forall s k, snd (taylor_term n (mscale (RtoC s) A) k i j) = snd (mpow n A k i j) / INR (fact k) * s ^ k).
  { intros s k. rewrite taylor_real by auto. unfold Cmult, RtoC. cbn [fst snd]. unfold Rdiv. ring. }
  assert (E : mmul n A (mexp n (mscale (RtoC t) A)) i j
              = cser (fun k => RtoC (t ^ k / INR (fact k)) * mpow n A (S k) i j)%C).
  { symmetry. apply cser_unique.
    eapply is_cser_ext; [|apply (is_cser_sum n (fun k l => A i l * taylor_term n (mscale (RtoC t) A) k l j)%C)].
    - intro k. cbv beta. rewrite (mpow_S_l n A k i j Hi Hj). unfold mmul at 1. rewrite <- csum_scale. apply csum_ext. intros l Hl.
      rewrite taylor_real by auto. ring.
    - intros l Hl. apply is_cser_scale. apply mexp_is; auto. }
  rewrite E. split.
  - apply (is_derive_ext (fun s => Series (fun k => fst (mpow n A k i j) / INR (fact k) * s ^ k))).
    { intro s. unfold mexp, cser. cbn [fst]. apply Series_ext. intro k. rewrite T1. reflexivity. }
    unfold cser. cbn [fst].
    replace (Series (fun k => fst (RtoC (t ^ k / INR (fact k)) * mpow n A (S k) i j)%C))
      with (Series (fun k => fst (mpow n A (S k) i j) / INR (fact k) * t ^ k)).
    + apply (exp_pseries (fun k => fst (mpow n A k i j))). intro s.
      eapply ex_series_ext; [|apply (acser_fst _ (taylor_abs n (mscale (RtoC s) A) i j Hi Hj))].
      intro k. cbv beta. rewrite T1. reflexivity.
    + apply Series_ext. intro k. unfold Cmult, RtoC. cbn [fst snd]. unfold Rdiv. ring.
  - apply (is_derive_ext (fun s => Series (fun k => snd (mpow n A k i j) / INR (fact k) * s ^ k))).
    { intro s. unfold mexp, cser. cbn [snd]. apply Series_ext. intro k. rewrite T2. reflexivity. }
    unfold cser. cbn [snd].
    replace (Series (fun k => snd (RtoC (t ^ k / INR (fact k)) * mpow n A (S k) i j)%C))
      with (Series (fun k => snd (mpow n A (S k) i j) / INR (fact k) * t ^ k)).
    + apply (exp_pseries (fun k => snd (mpow n A k i j))). intro s.
      eapply ex_series_ext; [|apply (acser_snd _ (taylor_abs n (mscale (RtoC s) A) i j Hi Hj))].
      intro k. cbv beta. rewrite T2. reflexivity.
    + apply Series_ext. intro k. unfold Cmult, RtoC. cbn [fst snd]. unfold Rdiv. ring.
Qed.

(** ** The norm *)
Definition fro (n m : nat) (A : mat) : R := sqrt (nrm2 n m A).
Lemma fro_nonneg : forall n m A, 0 <= fro n m A.
Proof. intros. apply sqrt_pos. Qed.
Lemma fro_sqr : forall n m A, fro n m A * fro n m A = nrm2 n m A.
Proof. intros. apply sqrt_sqrt, nrm2_nonneg. Qed.
Global Instance fro_proper : forall n m, Proper (meq n m ==> eq) (fro n m).
Proof. intros n m A B H. unfold fro. rewrite (nrm2_proper n m A B H). reflexivity. Qed.
Lemma cauchy_schwarz : forall n m A B, Cmod (inner n m A B) <= fro n m A * fro n m B.
Proof.
  intros n m A B. destruct (Rle_lt_or_eq_dec 0 (nrm2 n m B) (nrm2_nonneg n m B)) as [P|Z].
  - pose proof (inner_bound n m A B _ P eq_refl) as I.
    apply Rsqr_incr_0; [|apply Cmod_ge_0|apply Rmult_le_pos; apply fro_nonneg].
    unfold Rsqr. replace (fro n m A * fro n m B * (fro n m A * fro n m B)) with (fro n m A * fro n m A * (fro n m B * fro n m B)) by ring.
    rewrite !fro_sqr. nra.
  - symmetry in Z. pose proof (nrm2_zero n m B Z) as E.
    rewrite (inner_mor n m A A B mzero (reflexivity A) E).
    replace (inner n m A mzero) with (RtoC 0).
    + rewrite Cmod_0. apply Rmult_le_pos; apply fro_nonneg.
    + symmetry. unfold inner. apply csum_0. intros i _. apply csum_0. intros j _. unfold mzero. rewrite conj_R. ring.
Qed.
Lemma fst_le : forall z, fst z <= Cmod z.
Proof. intro z. eapply Rle_trans; [apply Rle_abs|apply fst_le_Cmod]. Qed.
Lemma nrm2_fst : forall n m A, fst (inner n m A A) = nrm2 n m A.
Proof. intros. rewrite nrm2_inner. reflexivity. Qed.
Lemma inner_add_l : forall n m A B D, inner n m (madd A B) D = (inner n m A D + inner n m B D)%C.
Proof.
  intros. unfold inner. rewrite <- csum_plus. apply csum_ext. intros i _. rewrite <- csum_plus. apply csum_ext. intros j _.
  unfold madd. ring.
Qed.
Lemma fro_triangle : forall n m A B, fro n m (madd A B) <= fro n m A + fro n m B.
Proof.
  intros n m A B. destruct (Rle_lt_or_eq_dec 0 (fro n m (madd A B)) (fro_nonneg n m _)) as [P|Z].
  - apply Rmult_le_reg_r with (fro n m (madd A B)); [exact P|].
    rewrite fro_sqr, <- nrm2_fst, inner_add_l. cbn [fst Cplus].
    pose proof (fst_le (inner n m A (madd A B))). pose proof (fst_le (inner n m B (madd A B))).
    pose proof (cauchy_schwarz n m A (madd A B)). pose proof (cauchy_schwarz n m B (madd A B)). nra.
  - rewrite <- Z. pose proof (fro_nonneg n m A). pose proof (fro_nonneg n m B). lra.
Qed.
Lemma fro_scale : forall n m c A, fro n m (mscale c A) = Cmod c * fro n m A.
Proof.
  intros. unfold fro. rewrite nrm2_scale, sqrt_mult_alt by apply pow2_ge_0. rewrite sqrt_pow2 by apply Cmod_ge_0. reflexivity.
Qed.
Lemma fro_zero : forall n m A, meq n m A mzero -> fro n m A = 0.
Proof.
  intros n m A H. rewrite (fro_proper n m _ _ H). unfold fro. replace (nrm2 n m mzero) with 0; [apply sqrt_0|].
  symmetry. unfold nrm2. apply rs_0. intros i _. apply rs_0. intros j _. unfold mzero. rewrite Cmod_0. ring.
Qed.
Lemma fro_zero_inv : forall n m A, fro n m A = 0 -> meq n m A mzero.
Proof. intros n m A H. apply nrm2_zero. rewrite <- fro_sqr, H. ring. Qed.
Lemma fro_unitary_l : forall n m U A, unitary n U -> fro n m (mmul n U A) = fro n m A.
Proof. intros. unfold fro. rewrite unitary_norm; auto. Qed.
Lemma nrm2_adj : forall n m A, nrm2 m n (madj A) = nrm2 n m A.
Proof.
  intros n m A. unfold nrm2. rewrite rs_swap. apply rs_ext. intros i _. apply rs_ext. intros j _. unfold madj. rewrite conj_mod. reflexivity.
Qed.
Lemma fro_adj : forall n m A, fro m n (madj A) = fro n m A.
Proof. intros. unfold fro. rewrite nrm2_adj. reflexivity. Qed.
Lemma fro_unitary_r : forall n U A, unitary n U -> fro n n (mmul n A U) = fro n n A.
Proof.
  intros n U A H. rewrite <- fro_adj, (fro_proper n n _ _ (madj_mmul n n n A U)), fro_unitary_l by (apply unitary_madj, H).
  apply fro_adj.
Qed.
(** Submultiplicativity on states. *)
Lemma fro_mul : forall n k m A B, fro n m (mmul k A B) <= fro n k A * fro k m B.
Proof.
  intros n k m A B.
  assert (G : nrm2 n m (mmul k A B) <= nrm2 n k A * nrm2 k m B).
  { unfold nrm2 at 1 2. rewrite Rmult_comm, <- rs_scale. apply rs_le. intros i Hi.
    assert (E : nrm2 k m B = rs m (fun j => rs k (fun l => Cmod (B l j) ^ 2))) by (unfold nrm2; apply rs_swap).
    rewrite E, Rmult_comm, <- rs_scale. apply rs_le. intros j Hj. cbv beta.
    (* Cauchy-Schwarz for a row and a column *)
    pose proof (cauchy_schwarz 1 k (fun _ l => A i l) (fun _ l => Cconj (B l j))) as Q.
    assert (I : inner 1 k (fun _ l => A i l) (fun _ l => Cconj (B l j)) = mmul k A B i j).
    { unfold inner, mmul. cbn [csum]. rewrite Cplus_0_l. apply csum_ext. intros l _. rewrite conj_conj. reflexivity. }
    rewrite I in Q.
    assert (N1 : nrm2 1 k (fun _ l => A i l) = rs k (fun l => Cmod (A i l) ^ 2)) by (unfold nrm2; cbn [rs]; ring).
    assert (N2 : nrm2 1 k (fun _ l => Cconj (B l j)) = rs k (fun l => Cmod (B l j) ^ 2)).
    { unfold nrm2; cbn [rs]. rewrite Rplus_0_l. apply rs_ext. intros l _. rewrite conj_mod. reflexivity. }
    rewrite <- N1, <- N2, <- !fro_sqr. pose proof (Cmod_ge_0 (mmul k A B i j)).
    set (x := Cmod (mmul k A B i j)) in *. set (y := fro 1 k (fun _ l => A i l)) in *.
    set (z := fro 1 k (fun _ l => Cconj (B l j))) in *.
    replace (y * y * (z * z)) with ((y * z) ^ 2) by ring. apply pow_incr. auto. }
  unfold fro. rewrite <- sqrt_mult_alt by apply nrm2_nonneg. apply sqrt_le_1_alt. exact G.
Qed.

(** ** Mean value inequality *)
Lemma mean_value : forall n m (F F' : R -> mat) (g g' : R -> R) a b, a <= b ->
  (forall t, a <= t <= b -> mderive n m F t (F' t)) ->
  (forall t, a <= t <= b -> is_derive g t (g' t)) ->
  (forall t, a <= t <= b -> fro n m (F' t) <= g' t) ->
  fro n m (msub (F b) (F a)) <= g b - g a.
Proof.
  intros n m F F' g g' a b Hab DF Dg Hb. set (M := msub (F b) (F a)).
  destruct (Rle_lt_or_eq_dec 0 (fro n m M) (fro_nonneg n m M)) as [P|Z].
  - set (h := fun t => fst (inner n m (F t) M) - fro n m M * g t).
    set (h' := fun t => fst (inner n m (F' t) M) - fro n m M * g' t).
    assert (Dh : forall t, a <= t <= b -> is_derive h t (h' t)).
    { intros t Ht. unfold h, h'. apply (rderive_minus (fun t => fst (inner n m (F t) M)) (fun t => fro n m M * g t)).
      - assert (D : cderive (fun s => inner n m (F s) M) t (inner n m (F' t) M)); [|exact (proj1 D)].
        unfold inner. apply (cderive_sum n (fun i s => csum m (fun j => F s i j * Cconj (M i j))%C)). intros i Hi.
        apply (cderive_sum m (fun j s => F s i j * Cconj (M i j))%C). intros j Hj.
        eapply cderive_eq; [|apply (cderive_mult (fun s => F s i j) (fun _ => Cconj (M i j))); [apply DF; auto|apply cderive_const]].
        ring.
      - eapply (is_derive_ext (fun s => fro n m M * g s)); [reflexivity|].
        replace (fro n m M * g' t) with (0 * g t + fro n m M * g' t) by ring.
        apply (rderive_mult (fun _ => fro n m M) g); [apply (is_derive_const (V := R_NormedModule))|apply Dg; auto]. }
    destruct (MVT_gen h a b h') as (c & Hc & Ec).
    { intros x Hx. rewrite Rmin_left, Rmax_right in Hx by auto. apply Dh. lra. }
    { intros x Hx. rewrite Rmin_left, Rmax_right in Hx by auto.
      apply continuity_pt_filterlim. apply (ex_derive_continuous (V := R_NormedModule) h). exists (h' x). apply Dh. lra. }
    rewrite Rmin_left, Rmax_right in Hc by auto.
    assert (N : h' c <= 0).
    { unfold h'. pose proof (fst_le (inner n m (F' c) M)). pose proof (cauchy_schwarz n m (F' c) M). specialize (Hb c Hc).
      assert (fro n m (F' c) * fro n m M <= g' c * fro n m M) by (apply Rmult_le_compat_r; lra). lra. }
    assert (Le : h b - h a <= 0). { rewrite Ec. assert (0 <= b - a) by lra. nra. }
    assert (EM : fst (inner n m (F b) M) - fst (inner n m (F a) M) = fro n m M * fro n m M).
    { rewrite fro_sqr, <- nrm2_fst. unfold M at 3. rewrite inner_sub_l. unfold Cminus. cbn [fst Cplus Copp]. ring. }
    unfold h in Le. apply Rmult_le_reg_l with (fro n m M); [exact P|]. lra.
  - rewrite <- Z.
    destruct (MVT_gen g a b g') as (c & Hc & Ec).
    { intros x Hx. rewrite Rmin_left, Rmax_right in Hx by auto. apply Dg. lra. }
    { intros x Hx. rewrite Rmin_left, Rmax_right in Hx by auto.
      apply continuity_pt_filterlim. apply (ex_derive_continuous (V := R_NormedModule) g). exists (g' x). apply Dg. lra. }
    rewrite Rmin_left, Rmax_right in Hc by auto. rewrite Ec.
    specialize (Hb c Hc). pose proof (fro_nonneg n m (F' c)). assert (0 <= b - a) by lra. nra.
Qed.

(** A square matrix with orthonormal columns is unitary. *)
Lemma isometry_unitary : forall n U, meq n n (mmul n (madj U) U) mid -> unitary n U.
Proof.
  intros n U H. split; [exact H|]. set (P := mmul n U (madj U)).
  assert (HP : meq n n (madj P) P).
  { unfold P. rewrite madj_mmul, madj_madj. reflexivity. }
  assert (PP : meq n n (mmul n P P) P).
  { unfold P. rewrite <- (mmul_assoc n n n n U (madj U)). rewrite (mmul_assoc n n n n (madj U) U (madj U)). rewrite H, mmul_id_l. reflexivity. }
  assert (Z : nrm2 n n (msub mid P) = 0).
  { apply RtoC_inj. rewrite <- nrm2_inner, inner_trace.
    transitivity (mtrace n (msub mid P)).
    - apply mtrace_proper. rewrite madj_sub, madj_id, HP, mmul_sub_r, !mmul_sub_l, !mmul_id_l, mmul_id_r, PP.
      intros i j _ _. unfold msub. ring.
    - rewrite mtrace_sub, mtrace_id. unfold P. rewrite (mtrace_mmul n n U), (mtrace_proper n _ _ H), mtrace_id. ring. }
  apply nrm2_zero in Z. intros i j Hi Hj. specialize (Z i j Hi Hj). unfold msub, mzero in Z.
  fold P. replace (P i j) with (mid i j - (mid i j - P i j))%C by ring. rewrite Z. ring.
Qed.
