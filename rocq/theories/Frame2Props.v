From Coq Require Import Reals Lra Lia.
From Coquelicot Require Import Complex.
From Verif Require Import Base Mat RSum MExp HilbertModel HilbertProofs HilbertProps PropModel PropProofs Prop2Props SuperProofs
  FoldModel FoldProps ExpModel ExpProps ChipModel Chip2Props FrameModel FrameProps.
Local Open Scope R_scope.
Local Notation length := List.length.

(** ** C81: the dressed frame *)
(** *** Similarity transformations *)
Section Sim.
  Variable n : nat.
  Variable K : mat.
  Hypothesis HK : unitary n K.
  Let sim (A : mat) : mat := conjugated n K A.
  Lemma sim_mor : forall A B, meq n n A B -> meq n n (sim A) (sim B).
  Proof. intros A B H. unfold sim, conjugated. rewrite H. reflexivity. Qed.
  Lemma sim_add : forall A B, meq n n (sim (madd A B)) (madd (sim A) (sim B)).
  Proof. intros. unfold sim, conjugated. rewrite mmul_add_l, mmul_add_r. reflexivity. Qed.
  Lemma sim_sub : forall A B, meq n n (sim (msub A B)) (msub (sim A) (sim B)).
  Proof. intros. unfold sim, conjugated. rewrite mmul_sub_l, mmul_sub_r. reflexivity. Qed.
  Lemma sim_scale : forall c A, meq n n (sim (mscale c A)) (mscale c (sim A)).
  Proof. intros. unfold sim, conjugated. rewrite mmul_scale_r, mmul_scale_l. reflexivity. Qed.
  Lemma sim_zero : meq n n (sim mzero) mzero.
  Proof. unfold sim, conjugated. rewrite mmul_zero_r, mmul_zero_l. reflexivity. Qed.
  Lemma sim_mul : forall A B, meq n n (sim (mmul n A B)) (mmul n (sim A) (sim B)).
  Proof.
    intros A B. unfold sim, conjugated.
    rewrite <- (mmul_assoc n n n n (mmul n (madj K) A) K (mmul n (mmul n (madj K) B) K)).
    rewrite <- (mmul_assoc n n n n (madj K) B K).
    rewrite (mmul_assoc n n n n K (madj K) (mmul n B K)), (proj2 HK), mmul_id_l.
    rewrite (mmul_assoc n n n n (mmul n (madj K) A) B K). rewrite (mmul_assoc n n n n (madj K) A B). reflexivity.
  Qed.
  Lemma sim_adj : forall A, meq n n (sim (madj A)) (madj (sim A)).
  Proof.
    intro A. unfold sim, conjugated. rewrite !madj_mmul, madj_madj. symmetry. apply mmul_assoc.
  Qed.
  Lemma sim_herm : forall A, hermitian n A -> hermitian n (sim A).
  Proof. intros A H. unfold hermitian in *. rewrite <- sim_adj. apply sim_mor. exact H. Qed.
  Lemma sim_trace : forall A, mtrace n (sim A) = mtrace n A.
  Proof.
    intro A. unfold sim, conjugated. rewrite mtrace_mmul. rewrite (mtrace_proper n _ _ (mmul_assoc n n n n K (madj K) A)).
    apply mtrace_proper. rewrite (proj2 HK), mmul_id_l. reflexivity.
  Qed.
  Lemma sim_unitary : forall A, unitary n A -> unitary n (sim A).
  Proof. intros A H. unfold sim, conjugated. apply unitary_mmul; [apply unitary_mmul; [apply unitary_madj; exact HK|exact H]|exact HK]. Qed.
  Lemma sim_exp : forall A, meq n n (sim (mexp n A)) (mexp n (sim A)).
  Proof. intro A. unfold sim, conjugated. symmetry. apply mexp_conj; apply HK. Qed.
End Sim.

Lemma trans_conj_id : forall n K, unitary n K -> meq n n (mmul n (mtrans K) (mconj K)) mid.
Proof.
  intros n K [H _] i j Hi Hj. specialize (H j i Hj Hi). unfold mmul, madj, mtrans, mconj, mid in *.
  rewrite (csum_ext n _ (fun a => Cconj (K a j) * K a i)%C) by (intros; apply Cmult_comm). rewrite H, Nat.eqb_sym. reflexivity.
Qed.
Lemma conj_adj : forall n K, meq n n (mconj (madj K)) (mtrans K).
Proof. intros n K i j _ _. unfold mconj, madj, mtrans. apply C_ext; cbn; ring. Qed.
Lemma trans_adj : forall n K, meq n n (mtrans (madj K)) (mconj K).
Proof. intros n K i j _ _. reflexivity. Qed.
Lemma super_pre : forall n K A, unitary n K ->
  meq (n * n) (n * n) (conjugated (n * n) (tf_super n K) (kron n n A mid)) (kron n n (conjugated n K A) mid).
Proof.
  intros n K A HK. unfold conjugated. rewrite super_adj, !super_kron, !kron_mmul. apply kron_mor; [reflexivity|].
  rewrite mmul_id_r, conj_adj. exact (trans_conj_id n K HK).
Qed.
Lemma super_post : forall n K A, unitary n K ->
  meq (n * n) (n * n) (conjugated (n * n) (tf_super n K) (kron n n mid (mtrans A))) (kron n n mid (mtrans (conjugated n K A))).
Proof.
  intros n K A HK. unfold conjugated. rewrite super_adj, !super_kron, !kron_mmul. apply kron_mor.
  - rewrite mmul_id_r. exact (proj1 HK).
  - rewrite !mtrans_mmul, trans_adj, conj_adj. symmetry. apply mmul_assoc.
Qed.
Lemma clp_sim : forall n K c, unitary n K ->
  meq (n * n) (n * n) (conjugated (n * n) (tf_super n K) (clp_term n c)) (clp_term n (conjugated n K c)).
Proof.
  intros n K c HK. pose proof (super_unitary n K HK) as HS. set (S := tf_super n K) in *. unfold clp_term. cbv zeta.
  assert (P : meq (n * n) (n * n) (conjugated (n * n) S (kron n n c mid)) (kron n n (conjugated n K c) mid)) by (apply super_pre; exact HK).
  assert (Q : meq (n * n) (n * n) (conjugated (n * n) S (kron n n mid (mtrans c))) (kron n n mid (mtrans (conjugated n K c)))) by (apply super_post; exact HK).
  set (l := kron n n c mid) in *. set (r := kron n n mid (mtrans c)) in *.
  rewrite <- P, <- Q. rewrite !(sim_sub (n * n) S), !(sim_scale (n * n) S), !(sim_mul (n * n) S HS), !(sim_adj (n * n) S). reflexivity.
Qed.
Lemma lind_slice_sim : forall n K h h' cols dt, unitary n K -> meq n n h' (conjugated n K h) ->
  meq (n * n) (n * n) (lind_slice n h' (map (conjugated n K) cols) dt)
      (conjugated (n * n) (tf_super n K) (lind_slice n h cols dt)).
Proof.
  intros n K h h' cols dt HK E. pose proof (super_unitary n K HK) as HS. unfold lind_slice.
  rewrite (sim_exp (n * n) (tf_super n K) HS), (sim_scale (n * n) (tf_super n K)). apply mexp_proper.
  apply (mscale_proper (n * n) (n * n)); [reflexivity|]. unfold lind_op_vec.
  rewrite (sim_add (n * n) (tf_super n K)), (sim_scale (n * n) (tf_super n K)), (sim_sub (n * n) (tf_super n K)).
  rewrite super_pre, super_post by exact HK.
  assert (A : meq (n * n) (n * n) (kron n n h' mid) (kron n n (conjugated n K h) mid)) by (apply kron_mor; [exact E|reflexivity]).
  assert (B : meq (n * n) (n * n) (kron n n mid (mtrans h')) (kron n n mid (mtrans (conjugated n K h)))) by (apply kron_mor; [reflexivity|rewrite E; reflexivity]).
  rewrite A, B. apply madd_proper; [reflexivity|]. clear A B E.
  induction cols as [|c cols IH]; cbn [map fold_right]; [symmetry; apply sim_zero|].
  rewrite (sim_add (n * n) (tf_super n K)), IH, clp_sim by exact HK. reflexivity.
Qed.

(** *** Folded products of related lists *)
Section Rel.
  Context {M M' : Type} (mul : M -> M -> M) (mul' : M' -> M' -> M') (R : M -> M' -> Prop).
  Hypothesis HR : forall a a' b b', R a a' -> R b b' -> R (mul a b) (mul' a' b').
  Lemma rel_zip : forall a a', Forall2 R a a' -> forall b b', Forall2 R b b' -> Forall2 R (zip_mul mul a b) (zip_mul mul' a' b').
  Proof.
    intros a a' Ha. induction Ha as [|x x' a a' Hx Ha IH]; intros b b' Hb; cbn [zip_mul]; [constructor|].
    destruct Hb; [constructor|]. cbn [zip_mul]. constructor; auto.
  Qed.
  Lemma rel_evens : forall l l', Forall2 R l l' -> Forall2 R (evens l) (evens l').
  Proof.
    intros l. remember (length l) as k eqn:E. assert (L : (length l <= k)%nat) by lia. clear E. revert l L.
    induction k as [|k IH]; intros l L l' H.
    - destruct l; [|cbn in L; lia]. inversion H. constructor.
    - destruct H as [|x x' l l' Hx H]; [constructor|]. destruct H as [|y y' l l' Hy H]; [cbn; constructor; auto|].
      cbn [evens]. constructor; auto. apply IH; auto. cbn in L. lia.
  Qed.
  Lemma rel_odds : forall l l', Forall2 R l l' -> Forall2 R (odds l) (odds l').
  Proof. intros l l' H. unfold odds. apply rel_evens. destruct H; [constructor|exact H0]. Qed.
  Lemma rel_rev : forall l l', Forall2 R l l' -> Forall2 R (rev l) (rev l').
  Proof. intros l l' H. induction H; cbn [rev]; [constructor|]. apply Forall2_app; auto. Qed.
  Lemma rel_len : forall l l', Forall2 R l l' -> length l = length l'.
  Proof. intros l l' H. induction H; cbn; auto. Qed.
  Lemma rel_map : forall f f' b b', Forall2 R b b' -> (forall x x', R x x' -> R (f x) (f' x')) -> Forall2 R (map f b) (map f' b').
  Proof. intros f f' b b' H F. induction H; cbn [map]; constructor; auto. Qed.
  Lemma rel_batch : forall a a' b b' l, Forall2 R a a' -> Forall2 R b b' -> batch_matmul mul a b = Ok l ->
    exists l', batch_matmul mul' a' b' = Ok l' /\ Forall2 R l l'.
  Proof.
    intros a a' b b' l Ha Hb H. unfold batch_matmul in *. rewrite <- (rel_len _ _ Ha), <- (rel_len _ _ Hb).
    destruct (Nat.eqb (length a) (length b)).
    - injection H as <-. eexists. split; [reflexivity|]. apply rel_zip; auto.
    - destruct Ha as [|x x' a a' Hx Ha].
      + destruct Hb as [|y y' b b' Hy Hb]; [discriminate H|]. destruct Hb as [|z z' b b' Hz Hb]; [|discriminate H].
        injection H as <-. eexists. split; [reflexivity|constructor].
      + destruct Ha as [|w w' a a' Hw Ha].
        * destruct Hb as [|y y' b b' Hy Hb]; [injection H as <-; eexists; split; [reflexivity|constructor]|].
          destruct Hb as [|z z' b b' Hz Hb]; injection H as <-; (eexists; split; [reflexivity|]).
          -- repeat constructor; auto.
          -- constructor; [auto|constructor; [auto|apply rel_map; auto]].
        * destruct Hb as [|y y' b b' Hy Hb]; [discriminate H|]. destruct Hb as [|z z' b b' Hz Hb]; [|discriminate H].
          injection H as <-. eexists. split; [reflexivity|]. constructor; [auto|constructor; [auto|]].
          apply (rel_map (fun x => mul x y) (fun x => mul' x y')); auto.
  Qed.
  Lemma rel_matmul_n : forall stack l l' u, Forall2 R l l' -> tf_matmul_n mul l stack = Ok u ->
    exists u', tf_matmul_n mul' l' stack = Ok u' /\ R u u'.
  Proof.
    induction stack as [|f stack IH]; intros l l' u Hl H; cbn [tf_matmul_n] in *.
    - destruct Hl; [discriminate H|]. injection H as <-. eauto.
    - destruct (apply_layer mul f (odds l) (evens l)) as [q|] eqn:E; [|discriminate H]. cbn [rbind] in H.
      assert (A : exists q', apply_layer mul' f (odds l') (evens l') = Ok q' /\ Forall2 R q q').
      { pose proof (rel_odds _ _ Hl) as Ho. pose proof (rel_evens _ _ Hl) as He. destruct f; cbn [apply_layer] in *.
        - exact (rel_batch _ _ _ _ _ Ho He E).
        - pose proof (rel_rev _ _ He) as Hr. destruct Hr as [|e e' r r' Hx Hr]; [discriminate E|].
          destruct (batch_matmul mul (odds l) (rev r)) as [p|] eqn:Ep; [|discriminate E]. cbn [rbind] in E. injection E as <-.
          destruct (rel_batch _ _ _ _ _ Ho (rel_rev _ _ Hr) Ep) as (p' & -> & Hp). cbn [rbind]. eexists. split; [reflexivity|].
          apply Forall2_app; auto. }
      destruct A as (q' & -> & Hq). cbn [rbind]. exact (IH _ _ _ Hq H).
  Qed.
End Rel.

Lemma dget_dmap : forall V W (f : V -> W) k d, dget k (dmap f d) = match dget k d with Some v => Some (f v) | None => None end.
Proof.
  intros V W f k d. induction d as [|[a b] d IH]; [reflexivity|]. cbn [dmap map dget fst snd] in *. destruct (String.eqb k a); auto.
Qed.
Lemma drift_sim : forall n T hams, meq n n (conjugated n T (drift_of hams)) (drift_of (dmap (conjugated n T) hams)).
Proof.
  intros n T hams. unfold drift_of.
  assert (G : forall l s s', meq n n (conjugated n T s) s' ->
     meq n n (conjugated n T (fold_left (fun s kv => madd s (snd kv)) l s))
       (fold_left (fun s kv => madd s (snd kv)) (dmap (conjugated n T) l) s')).
  { induction l as [|kv l IH]; intros s s' E; [exact E|]. cbn [dmap map fold_left fst snd]. apply IH. rewrite (sim_add n T), E. reflexivity. }
  apply G. apply sim_zero.
Qed.
(** For a unitary transformation the dressed operators are the bare ones in another
    basis: Hermitian operators stay Hermitian, traces and products are kept, no component
    is lost, and the dressed drift is the sum of the dressed Hamiltonians. *)
Theorem C81_operators :
  forall n T o, unitary n T -> let d := dressed_operators n T o in
  (forall k h', dget k (o_hams d) = Some h' <-> exists h, dget k (o_hams o) = Some h /\ h' = mmul n (mmul n (madj T) h) T)
  /\ (forall k h', dget k (o_controls d) = Some h' <-> exists h, dget k (o_controls o) = Some h /\ h' = mmul n (mmul n (madj T) h) T)
  /\ (forall A B, let A' := mmul n (mmul n (madj T) A) T in let B' := mmul n (mmul n (madj T) B) T in
        (hermitian n A -> hermitian n A') /\ mtrace n A' = mtrace n A
        /\ meq n n (mmul n A' B') (mmul n (mmul n (madj T) (mmul n A B)) T)
        /\ mtrace n (mmul n A' B') = mtrace n (mmul n A B))
  /\ meq n n (dressed_drift n T o) (drift_of (o_hams d)).
Proof.
  intros n T o U d.
  assert (G : forall (D : dict mat) k h', dget k (dmap (conjugated n T) D) = Some h' <->
    exists h, dget k D = Some h /\ h' = mmul n (mmul n (madj T) h) T).
  { intros D k h'. rewrite dget_dmap. destruct (dget k D) as [h|]; split.
    - intro E. injection E as <-. exists h. auto.
    - intros (h0 & E & ->). injection E as <-. reflexivity.
    - discriminate.
    - intros (h0 & E & _). discriminate E. }
  split; [intros; apply G|]. split; [intros; apply G|]. split.
  - intros A B A' B'. split; [apply (sim_herm n T)|]. split; [apply (sim_trace n T U)|].
    split; [symmetry; apply (sim_mul n T U)|].
    etransitivity; [exact (eq_sym (mtrace_proper n _ _ (sim_mul n T U A B)))|]. apply (sim_trace n T U).
  - apply drift_sim.
Qed.
Print Assumptions C81_operators.
(** With the transformation of [reorder_frame] the dressed drift is diagonal, its
    entries are the sorted energies. *)
Theorem C81_dressed_drift :
  forall n o e v reorder frame T, (0 < n)%nat -> eigenbasis n (drift_of (o_hams o)) e v ->
  (forall j, (j < n)%nat -> exists i, (i < n)%nat /\ 1 / 2 < Cmod (v i j) ^ 2 /\ fst (v i j) <> 0) ->
  reorder_frame n e v true = (reorder, frame, T) ->
  meq n n (dressed_drift n T o) (rdiag frame)
  /\ rs n (fun i => frame i) = fst (mtrace n (drift_of (o_hams o))).
Proof.
  intros n o e v reorder frame T Hn EB D E. destruct (C78_transform n _ e v reorder frame T Hn EB D E) as (U & X & _).
  split; [exact X|]. rewrite <- (sim_trace n T U). unfold conjugated. rewrite (mtrace_proper n _ _ X).
  unfold mtrace. rewrite <- rs_fst. apply rs_ext. intros i _. unfold rdiag. rewrite Nat.eqb_refl. reflexivity.
Qed.
Print Assumptions C81_dressed_drift.

Lemma driven_dressed : forall n dims lind T o signal t,
  meq n n (driven_hamiltonian (model_view n dims lind (Some T) o) signal t)
          (conjugated n T (driven_hamiltonian (model_view n dims lind None o) signal t)).
Proof.
  intros n dims lind T o signal t. unfold driven_hamiltonian. cbn [model_view p_h0 p_hctrls dressed_operators o_controls].
  rewrite (sim_add n T). apply madd_proper; [reflexivity|].
  induction signal as [|kv signal IH]; cbn [fold_right]; [symmetry; apply sim_zero|]. rewrite dget_dmap.
  destruct (dget (fst kv) (o_controls o)) as [h|]; [|exact IH]. rewrite (sim_add n T), (sim_scale n T), IH. reflexivity.
Qed.
Lemma lookup_dressed : forall n T (d : dict mat) names hks, lookup_controls d names = Ok hks ->
  exists hks', lookup_controls (dmap (conjugated n T) d) names = Ok hks'.
Proof.
  intros n T d names. induction names as [|k names IH]; intros hks H; cbn [lookup_controls] in *; [eauto|].
  rewrite dget_dmap. destruct (dget k d) as [h|]; [|discriminate H].
  destruct (lookup_controls d names) as [hs|]; [|discriminate H]. destruct (IH hs eq_refl) as (hs' & ->). cbn [rbind]. eauto.
Qed.
Lemma nth_error_Forall2 : forall A B (R : A -> B -> Prop) l l', length l = length l' ->
  (forall t, (t < length l)%nat -> exists a b, nth_error l t = Some a /\ nth_error l' t = Some b /\ R a b) -> Forall2 R l l'.
Proof.
  intros A B R l. induction l as [|a l IH]; intros [|b l'] L H; cbn in L; try lia; [constructor|].
  constructor.
  - destruct (H 0%nat ltac:(cbn; lia)) as (x & y & E & E' & Hr). cbn in E, E'. injection E as <-. injection E' as <-. exact Hr.
  - apply IH; [lia|]. intros t Ht. apply (H (S t)). cbn. lia.
Qed.
Lemma pwc_ok : forall m signal stack batch hks, lookup_controls (p_hctrls m) (keys signal) = Ok hks -> p_max_ex m = 0%nat ->
  forall m' hks' r, lookup_controls (p_hctrls m') (keys signal) = Ok hks' -> p_max_ex m' = 0%nat ->
  pwc_controlled m signal stack batch = Ok r ->
  exists dUs, pr_ts r = match rev signal with [] => [] | kv :: _ => w_ts (snd kv) end /\
  pwc_controlled m' signal stack batch
  = rbind (tf_matmul_n (mmul (if p_lind m' then p_dim m' * p_dim m' else p_dim m')) dUs stack)
      (fun U => Ok {| pr_U := U; pr_dUs := dUs; pr_ts := pr_ts r |})
  /\ length dUs = length (pr_dUs r)
  /\ forall t, (t < length (pr_dUs r))%nat -> exists dt, is_step signal dt /\
     nth_error dUs t = Some (if p_lind m' then lind_slice (p_dim m') (driven_hamiltonian m' signal t) (p_cols m') dt
               else mexp (p_dim m') (mscale (- Ci * RtoC dt)%C (driven_hamiltonian m' signal t))).
Proof.
  intros m signal stack batch hks El Em m' hks' r El' Em' H. pose proof (controlled_split _ _ _ _ _ H) as (dt0 & _ & Ln & _ & _).
  unfold pwc_controlled in *. rewrite Em, Em' in *. cbn [Nat.eqb negb] in *. rewrite El, El' in *. cbn [rbind] in *.
  destruct (ragged (map (fun kv => w_values (snd kv)) signal)) eqn:Er; [discriminate H|].
  destruct (match rev signal with [] => [] | kv :: _ => w_ts (snd kv) end) as [|t0 [|t1 ts]] eqn:Et; try discriminate H.
  set (dt := t1 - t0) in *. set (sig := map to_C (map (fun kv => w_values (snd kv)) signal)) in *.
  assert (Hw : forall ch, In ch sig -> length ch = width sig).
  { unfold sig. destruct signal as [|kv signal]; [intros ch []|]. cbn [map] in *. cbn [width].
    intros ch [<-|Hc]; [reflexivity|]. unfold ragged in Er. apply negb_false_iff in Er. rewrite forallb_forall in Er.
    apply in_map_iff in Hc. destruct Hc as (l & <- & Hl). unfold to_C. rewrite !map_length.
    apply Nat.eqb_eq. apply Er. exact Hl. }
  assert (Hs : width sig = samples signal).
  { unfold sig, samples. destruct signal; [reflexivity|]. cbn [map width]. unfold to_C. apply map_length. }
  set (b := batch_of batch (t0 :: t1 :: ts)) in *.
  destruct (Nat.eq_dec b 0) as [Eb|Eb]; [exfalso; unfold batch_propagate in H; rewrite Eb in H; discriminate H|].
  destruct (C23_batching _ _ madd mscale mzero (mexp (p_dim m')) (fun h => lind_slice (p_dim m') h (p_cols m') dt)
              (p_lind m') (RtoC 0) (p_h0 m') hks' sig (- Ci * RtoC dt)%C b ltac:(lia) Hw) as (us & Eu & Lu & Nu).
  assert (Ts : pr_ts r = t0 :: t1 :: ts).
  { destruct (batch_propagate _ _ _ _ _ _ _ _ _ _ _ _) as [us0|]; [|discriminate H]. cbn [rbind] in H.
    destruct (tf_matmul_n _ us0 stack); [|discriminate H]. cbn [rbind] in H. injection H as <-. reflexivity. }
  exists us. split; [exact Ts|]. rewrite Eu, Ts. cbn [rbind]. split; [reflexivity|]. split; [congruence|].
  intros t Ht. exists dt. split.
  - destruct (rev signal) as [|kv r0] eqn:Ev; [discriminate Et|]. exists kv, (rev r0), t0, t1, ts. split; [|split; auto].
    rewrite <- (rev_involutive signal), Ev. reflexivity.
  - rewrite Nu by congruence. f_equal. unfold sig. rewrite (slice_ham_driven m' signal hks' t (controls_found _ _ _ El')). reflexivity.
Qed.
Lemma step_unique : forall signal a b, is_step signal a -> is_step signal b -> a = b.
Proof.
  intros signal a b (kv & r & t0 & t1 & ts & E & F & ->) (kv' & r' & u0 & u1 & us & E' & F' & ->).
  rewrite E in E'. apply app_inj_tail in E'. destruct E' as [_ <-]. rewrite F in F'. injection F' as <- <- _. reflexivity.
Qed.
(** Propagation in the dressed frame gives the bare propagators in the dressed basis,
    for closed systems U' = T+ U T and for open systems with the superoperator of T. *)
Theorem C81_propagation :
  forall n dims lind T o signal stack batch r, unitary n T ->
  pwc_controlled (model_view n dims lind None o) signal stack batch = Ok r ->
  exists r', pwc_controlled (model_view n dims lind (Some T) o) signal stack batch = Ok r'
  /\ let N := if lind then (n * n)%nat else n in let K := if lind then tf_super n T else T in
     unitary N K /\ meq N N (pr_U r') (mmul N (mmul N (madj K) (pr_U r)) K)
  /\ Forall2 (fun d d' => meq N N d' (mmul N (mmul N (madj K) d) K)) (pr_dUs r) (pr_dUs r')
  /\ pr_ts r' = pr_ts r.
Proof.
  intros n dims lind T o signal stack batch r U H.
  set (N := if lind then (n * n)%nat else n). set (K := if lind then tf_super n T else T).
  assert (UK : unitary N K) by (unfold N, K; destruct lind; [apply super_unitary|]; exact U).
  destruct (lookup_controls (o_controls o) (keys signal)) as [hks|] eqn:El.
  2:{ unfold pwc_controlled in H. cbn [model_view p_max_ex p_hctrls Nat.eqb negb] in H. rewrite El in H. discriminate H. }
  destruct (lookup_dressed n T _ _ _ El) as (hks' & El').
  destruct (pwc_ok (model_view n dims lind None o) signal stack batch hks El eq_refl (model_view n dims lind (Some T) o) hks' r El' eq_refl H)
    as (us & _ & Eu & Lu & Nu).
  destruct (controlled_split _ _ _ _ _ H) as (dt & Dt & L & S & F).
  assert (Rl : Forall2 (fun d d' => meq N N d' (conjugated N K d)) (pr_dUs r) us).
  { apply nth_error_Forall2; [auto|]. intros t Ht. destruct (Nu t Ht) as (dt' & Dt' & E').
    rewrite (step_unique _ _ _ Dt' Dt) in E'. specialize (S t ltac:(rewrite <- L; exact Ht)).
    eexists. eexists. split; [exact S|]. split; [exact E'|].
    cbn [model_view p_lind p_dim p_cols dressed_operators o_cols]. unfold N, K. destruct lind.
    - apply lind_slice_sim; [exact U|]. apply driven_dressed.
    - rewrite (sim_exp n T U), (sim_scale n T). apply mexp_proper. apply (mscale_proper n n); [reflexivity|]. apply driven_dressed. }
  cbn [model_view p_lind p_dim] in F, Eu. fold N in F, Eu.
  destruct (rel_matmul_n (mmul N) (mmul N) (fun d d' => meq N N d' (conjugated N K d))) with (stack := stack) (l := pr_dUs r) (l' := us) (u := pr_U r)
    as (U' & EU & RU); auto.
  { intros a a' b b' Ha Hb. rewrite (sim_mul N K UK), Ha, Hb. reflexivity. }
  rewrite EU in Eu. cbn [rbind] in Eu. eexists. split; [exact Eu|]. cbn [pr_U pr_dUs pr_ts]. split; [exact UK|].
  split; [exact RU|]. split; [exact Rl|reflexivity].
Qed.
Print Assumptions C81_propagation.

(** *** Frequencies of uncoupled qubits *)
Lemma state_index_pos : forall dims l, valid dims l -> get_state_index dims l = Ok (pos dims l).
Proof. intros dims l V. unfold get_state_index. apply index_of_nth; [apply labels_nodup|]. apply labels_nth. exact V. Qed.
Lemma excitation_nth : forall dims i k, (k < length dims)%nat -> nth k (one_excitation dims i) 0%nat = if Nat.eqb k i then 1%nat else 0%nat.
Proof.
  intros dims i k Hk. unfold one_excitation. apply nth_error_nth. rewrite nth_error_map.
  rewrite (nth_error_nth' (seq 0 (length dims)) 0%nat) by (rewrite seq_length; exact Hk). rewrite seq_nth by exact Hk. reflexivity.
Qed.
Lemma excitation_valid : forall dims i, Forall (fun d => 2 <= d)%nat dims -> valid dims (one_excitation dims i).
Proof.
  intros dims i F. unfold valid. apply nth_error_Forall2; unfold one_excitation; [rewrite map_length, seq_length; reflexivity|].
  rewrite map_length, seq_length. intros t Ht.
  destruct (nth_error dims t) as [d|] eqn:E; [|apply nth_error_None in E; lia].
  exists (if Nat.eqb t i then 1%nat else 0%nat), d. split; [|split; [reflexivity|]].
  - rewrite nth_error_map. rewrite (nth_error_nth' (seq 0 (length dims)) 0%nat) by (rewrite seq_length; exact Ht).
    rewrite seq_nth by exact Ht. reflexivity.
  - rewrite Forall_forall in F. pose proof (F d (nth_error_In _ _ E)). destruct (Nat.eqb t i); lia.
Qed.
Lemma ground_valid : forall dims, Forall (fun d => 2 <= d)%nat dims -> valid dims (repeat 0%nat (length dims)) /\ pos dims (repeat 0%nat (length dims)) = 0%nat.
Proof.
  intros dims F. induction F as [|d ds Hd F [IH1 IH2]]; cbn [length repeat pos]; [split; [constructor|reflexivity]|].
  split; [constructor; [lia|exact IH1]|]. rewrite IH2. lia.
Qed.
Lemma fold_entry : forall (hams : dict mat) s i j d,
  fold_left (fun s kv => madd s (snd kv)) hams s i j = (s i j + csum (length hams) (fun k => snd (nth k hams d) i j))%C.
Proof.
  induction hams as [|kv hams IH]; intros s i j d; cbn [fold_left length]; [cbn; ring|].
  rewrite (IH _ i j d), csum_head. cbn [nth]. unfold madd. ring.
Qed.
(** The frequencies reported for uncoupled qubits are those of their definition,
    whatever the number of qubits and levels, as long as each dressed state has some
    overlap with its bare state. *)
Theorem C81_qubit_frequencies :
  forall dims freq anhar hams T frame, Forall (fun d => 2 <= d)%nat dims -> length hams = length dims ->
  (forall k, (k < length dims)%nat -> exists a name h, ann_oper dims k = Ok a
     /\ qubit_hamiltonian (prod_dims dims) (nth k dims 0%nat) (freq k) (Some (anhar k)) (ent a) false None = Ok h
     /\ nth_error hams k = Some (name, h)) ->
  let n := prod_dims dims in let o := {| o_hams := hams; o_controls := []; o_cols := [] |} in
  unitary n T -> meq n n (dressed_drift n T o) (rdiag frame) -> (forall i, (i < n)%nat -> T i i <> RtoC 0) ->
  get_qubit_freqs dims (dressed_drift n T o) = Ok (map (fun k => freq k / (2 * PI)) (seq 0 (length dims))).
Proof.
  intros dims freq anhar hams T frame F L Hh n o U D Ti.
  pose (E := fun l => rs (length dims) (fun k => level_energy (freq k) (anhar k) (nth k l 0%nat))).
  assert (Dr : forall l l', valid dims l -> valid dims l' -> drift_of hams (pos dims l) (pos dims l') = if list_eqb l l' then RtoC (E l) else RtoC 0).
  { intros l l' Hl Hl'. unfold drift_of. rewrite (fold_entry hams mzero _ _ (""%string, mzero)), L. unfold mzero at 1. rewrite Cplus_0_l.
    rewrite (csum_ext _ _ (fun k => if list_eqb l l' then RtoC (level_energy (freq k) (anhar k) (nth k l 0%nat)) else RtoC 0)).
    - destruct (list_eqb l l'); [unfold E; apply rs_csum|apply csum_0; auto].
    - intros k Hk. destruct (Hh k Hk) as (a & nm & h & Ha & Hq & Hn). rewrite (nth_error_nth _ _ _ Hn). cbn [snd].
      destruct (C93_qubit_levels dims k a (freq k) (anhar k) Hk Ha) as (h' & Hq' & LV). rewrite Hq in Hq'. injection Hq' as <-. apply LV; auto. }
  assert (Fr : forall l, valid dims l -> dressed_drift n T o (pos dims l) (pos dims l) = RtoC (E l)).
  { intros l Hl. pose proof (pos_lt _ _ Hl) as Hp. fold n in Hp. rewrite (D _ _ Hp Hp). unfold rdiag. rewrite Nat.eqb_refl. f_equal.
    assert (X : meq n n (mmul n (drift_of hams) T) (mmul n T (rdiag frame))).
    { rewrite <- D. unfold dressed_drift, conjugated. cbn [o o_hams].
      rewrite (mmul_assoc n n n n T (mmul n (madj T) (drift_of hams)) T), (mmul_assoc n n n n T (madj T) (drift_of hams)), (proj2 U), mmul_id_l. reflexivity. }
    specialize (X _ _ Hp Hp). unfold mmul in X.
    rewrite (csum_single n (pos dims l)) in X; [|exact Hp|].
    - rewrite (csum_single n (pos dims l)) in X; [|exact Hp|].
      + rewrite (Dr l l Hl Hl), (proj2 (list_eqb_eq l l) eq_refl) in X. unfold rdiag in X. rewrite Nat.eqb_refl in X.
        specialize (Ti _ Hp). set (z := T (pos dims l) (pos dims l)) in *.
        assert (Y : (RtoC (frame (pos dims l)) - RtoC (E l) = RtoC 0)%C).
        { assert (Y : ((RtoC (frame (pos dims l)) - RtoC (E l)) * z = RtoC 0)%C) by (transitivity (z * RtoC (frame (pos dims l)) - RtoC (E l) * z)%C; [ring|rewrite X; ring]).
          destruct (Ceq_dec (RtoC (frame (pos dims l)) - RtoC (E l))%C (RtoC 0)) as [Q|Q]; [exact Q|]. exfalso. exact (Cmult_neq_0 _ _ Q Ti Y). }
        apply (f_equal fst) in Y. cbn in Y. lra.
      + intros i Hi N. unfold rdiag. rewrite (proj2 (Nat.eqb_neq i (pos dims l)) N). ring.
    - intros i Hi N. destruct (pos_surj dims i Hi) as (u & Hu & <-). rewrite (Dr l u Hl Hu).
      destruct (list_eqb l u) eqn:Q; [|ring]. apply list_eqb_eq in Q. subst. congruence. }
  destruct (ground_valid dims F) as [G0 G1].
  assert (E0 : E (repeat 0%nat (length dims)) = 0).
  { unfold E. apply rs_0. intros k Hk. rewrite nth_repeat. unfold level_energy. cbn [INR]. field. }
  assert (Fr0 : dressed_drift n T o 0%nat 0%nat = RtoC 0) by (rewrite <- E0, <- (Fr _ G0), G1; reflexivity).
  unfold get_qubit_freqs.
  assert (G : forall is, (forall i, In i is -> (i < length dims)%nat) ->
    qubit_freqs dims (dressed_drift n T o) is = Ok (map (fun k => freq k / (2 * PI)) is)).
  { induction is as [|i is IH]; intro B; [reflexivity|]. cbn [qubit_freqs map].
    rewrite (state_index_pos dims _ (excitation_valid dims i F)). cbn [rbind]. rewrite IH by (intros; apply B; right; auto). cbn [rbind].
    rewrite Fr0, (Fr _ (excitation_valid dims i F)).
    assert (Ei : E (one_excitation dims i) = freq i).
    { unfold E. rewrite (rs_single (length dims) i); [|apply B; left; reflexivity|].
      - rewrite excitation_nth by (apply B; left; reflexivity). rewrite Nat.eqb_refl. unfold level_energy. cbn. field.
      - intros k Hk N. rewrite excitation_nth by exact Hk. rewrite (proj2 (Nat.eqb_neq k i) N). unfold level_energy. cbn [INR]. field. }
    rewrite Ei. cbn [fst RtoC]. do 2 f_equal. field. exact PI_neq0. }
  apply G. intros i Hi. apply in_seq in Hi. lia.
Qed.
Print Assumptions C81_qubit_frequencies.
(** Two exchanging qubits prepared in a frame swapped by eigh. *)
Example C81_example :
  let T : mat := fun i j => if Nat.eqb i j then RtoC 1 else RtoC 0 in
  exists a0 a1 h0 h1, ann_oper [2; 2]%nat 0 = Ok a0 /\ ann_oper [2; 2]%nat 1 = Ok a1
  /\ qubit_hamiltonian 4 2 5 (Some 1) (ent a0) false None = Ok h0 /\ qubit_hamiltonian 4 2 6 (Some 1) (ent a1) false None = Ok h1
  /\ get_qubit_freqs [2; 2]%nat (dressed_drift 4 T {| o_hams := [("q0"%string, h0); ("q1"%string, h1)]; o_controls := []; o_cols := [] |})
     = Ok [5 / (2 * PI); 6 / (2 * PI)].
Proof.
  intro T. destruct (ann_oper [2; 2]%nat 0) as [a0|] eqn:E0; [|discriminate E0].
  destruct (ann_oper [2; 2]%nat 1) as [a1|] eqn:E1; [|discriminate E1].
  destruct (C93_qubit_levels [2; 2]%nat 0 a0 5 1 ltac:(cbn; lia) E0) as (h0 & H0 & L0).
  destruct (C93_qubit_levels [2; 2]%nat 1 a1 6 1 ltac:(cbn; lia) E1) as (h1 & H1 & L1).
  exists a0, a1, h0, h1. repeat (split; [first [reflexivity|assumption]|]).
  set (o := {| o_hams := [("q0"%string, h0); ("q1"%string, h1)]; o_controls := []; o_cols := [] |}).
  assert (U : unitary 4 T) by exact (unitary_id 4).
  apply (C81_qubit_frequencies [2; 2]%nat (fun k => match k with O => 5 | _ => 6 end) (fun _ => 1) (o_hams o) T
     (fun i => fst (drift_of (o_hams o) i i))).
  - repeat constructor; lia.
  - reflexivity.
  - intros [|[|k]] Hk; cbn in Hk; try lia; [exists a0, "q0"%string, h0|exists a1, "q1"%string, h1]; auto.
  - exact U.
  - assert (X : meq 4 4 (dressed_drift 4 T o) (drift_of (o_hams o))).
    { unfold dressed_drift, conjugated. change T with mid. rewrite madj_id, mmul_id_l, mmul_id_r. reflexivity. }
    intros i j Hi Hj. change (prod_dims [2; 2]%nat) with 4%nat in Hi, Hj. etransitivity; [exact (X i j Hi Hj)|].
    destruct (pos_surj [2; 2]%nat i Hi) as (l & Hl & <-). destruct (pos_surj [2; 2]%nat j Hj) as (l' & Hl' & <-).
    cbn [o o_hams drift_of fold_left snd]. unfold madd, mzero, rdiag. rewrite (L0 l l' Hl Hl'), (L1 l l' Hl Hl').
    destruct (list_eqb l l') eqn:Q.
    + apply list_eqb_eq in Q. subst l'. rewrite Nat.eqb_refl, (L0 l l Hl Hl), (L1 l l Hl Hl), (proj2 (list_eqb_eq l l) eq_refl). apply C_ext; cbn; ring.
    + destruct (Nat.eqb_spec (pos [2; 2]%nat l) (pos [2; 2]%nat l')) as [P|P]; [|apply C_ext; cbn; ring].
      apply pos_inj in P; auto. subst. rewrite (proj2 (list_eqb_eq l' l') eq_refl) in Q. discriminate Q.
  - intros i Hi. unfold T. rewrite Nat.eqb_refl. intro Z. apply RtoC_inj in Z. lra.
Qed.

(** ** C95: assembling the Hamiltonian from the signals *)
Definition at_time (t : nat) (st : list mat) : mat := match st with [h] => h | _ => nth t st mzero end.
Definition sum_at (t : nat) (hams : list (list mat)) : mat := fold_left (fun s st => madd s (at_time t st)) hams mzero.
(** What a component contributes for its samples. *)
Definition response (n : nat) (m : parts) (T : option mat) (k : string) (sig : list R) : result (list mat) :=
  match dget k (m_subs m), dget k (m_lines m) with
  | Some s, _ => s_signal s sig T
  | None, Some l => line_signal n l sig T
  | None, None => Err C3Error
  end.
Lemma with_signals_spec : forall n m T signal hams out, NoDup (keys signal) -> NoDup (keys hams) ->
  with_signals n m T signal hams = Ok out ->
  NoDup (keys out) /\ forall k, match dget k signal with
    | Some sig => exists st, response n m T k sig = Ok st /\ dget k out = Some st
    | None => dget k out = dget k hams
    end.
Proof.
  intros n m T signal. induction signal as [|[k sig] signal IH]; intros hams out N1 N2 H; cbn [with_signals] in H.
  - injection H as <-. split; [exact N2|]. reflexivity.
  - fold (response n m T k sig) in H.
    change (rbind (response n m T k sig) (fun hs => with_signals n m T signal (dset k hs hams)) = Ok out) in H.
    destruct (response n m T k sig) as [st|] eqn:E; [|discriminate H]. cbn [rbind] in H.
    cbn [keys map fst] in N1. inversion N1 as [|x l N3 N4]; subst.
    destruct (IH (dset k st hams) out N4 (nodup_dset' _ k st hams N2) H) as (A & B). split; [exact A|].
    intro k'. specialize (B k'). cbn [dget fst snd]. destruct (String.eqb_spec k' k) as [->|D].
    + exists st. split; [exact E|]. destruct (dget k signal) as [s'|] eqn:G.
      * exfalso. apply N3. apply dget_in_keys. exists s'. exact G.
      * rewrite B. apply dget_dset_same.
    + destruct (dget k' signal) as [s'|]; [exact B|]. rewrite B. apply dget_dset_other. auto.
Qed.
Lemma badd_spec : forall a b out, badd a b = Ok out ->
  forall t, (t < length out)%nat -> at_time t out = madd (at_time t a) (at_time t b).
Proof.
  intros a b out H t Ht. unfold badd in H. destruct (Nat.eqb_spec (length a) (length b)) as [L|L].
  - injection H as <-. rewrite map_length, combine_length, L, Nat.min_id in Ht.
    destruct a as [|x [|x' a]]; destruct b as [|y [|y' b]]; cbn in L, Ht; try lia.
    + reflexivity.
    + unfold at_time at 2 3. cbn [combine map fst snd].
      transitivity (nth t (map (fun xy => madd (fst xy) (snd xy)) (combine (x :: x' :: a) (y :: y' :: b))) (madd mzero mzero)).
      * unfold at_time. apply nth_indep. cbn [length]. rewrite map_length. cbn [combine length]. rewrite combine_length. lia.
      * etransitivity; [exact (map_nth (fun xy => madd (fst xy) (snd xy)) (combine (x :: x' :: a) (y :: y' :: b)) (mzero, mzero) t)|].
        rewrite combine_nth by (cbn; lia). reflexivity.
  - destruct a as [|x [|x' a]].
    + destruct b as [|y [|y' b]]; try discriminate H. cbn in H. injection H as <-. cbn in Ht. lia.
    + destruct b as [|y [|y' b]]; [injection H as <-; cbn in Ht; lia|cbn in L; lia|]. injection H as <-.
      cbn [length] in Ht. rewrite map_length in Ht.
      transitivity (nth t (map (madd x) (y :: y' :: b)) (madd x mzero)).
      * unfold at_time. apply nth_indep. cbn [map length]. rewrite map_length. lia.
      * rewrite map_nth. reflexivity.
    + destruct b as [|y [|y' b]]; try discriminate H. injection H as <-. cbn [length] in Ht. rewrite map_length in Ht.
      transitivity (nth t (map (fun z => madd z y) (x :: x' :: a)) (madd mzero y)).
      * unfold at_time. apply nth_indep. cbn [map length]. rewrite map_length. lia.
      * rewrite (map_nth (fun z => madd z y)). reflexivity.
Qed.
Lemma badd_len : forall a b out, badd a b = Ok out -> (length a = 1%nat \/ length a = length out) /\ (length b = 1%nat \/ length b = length out).
Proof.
  intros a b out H. unfold badd in H. destruct (Nat.eqb_spec (length a) (length b)) as [L|L].
  - injection H as <-. rewrite map_length, combine_length. lia.
  - destruct a as [|x [|x' a]]; destruct b as [|y [|y' b]]; try discriminate H; injection H as <-; cbn [length] in *; rewrite ?map_length; lia.
Qed.
Lemma bsum_spec : forall l out, bsum l = Ok out ->
  (forall t, (t < length out)%nat -> at_time t out = sum_at t l) /\ Forall (fun st => length st = 1%nat \/ length st = length out) l.
Proof.
  intros l out H. unfold bsum in H. unfold sum_at.
  assert (G : forall l s0 out, fold_left (fun s h => rbind s (fun s => badd s h)) l (Ok s0) = Ok out ->
    (forall t, (t < length out)%nat -> at_time t out = fold_left (fun s st => madd s (at_time t st)) l (at_time t s0))
    /\ Forall (fun st => length st = 1%nat \/ length st = length out) l /\ (length s0 = 1%nat \/ length s0 = length out)).
  { clear. induction l as [|h l IH]; intros s0 out H; cbn [fold_left rbind] in H.
    - injection H as <-. split; [reflexivity|]. split; [constructor|auto].
    - destruct (badd s0 h) as [s1|] eqn:E.
      2:{ exfalso. clear - H. induction l as [|x l IH]; cbn in H; [discriminate H|auto]. }
      destruct (IH s1 out H) as (A & B & D). pose proof (badd_len _ _ _ E) as [L1 L2].
      split; [|split; [constructor; [|exact B]|]].
      + intros t Ht. rewrite (A t Ht). cbn [fold_left]. f_equal.
        destruct D as [D|D]; [|apply (badd_spec _ _ _ E); lia].
        destruct s1 as [|y [|y' s1]]; cbn in D; try lia.
        assert (a1 : length s0 = 1%nat /\ length h = 1%nat) by (cbn in L1, L2; lia).
        destruct s0 as [|p [|p' s0]]; destruct h as [|q [|q' h]]; cbn in a1; try lia. cbn in E. injection E as <-. reflexivity.
      + lia.
      + lia. }
  destruct (G l [mzero] out H) as (A & B & _). split; auto.
Qed.
(** The Hamiltonian at every time is the sum over all components of the bare or dressed
    Hamiltonian of those without signal and the response to its sample of those with
    one; every stack of responses has one entry or as many as the result. *)
Theorem C95_hamiltonian :
  forall n m T signal hs, NoDup (keys signal) -> NoDup (keys (stored_hams m)) ->
  get_hamiltonian n m T signal = Ok hs ->
  exists hams : dict (list mat), NoDup (keys hams)
  /\ (forall k, match dget k signal with
        | Some sig => exists st, response n m T k sig = Ok st /\ dget k hams = Some st
        | None => dget k hams = match dget k (stored_hams m) with
                                | Some h => Some [match T with Some T => mmul n (mmul n (madj T) h) T | None => h end]
                                | None => None end
        end)
  /\ (forall k st, dget k hams = Some st -> length st = 1%nat \/ length st = length hs)
  /\ forall t, (t < length hs)%nat -> at_time t hs = sum_at t (map snd hams).
Proof.
  intros n m T signal hs N1 N2 H. unfold get_hamiltonian in H.
  destruct (with_signals n m T signal (dmap (fun h => [conj_opt n T h]) (stored_hams m))) as [hams|] eqn:E; [|discriminate H]. cbn [rbind] in H.
  assert (N3 : NoDup (keys (dmap (fun h => [conj_opt n T h]) (stored_hams m)))).
  { replace (keys (dmap (fun h => [conj_opt n T h]) (stored_hams m))) with (keys (stored_hams m)); [exact N2|].
    unfold keys, dmap. rewrite map_map. reflexivity. }
  destruct (with_signals_spec n m T signal _ hams N1 N3 E) as (A & B). destruct (bsum_spec _ _ H) as (D & F).
  exists hams. split; [exact A|]. split; [|split].
  - intro k. specialize (B k). destruct (dget k signal); [exact B|]. rewrite B, dget_dmap. unfold conj_opt, conjugated. reflexivity.
  - intros k st G. rewrite Forall_forall in F. apply F. apply in_map_iff. exists (k, st). split; [reflexivity|]. apply dget_Some_in. exact G.
  - exact D.
Qed.
Print Assumptions C95_hamiltonian.
(** Signals for couplings and for unknown names are refused. *)
Theorem C95_refused :
  forall n m T k sig r, dget k (m_subs m) = None ->
  (dget k (m_lines m) = None -> get_hamiltonian n m T ((k, sig) :: r) = Err C3Error)
  /\ (forall h, dget k (m_lines m) = Some (LCoupling h) -> get_hamiltonian n m T ((k, sig) :: r) = Err NotImplemented).
Proof.
  intros n m T k sig r H. split; [intro E|intros h E]; unfold get_hamiltonian; cbn [with_signals]; rewrite H, E; reflexivity.
Qed.
Print Assumptions C95_refused.

Lemma dset_append : forall V k (v : V) d, ~ In k (keys d) -> dset k v d = d ++ [(k, v)].
Proof.
  intros V k v d. induction d as [|[a b] d IH]; intro N; [reflexivity|]. cbn [dset keys map fst In app] in *.
  destruct (String.eqb_spec k a) as [->|D]; [exfalso; apply N; auto|]. rewrite IH by tauto. reflexivity.
Qed.
Lemma stored_drive : forall m k h, NoDup (keys (m_subs m) ++ keys (m_lines m)) -> dget k (m_lines m) = Some (LDrive h) ->
  dget k (m_subs m) = None /\ ~ In k (keys (stored_hams m)) /\ dget k (control_hams m) = Some h.
Proof.
  intros m k h N E.
  assert (Hin : In k (keys (m_lines m))) by (apply dget_in_keys; eauto).
  assert (N1 : ~ In k (keys (m_subs m))).
  { intro X. clear - N X Hin. induction (keys (m_subs m)) as [|a l IH]; [destruct X|]. cbn in N. inversion N; subst.
    destruct X as [->|X]; [apply H1, in_or_app; auto|auto]. }
  assert (N2 : NoDup (keys (m_lines m))).
  { clear - N. induction (keys (m_subs m)); [exact N|]. cbn in N. inversion N; auto. }
  split; [|split].
  - destruct (dget k (m_subs m)) eqn:G; auto. exfalso. apply N1, dget_in_keys. eauto.
  - unfold stored_hams. unfold keys. rewrite map_app. intro X. apply in_app_iff in X. destruct X as [X|X].
    + apply N1. unfold dmap in X. rewrite map_map in X. exact X.
    + apply in_map_iff in X. destruct X as ([k' h'] & E' & X). cbn in E'. subst k'. apply in_flat_map in X. destruct X as ([k' l] & X & Y). cbn in Y.
      destruct l as [g|g]; [|destruct Y]. destruct Y as [Y|[]]. injection Y as -> ->.
      pose proof (dget_in_nodup _ _ _ N2 X). congruence.
  - unfold control_hams. revert E. clear. induction (m_lines m) as [|[a l] d IH]; intro E; [discriminate E|].
    cbn [flat_map snd fst] in *. cbn [dget] in E. destruct (String.eqb_spec k a) as [->|D].
    + injection E as ->. cbn. rewrite String.eqb_refl. reflexivity.
    + destruct l; cbn [app dget]; auto. destruct (String.eqb_spec k a); [congruence|auto].
Qed.
Lemma drive_signals_stack : forall n m T signal hams, NoDup (keys (m_subs m) ++ keys (m_lines m)) -> NoDup (keys signal) ->
  (forall k, In k (keys signal) -> ~ In k (keys hams)) ->
  (forall k sig, In (k, sig) signal -> exists h, dget k (m_lines m) = Some (LDrive h)) ->
  with_signals n m T signal hams
  = Ok (hams ++ map (fun ks => (fst ks, map (fun c => mscale (RtoC c) (conj_opt n T
          (match dget (fst ks) (control_hams m) with Some h => h | None => mzero end))) (snd ks))) signal).
Proof.
  intros n m T signal. induction signal as [|[k sig] signal IH]; intros hams N N1 Hn Hd; cbn [with_signals map]; [rewrite app_nil_r; reflexivity|].
  destruct (Hd k sig (or_introl eq_refl)) as (h & E). destruct (stored_drive m k h N E) as (A & _ & B). rewrite A, E. cbn [line_signal rbind].
  cbn [keys map fst] in N1. inversion N1; subst.
  rewrite dset_append by (apply Hn; left; reflexivity). rewrite IH; auto.
  - rewrite <- app_assoc. cbn [app fst snd]. rewrite B. reflexivity.
  - intros k' Hk'. unfold keys. rewrite map_app. intro X. apply in_app_iff in X. destruct X as [X|[X|[]]].
    + apply (Hn k'); [right; exact Hk'|exact X].
    + cbn in X. subst k'. contradiction.
  - intros k' s' Hk'. eapply Hd. right. exact Hk'.
Qed.
Lemma bsum_singles : forall l s0, fold_left (fun s h => rbind s (fun s => badd s h)) (map (fun h => [h]) l) (Ok [s0])
  = Ok [fold_left madd l s0].
Proof. induction l as [|h l IH]; intro s0; [reflexivity|]. cbn [map fold_left]. cbn [badd rbind]. apply IH. Qed.
Lemma badd_single : forall d b, badd [d] b = Ok (map (madd d) b).
Proof. intros d [|x [|y b]]; reflexivity. Qed.
Lemma bsum_stacks : forall N (stacks : list (list mat)) s0, length s0 = N -> Forall (fun st => length st = N) stacks ->
  exists out, fold_left (fun s h => rbind s (fun s => badd s h)) stacks (Ok s0) = Ok out /\ length out = N
  /\ forall t, (t < N)%nat -> nth t out mzero = fold_left (fun s st => madd s (nth t st mzero)) stacks (nth t s0 mzero).
Proof.
  intros N stacks. induction stacks as [|st stacks IH]; intros s0 L F; cbn [fold_left]; [exists s0; auto|].
  inversion F as [|x l L1 F1]; subst x l. cbn [rbind].
  assert (Eb : badd s0 st = Ok (map (fun xy => madd (fst xy) (snd xy)) (combine s0 st))) by (unfold badd; rewrite L, L1, Nat.eqb_refl; reflexivity).
  rewrite Eb. clear Eb.
  destruct (IH (map (fun xy => madd (fst xy) (snd xy)) (combine s0 st))) as (out & A & B & D).
  - rewrite map_length, combine_length, L, L1. lia.
  - exact F1.
  - exists out. split; [exact A|]. split; [exact B|]. intros t Ht. rewrite (D t Ht). f_equal.
    rewrite (nth_indep (map (fun xy => madd (fst xy) (snd xy)) (combine s0 st)) mzero (madd mzero mzero)) by (rewrite map_length, combine_length, L, L1; lia).
    etransitivity; [exact (map_nth (fun xy => madd (fst xy) (snd xy)) (combine s0 st) (mzero, mzero) t)|]. rewrite combine_nth by lia. reflexivity.
Qed.
Lemma fold_add_right : forall n A (f : A -> mat) l d, meq n n (fold_left (fun s x => madd s (f x)) l d) (madd d (fold_right (fun x acc => madd (f x) acc) mzero l)).
Proof.
  intros n A f l. induction l as [|x l IH]; intro d; cbn [fold_left fold_right]; [rewrite madd_zero_r; reflexivity|].
  rewrite IH, madd_assoc. reflexivity.
Qed.
Definition ops_of (m : parts) : operators := {| o_hams := stored_hams m; o_controls := control_hams m; o_cols := [] |}.
(** Signals on drive lines only: the result is, sample by sample, the Hamiltonian
    drift + sum_k c_k(t) H_k that the branch with control Hamiltonians propagates, in
    the bare and in the dressed frame. *)
Theorem C95_drives :
  forall n dims lind m T (signal : dict wave) N, NoDup (keys (m_subs m) ++ keys (m_lines m)) -> NoDup (keys signal) -> signal <> [] ->
  (forall k w, In (k, w) signal -> (exists h, dget k (m_lines m) = Some (LDrive h)) /\ length (w_values w) = N) ->
  exists hs, get_hamiltonian n m T (dmap w_values signal) = Ok hs /\ length hs = N
  /\ forall t, (t < N)%nat -> meq n n (nth t hs mzero) (driven_hamiltonian (model_view n dims lind T (ops_of m)) signal t).
Proof.
  intros n dims lind m T signal N ND N1 NE Hd. unfold get_hamiltonian.
  rewrite drive_signals_stack; auto.
  2:{ replace (keys (dmap w_values signal)) with (keys signal); [exact N1|]. unfold keys, dmap. rewrite map_map. reflexivity. }
  2:{ intros k Hk X. replace (keys (dmap w_values signal)) with (keys signal) in Hk by (unfold keys, dmap; rewrite map_map; reflexivity).
      apply in_map_iff in Hk. destruct Hk as ([k' w] & E & Hk). cbn in E. subst k'. destruct (Hd k w Hk) as ((h & E) & _).
      destruct (stored_drive m k h ND E) as (_ & Y & _). apply Y. unfold keys, dmap in X. rewrite map_map in X. exact X. }
  2:{ intros k sig Hk. unfold dmap in Hk. apply in_map_iff in Hk. destruct Hk as ([k' w] & E & Hk). cbn in E. injection E as -> _. apply (Hd k w Hk). }
  cbn [rbind]. unfold bsum. rewrite map_app, fold_left_app.
  set (ctl := fun k => conj_opt n T (match dget k (control_hams m) with Some h => h | None => mzero end)).
  assert (E1 : map snd (dmap (fun h => [conj_opt n T h]) (stored_hams m)) = map (fun h => [h]) (map (fun kv => conj_opt n T (snd kv)) (stored_hams m))).
  { unfold dmap. rewrite !map_map. reflexivity. }
  rewrite E1, bsum_singles. set (d0 := fold_left madd (map (fun kv => conj_opt n T (snd kv)) (stored_hams m)) mzero).
  assert (E2 : map snd (map (fun ks : string * list R => (fst ks, map (fun c => mscale (RtoC c) (conj_opt n T match dget (fst ks) (control_hams m) with Some h => h | None => mzero end)) (snd ks))) (dmap w_values signal))
             = map (fun kw => map (fun c => mscale (RtoC c) (ctl (fst kw))) (w_values (snd kw))) signal).
  { unfold dmap. rewrite !map_map. reflexivity. }
  rewrite E2. clear E1 E2. destruct signal as [|[k w] signal]; [congruence|]. cbn [map fold_left rbind fst snd].
  rewrite badd_single. assert (Lw : length (w_values w) = N) by (apply (Hd k w); left; reflexivity).
  destruct (bsum_stacks N (map (fun kw => map (fun c => mscale (RtoC c) (ctl (fst kw))) (w_values (snd kw))) signal)
     (map (madd d0) (map (fun c => mscale (RtoC c) (ctl k)) (w_values w)))) as (out & A & B & D).
  { rewrite !map_length. exact Lw. }
  { apply Forall_forall. intros st Hst. apply in_map_iff in Hst. destruct Hst as ([k' w'] & <- & Hk). rewrite map_length. apply (Hd k' w'). right. exact Hk. }
  exists out. split; [exact A|]. split; [exact B|]. intros t Ht. rewrite (D t Ht). clear A B D.
  assert (M0 : meq n n d0 (p_h0 (model_view n dims lind T (ops_of m)))).
  { unfold d0. destruct T as [T|]; cbn [model_view p_h0 conj_opt].
    - unfold dressed_drift. cbn [ops_of o_hams]. rewrite drift_sim. unfold drift_of, dmap.
      generalize mzero. induction (stored_hams m) as [|kv l IH]; intro s; cbn [map fold_left fst snd]; [reflexivity|apply IH].
    - cbn [ops_of o_hams]. unfold drift_of. generalize mzero. induction (stored_hams m) as [|kv l IH]; intro s; cbn [map fold_left]; [reflexivity|apply IH]. }
  assert (Mc : forall k' w', In (k', w') ((k, w) :: signal) -> dget k' (p_hctrls (model_view n dims lind T (ops_of m))) = Some (ctl k')).
  { intros k' w' Hk. destruct (Hd k' w' Hk) as ((h & E) & _). destruct (stored_drive m k' h ND E) as (_ & _ & Y). unfold ctl. rewrite Y.
    destruct T as [T|]; cbn [model_view p_hctrls dressed_operators o_controls ops_of conj_opt]; [rewrite dget_dmap, Y; reflexivity|exact Y]. }
  assert (S1 : forall kw : string * wave, length (w_values (snd kw)) = N ->
     nth t (map (fun c => mscale (RtoC c) (ctl (fst kw))) (w_values (snd kw))) mzero = mscale (RtoC (nth t (w_values (snd kw)) 0)) (ctl (fst kw))).
  { intros kw Lk. rewrite (nth_indep _ mzero (mscale (RtoC 0) (ctl (fst kw)))) by (rewrite map_length; lia).
    apply (map_nth (fun c => mscale (RtoC c) (ctl (fst kw)))). }
  rewrite (nth_indep _ mzero (madd d0 mzero)) by (rewrite !map_length; lia). rewrite (map_nth (madd d0)).
  pose proof (S1 (k, w) Lw) as S2. cbn [fst snd] in S2. rewrite S2. clear S2.
  unfold driven_hamiltonian. cbn [fold_right fst snd]. rewrite (Mc k w (or_introl eq_refl)).
  rewrite <- M0, madd_assoc. generalize (madd d0 (mscale (RtoC (nth t (w_values w) 0)) (ctl k))). intro d1.
  assert (Hs : forall k' w', In (k', w') signal -> dget k' (p_hctrls (model_view n dims lind T (ops_of m))) = Some (ctl k') /\ length (w_values w') = N).
  { intros k' w' Hk. split; [apply (Mc k' w'); right; exact Hk|apply (Hd k' w'); right; exact Hk]. }
  clear Hd Mc N1 NE. revert d1 Hs. generalize (p_hctrls (model_view n dims lind T (ops_of m))). intros hc.
  induction signal as [|[k' w'] signal IH]; intros d1 Hs; cbn [map fold_left fold_right fst snd]; [rewrite madd_zero_r; reflexivity|].
  destruct (Hs k' w' (or_introl eq_refl)) as [E Lk]. rewrite E.
  pose proof (S1 (k', w') Lk) as S2. cbn [fst snd] in S2. rewrite S2. clear S2.
  rewrite IH by (intros; apply Hs; right; assumption). rewrite madd_assoc. reflexivity.
Qed.
Print Assumptions C95_drives.
Lemma mean_const : forall A (l : list A) (f : A -> R) x, l <> [] -> (forall a, In a l -> f a = x) -> rmean (map f l) = x.
Proof.
  intros A l f x NE H. unfold rmean. rewrite map_length.
  assert (E : rsum (map f l) = INR (length l) * x).
  { clear NE. induction l as [|a l IH]; [cbn; ring|]. cbn [map length]. rewrite S_INR. unfold rsum in *. cbn [fold_right].
    rewrite IH by (intros; apply H; right; assumption). rewrite (H a (or_introl eq_refl)). ring. }
  rewrite E. field. apply not_0_INR. destruct l; [congruence|discriminate].
Qed.
(** Both branches of the piecewise constant propagation therefore compute the same
    gate when all lines share one uniform time grid. *)
Theorem C95_branches_agree :
  forall n dims m T (signal : dict wave) N ts dt stack batch batch' hs r r',
  NoDup (keys (m_subs m) ++ keys (m_lines m)) -> NoDup (keys signal) ->
  (forall k w, In (k, w) signal -> (exists h, dget k (m_lines m) = Some (LDrive h)) /\ length (w_values w) = N /\ w_ts w = ts) ->
  (forall j, (S j < length ts)%nat -> nth (S j) ts 0 - nth j ts 0 = dt) ->
  let view := model_view n dims false T (ops_of m) in
  get_hamiltonian n m T (dmap w_values signal) = Ok hs ->
  pwc_controlled view signal stack batch = Ok r ->
  pwc_uncontrolled view hs signal stack batch' = Ok r' ->
  meq n n (pr_U r') (pr_U r).
Proof.
  intros n dims m T signal N ts dt stack batch batch' hs r r' ND N1 Hd Hu view Hh H H'.
  destruct (controlled_split _ _ _ _ _ H) as (dt0 & Dt & L & S & F).
  assert (NE : signal <> []) by (destruct Dt as (kv & r0 & t0 & t1 & ts0 & E & _); intro X; rewrite X in E; destruct r0; discriminate E).
  assert (View : p_lind view = false /\ p_dim view = n /\ p_max_ex view = 0%nat) by (unfold view; destruct T; auto).
  destruct View as (V1 & V2 & V3). rewrite V1, V2 in *.
  assert (D0 : dt0 = dt).
  { destruct Dt as (kv & r0 & t0 & t1 & ts0 & E & E' & ->). destruct kv as [k w]. destruct (Hd k w) as (_ & _ & W); [rewrite E; apply in_or_app; right; left; reflexivity|].
    cbn [snd] in E'. rewrite W in E'. specialize (Hu 0%nat). rewrite E' in Hu. apply Hu. cbn. lia. }
  subst dt0.
  destruct (C95_drives n dims false m T signal N ND N1 NE) as (hs' & E1 & L1 & M1).
  { intros k w Hk. destruct (Hd k w Hk) as (A & B & _). auto. }
  rewrite Hh in E1. injection E1 as <-.
  unfold pwc_uncontrolled in H'. rewrite V1, V2, V3 in H'. cbv zeta in H'. cbn [Nat.eqb] in H'.
  destruct (map (fun kv : string * wave => tl (w_ts (snd kv))) signal) as [|u0 us] eqn:Et; [discriminate H'|].
  destruct (ragged (u0 :: us)); [discriminate H'|].
  assert (Hmean : forall j, rmean (time_column (u0 :: us) j) = nth j (tl ts) 0).
  { intro j. unfold time_column, row. apply mean_const; [discriminate|]. intros l Hl. rewrite <- Et in Hl.
    apply in_map_iff in Hl. destruct Hl as ([k w] & <- & Hk). destruct (Hd k w Hk) as (_ & _ & W). cbn [snd]. rewrite W. reflexivity. }
  assert (U0 : u0 = tl ts).
  { destruct signal as [|[k w] signal]; [discriminate Et|]. cbn [map] in Et. injection Et as <- _. destruct (Hd k w (or_introl eq_refl)) as (_ & _ & W). cbn [snd]. rewrite W. reflexivity. }
  destruct (map (fun j => rmean (time_column (u0 :: us) j)) (seq 0 (length u0))) as [|a [|b rest]] eqn:Em; try discriminate H'.
  destruct (negb (forallb _ (seq 0 (length u0)))) in H'; [discriminate H'|]. destruct (negb (rltb _ _)) in H'; [discriminate H'|].
  assert (Dab : b - a = dt).
  { assert (Lu : (2 <= length u0)%nat).
    { apply (f_equal (@List.length R)) in Em. rewrite map_length, seq_length in Em. cbn in Em. lia. }
    rewrite (map_ext _ _ Hmean) in Em. rewrite U0 in Em, Lu. destruct ts as [|x [|y [|z ts]]]; cbn in Lu; try lia.
    cbn [tl length seq map nth] in Em. injection Em as Ea Eb _. rewrite <- Ea, <- Eb. exact (Hu 1%nat ltac:(cbn; lia)). }
  rewrite Dab in H'.
  destruct (Nat.eq_dec (batch_of batch' (a :: b :: rest)) 0) as [Eb|Eb].
  { exfalso. unfold batch_propagate_h in H'. rewrite Eb in H'. discriminate H'. }
  rewrite C23_batching_hamiltonian in H' by lia. cbn [rbind] in H'.
  destruct (tf_matmul_n (mmul n) (map (fun h => mexp n (mscale (- Ci * RtoC dt)%C h)) hs) stack) as [U'|] eqn:EU; [|discriminate H'].
  cbn [rbind] in H'. injection H' as <-. cbn [pr_U].
  assert (SN : samples signal = N).
  { destruct signal as [|[k w] signal]; [congruence|]. cbn. apply (Hd k w). left. reflexivity. }
  destruct (rel_matmul_n (mmul n) (mmul n) (fun d d' => meq n n d' d)) with (stack := stack) (l := pr_dUs r)
    (l' := map (fun h => mexp n (mscale (- Ci * RtoC dt)%C h)) hs) (u := pr_U r) as (U2 & E2 & R2); auto.
  { intros x x' y y' Hx Hy. rewrite Hx, Hy. reflexivity. }
  { apply nth_error_Forall2; [rewrite map_length; congruence|]. intros t Ht. rewrite L, SN in Ht.
    specialize (S t ltac:(rewrite SN; exact Ht)). eexists. eexists. split; [exact S|]. split.
    - rewrite nth_error_map. rewrite (nth_error_nth' hs mzero) by lia. reflexivity.
    - apply mexp_proper. apply (mscale_proper n n); [reflexivity|]. apply M1. exact Ht. }
  rewrite EU in E2. injection E2 as ->. exact R2.
Qed.
Print Assumptions C95_branches_agree.
Example C95_example :
  let drive := fun i j : nat => if Nat.eqb (i + j) 1 then RtoC 1 else RtoC 0 in
  let m := {| m_subs := [("q"%string, {| s_ham := mid; s_signal := fun _ _ => Err NotImplemented |})];
              m_lines := [("d"%string, LDrive drive)] |} in
  let s : dict wave := [("d"%string, {| w_values := [1; 2; 3]; w_ts := [0; 1; 2] |})] in
  NoDup (keys (m_subs m) ++ keys (m_lines m)) /\ NoDup (keys s)
  /\ (forall k w, In (k, w) s -> (exists h, dget k (m_lines m) = Some (LDrive h)) /\ length (w_values w) = 3%nat /\ w_ts w = [0; 1; 2])
  /\ exists hs, get_hamiltonian 2 m None (dmap w_values s) = Ok hs /\ nth 1 hs mzero 0%nat 1%nat = RtoC 2 /\ nth 1 hs mzero 0%nat 0%nat = RtoC 1.
Proof.
  cbv zeta. split; [|split; [|split]].
  - repeat constructor; cbn; intuition discriminate.
  - repeat constructor; cbn; tauto.
  - intros k w [E|[]]. injection E as <- <-. cbn. split; [eexists; reflexivity|auto].
  - eexists. split; [reflexivity|]. cbn. split; apply C_ext; cbn; ring.
Qed.
