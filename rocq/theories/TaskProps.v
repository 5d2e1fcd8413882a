(** Properties C50 to C52: readout errors, thermal states, readout processing. *)
From Coq Require Import Reals Lra Lia Permutation.
From Coquelicot Require Import Coquelicot.
From Verif Require Import Base Mat MExp RSum HilbertModel HilbertProofs Hilbert2Proofs PropModel FidModel FidProofs FidProps TaskModel.
Local Open Scope list_scope.
Local Open Scope nat_scope.
Local Notation length := List.length.

(** ** Sums over state labels *)

Lemma labels_positions : forall dims, map (pos dims) (labels dims) = seq 0 (prod_dims dims).
Proof.
  intro dims. apply nth_ext with 0 0.
  - rewrite map_length, seq_length, labels_length. reflexivity.
  - intros n Hn. rewrite map_length, labels_length in Hn. rewrite seq_nth by exact Hn.
    destruct (pos_surj _ _ Hn) as (l & Hl & E). pose proof (labels_nth dims l Hl) as L. rewrite E in L.
    rewrite nth_indep with (d' := pos dims []) by (rewrite map_length, labels_length; exact Hn).
    rewrite map_nth. erewrite nth_error_nth by exact L. rewrite E. reflexivity.
Qed.
Lemma rs_labels : forall dims f, rs (prod_dims dims) f = sum_list (map (fun l => f (pos dims l)) (labels dims)).
Proof.
  intros dims f. rewrite <- (map_map (pos dims) f), labels_positions, sum_list_seq. reflexivity.
Qed.
Lemma sum_list_ext : forall {A} (f g : A -> R) l, (forall x, In x l -> f x = g x) -> sum_list (map f l) = sum_list (map g l).
Proof. intros A f g l H. f_equal. apply map_ext_in, H. Qed.
Lemma sum_list_app : forall a b, (sum_list (a ++ b) = sum_list a + sum_list b)%R.
Proof. induction a as [|x a IH]; intro b; cbn [sum_list fold_right app]; unfold sum_list in *; [|rewrite IH]; ring. Qed.
Lemma sum_list_scale : forall {A} c (f : A -> R) l, (sum_list (map (fun x => c * f x) l) = c * sum_list (map f l))%R.
Proof. induction l as [|x l IH]; cbn [sum_list fold_right map]; unfold sum_list in *; [|rewrite IH]; ring. Qed.
Lemma sum_list_swap : forall {A B} (f : A -> B -> R) l m,
  sum_list (map (fun a => sum_list (map (f a) m)) l) = sum_list (map (fun b => sum_list (map (fun a => f a b) l)) m).
Proof.
  intros A B f l m. induction l as [|a l IH]; cbn [map sum_list fold_right].
  - induction m as [|b m IHm]; [reflexivity|]. cbn [map fold_right sum_list]. unfold sum_list in IHm. rewrite <- IHm. ring.
  - unfold sum_list in *. rewrite IH. clear IH. induction m as [|b m IHm]; cbn [map fold_right]; [ring|]. rewrite <- IHm. ring.
Qed.
Lemma sum_list_nonneg : forall {A} (f : A -> R) l, (forall x, In x l -> 0 <= f x)%R -> (0 <= sum_list (map f l))%R.
Proof.
  intros A f l. induction l as [|x l IH]; intro H; cbn [map sum_list fold_right]; [lra|].
  unfold sum_list in IH. assert (0 <= f x)%R by (apply H; left; reflexivity).
  assert (0 <= fold_right Rplus 0 (map f l))%R by (apply IH; intros; apply H; right; assumption). lra.
Qed.
Lemma sum_list_flat : forall {A B} (f : B -> R) (g : A -> list B) l,
  sum_list (map f (flat_map g l)) = sum_list (map (fun a => sum_list (map f (g a))) l).
Proof.
  induction l as [|a l IH]; [reflexivity|]. cbn [flat_map map]. rewrite map_app, sum_list_app, IH. reflexivity.
Qed.
Lemma pops_labels : forall dims pops, length pops = prod_dims dims ->
  map (fun l => nth (pos dims l) pops 0%R) (labels dims) = pops.
Proof.
  intros dims pops H. rewrite <- (map_map (pos dims) (fun i => nth i pops 0%R)), labels_positions, <- H.
  apply nth_ext with 0%R 0%R; rewrite map_length, seq_length; [reflexivity|].
  intros n Hn. rewrite nth_indep with (d' := nth 0 pops 0%R) by (rewrite map_length, seq_length; exact Hn).
  rewrite map_nth with (f := fun i => nth i pops 0%R), seq_nth by exact Hn. reflexivity.
Qed.

(** ** C50 *)

(** [rows] holds for each subsystem the probability to read 0 in each level.
    Probability to read the bits [b] in the product state [l]. *)
Fixpoint read_prob (rows : list (list R)) (b l : list nat) : R :=
  match rows, b, l with
  | row :: rows', bit :: b', lvl :: l' =>
      ((if Nat.eqb bit 0 then nth lvl row 0 else 1 - nth lvl row 0) * read_prob rows' b' l')%R
  | _, _, _ => 1%R
  end.
Definition levels (rows : list (list R)) : list nat := map (fun r : list R => length r) rows.
Definition bits (rows : list (list R)) : list nat := repeat 2 (length rows).

Lemma conf_fold : forall rows acc, let cm := fold_left (fun acc row => tf_kron acc (conf_mat row)) rows acc in
  rr cm = rr acc * prod_dims (bits rows) /\ rc cm = rc acc * prod_dims (levels rows)
  /\ forall a c b l, valid (bits rows) b -> valid (levels rows) l ->
     re cm (a * prod_dims (bits rows) + pos (bits rows) b) (c * prod_dims (levels rows) + pos (levels rows) l)
     = (re acc a c * read_prob rows b l)%R.
Proof.
  induction rows as [|row rows IH]; intros acc; cbn [fold_left].
  - cbn. split; [lia|]. split; [lia|]. intros a c b l Hb Hl. inversion Hb; inversion Hl; subst. cbn.
    rewrite !Nat.mul_1_r, !Nat.add_0_r. ring.
  - destruct (IH (tf_kron acc (conf_mat row))) as (A & B & D). cbv zeta. rewrite A, B. clear A B.
    unfold bits, levels in *. cbn [map repeat length]. rewrite !prod_dims_cons. cbn [tf_kron conf_mat rr rc].
    split; [lia|]. split; [lia|]. intros a c b l Hb Hl.
    inversion Hb as [|x ? b' ? Hx Hb']; subst. inversion Hl as [|y ? l' ? Hy Hl']; subst. cbn [pos read_prob].
    set (P := prod_dims (repeat 2 (length rows))) in *. set (Q := prod_dims (map (fun r : list R => length r) rows)) in *.
    replace (a * (2 * P) + (x * P + pos (repeat 2 (length rows)) b')) with ((a * 2 + x) * P + pos (repeat 2 (length rows)) b') by lia.
    replace (c * (length row * Q) + (y * Q + pos (map (fun r : list R => length r) rows) l'))
      with ((c * length row + y) * Q + pos (map (fun r : list R => length r) rows) l') by lia.
    rewrite D by assumption. cbn [tf_kron conf_mat rr rc re].
    destruct (divmod_add a x 2 Hx) as [-> ->]. destruct (divmod_add c y (length row) Hy) as [-> ->]. ring.
Qed.
Lemma bits_prod : forall rows, prod_dims (bits rows) = 2 ^ length rows.
Proof. intro. apply qubits_dim. Qed.

Theorem C50_value :
  forall rows pops, length pops = prod_dims (levels rows) ->
  exists out, confuse rows pops = Ok out
   /\ length out = 2 ^ length rows
   /\ forall b, valid (bits rows) b ->
      nth (pos (bits rows) b) out 0%R
      = sum_list (map (fun l => read_prob rows b l * nth (pos (levels rows) l) pops 0)%R (labels (levels rows))).
Proof.
  intros rows pops H. unfold confuse. destruct (conf_fold rows rone) as (A & B & D).
  set (cm := fold_left _ rows rone) in *. cbn [rone rr rc] in A, B. rewrite Nat.mul_1_l in A, B.
  rewrite B, H, Nat.eqb_refl. eexists. split; [reflexivity|]. split.
  - rewrite map_length, seq_length, A. apply bits_prod.
  - intros b Hb. pose proof (pos_lt _ _ Hb) as Pb. rewrite A.
    rewrite nth_indep with (d' := (fun i => rs (prod_dims (levels rows)) (fun j => re cm i j * nth j pops 0)%R) 0)
      by (rewrite map_length, seq_length; exact Pb).
    rewrite map_nth with (f := fun i => rs (prod_dims (levels rows)) (fun j => re cm i j * nth j pops 0)%R), seq_nth by exact Pb.
    cbn [Nat.add]. rewrite rs_labels. apply sum_list_ext. intros l Hl. apply in_labels in Hl.
    specialize (D 0 0 b l Hb Hl). cbn [Nat.mul Nat.add rone re] in D. rewrite D. ring.
Qed.
Print Assumptions C50_value.
Theorem C50_shape_mismatch : forall rows pops, length pops <> prod_dims (levels rows) -> confuse rows pops = Err ValueError.
Proof.
  intros rows pops H. unfold confuse. destruct (conf_fold rows rone) as (A & B & D). cbv zeta in B. rewrite B.
  cbn [rone rc]. rewrite Nat.mul_1_l. destruct (Nat.eqb_spec (prod_dims (levels rows)) (length pops)); [congruence|reflexivity].
Qed.
Print Assumptions C50_shape_mismatch.

Lemma read_prob_total : forall rows l, valid (levels rows) l ->
  sum_list (map (fun b => read_prob rows b l) (labels (bits rows))) = 1%R.
Proof.
  induction rows as [|row rows IH]; intros l Hl.
  - cbn. ring.
  - inversion Hl as [|y ? l' ? Hy Hl']; subst. unfold bits. cbn [length repeat labels].
    rewrite sum_list_flat. cbn [seq map]. unfold sum_list at 1. cbn [fold_right].
    rewrite !map_map. cbn [read_prob Nat.eqb]. rewrite !sum_list_scale.
    change (labels (repeat 2 (length rows))) with (labels (bits rows)). rewrite IH by exact Hl'. ring.
Qed.
Lemma read_prob_nonneg : forall rows, Forall (Forall (fun p => 0 <= p <= 1)%R) rows -> forall b l, (0 <= read_prob rows b l)%R.
Proof.
  induction 1 as [|row rows Hr H IH]; intros b l; [cbn; lra|]. destruct b as [|bit b], l as [|lvl l]; cbn [read_prob]; try lra.
  apply Rmult_le_pos; [|apply IH].
  assert (B : (0 <= nth lvl row 0 <= 1)%R).
  { destruct (nth_in_or_default lvl row 0%R) as [I| ->]; [|lra]. rewrite Forall_forall in Hr. apply Hr, I. }
  destruct (Nat.eqb bit 0); lra.
Qed.

Theorem C50_conserves_total :
  forall rows pops out, confuse rows pops = Ok out -> sum_list out = sum_list pops.
Proof.
  intros rows pops out H.
  destruct (Nat.eq_dec (length pops) (prod_dims (levels rows))) as [E|E];
    [|rewrite C50_shape_mismatch in H by exact E; discriminate].
  destruct (C50_value rows pops E) as (out' & H' & L & V). rewrite H in H'. injection H' as <-.
  rewrite <- (pops_labels (bits rows) out) by (rewrite bits_prod; exact L).
  rewrite (sum_list_ext _ (fun b => sum_list (map (fun l => read_prob rows b l * nth (pos (levels rows) l) pops 0)%R (labels (levels rows)))))
    by (intros b Hb; apply V, in_labels, Hb).
  rewrite sum_list_swap. 
  transitivity (sum_list (map (fun l => nth (pos (levels rows) l) pops 0%R) (labels (levels rows)))); [|rewrite (pops_labels _ _ E); reflexivity].
  apply sum_list_ext. intros l Hl. apply in_labels in Hl.
  rewrite (sum_list_ext _ (fun b => nth (pos (levels rows) l) pops 0 * read_prob rows b l)%R) by (intros; ring).
  rewrite sum_list_scale, read_prob_total by exact Hl. ring.
Qed.
Print Assumptions C50_conserves_total.

Theorem C50_nonnegative :
  forall rows pops out, Forall (Forall (fun p => 0 <= p <= 1)%R) rows -> Forall (fun p => 0 <= p)%R pops ->
  confuse rows pops = Ok out -> Forall (fun p => 0 <= p)%R out.
Proof.
  intros rows pops out Hr Hp H.
  destruct (Nat.eq_dec (length pops) (prod_dims (levels rows))) as [E|E];
    [|rewrite C50_shape_mismatch in H by exact E; discriminate].
  destruct (C50_value rows pops E) as (out' & H' & L & V). rewrite H in H'. injection H' as <-.
  rewrite <- (pops_labels (bits rows) out) by (rewrite bits_prod; exact L).
  apply Forall_forall. intros x Hx. apply in_map_iff in Hx as (b & <- & Hb). rewrite V by (apply in_labels, Hb).
  apply sum_list_nonneg. intros l _. apply Rmult_le_pos; [apply read_prob_nonneg, Hr|].
  destruct (nth_in_or_default (pos (levels rows) l) pops 0%R) as [I| ->]; [|lra]. rewrite Forall_forall in Hp. apply Hp, I.
Qed.
Print Assumptions C50_nonnegative.

(** Perfect readout: level 0 always reads 0, every other level always reads 1. *)
Definition perfect_row (row : list R) : Prop :=
  forall lvl, lvl < length row -> nth lvl row 0%R = if Nat.eqb lvl 0 then 1%R else 0%R.
(** [b] is what an ideal detector shows for [l]. *)
Definition reads (l : list nat) : list nat := map (fun lvl => if Nat.eqb lvl 0 then 0 else 1) l.
Theorem C50_perfect_readout :
  forall rows pops, Forall perfect_row rows -> length pops = prod_dims (levels rows) ->
  exists out, confuse rows pops = Ok out /\ length out = 2 ^ length rows
   /\ forall b, valid (bits rows) b ->
      nth (pos (bits rows) b) out 0%R
      = sum_list (map (fun l => nth (pos (levels rows) l) pops 0%R)
                      (filter (fun l => list_eqb (reads l) b) (labels (levels rows)))).
Proof.
  intros rows pops Hp E. destruct (C50_value rows pops E) as (out & H & L & V). exists out. split; [exact H|]. split; [exact L|].
  intros b Hb. rewrite V by exact Hb.
  assert (P : forall l, valid (levels rows) l -> read_prob rows b l = if list_eqb (reads l) b then 1%R else 0%R).
  { clear -Hp Hb. revert b Hb. induction Hp as [|row rows Hr Hp IH]; intros b Hb l Hl.
    - inversion Hb; inversion Hl; reflexivity.
    - inversion Hb as [|x ? b' ? Hx Hb']; subst. inversion Hl as [|y ? l' ? Hy Hl']; subst.
      cbn [read_prob reads map list_eqb]. rewrite (IH b' Hb' l' Hl'). rewrite (Hr y Hy). fold (reads l').
      destruct (Nat.eqb_spec y 0), (Nat.eqb_spec x 0), (list_eqb (reads l') b'); subst; cbn [andb Nat.eqb];
        try (destruct x as [|[|x]]; [congruence| |lia]); cbn [Nat.eqb andb]; ring. }
  assert (I : forall l, In l (labels (levels rows)) -> valid (levels rows) l) by (intros; apply in_labels; assumption).
  clear V. induction (labels (levels rows)) as [|l ls IH]; [reflexivity|].
  cbn [map filter sum_list fold_right]. rewrite (P l) by (apply I; left; reflexivity).
  unfold sum_list in IH. rewrite IH by (intros; apply I; right; assumption).
  destruct (list_eqb (reads l) b); cbn [map fold_right]; ring.
Qed.
Print Assumptions C50_perfect_readout.
Theorem C50_perfect_qubits_identity :
  forall k pops, length pops = 2 ^ k -> confuse (repeat [1; 0]%R k) pops = Ok pops.
Proof.
  intros k pops H.
  assert (Lv : levels (repeat [1; 0]%R k) = repeat 2 k).
  { unfold levels. induction k as [|k IH]; [reflexivity|]. cbn [repeat map length]. f_equal. clear -k. induction k; cbn; congruence. }
  assert (Bt : bits (repeat [1; 0]%R k) = repeat 2 k) by (unfold bits; rewrite repeat_length; reflexivity).
  assert (Hq : length pops = prod_dims (levels (repeat [1; 0]%R k))) by (rewrite Lv, qubits_dim; exact H).
  destruct (C50_perfect_readout (repeat [1; 0]%R k) pops) as (out & -> & L & V); [|exact Hq|].
  { apply Forall_forall. intros r Hr. apply repeat_spec in Hr. subst r. intros lvl Hl. destruct lvl as [|[|lvl]]; cbn in *; try reflexivity; lia. }
  f_equal. rewrite Lv, Bt in V. rewrite repeat_length in L.
  rewrite <- (pops_labels (repeat 2 k) out) by (rewrite qubits_dim; exact L).
  rewrite <- (pops_labels (repeat 2 k) pops) by (rewrite qubits_dim; exact H).
  apply map_ext_in. intros b Hb. apply in_labels in Hb. rewrite V by exact Hb.
  assert (R : forall l, valid (repeat 2 k) l -> reads l = l).
  { clear. induction k as [|k IH]; intros l Hl; inversion Hl; subst; [reflexivity|]. cbn [reads map]. fold (reads l0). rewrite IH by assumption.
    destruct x as [|[|x]]; [reflexivity|reflexivity|lia]. }
  assert (F : filter (fun l => list_eqb (reads l) b) (labels (repeat 2 k)) = [b]).
  { pose proof (labels_nodup (repeat 2 k)) as N. pose proof (proj2 (in_labels _ _) Hb) as I.
    assert (V' : forall l, In l (labels (repeat 2 k)) -> reads l = l) by (intros l Hl; apply R, in_labels, Hl).
    clear -N I V'. induction (labels (repeat 2 k)) as [|l ls IH]; [destruct I|]. inversion N as [|? ? N1 N2]; subst.
    cbn [filter]. rewrite (V' l) by (left; reflexivity). destruct I as [->|I].
    - rewrite (proj2 (list_eqb_eq b b) eq_refl). f_equal.
      assert (G : forall m, ~ In b m -> (forall l, In l m -> reads l = l) -> filter (fun l => list_eqb (reads l) b) m = []).
      { induction m as [|l m IHm]; intros H1 H2; [reflexivity|]. cbn [filter]. rewrite (H2 l) by (left; reflexivity).
        destruct (list_eqb l b) eqn:E; [apply list_eqb_eq in E; subst; exfalso; apply H1; left; reflexivity|].
        apply IHm; [intro; apply H1; right; assumption|intros; apply H2; right; assumption]. }
      apply G; [exact N1|]. intros; apply V'; right; assumption.
    - destruct (list_eqb l b) eqn:E; [apply list_eqb_eq in E; subst; contradiction|].
      apply IH; auto. intros; apply V'; right; assumption. }
  rewrite F. cbn [map sum_list fold_right]. ring.
Qed.
Print Assumptions C50_perfect_qubits_identity.

Example C50_example :
  length [1/2; 0; 0; 1/4; 0; 1/4]%R = prod_dims (levels [[0.9; 0.1; 0.2]%R; [1; 0]%R])
  /\ Forall perfect_row [[1; 0; 0]%R; [1; 0]%R].
Proof.
  split; [reflexivity|]. repeat constructor; intros lvl Hl; destruct lvl as [|[|[|lvl]]]; cbn in *; try reflexivity; lia.
Qed.

(** ** C51 *)

Lemma kb_pos : (0 < kb)%R.
Proof. unfold kb, Q2R. cbn. assert (0 < 10 ^ 23)%R by (apply pow_lt; lra). apply Rmult_lt_0_compat; [lra|]. apply Rinv_0_lt_compat. lra. Qed.
Lemma hbar_pos : (0 < hbar)%R.
Proof. unfold hbar, Q2R. cbn. apply Rmult_lt_0_compat; [lra|]. apply Rinv_0_lt_compat. lra. Qed.
Lemma eps_pos : (0 < eps)%R.
Proof. unfold eps. apply Rinv_0_lt_compat, pow_lt. lra. Qed.
Lemma cexp_real : forall x, cexp (RtoC x) = RtoC (exp x).
Proof. intro x. unfold cexp, expi. cbn [fst snd RtoC]. rewrite cos_0, sin_0. apply C_ext; cbn; ring. Qed.

(** Occupation probabilities [p] of levels with energies hbar * E_i at temperature T. *)
Definition boltzmann (n : nat) (E : nat -> R) (T : R) (p : nat -> R) : Prop :=
  (forall i, i < n -> (0 < p i)%R) /\ rs n p = 1%R
  /\ forall i j, i < n -> j < n -> (p i / p j = exp (- (hbar * (E i - E j)) / (kb * T)))%R.

Theorem C51_thermal_state :
  forall n H T, 0 < n -> (forall i, i < n -> snd (H i i) = 0%R) -> (eps < Rabs T)%R ->
  exists p v, boltzmann n (fun i => fst (H i i)) T p
   /\ initialise n H true T = Ok v
   /\ meq (n * n) 1 v (tf_dm_to_vec n (diag_mat (fun i => RtoC (p i))))
   /\ populations (n * n) v true = map p (seq 0 n)
   /\ initialise n H false T = Err C3Error.
Proof.
  intros n H T Hn HR HT. assert (T0 : T <> 0%R).
  { intros ->. rewrite Rabs_R0 in HT. pose proof eps_pos. lra. }
  pose proof kb_pos as Kb. pose proof hbar_pos as Hb.
  set (E := fun i => fst (H i i)). set (w := fun i => exp (- (hbar * (E i - E 0%nat)) / (kb * T))%R).
  assert (W : forall i, (0 < w i)%R) by (intro; apply exp_pos).
  assert (S : (0 < rs n w)%R).
  { pose proof (rs_member n w 0 (fun i _ => Rlt_le _ _ (W i)) Hn). pose proof (W 0). lra. }
  exists (fun i => w i / rs n w)%R. unfold initialise. destruct (Rlt_dec eps (Rabs T)); [|contradiction].
  eexists. split; [|split; [reflexivity|]].
  - split; [intros; apply Rdiv_lt_0_compat; auto|]. split.
    + rewrite (rs_ext n _ (fun i => / rs n w * w i)%R) by (intros; unfold Rdiv; ring). rewrite rs_scale. field. lra.
    + intros i j _ _. pose proof (W i). pose proof (W j).
      transitivity (w i / w j)%R; [field; lra|]. unfold w, Rdiv at 1. rewrite <- exp_Ropp, <- exp_plus. f_equal. field. split; lra.
  - assert (D : forall i, i < n -> cexp (- RtoC hbar * (H i i - H 0%nat 0%nat) * (RtoC 1 / RtoC (T * kb)))%C = RtoC (w i)).
    { intros i Hi. unfold w. rewrite <- cexp_real. f_equal.
      assert (Q : forall k, k < n -> H k k = RtoC (E k)).
      { intros k Hk. unfold E. specialize (HR k Hk). destruct (H k k) as [a b]. cbn [fst snd] in *. subst b. reflexivity. }
      rewrite (Q i Hi), (Q 0 Hn). unfold Rdiv, Cdiv. rewrite <- RtoC_inv by nra.
      apply C_ext; cbn; [field; split; lra|field; split; lra]. }
    assert (G : csum n (fun i => cexp (- RtoC hbar * (H i i - H 0%nat 0%nat) * (RtoC 1 / RtoC (T * kb)))%C) = RtoC (rs n w)).
    { rewrite <- rs_csum. apply csum_ext. exact D. }
    rewrite G.
    assert (X : forall k l, k < n -> l < n ->
        diag_mat (fun i => (cexp (- RtoC hbar * (H i i - H 0%nat 0%nat) * (RtoC 1 / RtoC (T * kb))) / RtoC (rs n w))%C) k l
        = diag_mat (fun i => RtoC (w i / rs n w)) k l).
    { intros k l Hk Hl. unfold diag_mat. destruct (Nat.eqb k l); [|reflexivity]. rewrite D by exact Hk.
      unfold Rdiv, Cdiv. rewrite RtoC_mult, RtoC_inv by lra. reflexivity. }
    split; [|split; [|reflexivity]].
    + intros k z Hk _. unfold tf_dm_to_vec, mtrans. destruct (divmod_lt _ _ _ Hk). apply X; assumption.
    + rewrite (proj1 (C49_density_vector n _)). apply map_ext_in. intros i Hi. apply in_seq in Hi.
      rewrite X by lia. unfold diag_mat. rewrite Nat.eqb_refl. reflexivity.
Qed.
Print Assumptions C51_thermal_state.

Lemma boltzmann_ordered :
  forall n E T p, boltzmann n E T p -> (0 < T)%R -> forall i j, i < n -> j < n -> (E i < E j)%R -> (p j < p i)%R.
Proof.
  intros n E T p (P & _ & B) HT i j Hi Hj Hlt. pose proof kb_pos as Kb. pose proof hbar_pos as Hb.
  specialize (B j i Hj Hi). pose proof (P i Hi) as Pi.
  assert (X : (p j / p i < 1)%R).
  { rewrite B, <- exp_0. apply exp_increasing.
    assert (0 < / (kb * T))%R by (apply Rinv_0_lt_compat; nra). assert (0 < hbar * (E j - E i))%R by nra. unfold Rdiv. nra. }
  apply Rmult_lt_reg_r with (/ p i)%R; [apply Rinv_0_lt_compat, Pi|]. rewrite Rinv_r by lra. exact X.
Qed.
(** For positive temperatures a higher level is less populated. *)
Theorem C51_populations_ordered :
  forall n H T, (forall i, i < n -> snd (H i i) = 0%R) -> (eps < T)%R ->
  forall i j, i < n -> j < n -> (fst (H i i) < fst (H j j))%R ->
  exists v, initialise n H true T = Ok v
   /\ (nth j (populations (n * n) v true) 0 < nth i (populations (n * n) v true) 0)%R.
Proof.
  intros n H T HR HT i j Hi Hj Hlt. pose proof eps_pos.
  destruct (C51_thermal_state n H T) as (p & v & B & E & _ & P & _); [lia|exact HR|rewrite Rabs_pos_eq; lra|].
  exists v. split; [exact E|]. rewrite P, (GateProofs.nth_map_seq _ n j), (GateProofs.nth_map_seq _ n i) by assumption.
  apply (boltzmann_ordered n (fun i => fst (H i i)) T p B); [lra|assumption|assumption|exact Hlt].
Qed.
Print Assumptions C51_populations_ordered.

(** Zero temperature: the ground state of the bare basis, pure or as density vector. *)
Theorem C51_zero_temperature :
  forall n H T, 0 < n -> (Rabs T <= eps)%R ->
  initialise n H false T = Ok (one_hot 0)
  /\ exists v, initialise n H true T = Ok v
     /\ meq (n * n) 1 v (tf_dm_to_vec n (unit_mat 0 0))
     /\ populations (n * n) v true = map (fun i => if Nat.eqb i 0 then 1%R else 0%R) (seq 0 n).
Proof.
  intros n H T Hn HT. unfold initialise. destruct (Rlt_dec eps (Rabs T)); [lra|].
  split; [reflexivity|]. eexists. split; [reflexivity|].
  assert (X : forall i j, tf_state_to_dm (one_hot 0) i j = unit_mat 0 0 i j).
  { intros i j. unfold tf_state_to_dm, mmul, mtrans, one_hot, unit_mat. cbn [csum].
    destruct (Nat.eqb i 0), (Nat.eqb j 0); cbn [andb]; ring. }
  split.
  - intros k z _ _. unfold tf_dm_to_vec, mtrans. apply X.
  - rewrite (proj1 (C49_density_vector n _)). apply map_ext. intro i. rewrite X. unfold unit_mat.
    destruct (Nat.eqb i 0); reflexivity.
Qed.
Print Assumptions C51_zero_temperature.

Example C51_example : (eps < Rabs (5 / 100))%R /\ (forall i, i < 3 -> snd (diag_mat (fun i => RtoC (INR i)) i i) = 0%R).
Proof.
  split.
  - rewrite Rabs_pos_eq by lra. unfold eps. apply Rle_lt_trans with (/ 2 ^ 5)%R; [|simpl; lra].
    apply Rinv_le_contravar; [apply pow_lt; lra|]. apply Rle_pow; [lra|lia].
  - intros i _. unfold diag_mat. rewrite Nat.eqb_refl. reflexivity.
Qed.

(** ** C52 *)

(** Total population of the listed states. *)
Definition labelled_total (dims : list nat) (pops : list R) (ls : list (list nat)) : R :=
  sum_list (map (fun l => nth (pos dims l) pops 0%R) ls).
(** The state labels of the readout: bits behind a confusion matrix. *)
Definition readout_dims (dims : list nat) (t : tasks) : list nat :=
  match conf_matrix t with Some _ => repeat 2 (length dims) | None => dims end.
(** The populations the labels refer to. *)
Definition readout (t : tasks) (pops : list R) : result (list R) :=
  match conf_matrix t with Some rows => confuse rows pops | None => Ok pops end.
Definition affine (t : tasks) (x : R) : R :=
  match meas_rescale t with Some (scale, offset) => (scale * x + offset)%R | None => x end.

Lemma select_known : forall e dims pops ls acc, length pops = prod_dims dims -> Forall (valid dims) ls ->
  select e (labels dims) pops acc ls = Ok (acc + labelled_total dims pops ls)%R.
Proof.
  intros e dims pops ls. unfold labelled_total. induction ls as [|l ls IH]; intros acc Hp Hv; cbn [select map sum_list fold_right].
  - f_equal. ring.
  - inversion Hv as [|? ? H1 H2]; subst. rewrite (index_of_nth _ _ _ (labels_nodup dims) (labels_nth dims l H1)).
    rewrite nth_error_nth' with (d := 0%R) by (rewrite Hp; apply pos_lt, H1).
    rewrite IH by assumption. f_equal. unfold sum_list. ring.
Qed.
Lemma select_unknown : forall e dims pops ls acc, length pops = prod_dims dims -> ~ Forall (valid dims) ls ->
  select e (labels dims) pops acc ls = Err e.
Proof.
  intros e dims pops ls. induction ls as [|l ls IH]; intros acc Hp Hv; [exfalso; apply Hv; constructor|]. cbn [select].
  destruct (in_dec (list_eq_dec Nat.eq_dec) l (labels dims)) as [I|I].
  - apply in_labels in I. rewrite (index_of_nth _ _ _ (labels_nodup dims) (labels_nth dims l I)).
    rewrite nth_error_nth' with (d := 0%R) by (rewrite Hp; apply pos_lt, I).
    apply IH; [exact Hp|]. intro F. apply Hv. constructor; assumption.
  - rewrite index_of_none by exact I. reflexivity.
Qed.

(** [read pops] is what the detector shows for [pops]. *)
Theorem C52_labels :
  forall dims t populations ls read,
  (forall pops, In pops populations -> readout t pops = Ok (read pops) /\ length (read pops) = prod_dims (readout_dims dims t)) ->
  Forall (valid (readout_dims dims t)) ls ->
  exists fin raw, process dims t populations (Some ls) = Ok (fin, raw)
   /\ fin = map (fun pops => Num (affine t (labelled_total (readout_dims dims t) (read pops) ls))) populations
   /\ raw = match meas_rescale t with
            | Some _ => map (fun pops => Num (labelled_total (readout_dims dims t) (read pops) ls)) populations
            | None => []
            end.
Proof.
  intros dims t populations ls read HR HV. induction populations as [|pops r IH].
  - exists [], []. cbn. destruct (meas_rescale t); auto.
  - destruct IH as (fin & raw & E & F & G); [intros; apply HR; right; assumption|].
    destruct (HR pops (or_introl eq_refl)) as [R1 R2].
    assert (P : process_one dims t (Some ls) pops = Ok (Num (labelled_total (readout_dims dims t) (read pops) ls))).
    { unfold process_one, readout, readout_dims in *. destruct (conf_matrix t) as [rows|].
      - rewrite R1. cbn [rbind]. unfold comp_state_labels. rewrite select_known by assumption. cbn [rbind]. rewrite Rplus_0_l. reflexivity.
      - injection R1 as R1. rewrite <- R1 in *. rewrite select_known by assumption. cbn [rbind]. rewrite Rplus_0_l. reflexivity. }
    cbn [process]. rewrite P. cbn [rbind]. rewrite E. cbn [rbind fst snd]. unfold affine in *.
    destruct (meas_rescale t) as [[sc off]|]; do 2 eexists; (split; [reflexivity|]); cbn [map rescale fst snd]; rewrite <- F, <- ?G; split; auto.
    f_equal. f_equal. ring.
Qed.
Print Assumptions C52_labels.

(** All labels, each once: the total population; for a population vector of sum
    one the result is meas_scale + meas_offset, or one without rescaling. *)
Lemma all_labels_total :
  forall dims pops ls, length pops = prod_dims dims -> Permutation ls (labels dims) ->
  labelled_total dims pops ls = sum_list pops.
Proof.
  intros dims pops ls H P. unfold labelled_total.
  rewrite (sum_list_perm _ _ (Permutation_map _ P)), pops_labels by exact H. reflexivity.
Qed.
(** Asking for all labels of the register gives the total population (rescaled). *)
Theorem C52_all_labels_give_total :
  forall dims t populations ls, conf_matrix t = None ->
  (forall pops, In pops populations -> length pops = prod_dims dims) -> Permutation ls (labels dims) ->
  exists raw, process dims t populations (Some ls)
  = Ok (map (fun pops => Num (affine t (sum_list pops))) populations, raw).
Proof.
  intros dims t populations ls Hc Hl P.
  destruct (C52_labels dims t populations ls (fun pops => pops)) as (fin & raw & E & F & _).
  - intros pops Hin. unfold readout, readout_dims. rewrite Hc. auto.
  - unfold readout_dims. rewrite Hc. apply Forall_forall. intros l Hin. apply in_labels.
    eapply Permutation_in; eauto.
  - exists raw. rewrite E, F. f_equal. f_equal. apply map_ext_in. intros pops Hin. f_equal. f_equal.
    unfold readout_dims. rewrite Hc. apply all_labels_total; auto.
Qed.
Print Assumptions C52_all_labels_give_total.

Theorem C52_unknown_label :
  forall dims t pops r ls q,
  readout t pops = Ok q -> length q = prod_dims (readout_dims dims t) ->
  ~ Forall (valid (readout_dims dims t)) ls ->
  process dims t (pops :: r) (Some ls)
  = Err (match conf_matrix t with Some _ => ValueError | None => C3Error end).
Proof.
  intros dims t pops r ls q HR HL HV. cbn [process]. unfold process_one, readout, readout_dims in *.
  destruct (conf_matrix t) as [rows|].
  - rewrite HR. cbn [rbind]. unfold comp_state_labels. rewrite select_unknown by assumption. reflexivity.
  - injection HR as <-. rewrite select_unknown by assumption. reflexivity.
Qed.
Print Assumptions C52_unknown_label.

(** Without labels every entry of the readout is rescaled. *)
Theorem C52_no_labels :
  forall dims t populations read, (forall pops, In pops populations -> readout t pops = Ok (read pops)) ->
  exists fin raw, process dims t populations None = Ok (fin, raw)
   /\ fin = map (fun pops => Vec (map (affine t) (read pops))) populations
   /\ raw = match meas_rescale t with Some _ => map (fun pops => Vec (read pops)) populations | None => [] end.
Proof.
  intros dims t populations read HR. induction populations as [|pops r IH].
  - exists [], []. cbn. destruct (meas_rescale t); auto.
  - destruct IH as (fin & raw & E & F & G); [intros; apply HR; right; assumption|].
    specialize (HR pops (or_introl eq_refl)).
    assert (P : process_one dims t None pops = Ok (Vec (read pops))).
    { unfold process_one, readout in *. destruct (conf_matrix t) as [rows|]; [rewrite HR; reflexivity|]. injection HR as HR. rewrite <- HR. reflexivity. }
    cbn [process]. rewrite P. cbn [rbind]. rewrite E. cbn [rbind fst snd]. unfold affine in *.
    destruct (meas_rescale t) as [[sc off]|]; do 2 eexists; (split; [reflexivity|]); cbn [map rescale fst snd]; rewrite <- F, <- ?G; split; auto.
    + f_equal. f_equal. apply map_ext. intro. ring.
    + rewrite map_id. reflexivity.
Qed.
Print Assumptions C52_no_labels.

Example C52_example :
  let t := {| conf_matrix := Some [[1; 0; 0]%R; [1; 0]%R]; meas_rescale := Some (2, 1)%R |} in
  (exists q, readout t [1; 0; 0; 0; 0; 0]%R = Ok q /\ length q = prod_dims (readout_dims [3; 2] t))
  /\ Forall (valid (readout_dims [3; 2] t)) [[1; 0]; [1; 1]] /\ ~ Forall (valid (readout_dims [3; 2] t)) [[2; 0]].
Proof.
  split; [eexists; split; reflexivity|]. split.
  - repeat constructor.
  - intro H. inversion H as [|? ? V _]. inversion V as [|? ? ? ? L _]. cbn in L. lia.
Qed.
