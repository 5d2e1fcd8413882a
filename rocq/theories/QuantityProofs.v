(** Lemmas about the Quantity model. *)
From Coq Require Import Reals Lra Psatz.
From Verif Require Import Base QuantityModel.
Local Open Scope R_scope.
Local Open Scope list_scope.

(** A quantity whose unit prefactor is positive and whose range is not a point. *)
Definition wfq (q : quantity) : Prop := 0 < q_pref q /\ 0 < q_scale q.

(** The tolerance of the bounds check, on the [-1,1] scale. *)
Definition tol : R := 1 / 10 ^ 8 + 1 / 10 ^ 5.

Lemma tol_pos : 0 < tol.
Proof. unfold tol; lra. Qed.

Lemma Rltb_true x y : Rltb x y = true <-> x < y.
Proof. unfold Rltb; destruct (Rlt_dec x y); split; intros; auto; discriminate. Qed.
Lemma Rleb_true x y : Rleb x y = true <-> x <= y.
Proof. unfold Rleb; destruct (Rle_dec x y); split; intros; auto; discriminate. Qed.

Lemma entry_oob_spec t : entry_oob t = true <-> 1 + tol < Rabs t.
Proof.
  unfold entry_oob, isclose_1. rewrite andb_true_iff, negb_true_iff, Rltb_true.
  rewrite <- not_true_iff_false, Rleb_true. fold tol.
  rewrite Rabs_R1. replace (1 / 10 ^ 8 + 1 / 10 ^ 5 * 1) with tol by (unfold tol; lra).
  pose proof tol_pos. split.
  - intros [H1 H2]. rewrite Rabs_pos_eq in H2 by lra. lra.
  - intros H1. split; [lra|]. rewrite Rabs_pos_eq by lra. lra.
Qed.

Lemma scaled_entry_inv q x : wfq q ->
  (q_scale q * (scaled_entry q x + 1) / 2 + q_offset q) / q_pref q = x.
Proof. intros [Hp Hs]. unfold scaled_entry. field. lra. Qed.

Lemma scaled_entry_value q x : wfq q ->
  q_scale q * (scaled_entry q x + 1) / 2 + q_offset q = q_pref q * x.
Proof. intros [Hp Hs]. unfold scaled_entry. field. lra. Qed.

Lemma limits_width q : wfq q ->
  snd (get_limits q) - fst (get_limits q) = q_scale q / q_pref q.
Proof. intros [Hp Hs]. unfold get_limits; cbn. field. lra. Qed.

Lemma limits_lt q : wfq q -> fst (get_limits q) < snd (get_limits q).
Proof.
  intros H. pose proof (limits_width q H) as E. destruct H as [Hp Hs].
  assert (0 < q_scale q / q_pref q) by (apply Rdiv_lt_0_compat; lra). lra.
Qed.

(** The scaled entry expressed through the limits. *)
Lemma scaled_entry_limits q x : wfq q ->
  let lo := fst (get_limits q) in let hi := snd (get_limits q) in
  scaled_entry q x = 2 * (x - lo) / (hi - lo) - 1.
Proof.
  intros H. cbn zeta. rewrite (limits_width q H). destruct H as [Hp Hs].
  unfold scaled_entry, get_limits; cbn. field. lra.
Qed.

Lemma affine_bound lo hi x e : lo < hi ->
  (Rabs (2 * (x - lo) / (hi - lo) - 1) <= 1 + e <->
   lo - e * (hi - lo) / 2 <= x <= hi + e * (hi - lo) / 2).
Proof.
  intros Hlt.
  set (t := 2 * (x - lo) / (hi - lo) - 1).
  assert (Hx : x = lo + (t + 1) * (hi - lo) / 2) by (unfold t; field; lra).
  split.
  - intros Ha.
    assert (-(1 + e) <= t <= 1 + e).
    { unfold Rabs in Ha; destruct (Rcase_abs t); lra. }
    rewrite Hx. split; nra.
  - intros [H1 H2]. rewrite Hx in H1, H2.
    assert (-(1+e) <= t) by nra. assert (t <= 1 + e) by nra.
    apply Rabs_le. lra.
Qed.

Lemma entry_oob_limits q x : wfq q ->
  let lo := fst (get_limits q) in let hi := snd (get_limits q) in
  entry_oob (scaled_entry q x) = true <->
  (x < lo - tol * (hi - lo) / 2 \/ hi + tol * (hi - lo) / 2 < x).
Proof.
  intros H; cbn zeta. rewrite entry_oob_spec, (scaled_entry_limits q x H).
  pose proof (limits_lt q H) as Hlt.
  pose proof (affine_bound _ _ x tol Hlt) as Hb.
  split.
  - intros Hgt. destruct (Rlt_dec x (fst (get_limits q) - tol * (snd (get_limits q) - fst (get_limits q)) / 2)); [now left|].
    right. apply Rnot_le_lt. intros Hle.
    assert (Hc := proj2 Hb). lapply Hc; [lra|]. split; lra.
  - intros Hor. apply Rnot_le_lt. intros Hle. apply Hb in Hle. lra.
Qed.

Lemma existsb_oob_false q val : wfq q ->
  Forall (fun x => fst (get_limits q) <= x <= snd (get_limits q)) val ->
  existsb entry_oob (map (scaled_entry q) val) = false.
Proof.
  intros H Hf. apply not_true_iff_false. rewrite existsb_exists.
  intros [t [Hin Ht]]. apply in_map_iff in Hin as [x [<- Hin]].
  rewrite Forall_forall in Hf. specialize (Hf x Hin).
  apply (entry_oob_limits q x H) in Ht.
  pose proof (limits_lt q H). pose proof tol_pos.
  nra.
Qed.

Lemma numpy_with_scaled q val : wfq q ->
  numpy (with_value q (map (scaled_entry q) val)) = val.
Proof.
  intros H. unfold numpy, get_value, with_value; cbn. rewrite !map_map.
  rewrite <- (map_id val) at 2. apply map_ext. intros x. cbn.
  apply (scaled_entry_inv q x H).
Qed.

Lemma get_value_with_scaled q val : wfq q ->
  get_value (with_value q (map (scaled_entry q) val)) = map (Rmult (q_pref q)) val.
Proof.
  intros H. unfold get_value, with_value; cbn. rewrite map_map.
  apply map_ext. intros x. apply (scaled_entry_value q x H).
Qed.

Lemma set_value_strict_ok q val : wfq q ->
  Forall (fun x => fst (get_limits q) <= x <= snd (get_limits q)) val ->
  set_value_strict val q = Ok (with_value q (map (scaled_entry q) val)).
Proof.
  intros H Hf. unfold set_value_strict.
  destruct (Req_EM_T (q_scale q) 0) as [E|_]; [destruct H; lra|].
  now rewrite (existsb_oob_false q val H Hf).
Qed.

Lemma set_get_roundtrip q val : wfq q ->
  List.length val = List.length (q_value q) ->
  Forall (fun x => fst (get_limits q) <= x <= snd (get_limits q)) val ->
  exists q', set_value val false q = Ok q' /\ numpy q' = val
             /\ get_value q' = map (Rmult (q_pref q)) val
             /\ get_limits q' = get_limits q.
Proof.
  intros H Hl Hf. exists (with_value q (map (scaled_entry q) val)).
  unfold set_value. rewrite Hl, Nat.eqb_refl.
  repeat split.
  - now apply set_value_strict_ok.
  - now apply numpy_with_scaled.
  - now apply get_value_with_scaled.
Qed.

Lemma set_value_raise_iff q val : wfq q ->
  List.length val = List.length (q_value q) ->
  let lo := fst (get_limits q) in let hi := snd (get_limits q) in
  snd (q_exec q (OpSet val)) = Some OOBError <->
  Exists (fun x => x < lo - tol * (hi - lo) / 2 \/ hi + tol * (hi - lo) / 2 < x) val.
Proof.
  intros H Hl; cbn zeta. cbn [q_exec]. unfold set_value. rewrite Hl, Nat.eqb_refl.
  unfold set_value_strict.
  destruct (Req_EM_T (q_scale q) 0) as [E|_]; [destruct H; lra|].
  destruct (existsb entry_oob (map (scaled_entry q) val)) eqn:Eb; cbn; split.
  - intros _. apply existsb_exists in Eb as [t [Hin Ht]].
    apply in_map_iff in Hin as [x [<- Hin]]. apply Exists_exists. exists x.
    split; auto. now apply entry_oob_limits.
  - auto.
  - discriminate.
  - intros Hex. apply Exists_exists in Hex as [x [Hin Hx]].
    apply (entry_oob_limits q x H) in Hx.
    assert (existsb entry_oob (map (scaled_entry q) val) = true).
    { apply existsb_exists. exists (scaled_entry q x). split; auto. now apply in_map. }
    congruence.
Qed.

Lemma set_value_raise_unchanged q val e :
  snd (q_exec q (OpSet val)) = Some e -> fst (q_exec q (OpSet val)) = q.
Proof. cbn. destruct (set_value val false q); cbn; [discriminate|reflexivity]. Qed.

(** ** The optimizer fold *)
Lemma opt_fold_range v : -1 <= opt_fold v <= 1.
Proof.
  unfold opt_fold. pose proof PI_RGT_0.
  pose proof (acos_bound (cos ((v + 1) * PI / 2))) as [H1 H2].
  split.
  - assert (0 <= acos (cos ((v + 1) * PI / 2)) / PI) by (apply Rmult_le_pos; [lra|left; now apply Rinv_0_lt_compat]).
    lra.
  - assert (acos (cos ((v + 1) * PI / 2)) / PI <= 1).
    { apply (Rmult_le_reg_r PI); [lra|]. unfold Rdiv. rewrite Rmult_assoc, Rinv_l by lra. lra. }
    lra.
Qed.

Lemma opt_fold_id v : -1 <= v <= 1 -> opt_fold v = v.
Proof.
  intros Hv. unfold opt_fold. pose proof PI_RGT_0.
  rewrite acos_cos; [field; lra|]. split; nra.
Qed.

Lemma cos_period_Z x (k : Z) : cos (x + 2 * IZR k * PI) = cos x.
Proof.
  destruct (Z_le_gt_dec 0 k) as [Hk|Hk].
  - rewrite <- (Z2Nat.id k Hk), <- INR_IZR_INZ. apply cos_period.
  - rewrite <- (cos_period (x + 2 * IZR k * PI) (Z.to_nat (- k))).
    rewrite INR_IZR_INZ, Z2Nat.id by lia. rewrite opp_IZR. f_equal. ring.
Qed.

Lemma opt_fold_period v (k : Z) : opt_fold (v + 4 * IZR k) = opt_fold v.
Proof.
  unfold opt_fold.
  replace ((v + 4 * IZR k + 1) * PI / 2) with ((v + 1) * PI / 2 + 2 * IZR k * PI) by field.
  now rewrite cos_period_Z.
Qed.

Lemma opt_fold_reflect v : opt_fold (2 - v) = opt_fold v.
Proof.
  unfold opt_fold.
  replace ((2 - v + 1) * PI / 2) with (- ((v + 1) * PI / 2) + 2 * IZR 1 * PI) by (simpl; field).
  rewrite cos_period_Z, cos_neg. reflexivity.
Qed.

(** Every real can be brought into [-1,3) by a multiple of 4. *)
Lemma reduce_4 v : exists k : Z, -1 <= v + 4 * IZR k < 3.
Proof.
  exists (- (up ((v + 1) / 4) - 1))%Z.
  rewrite opp_IZR, minus_IZR.
  destruct (archimed ((v + 1) / 4)) as [H1 H2]. lra.
Qed.

Definition is_fold (v w : R) : Prop :=
  -1 <= w <= 1 /\ exists k : Z, w = v + 4 * IZR k \/ w = 2 - v + 4 * IZR k.

Lemma opt_fold_is_fold v : is_fold v (opt_fold v).
Proof.
  split; [apply opt_fold_range|].
  destruct (reduce_4 v) as [k Hk].
  destruct (Rle_dec (v + 4 * IZR k) 1) as [H1|H1].
  - exists k. left. rewrite <- (opt_fold_period v k). apply opt_fold_id. lra.
  - exists (- k)%Z. right. rewrite <- (opt_fold_period v k), <- opt_fold_reflect.
    rewrite opt_fold_id; [rewrite opp_IZR; ring|lra].
Qed.

Lemma is_fold_unique v w1 w2 : is_fold v w1 -> is_fold v w2 -> w1 = w2.
Proof.
  intros [R1 [k1 E1]] [R2 [k2 E2]].
  assert (Hz : forall k, -1 < IZR k < 1 -> IZR k = 0).
  { intros k [Ha Hb]. apply (lt_IZR (-1)) in Ha. apply (lt_IZR k 1) in Hb.
    now replace k with 0%Z by lia. }
  destruct E1 as [E1|E1], E2 as [E2|E2].
  - assert (H : IZR (k1 - k2) = 0) by (apply Hz; rewrite minus_IZR; lra).
    rewrite minus_IZR in H. lra.
  - (* w1 + w2 = 2 + 4 (k1+k2), both in [-1,1] *)
    assert (Hsum : w1 + w2 = 2 + 4 * IZR (k1 + k2)) by (rewrite plus_IZR; lra).
    assert (H : -1 <= IZR (k1 + k2) <= 0) by lra.
    destruct H as [Ha Hb]. apply (le_IZR (-1)) in Ha. apply (le_IZR _ 0) in Hb.
    assert (Hc : (k1 + k2 = -1 \/ k1 + k2 = 0)%Z) by lia.
    destruct Hc as [Hc|Hc]; rewrite Hc in Hsum; lra.
  - assert (Hsum : w1 + w2 = 2 + 4 * IZR (k1 + k2)) by (rewrite plus_IZR; lra).
    assert (H : -1 <= IZR (k1 + k2) <= 0) by lra.
    destruct H as [Ha Hb]. apply (le_IZR (-1)) in Ha. apply (le_IZR _ 0) in Hb.
    assert (Hc : (k1 + k2 = -1 \/ k1 + k2 = 0)%Z) by lia.
    destruct Hc as [Hc|Hc]; rewrite Hc in Hsum; lra.
  - assert (H : IZR (k1 - k2) = 0) by (apply Hz; rewrite minus_IZR; lra).
    rewrite minus_IZR in H. lra.
Qed.

Lemma scaled_in_limits q t : wfq q -> -1 <= t <= 1 ->
  fst (get_limits q) <= (q_scale q * (t + 1) / 2 + q_offset q) / q_pref q
  <= snd (get_limits q).
Proof.
  intros [Hp Hs] Ht. unfold get_limits; cbn.
  split; (apply Rmult_le_compat_r; [left; now apply Rinv_0_lt_compat|]); nra.
Qed.

Lemma set_opt_value_spec q val : wfq q ->
  List.length val = List.length (q_value q) ->
  exists q', q_exec q (OpSetOpt val) = (q', None)
    /\ get_limits q' = get_limits q
    /\ Forall2 is_fold val (get_opt_value q')
    /\ Forall (fun x => fst (get_limits q) <= x <= snd (get_limits q)) (numpy q').
Proof.
  intros H Hl. exists (with_value q (map opt_fold val)).
  cbn [q_exec]. unfold set_opt_value. rewrite Hl, Nat.eqb_refl. cbn [of_result].
  repeat split.
  - unfold get_opt_value; cbn. clear. induction val; constructor; auto. apply opt_fold_is_fold.
  - unfold numpy, get_value; cbn. rewrite !map_map. apply Forall_map.
    apply Forall_forall. intros x _. apply scaled_in_limits; [assumption|apply opt_fold_range].
Qed.

(** ** Extending the limits *)
Lemma fold_left_Rmin_le l x : fold_left Rmin l x <= x /\ Forall (fun y => fold_left Rmin l x <= y) l.
Proof.
  revert x; induction l as [|y l IH]; intros x; cbn; [split; [lra|constructor]|].
  destruct (IH (Rmin x y)) as [H1 H2].
  pose proof (Rmin_l x y). pose proof (Rmin_r x y).
  split; [lra|]. constructor; [lra|assumption].
Qed.
Lemma fold_left_Rmax_ge l x : x <= fold_left Rmax l x /\ Forall (fun y => y <= fold_left Rmax l x) l.
Proof.
  revert x; induction l as [|y l IH]; intros x; cbn; [split; [lra|constructor]|].
  destruct (IH (Rmax x y)) as [H1 H2].
  pose proof (Rmax_l x y). pose proof (Rmax_r x y).
  split; [lra|]. constructor; [lra|assumption].
Qed.
Lemma list_min_in x l y : In y (x :: l) -> list_min x l <= y.
Proof.
  unfold list_min. destruct (fold_left_Rmin_le l x) as [H1 H2].
  intros [<-|H]; [assumption|]. rewrite Forall_forall in H2; auto.
Qed.
Lemma list_max_in x l y : In y (x :: l) -> y <= list_max x l.
Proof.
  unfold list_max. destruct (fold_left_Rmax_ge l x) as [H1 H2].
  intros [<-|H]; [assumption|]. rewrite Forall_forall in H2; auto.
Qed.

Lemma get_limits_set_limits q a b : 0 < q_pref q -> a <= b ->
  get_limits (set_limits a b q) = (a, b).
Proof.
  intros Hp Hab. unfold get_limits, set_limits; cbn.
  rewrite Rabs_pos_eq by lra. f_equal; field; lra.
Qed.

Lemma wfq_set_limits q a b : 0 < q_pref q -> a < b -> wfq (set_limits a b q).
Proof.
  intros Hp Hab. split; cbn; [assumption|].
  apply Rmult_lt_0_compat; [|assumption]. apply Rabs_pos_lt. lra.
Qed.

Lemma extend_limits_facts q v vs :
  wfq q ->
  let '(lo, hi) := get_limits q in
  let s := map (fun x => x * (9 / 10)) vs in
  let l := map (fun x => x * (11 / 10)) vs in
  let mm := [ list_max (v * (9 / 10)) s; list_min (v * (11 / 10)) l;
              list_max (v * (11 / 10)) l; lo; hi ] in
  let mn := list_min (list_min (v * (9 / 10)) s) mm in
  let mx := list_max (list_min (v * (9 / 10)) s) mm in
  mn <= lo /\ hi <= mx /\ Forall (fun x => mn <= x <= mx) (v :: vs).
Proof.
  intros H. destruct (get_limits q) as [lo hi] eqn:E. cbn zeta.
  set (s := map (fun x => x * (9 / 10)) vs).
  set (l := map (fun x => x * (11 / 10)) vs).
  set (a := list_min (v * (9 / 10)) s). set (b := list_max (v * (9 / 10)) s).
  set (c := list_min (v * (11 / 10)) l). set (d := list_max (v * (11 / 10)) l).
  assert (Hmn : forall y, In y [a; b; c; d; lo; hi] -> list_min a [b; c; d; lo; hi] <= y)
    by (intros y Hy; now apply list_min_in).
  assert (Hmx : forall y, In y [a; b; c; d; lo; hi] -> y <= list_max a [b; c; d; lo; hi])
    by (intros y Hy; now apply list_max_in).
  split; [apply Hmn; cbn; tauto|]. split; [apply Hmx; cbn; tauto|].
  apply Forall_forall. intros x Hx.
  assert (H9 : In (x * (9/10)) (v * (9/10) :: s)).
  { destruct Hx as [<-|Hx]; [now left|right]. unfold s. apply in_map_iff. now exists x. }
  assert (H11 : In (x * (11/10)) (v * (11/10) :: l)).
  { destruct Hx as [<-|Hx]; [now left|right]. unfold l. apply in_map_iff. now exists x. }
  pose proof (list_min_in _ _ _ H9) as B1. pose proof (list_max_in _ _ _ H9) as B2.
  pose proof (list_min_in _ _ _ H11) as B3. pose proof (list_max_in _ _ _ H11) as B4.
  fold a in B1. fold b in B2. fold c in B3. fold d in B4.
  assert (M1 := Hmn a ltac:(cbn; tauto)). assert (M2 := Hmn c ltac:(cbn; tauto)).
  assert (M3 := Hmx b ltac:(cbn; tauto)). assert (M4 := Hmx d ltac:(cbn; tauto)).
  destruct (Rle_dec 0 x); split; lra.
Qed.

Lemma set_extend_spec q val : wfq q -> val <> [] ->
  exists q', set_value_extend val q = Ok q' /\ numpy q' = val
    /\ q_pref q' = q_pref q /\ wfq q'
    /\ q_unit q' = q_unit q /\ q_symbol q' = q_symbol q
    /\ fst (get_limits q') <= fst (get_limits q)
    /\ snd (get_limits q) <= snd (get_limits q')
    /\ Forall (fun x => fst (get_limits q') <= x <= snd (get_limits q')) val.
Proof.
  intros H Hne. destruct val as [|v vs]; [contradiction|].
  pose proof (extend_limits_facts q v vs H) as HF.
  pose proof (limits_lt q H) as Hlt.
  unfold set_value_extend. destruct (get_limits q) as [lo hi] eqn:EL. cbn zeta in HF.
  set (mn := list_min _ _) in *. set (mx := list_max _ [_; _; _; lo; hi]) in *.
  destruct HF as [F1 [F2 F3]]. cbn in Hlt.
  assert (Hmm : mn < mx) by lra.
  assert (Hp : 0 < q_pref q) by (destruct H; assumption).
  pose proof (wfq_set_limits q mn mx Hp Hmm) as Hw.
  pose proof (get_limits_set_limits q mn mx Hp (Rlt_le _ _ Hmm)) as HL.
  assert (HF' : Forall (fun x => fst (get_limits (set_limits mn mx q)) <= x
               <= snd (get_limits (set_limits mn mx q))) (v :: vs)) by now rewrite HL.
  rewrite (set_value_strict_ok _ _ Hw HF').
  eexists; split; [reflexivity|].
  assert (HL' : get_limits (with_value (set_limits mn mx q)
     (map (scaled_entry (set_limits mn mx q)) (v :: vs))) = (mn, mx)).
  { rewrite <- HL. reflexivity. }
  rewrite HL'. cbn [fst snd].
  repeat split; auto.
  - now apply numpy_with_scaled.
  - now apply Hw.
Qed.

Lemma set_value_extend_state q val : wfq q -> val <> [] ->
  List.length val = List.length (q_value q) ->
  let q' := fst (q_exec q (OpSetExtend val)) in
  snd (q_exec q (OpSetExtend val)) = None
  /\ numpy q' = val
  /\ fst (get_limits q') <= fst (get_limits q)
  /\ snd (get_limits q) <= snd (get_limits q')
  /\ Forall (fun x => fst (get_limits q') <= x <= snd (get_limits q')) val.
Proof.
  intros H Hne Hl. destruct (set_extend_spec q val H Hne) as [q' [E [Hn [_ [_ [_ [_ HR]]]]]]].
  cbn [q_exec]. unfold set_value. rewrite Hl, Nat.eqb_refl, E. cbn. auto.
Qed.

(** ** Prefactors and construction *)
Lemma pref_pos u : 0 < pref_of_unit u.
Proof.
  unfold pref_of_unit. pose proof PI_RGT_0.
  destruct (contains "2pi" u); [lra|]. destruct (contains "pi" u); lra.
Qed.

Lemma mk_quantity_limits value unit lo hi symbol :
  lo < hi -> Forall (fun x => lo <= x <= hi) value ->
  exists q, mk_quantity value unit (Some lo) (Some hi) symbol = Ok q
    /\ numpy q = value /\ get_limits q = (lo, hi) /\ wfq q
    /\ q_pref q = pref_of_unit unit /\ q_unit q = unit /\ q_symbol q = symbol.
Proof.
  intros Hlt Hf. unfold mk_quantity. cbn [rbind].
  set (q0 := {| q_pref := _; q_offset := _ |}).
  pose proof (pref_pos unit) as Hp.
  assert (Hw : wfq (set_limits lo hi q0)) by (apply wfq_set_limits; assumption).
  assert (HL : get_limits (set_limits lo hi q0) = (lo, hi))
    by (apply get_limits_set_limits; [assumption|lra]).
  destruct (set_get_roundtrip (set_limits lo hi q0) value Hw eq_refl) as [q [E [Hn [_ HL']]]].
  { now rewrite HL. }
  exists q. rewrite E. repeat split; try assumption.
  - now rewrite HL', HL.
  - unfold set_value in E. rewrite Nat.eqb_refl in E. unfold set_value_strict in E.
    destruct (Req_EM_T _ 0); [discriminate|]. destruct (existsb _ _); [discriminate|].
    injection E as <-. exact Hp.
  - unfold set_value in E. rewrite Nat.eqb_refl in E. unfold set_value_strict in E.
    destruct (Req_EM_T _ 0); [discriminate|]. destruct (existsb _ _); [discriminate|].
    injection E as <-. apply Hw.
  - unfold set_value in E. rewrite Nat.eqb_refl in E. unfold set_value_strict in E.
    destruct (Req_EM_T _ 0); [discriminate|]. destruct (existsb _ _); [discriminate|].
    now injection E as <-.
  - unfold set_value in E. rewrite Nat.eqb_refl in E. unfold set_value_strict in E.
    destruct (Req_EM_T _ 0); [discriminate|]. destruct (existsb _ _); [discriminate|].
    now injection E as <-.
  - unfold set_value in E. rewrite Nat.eqb_refl in E. unfold set_value_strict in E.
    destruct (Req_EM_T _ 0); [discriminate|]. destruct (existsb _ _); [discriminate|].
    now injection E as <-.
Qed.

Lemma asdict_roundtrip q : wfq q -> q_pref q = pref_of_unit (q_unit q) ->
  Forall (fun t => -1 <= t <= 1) (q_value q) ->
  exists q', from_qdict (asdict q) = Ok q' /\ numpy q' = numpy q
    /\ get_value q' = get_value q
    /\ get_limits q' = get_limits q /\ q_unit q' = q_unit q /\ q_symbol q' = q_symbol q.
Proof.
  intros H Hpu Hv. unfold from_qdict, asdict; cbn [qd_value qd_min qd_max qd_unit qd_symbol].
  pose proof (limits_lt q H) as Hlt.
  assert (HL : get_limits q = (q_offset q / q_pref q, q_scale q / q_pref q + q_offset q / q_pref q)).
  { unfold get_limits. f_equal. destruct H. field. lra. }
  rewrite HL in Hlt; cbn in Hlt.
  destruct (mk_quantity_limits (numpy q) (q_unit q) _ _ (q_symbol q) Hlt) as [q' [E [Hn [HL' [Hw [Hp [Hu Hs]]]]]]].
  { unfold numpy, get_value. rewrite map_map. apply Forall_map.
    eapply Forall_impl; [|exact Hv]. intros t Ht.
    pose proof (scaled_in_limits q t H Ht) as B. rewrite HL in B. exact B. }
  exists q'. rewrite E. repeat split; auto.
  - assert (G : forall z, wfq z -> get_value z = map (Rmult (q_pref z)) (numpy z)).
    { intros z [Hz _]. unfold numpy. rewrite map_map. rewrite <- (map_id (get_value z)) at 1.
      apply map_ext. intros x. field. lra. }
    rewrite (G q' Hw), (G q H), Hn, Hp, Hpu. reflexivity.
  - now rewrite HL', HL.
Qed.

Lemma any_nonzero_false l :
  existsb (fun x => if Req_EM_T x 0 then false else true) l = false -> Forall (fun x => x = 0) l.
Proof.
  intros H. apply Forall_forall. intros x Hx.
  destruct (Req_EM_T x 0) eqn:E; [assumption|].
  assert (existsb (fun x => if Req_EM_T x 0 then false else true) l = true).
  { apply existsb_exists. exists x. now rewrite E. }
  congruence.
Qed.

Lemma default_limits_ok value unit symbol :
  exists q, mk_quantity value unit None None symbol = Ok q /\ numpy q = value
    /\ wfq q
    /\ Forall (fun x => fst (get_limits q) <= x <= snd (get_limits q)) value.
Proof.
  assert (Hcase : forall lo hi, lo < hi -> Forall (fun x => lo <= x <= hi) value ->
    (match value with
     | v :: vs => if existsb (fun x => if Req_EM_T x 0 then false else true) value then
              Ok (list_min (9 / 10 * v) (map (fun x => 9 / 10 * x) vs ++ map (fun x => 11 / 10 * x) (v :: vs)),
                  list_max (9 / 10 * v) (map (fun x => 9 / 10 * x) vs ++ map (fun x => 11 / 10 * x) (v :: vs)))
            else Ok (-1, 1)
     | [] => Ok (-1, 1) end) = Ok (lo, hi) ->
     mk_quantity value unit None None symbol = mk_quantity value unit (Some lo) (Some hi) symbol).
  { intros lo hi _ _ E. unfold mk_quantity. rewrite E. reflexivity. }
  destruct value as [|v vs].
  - destruct (mk_quantity_limits [] unit (-1) 1 symbol) as [q [E [Hn [HL [Hw _]]]]]; [lra|constructor|].
    exists q. rewrite (Hcase (-1) 1); [|lra|constructor|reflexivity].
    repeat split; try assumption; try apply Hw. constructor.
  - destruct (existsb (fun x => if Req_EM_T x 0 then false else true) (v :: vs)) eqn:Eb.
    + set (rest := map (fun x => 9 / 10 * x) vs ++ map (fun x => 11 / 10 * x) (v :: vs)) in *.
      set (lo := list_min (9 / 10 * v) rest). set (hi := list_max (9 / 10 * v) rest).
      assert (Hb : forall x, In x (v :: vs) ->
                 lo <= 9/10 * x <= hi /\ lo <= 11/10 * x <= hi).
      { intros x Hx.
        assert (I1 : In (9/10 * x) (9/10 * v :: rest)).
        { destruct Hx as [<-|Hx]; [now left|right]. unfold rest. apply in_or_app; left.
          apply in_map_iff; now exists x. }
        assert (I2 : In (11/10 * x) (9/10 * v :: rest)).
        { right. unfold rest. apply in_or_app; right. apply in_map_iff; now exists x. }
        repeat split; try (now apply list_min_in); now apply list_max_in. }
      assert (Hf : Forall (fun x => lo <= x <= hi) (v :: vs)).
      { apply Forall_forall. intros x Hx. destruct (Hb x Hx) as [[A1 A2] [A3 A4]].
        destruct (Rle_dec 0 x); split; lra. }
      assert (Hlt : lo < hi).
      { apply existsb_exists in Eb as [x [Hx E]]. destruct (Req_EM_T x 0) as [|Hn0]; [discriminate|].
        destruct (Hb x Hx) as [[A1 A2] [A3 A4]].
        destruct (Rlt_dec 0 x); [lra|]. assert (x < 0) by lra. lra. }
      destruct (mk_quantity_limits (v :: vs) unit lo hi symbol Hlt Hf) as [q [E [Hn [HL [Hw _]]]]].
      exists q. rewrite (Hcase lo hi Hlt Hf eq_refl).
      repeat split; try assumption; try apply Hw. now rewrite HL.
    + assert (Hz := any_nonzero_false _ Eb).
      assert (Hf : Forall (fun x => -1 <= x <= 1) (v :: vs)).
      { eapply Forall_impl; [|exact Hz]. cbn. intros a ->. lra. }
      destruct (mk_quantity_limits (v :: vs) unit (-1) 1 symbol) as [q [E [Hn [HL [Hw _]]]]]; [lra|exact Hf|].
      exists q. rewrite (Hcase (-1) 1); [|lra|exact Hf|reflexivity].
      repeat split; try assumption; try apply Hw. now rewrite HL.
Qed.

(** ** Arithmetic *)
Lemma get_value_numpy_1 q : q_pref q = 1 -> get_value q = numpy q.
Proof.
  intros E. unfold numpy. rewrite E. rewrite <- (map_id (get_value q)) at 1.
  apply map_ext. intros; field.
Qed.

Lemma arith_ok op q : wfq q -> q_pref q = 1 -> q_value q <> [] ->
  exists q', q_arith op q = Ok q' /\ numpy q' = map op (numpy q) /\ wfq q'
     /\ q_unit q' = q_unit q.
Proof.
  intros H Hp Hne. unfold q_arith.
  destruct (set_extend_spec q (map op (get_value q)) H) as [q' [E [Hn [_ [Hw [Hu _]]]]]].
  { unfold get_value. destruct (q_value q); [contradiction|discriminate]. }
  exists q'. rewrite E, Hn, (get_value_numpy_1 q Hp). auto.
Qed.

Lemma arith_pref op q : wfq q -> q_value q <> [] ->
  exists q', q_arith op q = Ok q' /\ numpy q' = map op (map (Rmult (q_pref q)) (numpy q)).
Proof.
  intros H Hne. unfold q_arith.
  destruct (set_extend_spec q (map op (get_value q)) H) as [q' [E [Hn _]]].
  { unfold get_value. destruct (q_value q); [contradiction|discriminate]. }
  exists q'. rewrite E, Hn. split; [reflexivity|]. f_equal.
  unfold numpy. rewrite map_map. rewrite <- (map_id (get_value q)) at 1.
  apply map_ext. intros x. destruct H. field. lra.
Qed.

(** ** Histories *)
Definition in_tol (q : quantity) : Prop :=
  Forall (fun t => -(1 + tol) <= t <= 1 + tol) (q_value q).

Lemma not_oob_range t : entry_oob t = false -> -(1 + tol) <= t <= 1 + tol.
Proof.
  intros H. assert (~ 1 + tol < Rabs t) by (rewrite <- entry_oob_spec; congruence).
  unfold Rabs in *. destruct (Rcase_abs t); lra.
Qed.

Lemma strict_in_tol val q q' : set_value_strict val q = Ok q' -> in_tol q'.
Proof.
  unfold set_value_strict. destruct (Req_EM_T (q_scale q) 0); [discriminate|].
  destruct (existsb entry_oob (map (scaled_entry q) val)) eqn:E; [discriminate|].
  intros HH; injection HH as <-. unfold in_tol; cbn.
  apply Forall_forall. intros t Ht. apply not_oob_range.
  apply not_true_iff_false. intros Hx.
  assert (existsb entry_oob (map (scaled_entry q) val) = true)
    by (apply existsb_exists; now exists t).
  congruence.
Qed.

Lemma strict_wf val q q' : wfq q -> set_value_strict val q = Ok q' ->
  wfq q' /\ q_unit q' = q_unit q /\ q_pref q' = q_pref q
  /\ List.length (q_value q') = List.length val /\ get_limits q' = get_limits q.
Proof.
  intros Hw. unfold set_value_strict. destruct (Req_EM_T (q_scale q) 0); [discriminate|].
  destruct (existsb entry_oob _); [discriminate|].
  intros HH; injection HH as <-. repeat split; try apply Hw. cbn. now rewrite map_length.
Qed.

Lemma extend_wf val q q' : wfq q -> set_value_extend val q = Ok q' ->
  wfq q' /\ q_unit q' = q_unit q /\ q_pref q' = q_pref q
  /\ List.length (q_value q') = List.length val
  /\ fst (get_limits q') <= fst (get_limits q) /\ snd (get_limits q) <= snd (get_limits q')
  /\ in_tol q'.
Proof.
  intros Hw E. destruct val as [|v vs]; [discriminate|].
  destruct (set_extend_spec q (v :: vs) Hw) as [q2 [E2 [Hn [Hp [Hw2 [Hu [_ [A [B _]]]]]]]]]; [discriminate|].
  rewrite E in E2; injection E2 as <-. repeat split; auto; try apply Hw2.
  - rewrite <- Hn. unfold numpy, get_value. now rewrite !map_length.
  - unfold set_value_extend in E. destruct (get_limits q). eapply strict_in_tol; exact E.
Qed.

Lemma exec_inv q o : wfq q -> in_tol q ->
  let q' := fst (q_exec q o) in
  wfq q' /\ in_tol q' /\ q_unit q' = q_unit q
  /\ List.length (q_value q') = List.length (q_value q)
  /\ fst (get_limits q') <= fst (get_limits q) /\ snd (get_limits q) <= snd (get_limits q').
Proof.
  intros Hw Ht; cbn zeta.
  assert (Hrefl : wfq q /\ in_tol q /\ q_unit q = q_unit q
     /\ List.length (q_value q) = List.length (q_value q)
     /\ fst (get_limits q) <= fst (get_limits q) /\ snd (get_limits q) <= snd (get_limits q)).
  { repeat split; auto; try apply Hw; lra. }
  assert (Hset : forall v b, let q' := fst (of_result q (set_value v b q)) in
     wfq q' /\ in_tol q' /\ q_unit q' = q_unit q
  /\ List.length (q_value q') = List.length (q_value q)
  /\ fst (get_limits q') <= fst (get_limits q) /\ snd (get_limits q) <= snd (get_limits q')).
  { intros v b; cbn zeta. destruct (set_value v b q) as [q'|e] eqn:E; [|exact Hrefl].
    cbn [of_result fst]. unfold set_value in E. destruct (Nat.eqb_spec (List.length v) (List.length (q_value q))) as [El|]; [|discriminate].
    destruct b.
    - destruct (extend_wf _ _ _ Hw E) as [A [B [C [D [F [G I]]]]]]. repeat split; auto; try apply A; congruence.
    - destruct (strict_wf _ _ _ Hw E) as [A [B [C [D F]]]]. pose proof (strict_in_tol _ _ _ E).
      rewrite F. repeat split; auto; try apply A; try congruence; lra. }
  destruct o; cbn [q_exec]; try apply Hset.
  unfold set_opt_value. destruct (Nat.eqb_spec (List.length val) (List.length (q_value q))) as [El|]; [|exact Hrefl].
  cbn. repeat split; try apply Hw; try lra.
  - unfold in_tol; cbn. apply Forall_map. apply Forall_forall. intros x _.
    pose proof (opt_fold_range x). pose proof tol_pos. lra.
  - now rewrite map_length.
Qed.

Lemma run_inv os : forall q, wfq q -> in_tol q ->
  let q' := q_run q os in
  wfq q' /\ in_tol q' /\ q_unit q' = q_unit q
  /\ List.length (q_value q') = List.length (q_value q)
  /\ fst (get_limits q') <= fst (get_limits q) /\ snd (get_limits q) <= snd (get_limits q').
Proof.
  induction os as [|o os IH]; intros q Hw Ht; cbn zeta.
  - cbn. repeat split; auto; try apply Hw; lra.
  - unfold q_run; cbn [fold_left]. destruct (exec_inv q o Hw Ht) as [A [B [C [D [E F]]]]].
    destruct (IH _ A B) as [A' [B' [C' [D' [E' F']]]]].
    unfold q_run in *. repeat split; auto; try apply A'; try congruence; lra.
Qed.

Lemma in_tol_physical q : wfq q -> in_tol q ->
  let lo := fst (get_limits q) in let hi := snd (get_limits q) in
  Forall (fun x => lo - tol * (hi - lo) / 2 <= x <= hi + tol * (hi - lo) / 2) (numpy q).
Proof.
  intros Hw Ht; cbn zeta. unfold numpy, get_value. rewrite map_map. apply Forall_map.
  eapply Forall_impl; [|exact Ht]. intros t Hb.
  rewrite (limits_width q Hw). destruct Hw as [Hp Hs]. unfold get_limits; cbn [fst snd].
  assert (Hi : 0 < / q_pref q) by now apply Rinv_0_lt_compat.
  assert (E1 : q_offset q / q_pref q - tol * (q_scale q / q_pref q) / 2
               = (q_offset q - tol * q_scale q / 2) * / q_pref q) by (field; lra).
  assert (E2 : (q_scale q + q_offset q) / q_pref q + tol * (q_scale q / q_pref q) / 2
               = (q_scale q + q_offset q + tol * q_scale q / 2) * / q_pref q) by (field; lra).
  rewrite E1, E2. unfold Rdiv at 2.
  split; apply Rmult_le_compat_r; try lra; nra.
Qed.
