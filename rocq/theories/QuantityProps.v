(** Property theorems about [Quantity] (C01-C07).  Only statements; the proofs
    are in QuantityProofs.v.

    Vocabulary: [wfq q] says that the unit prefactor is positive and the range
    is not a single point; [get_limits q] are the physical limits, [numpy q] the
    physical value, [get_value q] the value times the unit prefactor;
    [q_exec q op] is the object after the call together with the exception
    raised, if any; [tol] = 1e-5 + 1e-8 is the closeness tolerance. *)
From Coq Require Import Reals Lra Psatz.
From Verif Require Import Base QuantityModel QuantityProofs.
Local Open Scope R_scope.
Local Open Scope list_scope.

(** ** C01 *)
Theorem C01_set_value_roundtrip : forall q val,
  wfq q -> List.length val = List.length (q_value q) ->
  Forall (fun x => fst (get_limits q) <= x <= snd (get_limits q)) val ->
  exists q', q_exec q (OpSet val) = (q', None)
    /\ numpy q' = val
    /\ get_value q' = map (Rmult (q_pref q)) val
    /\ get_limits q' = get_limits q.
Proof.
  intros q val H Hl Hf. destruct (set_get_roundtrip q val H Hl Hf) as [q' [E R]].
  exists q'. split; [cbn; now rewrite E|exact R].
Qed.
Print Assumptions C01_set_value_roundtrip.

Example C01_example : exists q,
  mk_quantity [1; 3] "Hz 2pi" (Some 0) (Some 4) "f" = Ok q /\ wfq q
  /\ Forall (fun x => fst (get_limits q) <= x <= snd (get_limits q)) [2; 4].
Proof.
  destruct (mk_quantity_limits [1; 3] "Hz 2pi" 0 4 "f") as [q [E [_ [HL [Hw _]]]]];
    [lra|repeat constructor; lra|].
  exists q. rewrite HL. cbn. repeat split; try apply Hw; auto. repeat constructor; lra.
Qed.

(** ** C02 *)
Theorem C02_raises_exactly_out_of_limits : forall q val,
  wfq q -> List.length val = List.length (q_value q) ->
  let lo := fst (get_limits q) in let hi := snd (get_limits q) in
  snd (q_exec q (OpSet val)) = Some OOBError <->
  Exists (fun x => x < lo - tol * (hi - lo) / 2 \/ hi + tol * (hi - lo) / 2 < x) val.
Proof. exact set_value_raise_iff. Qed.
Print Assumptions C02_raises_exactly_out_of_limits.

Theorem C02_raise_leaves_unchanged : forall q val e,
  snd (q_exec q (OpSet val)) = Some e -> fst (q_exec q (OpSet val)) = q.
Proof. exact set_value_raise_unchanged. Qed.
Print Assumptions C02_raise_leaves_unchanged.

(** Every history of calls, failing or not, keeps the value inside the limits
    (up to the tolerance), never shrinks the limits, and keeps unit and size. *)
Theorem C02_history_keeps_limits : forall os q,
  wfq q -> in_tol q ->
  let q' := q_run q os in
  let lo := fst (get_limits q') in let hi := snd (get_limits q') in
  Forall (fun x => lo - tol * (hi - lo) / 2 <= x <= hi + tol * (hi - lo) / 2) (numpy q')
  /\ lo <= fst (get_limits q) /\ snd (get_limits q) <= hi
  /\ q_unit q' = q_unit q /\ List.length (numpy q') = List.length (numpy q).
Proof.
  intros os q Hw Ht. destruct (run_inv os q Hw Ht) as [A [B [C [D [E F]]]]].
  cbn zeta. split; [exact (in_tol_physical _ A B)|]. repeat split; auto.
  unfold numpy, get_value. now rewrite !map_length.
Qed.
Print Assumptions C02_history_keeps_limits.

Example C02_example : exists q,
  mk_quantity [1] "V" (Some 0) (Some 4) "a" = Ok q /\ wfq q /\ in_tol q
  /\ snd (q_exec q (OpSet [5])) = Some OOBError.
Proof.
  destruct (mk_quantity_limits [1] "V" 0 4 "a") as [q [E [Hn [HL [Hw _]]]]];
    [lra|repeat constructor; lra|].
  exists q. split; [exact E|]. split; [exact Hw|]. split.
  - unfold mk_quantity in E. cbn [rbind] in E. unfold set_value in E.
    destruct (Nat.eqb _ _); [|discriminate]. eapply strict_in_tol; exact E.
  - apply (set_value_raise_iff q [5] Hw).
    + assert (HH := f_equal (@List.length R) Hn). unfold numpy, get_value in HH.
      rewrite !map_length in HH. now rewrite HH.
    + rewrite HL. cbn. apply Exists_cons_hd. right. unfold tol. lra.
Qed.

(** ** C03.  [is_fold v w]: w is the unique point of [-1,1] obtained from v by
    shifts by 4 and at most one reflection about 1. *)
Theorem C03_set_opt_value_in_limits : forall q val,
  wfq q -> List.length val = List.length (q_value q) ->
  exists q', q_exec q (OpSetOpt val) = (q', None)
    /\ get_limits q' = get_limits q
    /\ Forall2 is_fold val (get_opt_value q')
    /\ Forall (fun x => fst (get_limits q) <= x <= snd (get_limits q)) (numpy q').
Proof. exact set_opt_value_spec. Qed.
Print Assumptions C03_set_opt_value_in_limits.

Theorem C03_fold_unique : forall v w1 w2, is_fold v w1 -> is_fold v w2 -> w1 = w2.
Proof. exact is_fold_unique. Qed.
Print Assumptions C03_fold_unique.

Theorem C03_identity_inside : forall q val,
  List.length val = List.length (q_value q) -> Forall (fun v => -1 <= v <= 1) val ->
  exists q', q_exec q (OpSetOpt val) = (q', None) /\ get_opt_value q' = val.
Proof.
  intros q val Hl Hf. exists (with_value q (map opt_fold val)).
  cbn [q_exec]. unfold set_opt_value. rewrite Hl, Nat.eqb_refl. split; [reflexivity|].
  unfold get_opt_value; cbn. clear Hl. induction Hf as [|x l Hx _ IH]; [reflexivity|].
  cbn. now rewrite IH, opt_fold_id.
Qed.
Print Assumptions C03_identity_inside.

Example C03_example : is_fold 2 0 /\ is_fold (-7) 1 /\ opt_fold (1/2) = 1/2.
Proof.
  repeat split; try lra.
  - exists 0%Z. right. lra.
  - exists 2%Z. left. lra.
  - apply opt_fold_id; lra.
Qed.

(** ** C04 *)
Theorem C04_dict_roundtrip : forall q,
  wfq q -> q_pref q = pref_of_unit (q_unit q) ->
  Forall (fun t => -1 <= t <= 1) (get_opt_value q) ->
  exists q', from_qdict (asdict q) = Ok q' /\ numpy q' = numpy q
    /\ get_value q' = get_value q
    /\ get_limits q' = get_limits q /\ q_unit q' = q_unit q /\ q_symbol q' = q_symbol q.
Proof. exact asdict_roundtrip. Qed.
Print Assumptions C04_dict_roundtrip.

Example C04_example : let q := mkQ (2 * PI) 0 (2 * PI) [0; 1] "Hz 2pi" "f" in
  wfq q /\ q_pref q = pref_of_unit (q_unit q)
  /\ Forall (fun t => -1 <= t <= 1) (get_opt_value q).
Proof. pose proof PI_RGT_0. cbn. repeat split; cbn; try lra. repeat constructor; lra. Qed.

(** ** C05 *)
Theorem C05_extend_never_fails : forall q val,
  wfq q -> val <> [] -> List.length val = List.length (q_value q) ->
  let q' := fst (q_exec q (OpSetExtend val)) in
  snd (q_exec q (OpSetExtend val)) = None
  /\ numpy q' = val
  /\ fst (get_limits q') <= fst (get_limits q)
  /\ snd (get_limits q) <= snd (get_limits q')
  /\ Forall (fun x => fst (get_limits q') <= x <= snd (get_limits q')) val.
Proof. exact set_value_extend_state. Qed.
Print Assumptions C05_extend_never_fails.

Example C05_example : let q := mkQ PI 0 PI [0; 1] "pi" "f" in
  wfq q /\ [-5; 17] <> @nil R /\ List.length [-5; 17] = List.length (q_value q).
Proof. pose proof PI_RGT_0. cbn. repeat split; cbn; try lra. discriminate. Qed.

(** ** C06 *)
Theorem C06_arithmetic : forall q x, wfq q -> q_pref q = 1 -> q_value q <> [] ->
  (exists a, q_add q x = Ok a /\ numpy a = map (fun v => v + x) (numpy q)) /\
  (exists a, q_sub q x = Ok a /\ numpy a = map (fun v => v - x) (numpy q)) /\
  (exists a, q_rsub q x = Ok a /\ numpy a = map (fun v => x - v) (numpy q)) /\
  (exists a, q_mul q x = Ok a /\ numpy a = map (fun v => v * x) (numpy q)) /\
  (exists a, q_div q x = Ok a /\ numpy a = map (fun v => v / x) (numpy q)).
Proof.
  intros q x H Hp Hne.
  assert (G : forall op, exists a, q_arith op q = Ok a /\ numpy a = map op (numpy q)).
  { intros op. destruct (arith_ok op q H Hp Hne) as [a [E [Hn _]]]. now exists a. }
  repeat split; apply G.
Qed.
Print Assumptions C06_arithmetic.

(** The in-place [add] keeps the limits and is exact when the result is in range. *)
Theorem C06_inplace_add : forall q x, wfq q -> q_pref q = 1 ->
  Forall (fun v => fst (get_limits q) <= v + x <= snd (get_limits q)) (numpy q) ->
  exists q', q_exec q (OpAdd x) = (q', None) /\ numpy q' = map (fun v => v + x) (numpy q)
             /\ get_limits q' = get_limits q.
Proof.
  intros q x H Hp Hf.
  destruct (set_get_roundtrip q (map (fun v => v + x) (numpy q)) H) as [q' [E [Hn [_ HL]]]].
  - unfold numpy, get_value. now rewrite !map_length.
  - now apply Forall_map.
  - exists q'. cbn [q_exec]. unfold q_iadd. rewrite (get_value_numpy_1 q Hp), E. auto.
Qed.
Print Assumptions C06_inplace_add.

(** With a pi or 2pi unit the result of the addition is the prefactor times the
    old value plus the operand: adding zero to a quantity changes its value. *)
Theorem C06_arithmetic_pi_units_refuted : exists q a,
  mk_quantity [1] "Hz 2pi" (Some 0) (Some 4) "f" = Ok q
  /\ q_add q 0 = Ok a /\ numpy q = [1] /\ numpy a <> [1].
Proof.
  destruct (mk_quantity_limits [1] "Hz 2pi" 0 4 "f") as [q [E [Hn [HL [Hw [Hp _]]]]]];
    [lra|repeat constructor; lra|].
  destruct (arith_pref (fun v => v + 0) q Hw) as [a [Ea Hna]].
  { intros E0. unfold numpy, get_value in Hn. rewrite E0 in Hn. discriminate. }
  exists q, a. repeat split; auto. rewrite Hna, Hn. cbn. rewrite Hp.
  intros HH. injection HH as HH. unfold pref_of_unit in HH. cbn in HH.
  pose proof (PI_RGT_0). pose proof PI2_1. lra.
Qed.
Print Assumptions C06_arithmetic_pi_units_refuted.

Example C06_example : let q := mkQ 1 0 2 [0; 1] "V" "a" in
  wfq q /\ q_pref q = 1 /\ q_value q <> []
  /\ Forall (fun v => fst (get_limits q) <= v + (-1/2) <= snd (get_limits q)) (numpy q).
Proof.
  cbn. repeat split; cbn; try lra; try discriminate. repeat constructor; lra.
Qed.

(** ** C07 *)
Theorem C07_default_limits_admit_value : forall value unit symbol,
  exists q, mk_quantity value unit None None symbol = Ok q /\ numpy q = value /\ wfq q
    /\ Forall (fun x => fst (get_limits q) <= x <= snd (get_limits q)) value.
Proof. exact default_limits_ok. Qed.
Print Assumptions C07_default_limits_admit_value.

Theorem C07_explicit_limits_kept : forall value unit lo hi symbol,
  lo < hi -> Forall (fun x => lo <= x <= hi) value ->
  exists q, mk_quantity value unit (Some lo) (Some hi) symbol = Ok q
    /\ numpy q = value /\ get_limits q = (lo, hi) /\ wfq q
    /\ q_pref q = pref_of_unit unit /\ q_unit q = unit /\ q_symbol q = symbol.
Proof. exact mk_quantity_limits. Qed.
Print Assumptions C07_explicit_limits_kept.

(** Limits given in the wrong order are not refused: the object is built with
    other limits than the ones given. *)
Theorem C07_swapped_limits_accepted_refuted : exists q,
  mk_quantity [3] "V" (Some 2) (Some 1) "a" = Ok q /\ get_limits q = (2, 3).
Proof.
  unfold mk_quantity. cbn [rbind]. set (q0 := {| q_pref := _; q_offset := _ |}).
  assert (E : set_limits 2 1 q0 = set_limits 2 3 q0).
  { unfold set_limits. f_equal. f_equal.
    replace (1 - 2) with (- (3 - 2)) by lra. apply Rabs_Ropp. }
  rewrite E.
  assert (Hp : 0 < q_pref q0) by apply pref_pos.
  destruct (set_get_roundtrip (set_limits 2 3 q0) [3]) as [q [Es [_ [_ HL]]]].
  - apply wfq_set_limits; [exact Hp|lra].
  - reflexivity.
  - rewrite get_limits_set_limits by (auto; lra). cbn. repeat constructor; lra.
  - exists q. split; [exact Es|]. rewrite HL. apply get_limits_set_limits; [exact Hp|lra].
Qed.
Print Assumptions C07_swapped_limits_accepted_refuted.
