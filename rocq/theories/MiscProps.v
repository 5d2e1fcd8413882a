(** flatten (C73), engineering notation (C77), JSON encoding (C79), rotations (C84),
    T1 and Ramsey sequences (C85). *)
From Coq Require Import Reals Lra Lia.
From Coquelicot Require Import Complex.
From Verif Require Import Base QuantityModel QuantityProofs Mat MExp HilbertModel GateModel GateProofs MiscModel.
Local Open Scope list_scope.
Local Open Scope nat_scope.
Local Notation length := List.length.

(** ** C73 flatten *)
(** The leaves of a nested value, from left to right. *)
Fixpoint leaves {A} (v : pyseq A) : list A :=
  match v with Leaf a => [a] | Seq _ l => flat_map leaves l end.
(** The number of nodes. *)
Fixpoint nodes {A} (v : pyseq A) : nat :=
  match v with Leaf _ => 1 | Seq _ l => S (fold_right (fun x n => nodes x + n) 0 l) end.
Definition nodes_l {A} (l : list (pyseq A)) : nat := fold_right (fun x n => nodes x + n) 0 l.
Lemma nodes_l_app : forall A (a b : list (pyseq A)), nodes_l (a ++ b) = nodes_l a + nodes_l b.
Proof. intros A a b. unfold nodes_l. induction a as [|x a IH]; cbn; [reflexivity|]. rewrite IH. lia. Qed.
Lemma flatten_loop_ok : forall A fuel (pre : list A) rest, nodes_l rest < fuel ->
  flatten_loop fuel (map Leaf pre ++ rest) (length pre) = Ok (map Leaf (pre ++ flat_map leaves rest)).
Proof.
  intros A fuel. induction fuel as [|f IH]; intros pre rest H; [lia|]. cbn [flatten_loop].
  assert (F : firstn (length pre) (map Leaf pre ++ rest) = map Leaf pre) by (rewrite firstn_app, map_length, Nat.sub_diag, firstn_all2 by (rewrite map_length; lia); cbn; apply app_nil_r).
  destruct rest as [|v rest].
  - rewrite app_nil_r. destruct (nth_error (map Leaf pre) (length pre)) eqn:E.
    + exfalso. assert (Q : nth_error (map (@Leaf A) pre) (length pre) <> None) by congruence. apply nth_error_Some in Q. rewrite map_length in Q. lia.
    + cbn. rewrite app_nil_r. reflexivity.
  - rewrite nth_error_app2 by (rewrite map_length; lia). rewrite map_length, Nat.sub_diag. cbn [nth_error].
    assert (K : skipn (S (length pre)) (map Leaf pre ++ v :: rest) = rest).
    { rewrite skipn_app, map_length. rewrite skipn_all2 by (rewrite map_length; lia). replace (S (length pre) - length pre) with 1 by lia. reflexivity. }
    destruct v as [a|tup [|x l]].
    + change (nodes_l (Leaf a :: rest)) with (S (nodes_l rest)) in H.
      specialize (IH (pre ++ [a]) rest ltac:(lia)). rewrite map_app, <- app_assoc, app_length in IH. cbn [map app length] in IH.
      replace (length pre + 1) with (S (length pre)) in IH by lia. rewrite IH, <- app_assoc. reflexivity.
    + rewrite F, K. rewrite IH; [reflexivity|]. change (nodes_l (Seq tup [] :: rest)) with (S (nodes_l rest)) in H. lia.
    + rewrite F, K. rewrite IH.
      * do 2 f_equal. f_equal. change (flat_map leaves (Seq tup (x :: l) :: rest)) with (flat_map leaves (x :: l) ++ flat_map leaves rest). apply flat_map_app.
      * rewrite nodes_l_app. change (nodes_l (Seq tup (x :: l) :: rest)) with (S (nodes_l (x :: l)) + nodes_l rest) in H. lia.
Qed.
(** [flatten] terminates on every nested value, returns exactly its leaves in order,
    and keeps the outer type. *)
Theorem C73_flatten : forall A tup (l : list (pyseq A)) fuel, nodes (Seq tup l) < fuel ->
  flatten fuel (Seq tup l) = Ok (Seq tup (map Leaf (leaves (Seq tup l)))).
Proof.
  intros A tup l fuel H. unfold flatten. pose proof (flatten_loop_ok A fuel [] l) as E. cbn [map app length] in E. rewrite E; [reflexivity|].
  change (nodes (Seq tup l)) with (S (nodes_l l)) in H. lia.
Qed.
Print Assumptions C73_flatten.
(** Whatever the fuel, a result is that result. *)
Lemma flatten_loop_mono : forall A f (l : list (pyseq A)) i r, flatten_loop f l i = Ok r -> forall f', f <= f' -> flatten_loop f' l i = Ok r.
Proof.
  intros A f. induction f as [|f IH]; intros l i r H f' Hf; [discriminate|]. destruct f' as [|f']; [lia|]. cbn [flatten_loop] in *.
  destruct (nth_error l i) as [[a|t [|x k]]|]; try (apply (IH _ _ _ H); lia). exact H.
Qed.
Theorem C73_idempotent : forall A fuel (v w : pyseq A), flatten fuel v = Ok w ->
  leaves w = leaves v /\ (exists tup as_, w = Seq tup (map Leaf as_)) /\ forall fuel', nodes w < fuel' -> flatten fuel' w = Ok w.
Proof.
  intros A fuel v w H. destruct v as [a|tup l]; [discriminate|].
  assert (E : w = Seq tup (map Leaf (leaves (Seq tup l)))).
  { assert (M : flatten (Nat.max fuel (S (nodes (Seq tup l)))) (Seq tup l) = Ok w).
    { unfold flatten in *. destruct (flatten_loop fuel l 0) as [r|] eqn:Q; [|discriminate]. rewrite (flatten_loop_mono _ _ _ _ _ Q) by lia. exact H. }
    rewrite C73_flatten in M by lia. congruence. }
  assert (L : leaves w = leaves (Seq tup l)) by (rewrite E; cbn [leaves]; induction (flat_map leaves l) as [|a r IH]; cbn; [reflexivity|]; rewrite IH; reflexivity).
  split; [exact L|]. split; [exists tup, (leaves (Seq tup l)); exact E|]. intros fuel' Hf. rewrite E in Hf |- *. rewrite C73_flatten by exact Hf.
  do 3 f_equal. rewrite <- E. exact L.
Qed.
Print Assumptions C73_idempotent.
Example C73_example : flatten 20 (Seq true [Leaf 1; Seq false [Seq false []; Leaf 2; Seq true [Leaf 3]]; Seq false []]) = Ok (Seq true [Leaf 1; Leaf 2; Leaf 3]).
Proof. reflexivity. Qed.

(** ** C77 Engineering notation *)
(** The power of ten a prefix stands for. *)
Definition prefix_exp (p : string) : option Z :=
  dget p [("z", -21); ("a", -18); ("f", -15); ("p", -12); ("n", -9); ("µ", -6); ("m", -3); ("", 0);
          ("K", 3); ("M", 6); ("G", 9); ("T", 12); ("P", 15); ("E", 18); ("Z", 21)]%string%Z.
Lemma ln10_pos : (0 < ln 10)%R.
Proof. rewrite <- ln_1. apply ln_increasing; lra. Qed.
Lemma log10_pow : forall v, (0 < v)%R -> Rpower 10 (log10 v) = v.
Proof. intros v H. unfold Rpower, log10. replace (ln v / ln 10 * ln 10)%R with (ln v) by (field; pose proof ln10_pos; lra). apply exp_ln, H. Qed.
Lemma log10_powerRZ : forall z, log10 (powerRZ 10 z) = IZR z.
Proof. intro z. unfold log10. rewrite powerRZ_Rpower by lra. unfold Rpower. rewrite ln_exp. field. pose proof ln10_pos. lra. Qed.
Lemma log10_le : forall a b, (0 < a)%R -> (a <= b)%R -> (log10 a <= log10 b)%R.
Proof.
  intros a b H L. unfold log10. apply Rmult_le_compat_r; [left; apply Rinv_0_lt_compat, ln10_pos|]. destruct L as [L| ->]; [left; apply ln_increasing; assumption|lra].
Qed.
Lemma log10_lt : forall a b, (0 < a)%R -> (a < b)%R -> (log10 a < log10 b)%R.
Proof. intros a b H L. unfold log10. apply Rmult_lt_compat_r; [apply Rinv_0_lt_compat, ln10_pos|]. apply ln_increasing; assumption. Qed.
Lemma pow10_pos : forall z, (0 < powerRZ 10 z)%R.
Proof. intro z. apply powerRZ_lt. lra. Qed.
Lemma floor3 : forall t, (3 * IZR (Int_part (t / 3)) <= t < 3 * IZR (Int_part (t / 3)) + 3)%R.
Proof. intro t. destruct (base_Int_part (t / 3)) as [A B]. lra. Qed.
Lemma rem_range : forall t, (1 <= Rpower 10 (t - 3 * IZR (Int_part (t / 3))) < 1000)%R.
Proof.
  intro t. pose proof (floor3 t) as [A B]. split.
  - rewrite <- (Rpower_O 10) by lra. apply Rle_Rpower; lra.
  - replace 1000%R with (Rpower 10 (INR 3)) by (rewrite Rpower_pow by lra; lra). apply Rpower_lt; [lra|]. cbn [INR]. lra.
Qed.
Lemma rem_back : forall t z, (0 < t)%R -> t = (Rpower 10 (log10 t - 3 * IZR z) * powerRZ 10 (3 * z))%R.
Proof.
  intros t z H. rewrite powerRZ_Rpower by lra. rewrite <- Rpower_plus. rewrite mult_IZR. replace (log10 t - 3 * IZR z + 3 * IZR z)%R with (log10 t) by ring. symmetry. apply log10_pow, H.
Qed.
(** The unsigned part. *)
Lemma eng_mag : forall v, (0 < v)%R -> (powerRZ 10 (-21) <= v < powerRZ 10 24)%R ->
  let idx := Int_part (log10 v / 3) in
  (7 <? Z.abs idx)%Z = false /\
  prefix_exp (if Rltb (log10 v) 0 then nth (Z.to_nat (- (idx + 1))) small_units EmptyString else nth (Z.to_nat idx) big_units EmptyString) = Some (3 * idx)%Z.
Proof.
  intros v H [L U] idx. pose proof (floor3 (log10 v)) as [A B]. fold idx in A, B.
  pose proof (log10_le _ _ (pow10_pos (-21)) L) as L'. pose proof (log10_lt _ _ H U) as U'. rewrite log10_powerRZ in L', U'.
  assert (I1 : (-8 < idx)%Z) by (apply lt_IZR; lra). assert (I2 : (idx < 8)%Z) by (apply lt_IZR; lra).
  split; [apply Z.ltb_ge; lia|]. unfold Rltb. destruct Rlt_dec as [N|N].
  - assert (idx < 0)%Z by (apply lt_IZR; lra). clearbody idx. clear - I1 H0.
    assert (C : (idx = -1 \/ idx = -2 \/ idx = -3 \/ idx = -4 \/ idx = -5 \/ idx = -6 \/ idx = -7)%Z) by lia.
    destruct C as [->|[->|[->|[->|[->|[->| ->]]]]]]; reflexivity.
  - assert (-1 < idx)%Z by (apply lt_IZR; lra). clearbody idx. clear - I2 H0.
    assert (C : (idx = 0 \/ idx = 1 \/ idx = 2 \/ idx = 3 \/ idx = 4 \/ idx = 5 \/ idx = 6 \/ idx = 7)%Z) by lia.
    destruct C as [->|[->|[->|[->|[->|[->|[->| ->]]]]]]]; reflexivity.
Qed.
(** In the supported range the value is mantissa times the power of ten of the prefix,
    with a mantissa of one to three digits before the point. *)
Theorem C77_exact : forall v, (powerRZ 10 (-21) <= Rabs v < powerRZ 10 24)%R ->
  exists e, prefix_exp (snd (eng_num v)) = Some e /\ v = (fst (eng_num v) * powerRZ 10 e)%R /\ (1 <= Rabs (fst (eng_num v)) < 1000)%R.
Proof.
  intros v H. pose proof (pow10_pos (-21)) as P.
  assert (V0 : v <> 0%R) by (intro Q; rewrite Q, Rabs_R0 in H; lra).
  assert (E : exists s w, (s = 1 \/ s = -1)%R /\ (0 < w)%R /\ v = (s * w)%R /\ Rabs v = w /\ s = (if Rltb v 0 then -1 else 1)%R /\ w = (if Rltb v 0 then - v else v)%R).
  { unfold Rltb. destruct Rlt_dec as [N|N].
    - exists (-1)%R, (- v)%R. split; [right; reflexivity|]. split; [lra|]. split; [ring|]. split; [apply Rabs_left, N|]. split; reflexivity.
    - exists 1%R, v. split; [left; reflexivity|]. split; [lra|]. split; [ring|]. split; [apply Rabs_pos_eq; lra|]. split; reflexivity. }
  destruct E as (s & w & Hs & Hw & Ev & Ea & Es & Ew). rewrite Ea in H. destruct (eng_mag w Hw H) as [T Pf].
  unfold eng_num. destruct Req_EM_T as [Q|_]; [contradiction|]. rewrite <- Es, <- Ew. rewrite T.
  exists (3 * Int_part (log10 w / 3))%Z. pose proof (rem_range (log10 w)) as RR. pose proof (rem_back w (Int_part (log10 w / 3)) Hw) as RB.
  assert (Ab : forall x, (0 <= x)%R -> Rabs (s * x) = x) by (intros x Hx; rewrite Rabs_mult; destruct Hs as [-> | ->]; rewrite ?Rabs_Ropp, ?Rabs_R1; [|replace (Rabs (-1)) with 1%R by (rewrite Rabs_left; lra)]; rewrite Rabs_pos_eq by lra; ring).
  destruct (Rltb (log10 w) 0); cbn [fst snd]; (split; [exact Pf|]; split; [rewrite Ev, Rmult_assoc, <- RB; reflexivity|rewrite Ab by lra; exact RR]).
Qed.
Print Assumptions C77_exact.
(** Positive values outside that range are still represented, with the outermost
    prefix. *)
Lemma eng_out : forall v, v <> 0%R -> (Rabs v < powerRZ 10 (-21) \/ powerRZ 10 24 <= Rabs v)%R ->
  eng_num v = if Rltb (log10 (Rabs v)) 0 then ((Rabs v * 10 ^ 21)%R, "z"%string) else ((Rabs v * / 10 ^ 21)%R, "Z"%string).
Proof.
  intros v V0 H. unfold eng_num. destruct Req_EM_T as [Q|_]; [contradiction|].
  assert (E : (if Rltb v 0 then - v else v)%R = Rabs v) by (unfold Rltb; destruct Rlt_dec as [N|N]; [symmetry; apply Rabs_left, N|symmetry; apply Rabs_pos_eq; lra]).
  rewrite E. set (w := Rabs v) in *. assert (Hw : (0 < w)%R) by (apply Rabs_pos_lt, V0).
  pose proof (floor3 (log10 w)) as [A B]. set (idx := Int_part (log10 w / 3)) in *.
  assert (T : (7 <? Z.abs idx)%Z = true).
  { apply Z.ltb_lt. destruct H as [H|H].
    - pose proof (log10_lt _ _ Hw H) as L. rewrite log10_powerRZ in L. assert (idx < -7)%Z by (apply lt_IZR; lra). lia.
    - pose proof (log10_le _ _ (pow10_pos 24) H) as L. rewrite log10_powerRZ in L. assert (7 < idx)%Z by (apply lt_IZR; lra). lia. }
  rewrite T. destruct (Rltb (log10 w) 0); reflexivity.
Qed.
Lemma p21 : powerRZ 10 21 = (10 ^ 21)%R. Proof. reflexivity. Qed.
Theorem C77_outside : forall v, (0 < v)%R -> (v < powerRZ 10 (-21) \/ powerRZ 10 24 <= v)%R ->
  exists e, prefix_exp (snd (eng_num v)) = Some e /\ v = (fst (eng_num v) * powerRZ 10 e)%R.
Proof.
  intros v H H'. assert (P : (0 < 10 ^ 21)%R) by (apply pow_lt; lra). rewrite eng_out by (rewrite ?Rabs_pos_eq by lra; try lra; exact H'). rewrite Rabs_pos_eq by lra.
  destruct (Rltb (log10 v) 0); cbn [fst snd].
  - exists (-21)%Z. split; [reflexivity|]. change (-21)%Z with (- (21))%Z. rewrite powerRZ_neg'. rewrite p21. field.
  - exists 21%Z. split; [reflexivity|]. rewrite p21. field.
Qed.
Print Assumptions C77_outside.
(** Negative values outside the range lose their sign. *)
Theorem C77_sign_refuted : forall v, (v < 0)%R -> (- v < powerRZ 10 (-21) \/ powerRZ 10 24 <= - v)%R ->
  eng_num v = eng_num (- v) /\ (0 < fst (eng_num v))%R.
Proof.
  intros v H H'. assert (P : (0 < 10 ^ 21)%R) by (apply pow_lt; lra). assert (A : Rabs v = (- v)%R) by (apply Rabs_left, H).
  assert (Q1 : (Rabs v < powerRZ 10 (-21) \/ powerRZ 10 24 <= Rabs v)%R) by (rewrite A; exact H').
  split.
  - rewrite (eng_out v) by (try exact Q1; lra). rewrite (eng_out (- v)) by (rewrite ?Rabs_Ropp; try exact Q1; lra). rewrite Rabs_Ropp. reflexivity.
  - rewrite (eng_out v) by (try exact Q1; lra). rewrite A. destruct Rltb; cbn [fst]; apply Rmult_lt_0_compat; lra.
Qed.
Print Assumptions C77_sign_refuted.
Example C77_example : (powerRZ 10 (-21) <= Rabs (-5) < powerRZ 10 24)%R /\ (- (- powerRZ 10 25) >= powerRZ 10 24)%R.
Proof.
  assert (M : forall a b, (a <= b)%Z -> (powerRZ 10 a <= powerRZ 10 b)%R) by (intros a b Hab; rewrite !powerRZ_Rpower by lra; apply Rle_Rpower; [lra|apply IZR_le, Hab]).
  rewrite Rabs_left by lra. split; [split|].
  - apply Rle_trans with (powerRZ 10 0); [apply M; lia|]. rewrite powerRZ_O. lra.
  - apply Rlt_le_trans with (powerRZ 10 1); [rewrite powerRZ_1; lra|apply M; lia].
  - rewrite Ropp_involutive. apply Rle_ge, M. lia.
Qed.

(** ** C79 Configuration values *)
(** What comes back: tuples become lists, tensors become arrays, components become the
    dict that describes them, all else is equal. *)
Fixpoint as_read (v : pyval) : pyval :=
  match v with
  | PTup l => PList (map as_read l)
  | PTensor l => PArr (map as_read l)
  | PList l => PList (map as_read l)
  | PArr l => PArr (map as_read l)
  | PDict d => PDict (map (fun kv => (fst kv, as_read (snd kv))) d)
  | PObj c => PDict (comp_asdict c)
  | _ => v
  end.
(** No dict that looks like an encoded value; quantities in a valid state. *)
Definition marker (d : list (string * pyval)) : Prop := exists k x, d = [(k, x)] /\ In k ["__complex__"; "__array__"; "__quantity__"]%string.
Fixpoint writable (v : pyval) : Prop :=
  match v with
  | PQty q => wfq q /\ q_pref q = pref_of_unit (q_unit q) /\ Forall (fun t => -1 <= t <= 1)%R (get_opt_value q)
  | PList l | PTup l | PArr l | PTensor l => fold_right (fun x P => writable x /\ P) True l
  | PDict d => ~ marker d /\ fold_right (fun kv P => writable (snd kv) /\ P) True d
  | PObj c => ~ marker (map (fun kv => (fst kv, PNone)) (c_params c))
  | _ => True
  end.
Lemma pyval_ind2 : forall P : pyval -> Prop,
  P PNone -> (forall b, P (PBool b)) -> (forall r, P (PNum r)) -> (forall s, P (PStr s)) -> (forall z, P (PCxText z)) -> (forall z, P (PCx z)) -> (forall q, P (PQty q)) -> (forall c, P (PObj c)) ->
  (forall l, Forall P l -> P (PArr l)) -> (forall l, Forall P l -> P (PTensor l)) -> (forall l, Forall P l -> P (PList l)) -> (forall l, Forall P l -> P (PTup l)) ->
  (forall d, Forall (fun kv => P (snd kv)) d -> P (PDict d)) -> forall v, P v.
Proof.
  intros P H0 H1 H2 H3 H4 H5 H6 H7 Ha Ht Hl Hu Hd. fix IH 1. intros [ |b|r|s|z|z|l|l|q|c|l|l|d].
  - exact H0. - apply H1. - apply H2. - apply H3. - apply H4. - apply H5.
  - apply Ha. induction l; constructor; auto.
  - apply Ht. induction l; constructor; auto.
  - apply H6.
  - apply H7.
  - apply Hl. induction l; constructor; auto.
  - apply Hu. induction l; constructor; auto.
  - apply Hd. induction d; constructor; auto.
Qed.
Definition of_list := fix go (l : list pyval) := match l with [] => Ok [] | x :: r => rbind (of_json x) (fun y => rbind (go r) (fun ys => Ok (y :: ys))) end.
Definition of_pairs := fix go (d : list (string * pyval)) := match d with [] => Ok [] | (k, x) :: r => rbind (of_json x) (fun y => rbind (go r) (fun ys => Ok ((k, y) :: ys))) end.
Lemma of_json_list : forall l, of_json (PList l) = rbind (of_list l) (fun l => Ok (PList l)). Proof. reflexivity. Qed.
Lemma of_json_dict : forall d, of_json (PDict d) = rbind (of_pairs d) hjson_decode. Proof. reflexivity. Qed.
Lemma of_list_read : forall l, Forall (fun v => writable v -> of_json (to_json v) = Ok (as_read v)) l ->
  fold_right (fun x P => writable x /\ P) True l -> of_list (map to_json l) = Ok (map as_read l).
Proof. intros l F. induction F as [|x l Hx F IH]; intro W; [reflexivity|]. destruct W as [W1 W2]. cbn [map of_list]. rewrite (Hx W1). cbn [rbind]. rewrite (IH W2). reflexivity. Qed.
Lemma of_pairs_read : forall d, Forall (fun kv => writable (snd kv) -> of_json (to_json (snd kv)) = Ok (as_read (snd kv))) d ->
  fold_right (fun kv P => writable (snd kv) /\ P) True d -> of_pairs (map (fun kv => (fst kv, to_json (snd kv))) d) = Ok (map (fun kv => (fst kv, as_read (snd kv))) d).
Proof. intros d F. induction F as [|[k x] d Hx F IH]; intro W; [reflexivity|]. destruct W as [W1 W2]. cbn [map of_pairs fst snd] in *. rewrite (Hx W1). cbn [rbind]. rewrite (IH W2). reflexivity. Qed.
Lemma nums_back : forall rs, of_list (map PNum rs) = Ok (map PNum rs) /\ nums_of (map PNum rs) = Ok rs.
Proof. induction rs as [|r rs [A B]]; [split; reflexivity|]. cbn [map of_list nums_of of_json rbind]. rewrite A, B. split; reflexivity. Qed.
Lemma quantity_back : forall q, wfq q -> q_pref q = pref_of_unit (q_unit q) -> Forall (fun t => -1 <= t <= 1)%R (get_opt_value q) -> from_qdict (asdict q) = Ok q.
Proof.
  intros q W Hp Hv. destruct (asdict_roundtrip q W Hp Hv) as (q' & E & En & Ev & El & Eu & Es). rewrite E. f_equal.
  assert (P : q_pref q' = q_pref q).
  { destruct W as [W1 W2]. pose proof (limits_lt q (conj W1 W2)) as Hlt. unfold from_qdict, asdict in E. cbn [qd_value qd_min qd_max qd_unit qd_symbol] in E.
    assert (HL : get_limits q = (q_offset q / q_pref q, q_scale q / q_pref q + q_offset q / q_pref q)%R) by (unfold get_limits; f_equal; field; lra).
    rewrite HL in Hlt. cbn in Hlt.
    destruct (mk_quantity_limits (numpy q) (q_unit q) _ _ (q_symbol q) Hlt) as [q1 [E1 [_ [_ [_ [Hp1 _]]]]]].
    { unfold numpy, get_value. rewrite map_map. apply Forall_map. eapply Forall_impl; [|exact Hv]. intros t Ht.
      pose proof (scaled_in_limits q t (conj W1 W2) Ht) as B. rewrite HL in B. exact B. }
    rewrite E1 in E. injection E as <-. rewrite Hp1, Hp. reflexivity. }
  destruct W as [W1 W2]. unfold get_limits in El. rewrite P in El. injection El as L1 L2.
  assert (O : q_offset q' = q_offset q). { apply (Rmult_eq_reg_r (/ q_pref q)); [exact L1|]. apply Rinv_neq_0_compat. lra. }
  assert (Sc : q_scale q' = q_scale q). { rewrite O in L2. apply (Rmult_eq_reg_r (/ q_pref q)) in L2; [lra|]. apply Rinv_neq_0_compat. lra. }
  assert (V : q_value q' = q_value q).
  { unfold get_value in Ev. rewrite O, Sc in Ev. revert Ev. generalize (q_value q') (q_value q). intro a. induction a as [|x a IH]; intros [|y b] Q; cbn [map] in Q; try discriminate; [reflexivity|].
    injection Q as Q1 Q2. f_equal; [nra|apply IH, Q2]. }
  destruct q, q'. cbn in *. subst. reflexivity.
Qed.
Lemma qdict_read : forall d, of_json (qdict_val d) = Ok (qdict_val d).
Proof.
  intro d. unfold qdict_val. rewrite of_json_dict. cbn [of_pairs]. rewrite of_json_list, (proj1 (nums_back _)). reflexivity.
Qed.
Lemma not_marker : forall d, ~ marker d -> hjson_decode d = Ok (PDict d).
Proof.
  intros [|[k x] [|kv d]] M; [reflexivity| |reflexivity]. unfold hjson_decode.
  destruct (String.eqb_spec k "__complex__"); [exfalso; apply M; exists k, x; split; [reflexivity|cbn; auto]|].
  destruct (String.eqb_spec k "__array__"); [exfalso; apply M; exists k, x; split; [reflexivity|cbn; auto]|].
  destruct (String.eqb_spec k "__quantity__"); [exfalso; apply M; exists k, x; split; [reflexivity|cbn; auto]|]. reflexivity.
Qed.
Lemma params_read : forall ps, ~ marker (map (fun kv => (fst kv, PNone)) ps) -> of_json (params_val ps) = Ok (params_val ps).
Proof.
  intros ps M. unfold params_val. rewrite of_json_dict.
  assert (E : of_pairs (map (fun kv : string * quantity => (fst kv, qdict_val (asdict (snd kv)))) ps) = Ok (map (fun kv => (fst kv, qdict_val (asdict (snd kv)))) ps)).
  { clear M. induction ps as [|[k q] ps IH]; [reflexivity|]. cbn [map of_pairs fst snd]. rewrite qdict_read. cbn [rbind]. rewrite IH. reflexivity. }
  rewrite E. cbn [rbind]. apply not_marker. intros (k & x & A & B). apply M.
  destruct ps as [|[k0 q0] [|kv ps]]; [discriminate| |discriminate]. cbn [map fst] in *. injection A as -> _. exists k, PNone. auto.
Qed.
Lemma of_json_read : forall v, writable v -> of_json (to_json v) = Ok (as_read v).
Proof.
  induction v as [ |b|r|s|z|z|q|c|l F|l F|l F|l F|d F] using pyval_ind2; intro W; try reflexivity.
  - destruct W as (W1 & W2 & W3). cbn [to_json as_read]. unfold qdict_val. rewrite of_json_dict. cbn [of_pairs]. rewrite of_json_dict. cbn [of_pairs].
    rewrite of_json_list, (proj1 (nums_back _)). cbn [rbind of_json hjson_decode String.eqb Ascii.eqb Bool.eqb py_quantity].
    unfold py_quantity. cbn [dget String.eqb Ascii.eqb Bool.eqb]. rewrite (proj2 (nums_back _)). cbn [rbind].
    assert (Q : forall d, mkQD (qd_value d) (qd_min d) (qd_max d) (qd_unit d) (qd_symbol d) = d) by (intros []; reflexivity). rewrite Q, quantity_back by assumption. reflexivity.
  - cbn [to_json as_read]. unfold comp_asdict. destruct (c_shape c); rewrite of_json_dict; cbn [of_pairs of_json rbind];
      (change (fix go d := _) with of_pairs || idtac); rewrite (params_read _ W); reflexivity.
  - cbn [to_json as_read]. rewrite of_json_dict. cbn [of_pairs]. rewrite of_json_list, (of_list_read l F W). reflexivity.
  - cbn [to_json as_read]. rewrite of_json_dict. cbn [of_pairs]. rewrite of_json_list, (of_list_read l F W). reflexivity.
  - cbn [to_json as_read]. rewrite of_json_list, (of_list_read l F W). reflexivity.
  - cbn [to_json as_read]. rewrite of_json_list, (of_list_read l F W). reflexivity.
  - destruct W as [M W]. cbn [to_json as_read]. rewrite of_json_dict, (of_pairs_read d F W). cbn [rbind].
    destruct d as [|[k x] [|kv d]]; [reflexivity| |reflexivity]. cbn [map fst snd]. unfold hjson_decode.
    destruct (String.eqb_spec k "__complex__"); [exfalso; apply M; exists k, x; split; [reflexivity|cbn; auto]|].
    destruct (String.eqb_spec k "__array__"); [exfalso; apply M; exists k, x; split; [reflexivity|cbn; auto]|].
    destruct (String.eqb_spec k "__quantity__"); [exfalso; apply M; exists k, x; split; [reflexivity|cbn; auto]|]. reflexivity.
Qed.
(** Reading back a written value of any nesting returns it, with tuples as lists and
    tensors as arrays. *)
Theorem C79_roundtrip : forall v, writable v -> of_json (to_json v) = Ok (as_read v).
Proof. exact of_json_read. Qed.
Print Assumptions C79_roundtrip.
(** Without tuples and tensors, exactly the same value. *)
Fixpoint plain (v : pyval) : Prop :=
  match v with
  | PTup _ | PTensor _ | PObj _ => False
  | PList l | PArr l => fold_right (fun x P => plain x /\ P) True l
  | PDict d => fold_right (fun kv P => plain (snd kv) /\ P) True d
  | _ => True
  end.
Theorem C79_exact : forall v, writable v -> plain v -> of_json (to_json v) = Ok v.
Proof.
  intros v W H. rewrite of_json_read by exact W. f_equal. clear W. revert H.
  induction v as [ |b|r|s|z|z|q|c|l F|l F|l F|l F|d F] using pyval_ind2; intro H; try reflexivity; try contradiction; cbn [as_read plain] in *; f_equal.
  - induction F as [|x l Hx F IH]; [reflexivity|]. destruct H as [A B]. cbn [map]. rewrite (Hx A), (IH B). reflexivity.
  - induction F as [|x l Hx F IH]; [reflexivity|]. destruct H as [A B]. cbn [map]. rewrite (Hx A), (IH B). reflexivity.
  - induction F as [|[k x] l Hx F IH]; [reflexivity|]. destruct H as [A B]. cbn [map fst snd] in *. rewrite (Hx A), (IH B). reflexivity.
Qed.
Print Assumptions C79_exact.
(** The markers are not escaped: a dict of the user's that happens to have the single
    key "__array__" is read back as an array. *)
Theorem C79_marker_refuted : forall l, fold_right (fun x P => writable x /\ P) True l ->
  of_json (to_json (PDict [("__array__", PList l)]%string)) = Ok (PArr (map as_read l)).
Proof.
  intros l W. cbn [to_json map fst snd]. rewrite of_json_dict. cbn [of_pairs]. rewrite of_json_list.
  rewrite (of_list_read l); [reflexivity| |exact W]. apply Forall_forall. intros x _. apply of_json_read.
Qed.
Print Assumptions C79_marker_refuted.
Example C79_example : of_json (to_json (PDict [("a", PList [PCx (1, 2)%R; PDict [("b", PArr [PList [PCx (0, 1)%R]])]]); ("c", PNone)]%string))
  = Ok (PDict [("a", PList [PCx (1, 2)%R; PDict [("b", PArr [PList [PCx (0, 1)%R]])]]); ("c", PNone)]%string).
Proof. reflexivity. Qed.

(** ** C84 Rotations *)
Definition axis (x y z : R) : mat := madd (madd (mscale (RtoC x) pauli_x) (mscale (RtoC y) pauli_y)) (mscale (RtoC z) pauli_z).
Ltac two i Hi := destruct i as [|[|i]]; [| |lia].
Lemma axis_sq : forall x y z, (x * x + y * y + z * z = 1)%R -> meq 2 2 (mmul 2 (axis x y z) (axis x y z)) mid.
Proof.
  intros x y z H i j Hi Hj. two i Hi; two j Hj; unfold mmul, axis, madd, mscale, pauli_x, pauli_y, pauli_z, gl, gentry, gev, mid; cbn [csum nth fst snd Cpow Nat.eqb];
    apply injective_projections; cbn; lra.
Qed.
Lemma axis_herm : forall x y z, hermitian 2 (axis x y z).
Proof.
  intros x y z i j Hi Hj. two i Hi; two j Hj; unfold madj, axis, madd, mscale, pauli_x, pauli_y, pauli_z, gl, gentry, gev; cbn [nth fst snd Cpow]; apply injective_projections; cbn; lra.
Qed.
Lemma Cdiv2 : forall z : C, (z / RtoC 2)%C = (fst z / 2, snd z / 2)%R.
Proof. intros [a b]. unfold Cdiv. rewrite <- RtoC_inv by lra. apply injective_projections; cbn; field. Qed.
(** exp(-i t N) = cos t - i sin t N for every N with N N = 1. *)
Lemma mexp_involution : forall n N (t : R), meq n n (mmul n N N) mid ->
  meq n n (mexp n (mscale (- Ci * RtoC t)%C N)) (msub (mscale (RtoC (cos t)) mid) (mscale (Ci * RtoC (sin t))%C N)).
Proof.
  intros n N t H i j Hi Hj. apply mexp_eq.
  assert (Ev : forall k, meq n n (mpow n N (2 * k)) mid /\ meq n n (mpow n N (S (2 * k))) N).
  { induction k as [|k [A B]].
    - split; [intros a b _ _; reflexivity|]. change (2 * 0) with 0. etransitivity; [apply mpow_S_l|]. cbn [mpow]. apply mmul_id_r.
    - replace (2 * S k) with (S (S (2 * k))) by lia. assert (A' : meq n n (mpow n N (S (S (2 * k)))) mid) by (etransitivity; [apply mpow_S_l|]; rewrite B; exact H).
      split; [exact A'|]. etransitivity; [apply mpow_S_l|]. rewrite A'. apply mmul_id_r. }
  assert (Pw : forall k, mpow n N k i j = ((mid i j + N i j) / RtoC 2 + Cpow (RtoC (-1)) k * ((mid i j - N i j) / RtoC 2))%C).
  { intro k. assert (T2 : RtoC 2 <> RtoC 0) by (intro Q; injection Q; lra).
    assert (M1 : forall m, Cpow (RtoC (-1)) (2 * m) = RtoC 1).
    { induction m as [|m IHm]; [reflexivity|]. replace (2 * S m) with (S (S (2 * m))) by lia. cbn [Cpow]. rewrite IHm. apply injective_projections; cbn; ring. }
    destruct (Nat.Even_or_Odd k) as [[m ->]|[m ->]].
    - rewrite (proj1 (Ev m) i j Hi Hj), M1, !Cdiv2. apply injective_projections; cbn; field.
    - replace (2 * m + 1) with (S (2 * m)) by lia. rewrite (proj2 (Ev m) i j Hi Hj). cbn [Cpow]. rewrite M1. rewrite !Cdiv2. apply injective_projections; cbn; field. }
  assert (S : is_cser (fun k => ((mid i j + N i j) / RtoC 2 * (/ RtoC (INR (fact k)) * Cpow (Ci * RtoC (- t)) k) + (mid i j - N i j) / RtoC 2 * (/ RtoC (INR (fact k)) * Cpow (Ci * RtoC t) k))%C)
                      ((mid i j + N i j) / RtoC 2 * expi (- t) + (mid i j - N i j) / RtoC 2 * expi t)%C).
  { apply is_cser_plus; apply is_cser_scale, is_cser_expi. }
  assert (V : ((mid i j + N i j) / RtoC 2 * expi (- t) + (mid i j - N i j) / RtoC 2 * expi t)%C = msub (mscale (RtoC (cos t)) mid) (mscale (Ci * RtoC (sin t))%C N) i j).
  { unfold msub, mscale. assert (E1 : expi t = (RtoC (cos t) + Ci * RtoC (sin t))%C) by (unfold expi; apply injective_projections; cbn; ring).
    assert (E2 : expi (- t) = (RtoC (cos t) - Ci * RtoC (sin t))%C) by (unfold expi; rewrite cos_neg, sin_neg; apply injective_projections; cbn; ring).
    rewrite E1, E2, !Cdiv2. apply injective_projections; cbn; field. }
  rewrite <- V. eapply is_cser_ext; [|exact S]. intro k. unfold taylor_term. 
  change (mscale (/ RtoC (INR (fact k)))%C (mpow n (mscale (- Ci * RtoC t)%C N) k) i j) with (/ RtoC (INR (fact k)) * mpow n (mscale (- Ci * RtoC t)%C N) k i j)%C.
  rewrite (mpow_scale n (- Ci * RtoC t)%C N k i j Hi Hj). unfold mscale. rewrite Pw.
  assert (C1 : Cpow (Ci * RtoC (- t)%R)%C k = Cpow (- Ci * RtoC t)%C k) by (f_equal; apply injective_projections; cbn; ring).
  assert (C2 : Cpow (Ci * RtoC t)%C k = (Cpow (- Ci * RtoC t) k * Cpow (RtoC (-1)) k)%C).
  { clear. induction k as [|k IH]; [cbn; apply injective_projections; cbn; ring|]. cbn [Cpow]. rewrite IH. replace (Ci * RtoC t)%C with ((- Ci * RtoC t) * RtoC (-1))%C by (apply injective_projections; cbn; ring). ring. }
  rewrite C1, C2. ring.
Qed.
(** rotation(phi, n) = exp(-i phi/2 n.sigma) for every unit vector n. *)
Theorem C84_exponential : forall phi x y z, (x * x + y * y + z * z = 1)%R ->
  meq 2 2 (rotation phi x y z) (mexp 2 (mscale (- Ci * RtoC (phi / 2))%C (axis x y z))).
Proof. intros phi x y z H. symmetry. apply (mexp_involution 2 (axis x y z) (phi / 2)%R), axis_sq, H. Qed.
Print Assumptions C84_exponential.
Theorem C84_unitary : forall phi x y z, (x * x + y * y + z * z = 1)%R -> unitary 2 (rotation phi x y z).
Proof. intros phi x y z H. rewrite (C84_exponential phi x y z H). apply mexp_unitary, axis_herm. Qed.
Print Assumptions C84_unitary.
(** Rotations about one axis add up; a full turn is -1, two turns are the identity. *)
Theorem C84_additive : forall a b x y z, (x * x + y * y + z * z = 1)%R ->
  meq 2 2 (mmul 2 (rotation a x y z) (rotation b x y z)) (rotation (a + b) x y z) /\
  meq 2 2 (rotation (2 * PI) x y z) (mscale (RtoC (-1)) mid) /\
  meq 2 2 (rotation (4 * PI) x y z) mid /\
  meq 2 2 (madj (rotation a x y z)) (rotation (- a) x y z).
Proof.
  intros a b x y z H. split; [|split; [|split]].
  - assert (Q : meq 2 2 (mmul 2 (axis x y z) (axis x y z)) mid) by (apply axis_sq, H). unfold rotation. fold (axis x y z). set (N := axis x y z) in *. clearbody N.
    replace ((a + b) / 2)%R with (a / 2 + b / 2)%R by field. rewrite cos_plus, sin_plus. set (ca := cos (a / 2)). set (sa := sin (a / 2)). set (cb := cos (b / 2)). set (sb := sin (b / 2)).
    intros i j Hi Hj. pose proof (Q i j Hi Hj) as Q'. unfold mmul in Q'. cbn [csum] in Q'. unfold mmul, msub, mscale. cbn [csum].
    assert (I2 : (Ci * Ci)%C = (- RtoC 1)%C) by (apply injective_projections; cbn; ring).
    match type of Q' with ?q = ?d => transitivity (RtoC ca * RtoC cb * d - Ci * (RtoC sa * RtoC cb + RtoC ca * RtoC sb) * N i j + (Ci * Ci) * (RtoC sa * RtoC sb) * q)%C end.
    + two i Hi; two j Hj; unfold mid; cbn [Nat.eqb]; ring.
    + rewrite Q', I2, RtoC_minus, RtoC_plus, !RtoC_mult. ring.
  - unfold rotation. replace (2 * PI / 2)%R with PI by field. rewrite cos_PI, sin_PI. intros i j Hi Hj. unfold msub, mscale. apply injective_projections; cbn; ring.
  - unfold rotation. replace (4 * PI / 2)%R with (2 * PI)%R by field. rewrite cos_2PI, sin_2PI. intros i j Hi Hj. unfold msub, mscale. apply injective_projections; cbn; ring.
  - pose proof (axis_herm x y z) as Q. unfold rotation. fold (axis x y z). set (N := axis x y z) in *. clearbody N. intros i j Hi Hj. pose proof (Q i j Hi Hj) as Q'. unfold madj in Q' |- *.
    unfold msub, mscale. rewrite <- Q'. replace (- a / 2)%R with (- (a / 2))%R by field. rewrite cos_neg, sin_neg. unfold mid. rewrite (Nat.eqb_sym j i).
    destruct (Nat.eqb i j); apply injective_projections; cbn; ring.
Qed.
Print Assumptions C84_additive.
(** The tabulated rotation gates are rotations. *)
Theorem C84_gates :
  meq 2 2 (rotation (PI / 2) 1 0 0) (gate2 "rx90p") /\ meq 2 2 (rotation (- (PI / 2)) 1 0 0) (gate2 "rx90m") /\ meq 2 2 (rotation PI 1 0 0) (gate2 "rxp") /\
  meq 2 2 (rotation (PI / 2) 0 1 0) (gate2 "ry90p") /\ meq 2 2 (rotation (- (PI / 2)) 0 1 0) (gate2 "ry90m") /\ meq 2 2 (rotation PI 0 1 0) (gate2 "ryp") /\
  meq 2 2 (rotation (PI / 2) 0 0 1) (gate2 "rz90p") /\ meq 2 2 (rotation (- (PI / 2)) 0 0 1) (gate2 "rz90m") /\ meq 2 2 (rotation PI 0 0 1) (gate2 "rzp").
Proof.
  assert (A : (PI / 2 / 2 = PI / 4)%R) by field. assert (B : (- (PI / 2) / 2 = - (PI / 4))%R) by field.
  assert (Cc : cos (PI / 4) = (/ sqrt 2)%R) by (rewrite cos_PI4; unfold Rdiv; ring). assert (Cs : sin (PI / 4) = (/ sqrt 2)%R) by (rewrite sin_PI4; unfold Rdiv; ring).
  unfold rotation. rewrite A, B, cos_neg, sin_neg, Cc, Cs, cos_PI2, sin_PI2.
  repeat split; intros i j Hi Hj; two i Hi; two j Hj; unfold gate2, msub, mscale, madd, pauli_x, pauli_y, pauli_z, gl, gentry, gev, mid, s2; cbn [nth fst snd Cpow Nat.eqb];
    cbn [GATES map GATE_LITERALS dget String.eqb Ascii.eqb Bool.eqb lit_smat ent fst snd]; unfold gl, gentry, gev, s2; cbn [nth fst snd Cpow];
    apply injective_projections; cbn; ring.
Qed.
Print Assumptions C84_gates.
Example C84_example : unitary 2 (rotation 1 (3 / 5) 0 (4 / 5)).
Proof. apply C84_unitary. field. Qed.

(** ** C85 T1 and Ramsey sequences *)
(** The ideal operation of a sequence on its target qubit, first gate first. *)
Definition ideal_product (l : list gate_id) : mat := fold_left (fun u g => mmul 2 (gate2 (fst g)) u) l mid.
Definition waits (name : string) (n : nat) : list gate_id := repeat (name, None) n.
Lemma concat_wait : forall (w : gate_id) n, List.concat (repeat [w] n) = repeat w n.
Proof. intros w n. induction n as [|n IH]; [reflexivity|]. cbn. rewrite IH. reflexivity. Qed.
(** The sequences, spelled out. *)
Theorem C85_structure : forall len target,
  T1_sequence len target = [("rx90p", Some target); ("rx90p", Some target)]%string ++ waits "Id" len /\
  ramsey_sequence len target = [("rx90p", Some target)]%string ++ waits "id" len ++ [("rx90p", Some target)]%string /\
  forall m, len = 2 * m -> exists half, half = waits "id" m /\
    ramsey_echo_sequence len target = [("rx90p", Some target)]%string ++ half ++ [("rx90p", Some target); ("rx90p", Some target)]%string ++ half ++ [("rx90m", Some target)]%string.
Proof.
  intros len target. unfold T1_sequence, ramsey_sequence, ramsey_echo_sequence, waits. rewrite !concat_wait. split; [reflexivity|]. split; [reflexivity|].
  intros m ->. exists (repeat ("id"%string, None) m). split; [reflexivity|]. replace (2 * m / 2) with m by (rewrite Nat.mul_comm, Nat.div_mul; lia). reflexivity.
Qed.
Print Assumptions C85_structure.
Lemma gate2_id : meq 2 2 (gate2 "id") mid.
Proof. intros i j Hi Hj. two i Hi; two j Hj; cbn; apply injective_projections; cbn; ring. Qed.
Lemma ideal_app : forall a b, ideal_product (a ++ b) = fold_left (fun u g => mmul 2 (gate2 (fst g)) u) b (ideal_product a).
Proof. intros. unfold ideal_product. apply fold_left_app. Qed.
Lemma fold_mor : forall l A B, meq 2 2 A B -> meq 2 2 (fold_left (fun u (g : gate_id) => mmul 2 (gate2 (fst g)) u) l A) (fold_left (fun u g => mmul 2 (gate2 (fst g)) u) l B).
Proof. induction l as [|g l IH]; intros A B H; [exact H|]. cbn [fold_left]. apply IH. rewrite H. reflexivity. Qed.
Lemma fold_wait : forall n A, meq 2 2 (fold_left (fun u (g : gate_id) => mmul 2 (gate2 (fst g)) u) (waits "id" n) A) A.
Proof. induction n as [|n IH]; intro A; [reflexivity|]. cbn [waits repeat fold_left]. etransitivity; [apply (IH (mmul 2 (gate2 "id") A))|]. rewrite gate2_id. apply mmul_id_l. Qed.
Lemma rx_rx : meq 2 2 (mmul 2 (gate2 "rx90p") (gate2 "rx90p")) (gate2 "rxp") /\ meq 2 2 (mmul 2 (gate2 "rx90m") (gate2 "rx90p")) mid.
Proof.
  destruct C84_gates as (Hp & Hm & Hx & _). assert (U : (1 * 1 + 0 * 0 + 0 * 0 = 1)%R) by ring. split.
  - rewrite <- Hp, <- Hx. rewrite (proj1 (C84_additive (PI / 2) (PI / 2) 1 0 0 U)). replace (PI / 2 + PI / 2)%R with PI by field. reflexivity.
  - rewrite <- Hp, <- Hm. rewrite (proj1 (C84_additive (- (PI / 2)) (PI / 2) 1 0 0 U)). replace (- (PI / 2) + PI / 2)%R with 0%R by ring.
    unfold rotation. replace (0 / 2)%R with 0%R by field. rewrite cos_0, sin_0. intros i j Hi Hj. unfold msub, mscale. apply injective_projections; cbn; ring.
Qed.
(** Without decoherence, whatever the waiting time, both Ramsey sequences flip the
    target qubit. *)
Theorem C85_flip : forall len target,
  meq 2 2 (ideal_product (ramsey_sequence len target)) (gate2 "rxp") /\ meq 2 2 (ideal_product (ramsey_echo_sequence len target)) (gate2 "rxp").
Proof.
  intros len target. destruct rx_rx as [Rx Ri]. split.
  - unfold ramsey_sequence. rewrite concat_wait. fold (waits "id" len). rewrite !ideal_app. unfold ideal_product. cbn [fold_left fst].
    rewrite !fold_left_app. cbn [fold_left fst].
    change (meq 2 2 (mmul 2 (gate2 "rx90p") (fold_left (fun u (g : gate_id) => mmul 2 (gate2 (fst g)) u) (waits "id" len) (mmul 2 (gate2 "rx90p") mid))) (gate2 "rxp")).
    rewrite (fold_wait len (mmul 2 (gate2 "rx90p") mid)), mmul_id_r. exact Rx.
  - unfold ramsey_echo_sequence. rewrite concat_wait. fold (waits "id" (len / 2)). rewrite !ideal_app. unfold ideal_product. cbn [fold_left fst].
    set (W := fun A => fold_left (fun u (g : gate_id) => mmul 2 (gate2 (fst g)) u) (waits "id" (len / 2)) A).
    assert (HW : forall A, meq 2 2 (W A) A) by (intro A; apply fold_wait).
    rewrite !fold_left_app. cbn [fold_left fst].
    change (meq 2 2 (mmul 2 (gate2 "rx90m") (W (mmul 2 (gate2 "rx90p") (mmul 2 (gate2 "rx90p") (W (mmul 2 (gate2 "rx90p") mid)))))) (gate2 "rxp")).
    rewrite HW, (HW (mmul 2 (gate2 "rx90p") mid)), mmul_id_r.
    rewrite (mmul_assoc 2 2 2 2 (gate2 "rx90m")). rewrite Ri. rewrite mmul_id_l. exact Rx.
Qed.
Print Assumptions C85_flip.
(** An odd echo length loses one wait. *)
Theorem C85_odd_echo_refuted : forall m target, ramsey_echo_sequence (2 * m + 1) target = ramsey_echo_sequence (2 * m) target.
Proof.
  intros m target. unfold ramsey_echo_sequence. replace ((2 * m + 1) / 2) with m by (rewrite Nat.mul_comm, Nat.div_add_l; [cbn; lia|lia]).
  replace (2 * m / 2) with m by (rewrite Nat.mul_comm, Nat.div_mul; lia). reflexivity.
Qed.
Print Assumptions C85_odd_echo_refuted.
(** The wait of the T1 sequence is not the name of a tabulated gate; that of the
    Ramsey sequences is. *)
Theorem C85_wait_name_refuted : forall len target g, In g (skipn 2 (T1_sequence len target)) -> dget (fst g) GATES = None /\ dget "id"%string GATES <> None.
Proof.
  intros len target g H. unfold T1_sequence in H. rewrite concat_wait in H. cbn [app skipn] in H. apply repeat_spec in H. subst g. split; [reflexivity|discriminate].
Qed.
Print Assumptions C85_wait_name_refuted.
Example C85_example : ramsey_echo_sequence 4 1 = [("rx90p", Some 1); ("id", None); ("id", None); ("rx90p", Some 1); ("rx90p", Some 1); ("id", None); ("id", None); ("rx90m", Some 1)]%string.
Proof. reflexivity. Qed.
