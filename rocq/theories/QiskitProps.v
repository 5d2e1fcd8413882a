From Coq Require Import Reals Lra Lia Ascii HexString BinaryString DecimalString DecimalNat Sorted.
From Coquelicot Require Import Complex.
From Verif Require Import Base Mat MExp RSum HilbertModel HilbertProofs GateModel FidModel TaskModel MiscModel QiskitModel
  FidProps PMapProofs.
Local Open Scope list_scope.
Local Open Scope nat_scope.
Local Notation length := List.length.

(** ** Printed forms are injective *)
Definition is_digit (c : ascii) : bool := let n := nat_of_ascii c in (48 <=? n) && (n <=? 57).
Fixpoint digits (s : string) : Prop :=
  match s with EmptyString => True | String c r => is_digit c = true /\ digits r end.
Lemma uint_digits : forall d, digits (NilEmpty.string_of_uint d).
Proof. induction d; cbn; auto. Qed.
Lemma str_nat_digits : forall n, digits (str_nat n).
Proof.
  intro n. unfold str_nat, NilZero.string_of_uint. destruct (Nat.to_uint n) eqn:E; try apply uint_digits. cbn. auto.
Qed.
Lemma to_uint_nonnil : forall n, Nat.to_uint n <> Decimal.Nil.
Proof.
  intros n H. assert (E : Nat.of_uint (Nat.to_uint n) = n) by apply Unsigned.of_to. rewrite H in E. cbn in E. subst n.
  discriminate H.
Qed.
Lemma str_nat_inj : forall a b, str_nat a = str_nat b -> a = b.
Proof.
  intros a b H. unfold str_nat in H. apply (f_equal NilZero.uint_of_string) in H.
  rewrite !NilZero.usu in H by apply to_uint_nonnil. injection H as H. apply Unsigned.to_uint_inj. exact H.
Qed.
Lemma digits_split : forall a b c d x y, digits a -> digits b -> is_digit c = false -> is_digit d = false ->
  (a ++ String c x)%string = (b ++ String d y)%string -> a = b /\ c = d /\ x = y.
Proof.
  induction a as [|ca a IH]; intros b c d x y Ha Hb Hc Hd E; destruct b as [|cb b]; cbn in E.
  - injection E as -> ->. auto.
  - injection E as -> _. destruct Hb. congruence.
  - injection E as <- _. destruct Ha. congruence.
  - injection E as -> E. destruct Ha as [_ Ha], Hb as [_ Hb]. destruct (IH b c d x y Ha Hb Hc Hd E) as (-> & -> & ->). auto.
Qed.
Lemma append_assoc : forall a b c : string, ((a ++ b) ++ c)%string = (a ++ (b ++ c))%string.
Proof. induction a; intros b c; cbn; [reflexivity|]. rewrite IHa. reflexivity. Qed.
Lemma str_nat_nonempty : forall n, exists c s, str_nat n = String c s /\ is_digit c = true.
Proof.
  intro n. pose proof (str_nat_digits n) as D. destruct (str_nat n) as [|c s] eqn:E.
  - exfalso. unfold str_nat, NilZero.string_of_uint in E. destruct (Nat.to_uint n) eqn:E'; try discriminate E.
  - exists c, s. destruct D. auto.
Qed.
Lemma comma_join_cons : forall x y r, comma_join (x :: y :: r) = (x ++ ", " ++ comma_join (y :: r))%string.
Proof. reflexivity. Qed.
Lemma comma_join_inj : forall l l' c x y, is_digit c = false -> c <> ","%char ->
  (comma_join (map str_nat l) ++ String c x)%string = (comma_join (map str_nat l') ++ String c y)%string -> l = l' /\ x = y.
Proof.
  induction l as [|a l IH]; intros l' c x y Hc Hn E.
  - destruct l' as [|a' l']; [cbn in E; injection E as ->; auto|]. exfalso.
    destruct (str_nat_nonempty a') as (d & s & E1 & Hd). destruct l' as [|b' l']; cbn [map] in E.
    + cbn [comma_join] in E. rewrite E1 in E. cbn in E. injection E as -> _. congruence.
    + rewrite comma_join_cons, E1 in E. cbn in E. injection E as -> _. congruence.
  - destruct l' as [|a' l'].
    { exfalso. destruct (str_nat_nonempty a) as (d & s & E1 & Hd). destruct l as [|b l]; cbn [map] in E.
      + cbn [comma_join] in E. rewrite E1 in E. cbn in E. injection E as <- _. congruence.
      + rewrite comma_join_cons, E1 in E. cbn in E. injection E as <- _. congruence. }
    destruct l as [|b l], l' as [|b' l']; cbn [map] in E.
    + cbn [comma_join] in E. apply digits_split in E; auto using str_nat_digits. destruct E as (E & _ & ->).
      apply str_nat_inj in E. subst. auto.
    + rewrite comma_join_cons in E. cbn [comma_join] in E. rewrite !append_assoc in E. cbn [append] in E.
      apply digits_split in E; auto using str_nat_digits. destruct E as (_ & E & _). congruence.
    + rewrite comma_join_cons in E. cbn [comma_join] in E. rewrite !append_assoc in E. cbn [append] in E.
      apply digits_split in E; auto using str_nat_digits. destruct E as (_ & E & _). congruence.
    + rewrite !comma_join_cons, !append_assoc in E. cbn [append] in E.
      apply digits_split in E; auto using str_nat_digits. destruct E as (E & _ & E2). apply str_nat_inj in E. subst a'.
      injection E2 as E2.
      change (str_nat b :: map str_nat l) with (map str_nat (b :: l)) in E2.
      change (str_nat b' :: map str_nat l') with (map str_nat (b' :: l')) in E2.
      destruct (IH (b' :: l') c x y Hc Hn E2) as [-> ->]. auto.
Qed.
Lemma str_list_inj : forall l l', str_list l = str_list l' -> l = l'.
Proof.
  intros l l' H. unfold str_list in H. injection H as H. change "]"%string with (String "]" EmptyString) in H.
  apply comma_join_inj in H; [apply H|reflexivity|discriminate].
Qed.
Lemma str_tuple_inj : forall l l', length l = length l' -> str_tuple l = str_tuple l' -> l = l'.
Proof.
  intros l l' HL H.
  assert (G : forall l : list nat, length l <> 1 -> str_tuple l = ("(" ++ comma_join (map str_nat l) ++ ")")%string).
  { intros [|a [|b k]]; intro X; [reflexivity|cbn in X; lia|reflexivity]. }
  destruct (Nat.eq_dec (length l) 1) as [E|E].
  - destruct l as [|a [|b k]]; cbn in E; try lia. destruct l' as [|a' [|b' k']]; cbn in HL; try lia.
    cbn [str_tuple append] in H. injection H as H. change ",)"%string with (String "," ")") in H.
    apply digits_split in H; auto using str_nat_digits. destruct H as (H & _). apply str_nat_inj in H. congruence.
  - rewrite !G in H by lia. injection H as H. change ")"%string with (String ")" EmptyString) in H.
    apply comma_join_inj in H; [apply H|reflexivity|discriminate].
Qed.

(** ** C92: keys of instructions *)
Fixpoint has_char (c : ascii) (s : string) : bool :=
  match s with EmptyString => false | String d r => Ascii.eqb c d || has_char c r end.
Lemma bracket_split : forall a b x y, has_char "[" a = false -> has_char "[" b = false ->
  (a ++ String "[" x)%string = (b ++ String "[" y)%string -> a = b /\ x = y.
Proof.
  induction a as [|ca a IH]; intros b x y Ha Hb E; destruct b as [|cb b]; cbn [append] in E.
  - injection E as ->. auto.
  - injection E as E1 _. subst cb. cbn in Hb. discriminate.
  - injection E as E1 _. subst ca. cbn in Ha. discriminate.
  - injection E as -> E. cbn [has_char] in *. apply orb_false_iff in Ha, Hb. destruct (IH b x y) as [-> ->]; tauto.
Qed.
(** Two instructions whose names are free of "[" share a key only if name and
    targets agree. *)
Theorem C92_keys_injective :
  forall n1 n2 t1 t2, has_char "[" n1 = false -> has_char "[" n2 = false ->
  get_key n1 t1 = get_key n2 t2 -> n1 = n2 /\ t1 = t2.
Proof.
  intros n1 n2 t1 t2 H1 H2 E.
  assert (G : forall a b x, has_char "[" a = false -> a <> (b ++ String "[" x)%string).
  { induction a as [|c a IHa]; intros b x Ha Ea; destruct b as [|d b]; cbn [append] in Ea; try discriminate.
    - injection Ea as Ec _. subst c. cbn in Ha. discriminate.
    - injection Ea as _ Ea. cbn [has_char] in Ha. apply orb_false_iff in Ha. destruct Ha as [_ Ha]. exact (IHa b x Ha Ea). }
  destruct t1 as [t1|], t2 as [t2|]; cbn [get_key] in E.
  - unfold str_list in E. cbn [append] in E.
    apply bracket_split in E; auto. destruct E as [-> E]. split; auto. f_equal.
    apply str_list_inj. unfold str_list. cbn [append]. f_equal. exact E.
  - exfalso. unfold str_list in E. cbn [append] in E. symmetry in E. eapply G; [|exact E]. exact H2.
  - exfalso. unfold str_list in E. cbn [append] in E. eapply G; [|exact E]. exact H1.
  - auto.
Qed.
Print Assumptions C92_keys_injective.
(** Without the restriction keys collide. *)
Theorem C92_bracket_names_refuted :
  ~ (forall n1 n2 t1 t2, get_key n1 t1 = get_key n2 t2 -> n1 = n2 /\ t1 = t2).
Proof.
  intro H. destruct (H "x[0]" "x" None (Some [0]))%string as [E _]; [reflexivity|discriminate E].
Qed.
Print Assumptions C92_bracket_names_refuted.
Example C92_example : get_key "cr90" (Some [0; 12]) = "cr90[0, 12]"%string /\ get_key "rx90p" (Some [3]) = "rx90p[3]"%string
  /\ has_char "[" "cr90" = false.
Proof. repeat split. Qed.

(** ** C74: labels and counts *)
Theorem C74_labels :
  forall levels qubits,
  NoDup (get_labels_qiskit levels qubits)
  /\ length (get_labels_qiskit levels qubits) = levels ^ qubits
  /\ forall i, i < levels ^ qubits ->
     exists s, nth_error (get_labels_qiskit levels qubits) i = Some s /\ HexString.to_nat s = i.
Proof.
  intros levels qubits. unfold get_labels_qiskit. split; [|split].
  - apply FinFun.Injective_map_NoDup; [|apply seq_NoDup]. intros a b H.
    apply (f_equal HexString.to_nat) in H. rewrite !HexString.to_nat_of_nat in H. exact H.
  - rewrite map_length, seq_length. reflexivity.
  - intros i Hi. exists (HexString.of_nat i). rewrite HexString.to_nat_of_nat. split; auto.
    erewrite map_nth_error; [reflexivity|]. rewrite (nth_error_nth' _ 0) by (rewrite seq_length; lia).
    rewrite seq_nth by lia. reflexivity.
Qed.
Print Assumptions C74_labels.
(** For qubits the label is the state read as a binary number, first subsystem first. *)
Definition binary_value (bits : list nat) : nat := fold_left (fun v b => 2 * v + b) bits 0.
Lemma prod_repeat : forall L n, prod_dims (repeat L n) = L ^ n.
Proof. intros L n. induction n; cbn; [reflexivity|]. f_equal. exact IHn. Qed.
Theorem C74_bitstring :
  forall n l, valid (repeat 2 n) l -> get_state_index (repeat 2 n) l = Ok (binary_value l).
Proof.
  intros n l H.
  assert (E : pos (repeat 2 n) l = binary_value l).
  { unfold binary_value.
    assert (G : forall n l v, valid (repeat 2 n) l -> fold_left (fun v b => 2 * v + b) l v = v * 2 ^ n + pos (repeat 2 n) l).
    { clear. induction n as [|n IH]; intros l v H; inversion H as [|b d l' ds Hb Hl]; subst.
      - cbn [fold_left repeat pos]. change (2 ^ 0) with 1. lia.
      - cbn [fold_left repeat pos]. rewrite (IH l' (2 * v + b) Hl), prod_repeat. change (2 ^ S n) with (2 * 2 ^ n). nia. }
    rewrite (G n l 0 H). lia. }
  rewrite <- E. unfold get_state_index. apply index_of_nth; [apply labels_nodup|apply labels_nth; auto].
Qed.
Print Assumptions C74_bitstring.

Lemma dict_zip_fold : forall V ks (vs : list V) d i k v, NoDup ks -> length ks = length vs ->
  nth_error ks i = Some k -> nth_error vs i = Some v ->
  dget k (fold_left (fun d kv => dset (fst kv) (snd kv) d) (combine ks vs) d) = Some v.
Proof.
  induction ks as [|k0 ks IH]; intros [|v0 vs] d i k v Hn HL Hk Hv; try discriminate; [destruct i; discriminate|].
  inversion Hn as [|? ? Hni Hn']; subst. cbn [combine fold_left fst snd]. destruct i as [|i]; cbn in Hk, Hv.
  - injection Hk as ->. injection Hv as ->.
    assert (G : forall kvs (d : dict V), ~ In k (map fst kvs) ->
              dget k (fold_left (fun d kv => dset (fst kv) (snd kv) d) kvs d) = dget k d).
    { induction kvs as [|[a b] kvs IHk]; intros d' Hin; [reflexivity|]. cbn [fold_left fst snd]. rewrite IHk.
      - apply dget_dset_other. intro X. apply Hin. left. auto.
      - intro X. apply Hin. right. exact X. }
    rewrite G, dget_dset_same; auto. intro X. apply Hni. clear -X. revert vs X. induction ks as [|a ks IH]; intros [|b vs] X; cbn in *; try tauto.
    destruct X as [X|X]; [auto|]. right. eapply IH; eauto.
  - apply (IH vs _ i); auto.
Qed.
Lemma dict_zip_get : forall V ks (vs : list V) i k v, NoDup ks -> length ks = length vs ->
  nth_error ks i = Some k -> nth_error vs i = Some v -> dget k (dict_zip ks vs) = Some v.
Proof. intros. eapply dict_zip_fold; eauto. Qed.
Lemma dset_keys_new : forall V k (v : V) d, ~ In k (keys d) -> keys (dset k v d) = keys d ++ [k].
Proof.
  induction d as [|[a b] d IH]; intro H; [reflexivity|]. cbn [dset]. cbn in H.
  destruct (String.eqb_spec k a) as [->|N]; [tauto|].
  cbn [keys map fst app]. f_equal. apply IH. tauto.
Qed.
Lemma dict_zip_keys : forall V ks (vs : list V), NoDup ks -> length ks = length vs -> keys (dict_zip ks vs) = ks.
Proof.
  intros V ks vs Hn HL. unfold dict_zip.
  assert (G : forall ks (vs : list V) d, NoDup ks -> length ks = length vs -> (forall k, In k ks -> ~ In k (keys d)) ->
            keys (fold_left (fun d kv => dset (fst kv) (snd kv) d) (combine ks vs) d) = keys d ++ ks).
  { clear. induction ks as [|k ks IH]; intros [|v vs] d Hn HL Hd; try discriminate; cbn [combine fold_left fst snd].
    - rewrite app_nil_r. reflexivity.
    - inversion Hn; subst. rewrite IH; auto.
      + rewrite dset_keys_new by (apply Hd; left; auto). rewrite <- app_assoc. reflexivity.
      + intros k' Hk'. rewrite dset_keys_new by (apply Hd; left; auto). rewrite in_app_iff. cbn.
        intros [X|[X|[]]]; [apply (Hd k'); [right; auto|auto]|subst; auto]. }
  apply (G ks vs []); auto.
Qed.
Lemma labels_c3_nodup : forall dims, NoDup (get_labels_c3 dims).
Proof.
  intro dims. unfold get_labels_c3.
  assert (G : forall ls : list (list nat), NoDup ls -> (forall l, In l ls -> length l = length dims) -> NoDup (map str_tuple ls)).
  { induction ls as [|l ls IH]; intros Hn Hl; [constructor|]. inversion Hn; subst. cbn [map]. constructor.
    - rewrite in_map_iff. intros (l' & E & Hin). apply str_tuple_inj in E.
      + subst. auto.
      + rewrite (Hl l'), (Hl l); [reflexivity|left; auto|right; auto].
    - apply IH; auto. intros; apply Hl; right; auto. }
  apply G; [apply labels_nodup|]. intros l Hl. apply in_labels in Hl. apply valid_length. exact Hl.
Qed.

(** The operations of a circuit other than measure and barrier, in order. *)
Inductive Kept : list qgate -> list qgate -> Prop :=
| kept_nil : Kept [] []
| kept_drop : forall g c k, (qg_name g = "measure" \/ qg_name g = "barrier")%string -> Kept c k -> Kept (g :: c) k
| kept_keep : forall g c k, (qg_name g <> "measure" /\ qg_name g <> "barrier")%string -> Kept c k -> Kept (g :: c) (g :: k).
Lemma kept_sanitize : forall c k, fst (sanitize_instructions c) = k <-> Kept c k.
Proof.
  unfold sanitize_instructions, UNSUPPORTED_OPERATIONS. cbn [fst]. induction c as [|g c IH]; intro k; cbn [filter existsb].
  - split; [intros <-; constructor|intro H; inversion H; auto].
  - destruct (String.eqb_spec (qg_name g) "measure") as [E|E]; cbn [orb negb].
    + rewrite IH. split; intro H; [apply kept_drop; auto|]. inversion H; subst; tauto.
    + destruct (String.eqb_spec (qg_name g) "barrier") as [E'|E']; cbn [orb negb].
      * rewrite IH. split; intro H; [apply kept_drop; auto|]. inversion H; subst; tauto.
      * split; [intros <-; apply kept_keep; [auto|apply IH; auto]|]. intro H. inversion H; subst; [tauto|].
        f_equal. apply IH. auto.
Qed.

(** The populations a circuit ends with: the operations other than measure and
    barrier, and other than a final parameter update, applied to the initial state
    of [x], read out by the tasks of [x]. *)
Definition runs_to (x : qexp) (ops : list qgate) (pops : list R) : Prop :=
  exists rest raw ps, evaluate_qasm (x_dims x) (x_lind x) (x_props x) (x_init x) [ops] = Ok ps
   /\ process (x_dims x) (x_tasks x) ps None = Ok (Vec pops :: rest, raw).
(** What is reported for a population: the number of shots rounded to the nearest
    integer if the circuit measures, else the population. *)
Definition reported (circuit : list qgate) (shots p : R) (c : R) : Prop :=
  if existsb (fun g => String.eqb (qg_name g) "measure") circuit
  then (exists z : Z, c = IZR z) /\ (Rabs (c - p * shots) <= 1 / 2)%R
  else c = p.

Lemma np_round_near : forall x, (Rabs (IZR (np_round x) - x) <= 1 / 2)%R.
Proof.
  intro x. unfold np_round. destruct (base_Int_part (x + 1 / 2)) as [B1 B2].
  destruct (Req_EM_T (x + 1 / 2) (IZR (Int_part (x + 1 / 2)))) as [E|E].
  - destruct (Z.even (Int_part (x + 1 / 2))).
    + rewrite <- E. apply Rabs_le. lra.
    + rewrite minus_IZR, <- E. apply Rabs_le. lra.
  - apply Rabs_le. lra.
Qed.
Lemma locate_filter : forall circuit s,
  map fst (filter (fun ig => String.eqb (qg_name (snd ig)) "measure") (combine (seq s (length circuit)) circuit)) = []
  <-> existsb (fun g => String.eqb (qg_name g) "measure") circuit = false.
Proof.
  induction circuit as [|g c IH]; intro s; cbn; [tauto|].
  destruct (String.eqb (qg_name g) "measure"); cbn; [split; discriminate|]. apply IH.
Qed.
Lemma package_counts : forall x L n shots circuit pops rest r,
  x_dims x = repeat L n -> length pops = L ^ n ->
  package x L shots circuit (Vec pops :: rest) = Ok r ->
  keys (r_counts r) = get_labels_qiskit L n /\ keys (r_state_pops r) = get_labels_c3 (x_dims x)
  /\ forall l i, get_state_index (x_dims x) l = Ok i ->
     exists c, dget (HexString.of_nat i) (r_counts r) = Some c /\ reported circuit shots (nth i pops 0%R) c
        /\ dget (str_tuple l) (r_state_pops r) = Some (nth i pops 0%R).
Proof.
  intros x L n shots circuit pops rest r Hd HL H. cbn [package] in H. injection H as <-. cbn [r_counts r_state_pops].
  rewrite Hd. rewrite repeat_length.
  set (data := match locate_measurements circuit with [] => pops | _ => map IZR (generate_shot_readout pops shots) end).
  assert (Ld : length data = L ^ n).
  { unfold data. destruct (locate_measurements circuit); auto. unfold generate_shot_readout. rewrite !map_length. exact HL. }
  destruct (C74_labels L n) as (Hn & Hl & Hi).
  assert (Lc : length (get_labels_c3 (repeat L n)) = length pops).
  { unfold get_labels_c3. rewrite map_length, labels_length, prod_repeat. congruence. }
  split; [|split].
  - apply dict_zip_keys; auto. congruence.
  - apply dict_zip_keys; auto using labels_c3_nodup.
  - intros l i Hli.
    assert (Hv : valid (repeat L n) l /\ i = pos (repeat L n) l).
    { unfold get_state_index in Hli. destruct (in_dec (list_eq_dec Nat.eq_dec) l (labels (repeat L n))) as [I|I].
      - apply in_labels in I. split; auto. rewrite (index_of_nth _ _ _ (labels_nodup _) (labels_nth _ _ I)) in Hli.
        congruence.
      - rewrite index_of_none in Hli by auto. discriminate. }
    destruct Hv as [Hv ->]. pose proof (pos_lt _ _ Hv) as Hp. rewrite prod_repeat in Hp.
    set (i := pos (repeat L n) l) in *.
    exists (nth i data 0%R). split; [|split].
    + apply (dict_zip_get _ _ _ i); auto; [congruence| |].
      * destruct (Hi i Hp) as (s & Hs & Es). rewrite Hs. f_equal.
        unfold get_labels_qiskit in Hs. erewrite map_nth_error in Hs.
        2:{ rewrite (nth_error_nth' _ 0) by (rewrite seq_length; lia). rewrite seq_nth by lia. reflexivity. }
        injection Hs as <-. reflexivity.
      * apply nth_error_nth'. lia.
    + unfold reported, data. pose proof (locate_filter circuit 0) as LF. fold (locate_measurements circuit) in LF.
      destruct (existsb (fun g => String.eqb (qg_name g) "measure") circuit).
      * destruct (locate_measurements circuit) as [|m ms]; [destruct LF as [LF _]; specialize (LF eq_refl); discriminate|].
        fold i.
        assert (X : nth i (map IZR (map (fun p => np_round (p * shots)) pops)) 0%R = IZR (np_round (nth i pops 0%R * shots))).
        { rewrite map_map. rewrite (nth_indep _ 0%R ((fun p => IZR (np_round (p * shots))) 0%R)) by (rewrite map_length; lia).
          rewrite (map_nth (fun p => IZR (np_round (p * shots)))). reflexivity. }
        unfold generate_shot_readout. rewrite X. split; [eauto|]. apply np_round_near.
      * destruct (locate_measurements circuit) as [|m ms]; [reflexivity|]. destruct LF as [_ LF]. specialize (LF eq_refl). discriminate.
    + apply (dict_zip_get _ _ _ i); auto using labels_c3_nodup.
      * unfold get_labels_c3. erewrite map_nth_error; [reflexivity|]. apply labels_nth. exact Hv.
      * apply nth_error_nth'. lia.
Qed.

Lemma run_split : forall upd x L nq shots circuit r x', run_experiment upd x L nq shots circuit = Ok (r, x') ->
  exists ops p, key_error (rbind (evaluate_qasm (x_dims x') (x_lind x') (x_props x') (x_init x') [ops])
                              (fun pops => process (x_dims x') (x_tasks x') pops None)) = Ok p
    /\ package x' L shots circuit (fst p) = Ok r
    /\ ((ops = fst (sanitize_instructions circuit) /\ x' = x)
        \/ exists u, fst (sanitize_instructions circuit) = ops ++ [u] /\ qg_name u = "param_update"%string /\ upd u x = Ok x').
Proof.
  intros upd x L nq shots circuit r x' H. unfold run_experiment in H.
  destruct (Nat.ltb (length (x_dims x)) nq); [discriminate|].
  set (s := fst (sanitize_instructions circuit)) in *.
  destruct (rev s) as [|u before] eqn:Er; [discriminate|].
  assert (Es : s = rev before ++ [u]) by (rewrite <- (rev_involutive s), Er; reflexivity).
  destruct (String.eqb_spec (qg_name u) "param_update") as [E|E].
  - destruct (upd u x) as [x1|] eqn:Eu; [|discriminate]. cbn [rbind fst snd] in H.
    destruct (key_error _) as [p|] eqn:Ep in H; [|discriminate]. cbn [rbind] in H.
    destruct (package x1 L shots circuit (fst p)) as [r1|] eqn:Epk; [|discriminate]. cbn [rbind] in H. injection H as <- <-.
    exists (rev before), p. split; [exact Ep|]. split; [exact Epk|]. right. exists u. auto.
  - cbn [rbind fst snd] in H. destruct (key_error _) as [p|] eqn:Ep in H; [|discriminate]. cbn [rbind] in H.
    destruct (package x L shots circuit (fst p)) as [r1|] eqn:Epk; [|discriminate]. cbn [rbind] in H. injection H as <- <-.
    exists s, p. split; [exact Ep|]. split; [exact Epk|]. left. auto.
Qed.

(** A run that succeeds on a device of [n] subsystems with [L] levels each reports
    every state once, under the hexadecimal index of that state. *)
Theorem C74_counts :
  forall upd x L n nq shots circuit r x',
  x_dims x' = repeat L n -> run_experiment upd x L nq shots circuit = Ok (r, x') ->
  exists kept ops pops, Kept circuit kept
   /\ ((kept = ops /\ x' = x)
       \/ exists u, kept = ops ++ [u] /\ qg_name u = "param_update"%string /\ upd u x = Ok x')
   /\ runs_to x' ops pops
   /\ (length pops = L ^ n ->
       keys (r_counts r) = get_labels_qiskit L n
       /\ NoDup (keys (r_state_pops r))
       /\ forall l i, get_state_index (x_dims x') l = Ok i ->
          exists c, dget (HexString.of_nat i) (r_counts r) = Some c /\ reported circuit shots (nth i pops 0%R) c
             /\ dget (str_tuple l) (r_state_pops r) = Some (nth i pops 0%R)).
Proof.
  intros upd x L n nq shots circuit r x' Hd H.
  destruct (run_split _ _ _ _ _ _ _ _ H) as (ops & p & Hk & Hp & Hops).
  unfold key_error in Hk. destruct (rbind _ _) as [p'|e] eqn:Ep in Hk; [|destruct e; discriminate]. injection Hk as <-.
  destruct (evaluate_qasm _ _ _ _ [ops]) as [ps|] eqn:Ee in Ep; [|discriminate]. cbn [rbind] in Ep.
  destruct p' as [fin raw]. cbn [fst] in Hp. destruct fin as [|[pops|] rest]; try discriminate Hp.
  exists (fst (sanitize_instructions circuit)), ops, pops.
  split; [apply kept_sanitize; reflexivity|].
  split; [destruct Hops as [[-> ->]|(u & A & B & D)]; [left; auto|right; exists u; auto]|].
  split; [exists rest, raw, ps; auto|]. intro HL.
  destruct (package_counts x' L n shots circuit pops rest r Hd HL Hp) as (A & B & D).
  split; [exact A|]. split; [rewrite B; apply labels_c3_nodup|exact D].
Qed.
Print Assumptions C74_counts.

(** The reported shots add up to the requested number within half a shot per state. *)
Theorem C74_shot_total :
  forall pops shots, sum_list pops = 1%R ->
  (Rabs (sum_list (map IZR (generate_shot_readout pops shots)) - shots) <= INR (length pops) / 2)%R.
Proof.
  intros pops shots H.
  assert (G : (Rabs (sum_list (map IZR (generate_shot_readout pops shots)) - sum_list pops * shots) <= INR (length pops) / 2)%R).
  { clear H. unfold generate_shot_readout. induction pops as [|p pops IH].
    - cbn. rewrite Rmult_0_l, Rminus_0_r, Rabs_R0. lra.
    - cbn [map sum_list fold_right]. cbn [sum_list] in IH. rewrite map_map in IH.
      change (length (p :: pops)) with (S (length pops)). rewrite S_INR.
      pose proof (np_round_near (p * shots)) as N.
      unfold sum_list in *. cbn [fold_right]. rewrite map_map.
      replace (IZR (np_round (p * shots)) + fold_right Rplus 0 (map (fun x => IZR (np_round (x * shots))) pops)
               - (p + fold_right Rplus 0 pops) * shots)%R
        with ((IZR (np_round (p * shots)) - p * shots)
              + (fold_right Rplus 0 (map (fun x => IZR (np_round (x * shots))) pops) - fold_right Rplus 0 pops * shots))%R by ring.
      eapply Rle_trans; [apply Rabs_triang|]. lra. }
  rewrite H, Rmult_1_l in G. exact G.
Qed.
Print Assumptions C74_shot_total.
(** The total is not the number of shots in general: two equally likely states
    measured once are both reported zero times. *)
Theorem C74_total_refuted :
  ~ (forall pops shots, sum_list pops = 1%R -> (exists k, shots = INR k) ->
     sum_list (map IZR (generate_shot_readout pops shots)) = shots).
Proof.
  intro H. specialize (H [1 / 2; 1 / 2]%R 1%R).
  assert (R0 : np_round (1 / 2 * 1) = 0%Z).
  { unfold np_round. replace (1 / 2 * 1 + 1 / 2)%R with 1%R by lra.
    assert (I : Int_part 1 = 1%Z).
    { unfold Int_part. assert (U : up 1 = 2%Z) by (symmetry; apply tech_up; lra). rewrite U. reflexivity. }
    rewrite I. destruct (Req_EM_T 1 1) as [_|N]; [reflexivity|congruence]. }
  unfold generate_shot_readout, sum_list in H. cbn [map fold_right] in H. rewrite R0 in H.
  assert (X : (0 + (0 + 0))%R = 1%R) by (apply H; [lra|exists 1; reflexivity]). lra.
Qed.
Print Assumptions C74_total_refuted.
(** flip_labels maps different states to one label, so counts are lost. *)
Theorem C74_flip_refuted :
  ~ (forall V (counts : dict V), NoDup (keys counts) -> length (flip_labels counts) = length counts).
Proof.
  intro H. specialize (H nat [("0x1", 3); ("0x2", 5)]%string).
  assert (E : length (flip_labels [("0x1", 3); ("0x2", 5)]%string) = 1) by reflexivity.
  rewrite E in H. assert (N : NoDup (keys [("0x1", 3); ("0x2", 5)]%string)).
  { repeat constructor; cbn; intuition discriminate. }
  specialize (H N). discriminate H.
Qed.
Print Assumptions C74_flip_refuted.
(** With more than two levels the label is not the bit string of the state: one
    excitation in the first of two three-level subsystems is reported as 0x3. *)
Theorem C74_multilevel_refuted :
  ~ (forall L n l, valid (repeat L n) l -> (forall k, In k l -> k < 2) ->
     get_state_index (repeat L n) l = Ok (binary_value l)).
Proof.
  intro H. specialize (H 3 2 [1; 0]). assert (E : get_state_index (repeat 3 2) [1; 0] = Ok 3) by reflexivity.
  rewrite E in H. assert (X : Ok 3 = Ok (binary_value [1; 0])).
  { apply H; [repeat constructor; lia|]. cbn. intros k Hk. lia. }
  discriminate X.
Qed.
Print Assumptions C74_multilevel_refuted.
(** With unequal dimensions states are dropped from the counts. *)
Theorem C74_unequal_dims_refuted :
  ~ (forall x shots circuit pops r, length pops = prod_dims (x_dims x) ->
     package x (nth 0 (x_dims x) 0) shots circuit [Vec pops] = Ok r -> length (r_counts r) = prod_dims (x_dims x)).
Proof.
  intro H.
  pose (x := {| x_dims := [2; 3]; x_lind := false; x_props := []; x_init := seye 1 1;
                x_tasks := {| conf_matrix := None; meas_rescale := None |} |}).
  specialize (H x 1%R [] [1; 0; 0; 0; 0; 0]%R _ eq_refl eq_refl).
  assert (E : length (keys (dict_zip (get_labels_qiskit 2 2) [1; 0; 0; 0; 0; 0]%R)) = 4) by reflexivity.
  unfold keys in E. rewrite map_length in E. change (length (dict_zip (get_labels_qiskit 2 2) [1; 0; 0; 0; 0; 0]%R) = 6) in H.
  rewrite E in H. discriminate H.
Qed.
Print Assumptions C74_unequal_dims_refuted.

(** ** C75: sanitising *)
(** Exactly measure and barrier are dropped; everything else stays in order, and the
    unchanged circuit is returned beside it. *)
Theorem C75_sanitize : forall c, Kept c (fst (sanitize_instructions c)) /\ snd (sanitize_instructions c) = c.
Proof. intro c. split; [apply kept_sanitize; reflexivity|reflexivity]. Qed.
Print Assumptions C75_sanitize.
(** The measurement positions are exactly those of the measure operations, in order. *)
Theorem C75_measurements :
  forall c, StronglySorted lt (locate_measurements c)
   /\ forall i, In i (locate_measurements c) <-> exists g, nth_error c i = Some g /\ qg_name g = "measure"%string.
Proof.
  intro c. unfold locate_measurements.
  assert (G : forall c s, StronglySorted lt (map fst (filter (fun ig => String.eqb (qg_name (snd ig)) "measure") (combine (seq s (length c)) c)))
            /\ (forall i, In i (map fst (filter (fun ig => String.eqb (qg_name (snd ig)) "measure") (combine (seq s (length c)) c)))
                  <-> s <= i /\ exists g, nth_error c (i - s) = Some g /\ qg_name g = "measure"%string)).
  { clear. induction c as [|g c IH]; intro s.
    - cbn. split; [constructor|]. intro i. split; [tauto|]. intros (_ & g & H & _). destruct (i - s); discriminate.
    - cbn [length seq combine filter]. destruct (IH (S s)) as [S1 S2]. cbn [snd].
      assert (K : forall i, (s < i /\ exists g0, nth_error (g :: c) (i - s) = Some g0 /\ qg_name g0 = "measure"%string)
                  <-> (S s <= i /\ exists g0, nth_error c (i - S s) = Some g0 /\ qg_name g0 = "measure"%string)).
      { intro i. split; intros (A & g0 & B & D); (split; [lia|]); exists g0; (split; [|exact D]).
        - replace (i - s) with (S (i - S s)) in B by lia. exact B.
        - replace (i - s) with (S (i - S s)) by lia. exact B. }
      destruct (String.eqb_spec (qg_name g) "measure") as [E|E]; cbn [map fst].
      + split.
        * constructor; auto. apply Forall_forall. intros i Hi. apply S2 in Hi. lia.
        * intro i. cbn [In]. rewrite S2, <- K. split.
          { intros [<-|(A & B)]; [split; [lia|]; rewrite Nat.sub_diag; exists g; auto|]. split; [lia|exact B]. }
          { intros (A & B). destruct (Nat.eq_dec s i); [auto|]. right. split; [lia|exact B]. }
      + split; auto. intro i. rewrite S2, <- K. split.
        * intros (A & B). split; [lia|exact B].
        * intros (A & g0 & B & D). destruct (Nat.eq_dec s i) as [<-|N]; [|split; [lia|eauto]].
          rewrite Nat.sub_diag in B. cbn in B. injection B as <-. tauto. }
  destruct (G c 0) as [G1 G2]. split; auto. intro i. rewrite G2, Nat.sub_0_r. split; [tauto|intro; split; [lia|auto]].
Qed.
Print Assumptions C75_measurements.
(** Barriers never change the result of a run. *)
Theorem C75_barriers_neutral :
  forall upd x L nq shots c c',
  filter (fun g => negb (String.eqb (qg_name g) "barrier")) c = filter (fun g => negb (String.eqb (qg_name g) "barrier")) c' ->
  run_experiment upd x L nq shots c = run_experiment upd x L nq shots c'.
Proof.
  intros upd x L nq shots c c' H.
  assert (F1 : forall c, fst (sanitize_instructions c)
               = filter (fun g => negb (String.eqb (qg_name g) "measure")) (filter (fun g => negb (String.eqb (qg_name g) "barrier")) c)).
  { clear. unfold sanitize_instructions, UNSUPPORTED_OPERATIONS. cbn [fst]. induction c as [|g c IH]; [reflexivity|].
    cbn [filter existsb] in *. destruct (String.eqb (qg_name g) "barrier") eqn:Eb; cbn [negb filter];
      destruct (String.eqb (qg_name g) "measure") eqn:Em; cbn [orb negb filter]; rewrite ?Em; cbn [negb]; rewrite ?IH; auto. }
  assert (F2 : forall c, existsb (fun g => String.eqb (qg_name g) "measure") c
                = existsb (fun g => String.eqb (qg_name g) "measure") (filter (fun g => negb (String.eqb (qg_name g) "barrier")) c)).
  { clear. induction c as [|g c IH]; [reflexivity|]. cbn [filter existsb].
    destruct (String.eqb_spec (qg_name g) "barrier") as [E|E]; cbn [negb existsb]; rewrite IH; auto. rewrite E. reflexivity. }
  assert (P : forall x p, package x L shots c p = package x L shots c' p).
  { intros x0 p. unfold package. destruct p as [|[pops|] p]; auto.
    pose proof (locate_filter c 0) as A. pose proof (locate_filter c' 0) as A'.
    fold (locate_measurements c) in A. fold (locate_measurements c') in A'.
    rewrite F2 in A, A'. rewrite H in A.
    destruct (existsb (fun g => String.eqb (qg_name g) "measure") (filter (fun g => negb (String.eqb (qg_name g) "barrier")) c')).
    - destruct (locate_measurements c) as [|a r]; [destruct A as [A _]; specialize (A eq_refl); discriminate|].
      destruct (locate_measurements c') as [|a' r']; [destruct A' as [A' _]; specialize (A' eq_refl); discriminate|]. reflexivity.
    - destruct A as [_ A], A' as [_ A']. rewrite A, A' by reflexivity. reflexivity. }
  unfold run_experiment. rewrite (F1 c), (F1 c'), H. destruct (Nat.ltb (length (x_dims x)) nq); auto.
  destruct (rev _) as [|u b]; auto. destruct (if String.eqb (qg_name u) "param_update" then _ else _) as [xs|]; auto.
  cbn [rbind]. destruct (key_error _) as [p|]; auto. cbn [rbind]. rewrite P. reflexivity.
Qed.
Print Assumptions C75_barriers_neutral.
(** A circuit without gates cannot be run: reading its last operation fails. *)
Theorem C75_measure_only_refuted :
  ~ (forall upd x L nq shots c, nq <= length (x_dims x) -> c <> [] ->
     Forall (fun g => qg_name g = "measure"%string) c -> is_ok (run_experiment upd x L nq shots c) = true).
Proof.
  intro H.
  pose (x := {| x_dims := [2]; x_lind := false; x_props := []; x_init := seye 2 1;
                x_tasks := {| conf_matrix := None; meas_rescale := None |} |}).
  pose (m := {| qg_name := "measure"%string; qg_qubits := [0]; qg_params := [] |}).
  assert (E : is_ok (run_experiment (fun _ x => Ok x) x 2 1 1%R [m]) = true).
  { apply H; [cbn; lia|discriminate|]. constructor; [reflexivity|constructor]. }
  discriminate E.
Qed.
Print Assumptions C75_measure_only_refuted.
(** An operation that is neither a virtual Z nor a known propagator, with valid gates
    before it, stops the run with the backend's own error. *)
Theorem C75_unknown_gate :
  forall upd x L nq shots c k ops u rest psi,
  nq <= length (x_dims x) -> Kept c k -> k = ops ++ u :: rest -> (forall g, last k u = g -> qg_name g <> "param_update"%string) ->
  run_qasm (x_dims x) (x_props x) ops (x_init x) = Ok psi ->
  qg_name u <> "VZ"%string -> dget (get_key (qg_name u) (Some (qg_qubits u))) (x_props x) = None ->
  run_experiment upd x L nq shots c = Err C3Error.
Proof.
  intros upd x L nq shots c k ops u rest psi Hq HK Hk Hlast Hrun HV Hn.
  apply kept_sanitize in HK. unfold run_experiment. rewrite HK.
  destruct (Nat.ltb_spec (length (x_dims x)) nq); [lia|].
  assert (HE : run_qasm (x_dims x) (x_props x) k (x_init x) = Err KeyError).
  { rewrite Hk. clear HK Hlast Hk. revert Hrun. generalize (x_init x) as p. induction ops as [|g ops IH]; intros p Hrun.
    - cbn [app run_qasm]. unfold lookup_gate. destruct (String.eqb_spec (qg_name u) "VZ"); [tauto|].
      unfold get_key in Hn. rewrite Hn. reflexivity.
    - cbn [app run_qasm] in *. destruct (lookup_gate (x_dims x) (x_props x) g) as [U|]; [|discriminate]. cbn [rbind] in *.
      destruct (apply U p) as [p'|]; [|discriminate]. cbn [rbind] in *. apply IH. exact Hrun. }
  destruct (rev k) as [|l b] eqn:Er.
  - exfalso. apply (f_equal (@rev _)) in Er. rewrite rev_involutive in Er. cbn [rev] in Er.
    rewrite Er in Hk. destruct ops; discriminate Hk.
  - assert (El : last k u = l).
    { rewrite <- (rev_involutive k), Er. cbn [rev]. apply last_last. }
    destruct (String.eqb_spec (qg_name l) "param_update") as [E|E]; [exfalso; eapply Hlast; eauto|].
    cbn [rbind fst snd evaluate_qasm]. rewrite HE. reflexivity.
Qed.
Print Assumptions C75_unknown_gate.
(** A parameter update at the end of the circuit acts before the circuit runs and
    stays in effect. *)
Theorem C75_param_update :
  forall upd x x' L nq shots c u g, x_dims x' = x_dims x ->
  (qg_name u = "param_update")%string -> upd u x = Ok x' -> last (fst (sanitize_instructions c)) g = g ->
  fst (sanitize_instructions c) <> [] -> qg_name g <> "param_update"%string ->
  run_experiment upd x L nq shots (c ++ [u]) = run_experiment upd x' L nq shots c.
Proof.
  intros upd x x' L nq shots c u g Hd Hu Hup Hg Hne Hgn. unfold run_experiment. rewrite Hd.
  destruct (Nat.ltb (length (x_dims x)) nq); auto.
  assert (Es : fst (sanitize_instructions (c ++ [u])) = fst (sanitize_instructions c) ++ [u]).
  { unfold sanitize_instructions. cbn [fst]. rewrite filter_app. cbn [filter]. rewrite Hu. reflexivity. }
  rewrite Es. set (s := fst (sanitize_instructions c)) in *. rewrite rev_app_distr. cbn [rev app].
  rewrite Hu, String.eqb_refl, Hup. cbn [rbind fst snd].
  destruct (rev s) as [|l b] eqn:Er.
  { exfalso. apply Hne. rewrite <- (rev_involutive s), Er. reflexivity. }
  assert (El : l = g).
  { rewrite <- Hg. rewrite <- (rev_involutive s), Er. cbn [rev]. rewrite last_last. reflexivity. }
  subst l. destruct (String.eqb_spec (qg_name g) "param_update"); [tauto|]. cbn [rbind fst snd].
  replace (rev (g :: b)) with s by (rewrite <- Er, rev_involutive; reflexivity).
  destruct (key_error _) as [p|]; auto. cbn [rbind].
  assert (Lc : locate_measurements (c ++ [u]) = [] <-> locate_measurements c = []).
  { unfold locate_measurements. rewrite !locate_filter, existsb_app. cbn [existsb]. rewrite Hu. cbn.
    rewrite orb_false_r. tauto. }
  assert (P : package x' L shots (c ++ [u]) (fst p) = package x' L shots c (fst p)).
  { unfold package. destruct (fst p) as [|[pops|] q]; auto.
    destruct (locate_measurements (c ++ [u])) as [|a r]; destruct (locate_measurements c) as [|a' r']; auto.
    - destruct Lc as [Lc _]; specialize (Lc eq_refl); discriminate.
    - destruct Lc as [_ Lc]; specialize (Lc eq_refl); discriminate. }
  rewrite P. reflexivity.
Qed.
Print Assumptions C75_param_update.
Definition demo_exp : qexp :=
  {| x_dims := [2; 2]; x_lind := false; x_props := [("rx90p[0]"%string, seye 4 4)]; x_init := seye 4 1;
     x_tasks := {| conf_matrix := None; meas_rescale := None |} |}.
Definition qg (name : string) (qubits : list nat) (params : list R) : qgate :=
  {| qg_name := name; qg_qubits := qubits; qg_params := params |}.
Definition demo_circuit : list qgate :=
  [qg "rx90p" [0] []; qg "barrier" [0; 1] []; qg "VZ" [1] [PI]; qg "measure" [0] []].
Example C74_example : x_dims demo_exp = repeat 2 2
  /\ (exists r, run_experiment (fun _ x => Ok x) demo_exp 2 2 1000 demo_circuit = Ok (r, demo_exp)
      /\ keys (r_counts r) = ["0x0"; "0x1"; "0x2"; "0x3"]%string
      /\ keys (r_state_pops r) = ["(0, 0)"; "(0, 1)"; "(1, 0)"; "(1, 1)"]%string)
  /\ (exists pops, runs_to demo_exp [qg "rx90p" [0] []; qg "VZ" [1] [PI]] pops /\ length pops = 2 ^ 2)
  /\ valid (repeat 2 3) [1; 0; 1] /\ get_state_index (repeat 2 3) [1; 0; 1] = Ok 5 /\ sum_list [1 / 4; 3 / 4]%R = 1%R.
Proof.
  split; [reflexivity|]. split; [eexists; split; [reflexivity|split; reflexivity]|]. split.
  - eexists. split; [eexists; eexists; eexists; split; reflexivity|reflexivity].
  - split; [repeat constructor; lia|]. split; [reflexivity|]. unfold sum_list. cbn. lra.
Qed.
Example C75_example :
  fst (sanitize_instructions demo_circuit) = [qg "rx90p" [0] []; qg "VZ" [1] [PI]]
  /\ locate_measurements demo_circuit = [3]
  /\ run_experiment (fun _ x => Ok x) demo_exp 2 2 1000 (demo_circuit ++ [qg "cz" [0; 1] []]) = Err C3Error
  /\ run_experiment (fun _ x => Ok x) demo_exp 2 2 1000 (demo_circuit ++ [qg "param_update" [0; 1] []])
     = run_experiment (fun _ x => Ok x) demo_exp 2 2 1000 demo_circuit.
Proof.
  split; [reflexivity|]. split; [reflexivity|]. split.
  - reflexivity.
  - eapply C75_param_update with (g := qg "VZ" [1] [PI]); try reflexivity; discriminate.
Qed.

(** ** C91: sequences in QASM format and virtual Z gates *)
(** The state after a sequence: every operation resolved on its own, applied in order. *)
Inductive Evolves (dims : list nat) (props : dict smat) : list qgate -> smat -> smat -> Prop :=
| ev_nil : forall psi, Evolves dims props [] psi psi
| ev_prop : forall g r psi U out,
    (qg_name g <> "VZ")%string -> dget (get_key (qg_name g) (Some (qg_qubits g))) props = Some U ->
    cols U = rows psi ->
    Evolves dims props r {| rows := rows U; cols := cols psi; ent := mmul (cols U) (ent U) (ent psi) |} out ->
    Evolves dims props (g :: r) psi out
| ev_vz : forall g r psi U out t ts a ps,
    (qg_name g = "VZ")%string -> qg_qubits g = t :: ts -> qg_params g = a :: ps ->
    perfect_single_q_parametric_gate "Z" t a dims = Ok U -> cols U = rows psi ->
    Evolves dims props r {| rows := rows U; cols := cols psi; ent := mmul (cols U) (ent U) (ent psi) |} out ->
    Evolves dims props (g :: r) psi out.
Theorem C91_sequences :
  forall dims lind props psi seqs outs,
  Forall2 (fun s out => Evolves dims props s psi out) seqs outs ->
  evaluate_qasm dims lind props psi seqs = Ok (map (fun out => populations (rows out) (ent out) lind) outs).
Proof.
  intros dims lind props psi seqs outs H.
  assert (G : forall s p out, Evolves dims props s p out -> run_qasm dims props s p = Ok out).
  { induction 1 as [p|g r p U out N E Ec _ IH|g r p U out t ts a ps N Et Ea E Ec _ IH]; [reflexivity| |];
      cbn [run_qasm]; unfold lookup_gate.
    - destruct (String.eqb_spec (qg_name g) "VZ"); [tauto|]. unfold get_key in E. rewrite E. cbn [rbind].
      unfold apply. rewrite Ec, Nat.eqb_refl. cbn [rbind]. rewrite <- Ec. exact IH.
    - rewrite N, String.eqb_refl. unfold get_VZ. rewrite Et, Ea, E. cbn [rbind].
      unfold apply. rewrite Ec, Nat.eqb_refl. cbn [rbind]. rewrite <- Ec. exact IH. }
  induction H as [|s out seqs outs Hs _ IH]; [reflexivity|].
  cbn [evaluate_qasm map]. rewrite (G _ _ _ Hs). cbn [rbind]. rewrite IH. reflexivity.
Qed.
Print Assumptions C91_sequences.

(** The phase generator of a virtual Z gate on a state: +1 or -1 for qubit level 0 or
    1 of the target, nothing once any subsystem is outside the qubit levels. *)
Definition z_sign (t : nat) (l : list nat) : R :=
  if forallb (fun k => Nat.ltb k 2) l then (if Nat.eqb (nth t l 0) 0 then 1%R else (-1)%R) else 0%R.

Definition zfam (t : nat) (k : nat) : mat :=
  fun i j => if Nat.ltb i 2 && Nat.ltb j 2 then (if Nat.eqb k t then pauli_z else mid) i j else RtoC 0.
Lemma pad_all_family : forall (t : nat) dims s, Forall (fun d => 2 <= d) dims ->
  pad_all (map (fun k => if Nat.eqb k t then "Z"%string else "Id"%string) (seq s (length dims))) dims
  = Ok (family (zfam t) s dims).
Proof.
  intros t dims. induction dims as [|d ds IH]; intros s H; [reflexivity|]. inversion H; subst.
  cbn [length seq map pad_all]. unfold family. cbn [length seq combine map fst snd]. fold (family (zfam t) (S s) ds).
  rewrite IH by auto. unfold zfam at 2. destruct (Nat.eqb s t); cbn [dget PAULIS String.eqb]; cbn.
  - unfold pad_wzeros. destruct (Nat.ltb_spec d 2); [lia|]. reflexivity.
  - unfold pad_wzeros. destruct (Nat.ltb_spec d 2); [lia|]. reflexivity.
Qed.
Lemma zfam_diag : forall t k i, zfam t k i i = RtoC (if Nat.ltb i 2 then (if Nat.eqb k t then (if Nat.eqb i 0%nat then 1 else -1) else 1) else 0)%R.
Proof.
  intros t k i. unfold zfam. destruct i as [|[|i]]; cbn [Nat.ltb Nat.leb andb Nat.eqb]; auto; destruct (Nat.eqb k t); auto.
  - unfold pauli_z, gl, gev. cbn. apply injective_projections; cbn; lra.
  - unfold pauli_z, gl, gev. cbn. apply injective_projections; cbn; lra.
Qed.
Lemma zfam_off : forall t k i j, i <> j -> zfam t k i j = RtoC 0.
Proof.
  intros t k i j H. unfold zfam. destruct i as [|[|i]], j as [|[|j]]; cbn [Nat.ltb Nat.leb andb]; auto; try lia; destruct (Nat.eqb k t);
    unfold pauli_z, gl, gev, mid; cbn; apply injective_projections; cbn; lra.
Qed.
Lemma z_gen_entry : forall t dims l l', t < length dims -> valid dims l -> valid dims l' ->
  ent (np_kron_n (family (zfam t) 0 dims)) (pos dims l) (pos dims l') = if list_eqb l l' then RtoC (z_sign t l) else RtoC 0.
Proof.
  intros t dims l l' Ht Hl Hl'. rewrite family_kron by auto.
  destruct (list_eqb l l') eqn:E.
  - apply list_eqb_eq in E. subst l'. unfold z_sign. destruct (forallb (fun k => Nat.ltb k 2) l) eqn:F.
    + rewrite forallb_forall in F.
      assert (G : forall m, m < length dims -> Nat.ltb (nth m l 0) 2 = true).
      { intros m Hm. apply F. apply nth_In. rewrite (valid_length _ _ Hl). exact Hm. }
      rewrite (cprod_single _ _ t); auto.
      * rewrite zfam_diag, G, Nat.eqb_refl by auto. reflexivity.
      * intros m Hm Hmt. rewrite zfam_diag, G by auto. destruct (Nat.eqb_spec m t); [tauto|]. reflexivity.
    + assert (X : exists k, In k l /\ Nat.ltb k 2 = false).
      { clear -F. induction l as [|k l IH]; [discriminate|]. cbn in F. apply andb_false_iff in F. destruct F as [F|F].
        - exists k. split; [left; auto|exact F].
        - destruct (IH F) as (k' & A & B). exists k'. split; [right; auto|exact B]. }
      destruct X as (k & Hk & Ek). apply (In_nth _ _ 0) in Hk. destruct Hk as (m & Hm & <-).
      rewrite (valid_length _ _ Hl) in Hm. apply (cprod_zero _ _ m); auto. rewrite zfam_diag, Ek. reflexivity.
  - destruct (differ_dec (length dims) l l' (fun _ => true)) as [D|(m & Hm & _ & D)].
    + exfalso. assert (l = l').
      { apply (nth_ext _ _ 0 0); [rewrite (valid_length _ _ Hl), (valid_length _ _ Hl'); reflexivity|].
        intros m Hm. apply D; auto. rewrite <- (valid_length _ _ Hl). exact Hm. }
      subst. assert (X : list_eqb l' l' = true) by (apply list_eqb_eq; reflexivity). congruence.
    + apply (cprod_zero _ _ m); auto. apply zfam_off. exact D.
Qed.
(** A virtual Z gate multiplies every basis state with the phase of a Z rotation of
    its target. *)
Theorem C91_virtual_z :
  forall dims t ts a ps, Forall (fun d => 2 <= d) dims -> t < length dims ->
  exists U, get_VZ dims (t :: ts) (a :: ps) = Ok U /\ rows U = prod_dims dims /\ cols U = prod_dims dims
   /\ forall l l' i j, get_state_index dims l = Ok i -> get_state_index dims l' = Ok j ->
      ent U i j = if list_eqb l l' then expi (- (a / 2) * z_sign t l) else RtoC 0.
Proof.
  intros dims t ts a ps Hd Ht. cbn [get_VZ]. unfold perfect_single_q_parametric_gate.
  destruct (Nat.leb_spec (length dims) t); [lia|]. unfold perfect_parametric_gate.
  rewrite (pad_all_family t dims 0 Hd). cbn [rbind]. eexists. split; [reflexivity|].
  destruct (kron_shape (family (zfam t) 0 dims)) as [R1 R2].
  destruct (family_shape (zfam t) 0 dims) as [F1 F2]. rewrite F1 in R1. rewrite F2 in R2.
  cbn [rot_exp rows cols ent]. rewrite R1, R2. split; [reflexivity|]. split; [reflexivity|].
  assert (V : forall l i, get_state_index dims l = Ok i -> valid dims l /\ i = pos dims l).
  { intros l i Hli. unfold get_state_index in Hli.
    destruct (in_dec (list_eq_dec Nat.eq_dec) l (labels dims)) as [I|I].
    - apply in_labels in I. split; auto. rewrite (index_of_nth _ _ _ (labels_nodup _) (labels_nth _ _ I)) in Hli. congruence.
    - rewrite index_of_none in Hli by auto. discriminate. }
  intros l l' i j Hi Hj. apply V in Hi, Hj. destruct Hi as [Hl ->], Hj as [Hl' ->].
  set (w := fun i => (- (a / 2) * z_sign t (nth i (labels dims) []))%R).
  assert (D : meq (prod_dims dims) (prod_dims dims) (mscale (- Ci * RtoC (a / 2))%C (ent (np_kron_n (family (zfam t) 0 dims))))
              (fun i j => if Nat.eqb i j then (Ci * RtoC (w i))%C else RtoC 0)).
  { apply meq_labels. intros k k' Hk Hk'. unfold mscale. rewrite z_gen_entry by auto.
    destruct (list_eqb k k') eqn:E.
    - apply list_eqb_eq in E. subst k'. rewrite Nat.eqb_refl. unfold w.
      rewrite (nth_error_nth _ _ [] (labels_nth _ _ Hk)). apply injective_projections; cbn; field.
    - destruct (Nat.eqb_spec (pos dims k) (pos dims k')) as [P|P]; [|ring].
      exfalso. apply pos_inj in P; auto. subst k'. assert (X : list_eqb k k = true) by (apply list_eqb_eq; reflexivity). congruence. }
  rewrite (mexp_diag (prod_dims dims) _ w D _ _ (pos_lt _ _ Hl) (pos_lt _ _ Hl')).
  destruct (list_eqb l l') eqn:E.
  - apply list_eqb_eq in E. subst l'. rewrite Nat.eqb_refl. unfold w. rewrite (nth_error_nth _ _ [] (labels_nth _ _ Hl)). reflexivity.
  - destruct (Nat.eqb_spec (pos dims l) (pos dims l')) as [P|P]; [|reflexivity].
    exfalso. apply pos_inj in P; auto. subst l'. assert (X : list_eqb l l = true) by (apply list_eqb_eq; reflexivity). congruence.
Qed.
Print Assumptions C91_virtual_z.

Lemma vz_diag : forall dims t ts a ps, Forall (fun d => 2 <= d) dims -> t < length dims ->
  exists U, get_VZ dims (t :: ts) (a :: ps) = Ok U /\ rows U = prod_dims dims /\ cols U = prod_dims dims
   /\ meq (prod_dims dims) (prod_dims dims) (ent U)
        (fun i j => if Nat.eqb i j then expi (- (a / 2) * z_sign t (nth i (labels dims) [])) else RtoC 0).
Proof.
  intros dims t ts a ps Hd Ht. destruct (C91_virtual_z dims t ts a ps Hd Ht) as (U & E & R1 & R2 & H).
  exists U. repeat split; auto. apply meq_labels. intros l l' Hl Hl'.
  assert (I : forall k, valid dims k -> get_state_index dims k = Ok (pos dims k)).
  { intros k Hk. apply index_of_nth; [apply labels_nodup|apply labels_nth; auto]. }
  rewrite (H l l' _ _ (I _ Hl) (I _ Hl')). rewrite (nth_error_nth _ _ [] (labels_nth _ _ Hl)).
  destruct (list_eqb l l') eqn:E'.
  - apply list_eqb_eq in E'. subst l'. rewrite Nat.eqb_refl. reflexivity.
  - destruct (Nat.eqb_spec (pos dims l) (pos dims l')) as [P|P]; [|reflexivity].
    exfalso. apply pos_inj in P; auto. subst l'. assert (X : list_eqb l l = true) by (apply list_eqb_eq; reflexivity). congruence.
Qed.
(** It never changes populations. *)
Theorem C91_vz_populations :
  forall dims t ts a ps psi, Forall (fun d => 2 <= d) dims -> t < length dims -> rows psi = prod_dims dims ->
  exists U out, get_VZ dims (t :: ts) (a :: ps) = Ok U /\ apply U psi = Ok out
   /\ populations (rows out) (ent out) false = populations (rows psi) (ent psi) false.
Proof.
  intros dims t ts a ps psi Hd Ht Hr. destruct (vz_diag dims t ts a ps Hd Ht) as (U & E & R1 & R2 & H).
  exists U. unfold apply. rewrite R2, Hr, Nat.eqb_refl. eexists. split; [exact E|]. split; [reflexivity|].
  cbn [rows ent]. rewrite R1. unfold populations. apply map_ext_in. intros i Hi. apply in_seq in Hi.
  unfold mmul.
  rewrite (csum_ext _ _ (fun k => if Nat.eqb k i then (expi (- (a / 2) * z_sign t (nth i (labels dims) [])) * ent psi i 0)%C else RtoC 0)).
  - rewrite (csum_single _ i); [|lia|intros k Hk Hki; rewrite (proj2 (Nat.eqb_neq k i) Hki); reflexivity].
    rewrite Nat.eqb_refl, Cmod_mult, expi_mod, Rmult_1_l. reflexivity.
  - intros k Hk. rewrite H by lia. rewrite (Nat.eqb_sym k i). destruct (Nat.eqb_spec i k) as [->|N]; [reflexivity|ring].
Qed.
Print Assumptions C91_vz_populations.
(** Angles add up, and the gate is unitary. *)
Theorem C91_vz_additive :
  forall dims t a b, Forall (fun d => 2 <= d) dims -> t < length dims ->
  exists Ua Ub Uab, get_VZ dims [t] [a] = Ok Ua /\ get_VZ dims [t] [b] = Ok Ub /\ get_VZ dims [t] [(a + b)%R] = Ok Uab
   /\ meq (prod_dims dims) (prod_dims dims) (mmul (prod_dims dims) (ent Ua) (ent Ub)) (ent Uab)
   /\ unitary (prod_dims dims) (ent Ua).
Proof.
  intros dims t a b Hd Ht.
  destruct (vz_diag dims t [] a [] Hd Ht) as (Ua & Ea & _ & _ & Ha).
  destruct (vz_diag dims t [] b [] Hd Ht) as (Ub & Eb & _ & _ & Hb).
  destruct (vz_diag dims t [] (a + b)%R [] Hd Ht) as (Uc & Ec & _ & _ & Hc).
  exists Ua, Ub, Uc. repeat (split; [assumption|]).
  assert (M : forall (f g : nat -> C) n, meq n n (mmul n (fun i j => if Nat.eqb i j then f i else RtoC 0) (fun i j => if Nat.eqb i j then g i else RtoC 0))
                 (fun i j => if Nat.eqb i j then (f i * g i)%C else RtoC 0)).
  { intros f g n i j Hi Hj. unfold mmul. rewrite (csum_single _ i); auto.
    - rewrite Nat.eqb_refl. destruct (Nat.eqb i j); [reflexivity|ring].
    - intros k Hk N. destruct (Nat.eqb_spec i k); [congruence|ring]. }
  split.
  - rewrite Ha, Hb, Hc, M. intros i j Hi Hj. destruct (Nat.eqb i j); [|reflexivity]. rewrite <- expi_add. f_equal. field.
  - assert (Aadj : meq (prod_dims dims) (prod_dims dims) (madj (ent Ua))
               (fun i j => if Nat.eqb i j then expi (- (- (a / 2) * z_sign t (nth i (labels dims) []))) else RtoC 0)).
    { rewrite Ha. intros i j Hi Hj. unfold madj. rewrite (Nat.eqb_sym j i). destruct (Nat.eqb_spec i j) as [->|N]; [apply expi_conj|].
      apply injective_projections; cbn; lra. }
    split.
    + rewrite Aadj, Ha, M. intros i j Hi Hj. unfold mid. destruct (Nat.eqb i j); [|reflexivity].
      rewrite <- expi_add, Rplus_opp_l. apply expi_0.
    + rewrite Aadj, Ha, M. intros i j Hi Hj. unfold mid. destruct (Nat.eqb i j); [|reflexivity].
      rewrite <- expi_add, Rplus_opp_r. apply expi_0.
Qed.
Print Assumptions C91_vz_additive.
(** It is not a rotation of the target alone when another subsystem leaves its qubit
    levels: the phase of the target's excited state then disappears. *)
Theorem C91_vz_local_refuted :
  ~ (forall dims t a U l l' i j, Forall (fun d => 2 <= d) dims -> t < length dims -> get_VZ dims [t] [a] = Ok U ->
     get_state_index dims l = Ok i -> get_state_index dims l' = Ok j -> nth t l 0 = nth t l' 0 ->
     ent U i i = ent U j j).
Proof.
  intro H.
  assert (Hd : Forall (fun d => 2 <= d) [2; 3]) by (repeat constructor; lia).
  destruct (C91_virtual_z [2; 3] 0 [] PI [] Hd ltac:(cbn; lia)) as (U & E & _ & _ & D).
  specialize (H [2; 3] 0 PI U [1; 0] [1; 2] 3 5 Hd ltac:(cbn; lia) E eq_refl eq_refl eq_refl).
  rewrite (D [1; 0] [1; 0] 3 3 eq_refl eq_refl), (D [1; 2] [1; 2] 5 5 eq_refl eq_refl) in H.
  cbn [list_eqb Nat.eqb andb] in H. unfold z_sign in H. cbn [forallb Nat.ltb Nat.leb andb nth Nat.eqb] in H.
  replace (- (PI / 2) * -1)%R with (PI / 2)%R in H by lra. rewrite Rmult_0_r, expi_0 in H.
  unfold expi in H. rewrite cos_PI2 in H. apply (f_equal fst) in H. cbn in H. lra.
Qed.
Print Assumptions C91_vz_local_refuted.
(** It cannot be applied to the density vector of an open system. *)
Theorem C91_vz_open_refuted :
  ~ (forall dims t a psi, Forall (fun d => 2 <= d) dims -> t < length dims ->
     rows psi = prod_dims dims * prod_dims dims ->
     is_ok (evaluate_qasm dims true [] psi [[{| qg_name := "VZ"; qg_qubits := [t]; qg_params := [a] |}]]) = true).
Proof.
  intro H. assert (Hd : Forall (fun d => 2 <= d) [2]) by (repeat constructor).
  specialize (H [2] 0 0%R (seye 4 1) Hd ltac:(cbn; lia) eq_refl). cbn [evaluate_qasm run_qasm] in H.
  unfold lookup_gate in H. cbn [qg_name qg_qubits qg_params] in H. rewrite String.eqb_refl in H.
  destruct (vz_diag [2] 0 [] 0%R [] Hd ltac:(cbn; lia)) as (U & E & _ & R2 & _). rewrite E in H. cbn [rbind] in H.
  unfold apply in H. rewrite R2 in H. discriminate H.
Qed.
Print Assumptions C91_vz_open_refuted.
Example C91_example : Forall (fun d => 2 <= d) [2; 3] /\ 1 < length [2; 3]
  /\ get_state_index [2; 3] [1; 1] = Ok 4 /\ z_sign 1 [1; 1] = (-1)%R /\ z_sign 1 [1; 0] = 1%R /\ z_sign 0 [0; 2] = 0%R
  /\ exists out, Evolves [2; 2] (x_props demo_exp) [qg "rx90p" [0] []; qg "VZ" [1] [PI]] (x_init demo_exp) out.
Proof.
  split; [repeat constructor; lia|]. split; [cbn; lia|]. repeat (split; [reflexivity|]).
  destruct (vz_diag [2; 2] 1 [] PI [] ltac:(repeat constructor) ltac:(cbn; lia)) as (U & E & R1 & R2 & _).
  eexists. eapply ev_prop; [discriminate|reflexivity|reflexivity|]. eapply ev_vz; [reflexivity|reflexivity|reflexivity|exact E|exact R2|apply ev_nil].
Qed.
