From Coq Require Import Reals ZArith Lra Lia Ascii.
From Coquelicot Require Import Rcomplements.
From Verif Require Import Base QuantityModel PMapModel MiscModel QiskitModel MiscProps QiskitProps PrintModel.
Local Open Scope string_scope.
Local Open Scope list_scope.
Local Open Scope nat_scope.
Local Notation length := List.length.

(** ** C131: printed parameters *)

(** *** The text of a number *)
Lemma Rltb_spec : forall a b, Rltb a b = true <-> (a < b)%R.
Proof. intros a b. unfold Rltb. destruct (Rlt_dec a b); split; intro; auto; discriminate. Qed.
Lemma Rltb_false : forall a b, Rltb a b = false <-> (b <= a)%R.
Proof. intros a b. unfold Rltb. destruct (Rlt_dec a b); split; intro H; try discriminate; try lra; reflexivity. Qed.

Lemma round_even_near : forall x, (Rabs (x - IZR (round_even x)) <= 1 / 2)%R.
Proof.
  intro x. unfold round_even. destruct (base_Int_part x) as [B1 B2]. set (n := Int_part x) in *.
  destruct (Rltb (x - IZR n) (1 / 2)) eqn:E1.
  { apply Rltb_spec in E1. apply Rabs_le. lra. }
  apply Rltb_false in E1. destruct (Rltb (1 / 2) (x - IZR n)) eqn:E2.
  { apply Rltb_spec in E2. rewrite plus_IZR. apply Rabs_le. lra. }
  apply Rltb_false in E2. destruct (Z.even n); [apply Rabs_le; lra|]. rewrite plus_IZR. apply Rabs_le. lra.
Qed.
Lemma round_even_pos : forall x, (0 <= x)%R -> (0 <= round_even x)%Z.
Proof.
  intros x H. pose proof (round_even_near x) as N. assert (A : (IZR (round_even x) > -1)%R).
  { pose proof (Rle_abs (x - IZR (round_even x))). lra. }
  change (-1)%R with (IZR (-1)) in A. apply Rgt_lt in A. apply lt_IZR in A. lia.
Qed.

(** The number of thousandths that [fixed3] writes *)
Definition thousandths (x : R) : nat := Z.to_nat (round_even (Rabs x * 1000)).
Lemma thousandths_near : forall x, (Rabs (Rabs x * 1000 - INR (thousandths x)) <= 1 / 2)%R.
Proof.
  intro x. unfold thousandths. rewrite INR_IZR_INZ, Z2Nat.id; [apply round_even_near|].
  apply round_even_pos. pose proof (Rabs_pos x). lra.
Qed.

(** A decimal text with sign and three places stands for a number *)
Definition decimal (neg : bool) (z : nat) : string :=
  ((if neg then "-" else "") ++ str_nat (z / 1000) ++ "." ++ pad3 (z mod 1000))%string.
Definition number (neg : bool) (z : nat) : R := ((if neg then -1 else 1) * INR z / 1000)%R.

Lemma str_nat_len : forall n, (n < 10 -> exists c, str_nat n = String c "") /\ (10 <= n < 100 -> exists c d, str_nat n = String c (String d "")) /\
  (100 <= n < 1000 -> exists c d e, str_nat n = String c (String d (String e ""))).
Proof.
  intro n. assert (A : forall k, k < 1000 -> match str_nat k with
     | String c EmptyString => k < 10 | String c (String d EmptyString) => 10 <= k < 100
     | String c (String d (String e EmptyString)) => 100 <= k < 1000 | _ => False end).
  { intros k Hk. assert (F : forallb (fun k => match str_nat k with
     | String c EmptyString => k <? 10 | String c (String d EmptyString) => (10 <=? k) && (k <? 100)
     | String c (String d (String e EmptyString)) => (100 <=? k) && (k <? 1000) | _ => false end) (seq 0 1000) = true) by (vm_compute; reflexivity).
    rewrite forallb_forall in F. specialize (F k ltac:(apply in_seq; lia)). destruct (str_nat k) as [|c [|d [|e [|]]]]; try discriminate F.
    - apply Nat.ltb_lt in F. exact F.
    - apply andb_prop in F. destruct F as [F1 F2]. apply Nat.leb_le in F1. apply Nat.ltb_lt in F2. lia.
    - apply andb_prop in F. destruct F as [F1 F2]. apply Nat.leb_le in F1. apply Nat.ltb_lt in F2. lia. }
  split; [|split]; intro H; specialize (A n ltac:(lia)); destruct (str_nat n) as [|c [|d [|e [|]]]]; try lia; try contradiction; eauto.
Qed.

Lemma pad3_inj : forall a b, a < 1000 -> b < 1000 -> pad3 a = pad3 b -> a = b.
Proof.
  assert (R : forall k, k < 1000 -> exists d u v, pad3 k = String d (String u (String v "")) /\
     k = (nat_of_ascii d - 48) * 100 + (nat_of_ascii u - 48) * 10 + (nat_of_ascii v - 48)).
  { intros k Hk. assert (F : forallb (fun k => match pad3 k with
      | String d (String u (String v EmptyString)) => k =? ((nat_of_ascii d - 48) * 100 + (nat_of_ascii u - 48) * 10 + (nat_of_ascii v - 48)) | _ => false end) (seq 0 1000) = true)
      by (vm_compute; reflexivity).
    rewrite forallb_forall in F. specialize (F k ltac:(apply in_seq; lia)). destruct (pad3 k) as [|d [|u [|v [|]]]]; try discriminate F.
    apply Nat.eqb_eq in F. exists d, u, v. auto. }
  intros a b Ha Hb E. destruct (R a Ha) as (d & u & v & E1 & ->), (R b Hb) as (d' & u' & v' & E2 & ->).
  rewrite E1, E2 in E. injection E as -> -> ->. reflexivity.
Qed.

Lemma decimal_inj : forall n z n' z' x y, (decimal n z ++ String " " x)%string = (decimal n' z' ++ String " " y)%string -> n = n' /\ z = z' /\ x = y.
Proof.
  intros n z n' z' x y E. unfold decimal in E. rewrite !append_assoc in E.
  assert (N : n = n' /\ (str_nat (z / 1000) ++ "." ++ pad3 (z mod 1000) ++ String " " x)%string = (str_nat (z' / 1000) ++ "." ++ pad3 (z' mod 1000) ++ String " " y)%string).
  { destruct (str_nat_nonempty (z / 1000)) as (c & s & E1 & D1), (str_nat_nonempty (z' / 1000)) as (c' & s' & E2 & D2).
    destruct n, n'; cbn [append] in E; [injection E as E; auto| | |auto].
    - exfalso. rewrite E2 in E. cbn [append] in E. injection E as <- _. discriminate D2.
    - exfalso. rewrite E1 in E. cbn [append] in E. injection E as -> _. discriminate D1. }
  destruct N as [-> E']. cbn [append] in E'.
  destruct (digits_split _ _ "." "." _ _ (str_nat_digits _) (str_nat_digits _) eq_refl eq_refl E') as (Q & _ & E3).
  apply str_nat_inj in Q. assert (P : forall k, k < 1000 -> exists d u v, pad3 k = String d (String u (String v ""))).
  { intros k Hk. destruct (str_nat_len k) as (L1 & L2 & L3). unfold pad3. destruct (Nat.ltb_spec k 10); [destruct (L1 H) as (? & ->); cbn; eauto|].
    destruct (Nat.ltb_spec k 100); [destruct (L2 ltac:(lia)) as (? & ? & ->); cbn; eauto|]. destruct (L3 ltac:(lia)) as (? & ? & ? & ->). eauto. }
  pose proof (Nat.mod_upper_bound z 1000 ltac:(lia)) as M1. pose proof (Nat.mod_upper_bound z' 1000 ltac:(lia)) as M2.
  assert (PE : pad3 (z mod 1000) = pad3 (z' mod 1000) /\ x = y).
  { destruct (P _ M1) as (d & u & v & Q1), (P _ M2) as (d' & u' & v' & Q2). rewrite Q1, Q2 in *. cbn [append] in E3. injection E3 as -> -> -> ->. auto. }
  destruct PE as [PE ->]. apply pad3_inj in PE; [|assumption|assumption].
  split; [reflexivity|]. split; [|reflexivity]. rewrite (Nat.div_mod z 1000), (Nat.div_mod z' 1000) by lia. congruence.
Qed.

Section C131.
Variables repr general3 : R -> string.
Notation num3str := (num3str general3).
Notation q_str := (q_str repr general3).
Notation str_parameters := (str_parameters repr general3).
Notation print_parameters := (print_parameters repr general3).

(** A number between 1e-21 and 1e24 is printed with three decimals and a metric prefix that
    together give it to a relative precision of 1/2000. *)
Theorem C131_number : forall v, (powerRZ 10 (-21) <= Rabs v < powerRZ 10 24)%R ->
  exists neg z p e, num3str v true = (decimal neg z ++ " " ++ p)%string /\ prefix_exp p = Some e /\
    (Rabs (v - number neg z * powerRZ 10 e) <= Rabs v / 2000)%R /\ (1000 <= INR z <= 1000000)%R.
Proof.
  intros v H. destruct (C77_exact v H) as (e & E1 & E2 & E3). unfold PrintModel.num3str. destruct (eng_num v) as [m p] eqn:EN. cbn [fst snd] in *.
  exists (Rltb m 0), (thousandths m), p, e. split; [reflexivity|]. split; [exact E1|].
  pose proof (thousandths_near m) as T. set (z := INR (thousandths m)) in *.
  assert (P : (0 < powerRZ 10 e)%R) by (apply powerRZ_lt; lra). apply Rabs_le_between in T.
  assert (ZB : (1000 <= z <= 1000000)%R).
  { assert (A : (999 < z)%R) by lra. assert (B : (z < 1000001)%R) by lra. unfold z in *. rewrite INR_IZR_INZ in *.
    apply lt_IZR in A. apply lt_IZR in B. split; apply IZR_le; lia. }
  split; [|exact ZB].
  assert (D : (Rabs (m - number (Rltb m 0) (thousandths m)) <= 1 / 2000)%R).
  { unfold number. fold z. destruct (Rltb m 0) eqn:S.
    - apply Rltb_spec in S. rewrite (Rabs_left m S) in T. apply Rabs_le. lra.
    - apply Rltb_false in S. rewrite (Rabs_right m) in T by lra. apply Rabs_le. lra. }
  rewrite E2 at 1. replace (m * powerRZ 10 e - number (Rltb m 0) (thousandths m) * powerRZ 10 e)%R
    with ((m - number (Rltb m 0) (thousandths m)) * powerRZ 10 e)%R by ring.
  rewrite Rabs_mult, (Rabs_pos_eq (powerRZ 10 e)) by lra. rewrite E2, Rabs_mult, (Rabs_pos_eq (powerRZ 10 e)) by lra.
  apply Rle_trans with (1 / 2000 * powerRZ 10 e)%R; [apply Rmult_le_compat_r; lra|].
  apply Rle_trans with (Rabs m * powerRZ 10 e * / 2000)%R; [|unfold Rdiv; lra]. 
  assert ((1 * powerRZ 10 e <= Rabs m * powerRZ 10 e)%R) by (apply Rmult_le_compat_r; lra). lra.
Qed.
Print Assumptions C131_number.

(** Two numbers printed alike, with the same text behind them, differ by at most one part in
    a thousand. *)
Theorem C131_readable : forall v w unit, (powerRZ 10 (-21) <= Rabs v < powerRZ 10 24)%R -> (powerRZ 10 (-21) <= Rabs w < powerRZ 10 24)%R ->
  (num3str v true ++ unit)%string = (num3str w true ++ unit)%string -> (Rabs (v - w) <= (Rabs v + Rabs w) / 2000)%R.
Proof.
  intros v w unit Hv Hw E. destruct (C131_number v Hv) as (n & z & p & e & E1 & E2 & E3 & _), (C131_number w Hw) as (n' & z' & p' & e' & F1 & F2 & F3 & _).
  rewrite E1, F1, !append_assoc in E. cbn [append] in E. apply decimal_inj in E. destruct E as (-> & -> & E).
  assert (p = p') as ->.
  { clear - E. assert (L : String.length p = String.length p').
    { apply (f_equal String.length) in E. assert (A : forall a b : string, String.length (a ++ b) = String.length a + String.length b)
        by (induction a; intro b; cbn; [reflexivity|]; rewrite IHa; reflexivity). rewrite !A in E. lia. }
    revert p' L E. induction p as [|c p IH]; intros [|c' p'] L E; try discriminate L; [reflexivity|]. cbn in E. injection E as -> E. cbn in L. rewrite (IH p'); auto. }
  rewrite E2 in F2. injection F2 as <-. set (t := (number n' z' * powerRZ 10 e)%R) in *.
  replace (v - w)%R with ((v - t) - (w - t))%R by ring. pose proof (Rabs_triang (v - t) (- (w - t))) as T. rewrite Rabs_Ropp in T.
  replace (v - t - (w - t))%R with (v - t + - (w - t))%R by ring. lra.
Qed.
Print Assumptions C131_readable.

(** A quantity with a unit prints its entries in order, each in this unit *)
Theorem C131_quantity : forall q, q_unit q <> "pi"%string -> q_unit q <> "undefined"%string ->
  q_str q = String.concat "" (map (fun v => num3str v true ++ q_unit q ++ " ")%string (map (fun v => (v / q_pref q)%R) (get_value q))).
Proof.
  intros q H1 H2. unfold PrintModel.q_str. destruct (String.eqb_spec (q_unit q) "pi"); [contradiction|].
  destruct (String.eqb_spec (q_unit q) "undefined"); [contradiction|]. cbn [negb].
  change (map (fun v => (v / q_pref q)%R) (get_value q)) with (numpy q).
  assert (G : forall l a, fold_left (fun ret entry => (ret ++ num3str entry true ++ q_unit q ++ " ")%string) l a =
     (a ++ String.concat "" (map (fun v => (num3str v true ++ q_unit q ++ " ")%string) l))%string).
  { induction l as [|v l IH]; intro a; cbn [fold_left map].
    - cbn. clear. induction a; cbn; [reflexivity|]. rewrite <- IHa. reflexivity.
    - rewrite IH, append_assoc. f_equal. destruct l; cbn [map String.concat].
      + cbn. rewrite !append_assoc. reflexivity.
      + reflexivity. }
  rewrite G. reflexivity.
Qed.
Print Assumptions C131_quantity.

(** *** The list of parameters *)
Definition nl : string := String "010" "".

(** What is shown of a group: the line of its first name, then the other names one per line
    and a blank line *)
Definition shown (human : bool) (pars : dict quantity) (ids : list string) : string :=
  match ids with
  | [] => ""
  | key :: equiv =>
      let value := match dget key pars with
                   | Some q => if human && (4 <? length (q_value q)) then ("<" ++ str_nat (length (q_value q)) ++ " values>")%string else q_str q
                   | None => ""
                   end in
      (pad38 key ++ ": " ++ value ++ nl ++
       match equiv with [] => "" | _ => String.concat "" (map (fun k => k ++ nl)%string equiv) ++ nl end)%string
  end.

Lemma concat_cons : forall a l, String.concat "" (a :: l) = (a ++ String.concat "" l)%string.
Proof. intros a [|b l]; cbn; [|reflexivity]. induction a; cbn; [reflexivity|]. rewrite <- IHa. reflexivity. Qed.
Lemma concat_app : forall a b, String.concat "" (a ++ b)%list = (String.concat "" a ++ String.concat "" b)%string.
Proof. induction a as [|x a IH]; intro b; [reflexivity|]. cbn [app]. rewrite !concat_cons, IH, append_assoc. reflexivity. Qed.

(** The text is what is shown of the groups, one after the other; it exists exactly when no
    group is empty and the first name of each is registered. *)
Theorem C131_list : forall pm om human,
  str_parameters pm om human =
    match find (fun ids => match ids with [] => true | k :: _ => negb (dmem k (pm_pars pm)) end) (get_opt_map pm om) with
    | Some [] => Err IndexError
    | Some _ => Err KeyError
    | None => Ok (String.concat "" (map (shown human (pm_pars pm)) (get_opt_map pm om)))
    end.
Proof.
  intros pm om human. unfold PrintModel.str_parameters. generalize (get_opt_map pm om) as m.
  induction m as [|[|key equiv] m IH]; [reflexivity|reflexivity|]. cbn [str_groups find]. unfold dmem.
  destruct (dget key (pm_pars pm)) as [q|] eqn:D; cbn [negb]; [|reflexivity].
  destruct (str_groups repr general3 human (pm_pars pm) m) as [rest|er] eqn:S; cbn [rbind] in IH |- *.
  - destruct (find _ m) as [[|? ?]|]; [discriminate IH|discriminate IH|]. injection IH as IH. cbn [map]. rewrite concat_app, !concat_cons, IH. f_equal. f_equal. unfold shown, par_line. rewrite D. fold nl.
    assert (T : String.concat "" (match equiv with [] => [] | _ => flat_map (fun eid => [eid; nl]) equiv ++ [nl] end)%list =
       (match equiv with [] => "" | _ => (String.concat "" (map (fun k => (k ++ nl)%string) equiv) ++ nl)%string end)).
    { destruct equiv as [|a equiv]; [reflexivity|]. generalize (a :: equiv). intro l. rewrite concat_app. f_equal. clear.
      induction l as [|k l IH]; [reflexivity|]. cbn [flat_map map app]. rewrite !concat_cons, IH, append_assoc. reflexivity. }
    rewrite T. destruct (human && (4 <? length (q_value q))); rewrite ?append_assoc; reflexivity.
  - destruct (find _ m) as [[|? ?]|]; [exact IH|exact IH|discriminate IH].
Qed.
Print Assumptions C131_list.

(** print_parameters shows the same groups, whether names are given as tuples or strings *)
Theorem C131_print : forall pm om, print_parameters pm om = str_parameters pm om true.
Proof.
  intros pm om. unfold PrintModel.print_parameters, PrintModel.str_parameters. f_equal. f_equal.
  cbn [get_opt_map]. unfold norm_map. rewrite map_map. rewrite <- (map_id (get_opt_map pm om)) at 2. apply map_ext. intro ids.
  rewrite map_map. rewrite <- (map_id ids) at 2. apply map_ext. reflexivity.
Qed.
Print Assumptions C131_print.

(** Finding: the values of the other members of a group are not shown, so the text does not
    tell whether they have the value printed. *)
Theorem C131_equivalents_refuted : forall pm om human k q,
  (forall ids, In ids (get_opt_map pm om) -> exists k0 r, ids = k0 :: r /\ k0 <> k) ->
  str_parameters (with_pars pm (dset k q (pm_pars pm))) om human = str_parameters pm om human.
Proof.
  intros pm om human k q H. rewrite !C131_list.
  assert (G : get_opt_map (with_pars pm (dset k q (pm_pars pm))) om = get_opt_map pm om) by (destruct om; reflexivity). rewrite G.
  change (pm_pars (with_pars pm (dset k q (pm_pars pm)))) with (dset k q (pm_pars pm)).
  revert H. generalize (get_opt_map pm om) as m. intros m H.
  assert (F : find (fun ids => match ids with [] => true | k0 :: _ => negb (dmem k0 (dset k q (pm_pars pm))) end) m =
              find (fun ids => match ids with [] => true | k0 :: _ => negb (dmem k0 (pm_pars pm)) end) m).
  { induction m as [|ids m IH]; [reflexivity|]. cbn [find]. destruct (H ids (or_introl eq_refl)) as (k0 & r & -> & N).
    assert (Dk : dmem k0 (dset k q (pm_pars pm)) = dmem k0 (pm_pars pm)) by (unfold dmem; rewrite dget_dset_other by exact N; reflexivity).
    rewrite Dk, IH by (intros; apply H; right; assumption). reflexivity. }
  rewrite F. clear F. destruct (find _ m) as [[|? ?]|]; try reflexivity. f_equal. f_equal. apply map_ext_in. intros ids I.
  destruct (H ids I) as (k0 & r & -> & N). cbn [shown]. rewrite dget_dset_other by exact N. reflexivity.
Qed.
Print Assumptions C131_equivalents_refuted.

(** Finding: of a parameter with more than four values print_parameters shows none. *)
Theorem C131_hidden_refuted : forall pm k q q', pm_opt_map pm = [[k]] -> dget k (pm_pars pm) = Some q ->
  length (q_value q) = length (q_value q') -> 4 < length (q_value q) ->
  print_parameters (with_pars pm (dset k q' (pm_pars pm))) None = print_parameters pm None.
Proof.
  intros pm k q q' Hm Hd HL H4. rewrite !C131_print, !C131_list. cbn [get_opt_map].
  change (pm_opt_map (with_pars pm (dset k q' (pm_pars pm)))) with (pm_opt_map pm). rewrite Hm.
  change (pm_pars (with_pars pm (dset k q' (pm_pars pm)))) with (dset k q' (pm_pars pm)).
  cbn [find]. unfold dmem. rewrite dget_dset_same, Hd. cbn [negb map shown]. rewrite dget_dset_same, Hd, <- HL.
  apply Nat.ltb_lt in H4. rewrite H4. reflexivity.
Qed.

(** Finding: very small and very large negative numbers are printed without their sign. *)
Theorem C131_sign_refuted : forall v, (v < 0)%R -> (- v < powerRZ 10 (-21) \/ powerRZ 10 24 <= - v)%R ->
  num3str v true = num3str (- v) true.
Proof. intros v H H'. unfold PrintModel.num3str. rewrite (proj1 (C77_sign_refuted v H H')). reflexivity. Qed.
End C131.

(** A frequency of 5.1234 GHz in a group with a second name, printed *)
Example C131_example : forall repr general3,
  let q := {| q_pref := 1; q_offset := 0; q_scale := 2; q_value := [-1]; q_unit := "V"; q_symbol := "" |}%R in
  let pm := {| pm_pars := [("q1-freq", q); ("q2-freq", q)]; pm_model_ids := []; pm_opt_map := [["q1-freq"; "q2-freq"]];
               pm_update := false; pm_has_model := false; pm_refreshes := 0 |}%string in
  str_parameters repr general3 pm None false =
    Ok ("q1-freq                               : 0.000 V " ++ String "010" ("q2-freq" ++ String "010" (String "010" "")))%string.
Proof.
  intros repr general3 q pm. rewrite C131_list.
  assert (E : num3str general3 0 true = "0.000 "%string).
  { unfold num3str, eng_num. destruct (Req_EM_T 0 0); [|congruence]. unfold fixed3.
    replace (round_even (Rabs 0 * 1000)) with 0%Z.
    - unfold Rltb. destruct (Rlt_dec 0 0); [lra|]. reflexivity.
    - pose proof (round_even_near (Rabs 0 * 1000)) as N. rewrite Rabs_R0 in *. apply Rabs_le_between in N.
      assert (A : (-1 < IZR (round_even (0 * 1000)) < 1)%R) by lra. destruct A as [A B]. apply lt_IZR in A. apply lt_IZR in B. lia. }
  assert (Q : q_str repr general3 q = "0.000 V "%string).
  { rewrite C131_quantity by discriminate. unfold q. cbn [q_unit q_pref q_value q_scale q_offset get_value map].
    replace ((2 * (-1 + 1) / 2 + 0) / 1)%R with 0%R by field. rewrite E. reflexivity. }
  cbn [pm_pars get_opt_map pm_opt_map pm find dmem dget map shown andb]. 
  unfold dmem. cbn [dget String.eqb Ascii.eqb Bool.eqb negb]. rewrite Q. reflexivity.
Qed.
