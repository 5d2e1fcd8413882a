(** Sample and hold (C87), crosstalk (C88), bandwidth limitation (C89), noise and
    offset devices (C90). *)
From Coq Require Import Reals Lra Lia.
From Coquelicot Require Import Complex.
From Verif Require Import Base QuantityModel Mat MExp RSum Dft OptModel OptProps Erf EnvModel EnvProps DevModel DevProofs DevProps.
Local Open Scope list_scope.
Local Open Scope nat_scope.
Local Notation length := List.length.

(** ** C87 Sample and hold *)
Lemma floor_nat_unique : forall x q, (INR q <= x < INR q + 1)%R -> floor_nat x = q.
Proof.
  intros x q [A B]. pose proof (pos_INR q). destruct (floor_nat_spec x) as [C D]; [lra|].
  assert (INR (floor_nat x) < INR q + 1)%R by lra. assert (INR q < INR (floor_nat x) + 1)%R by lra.
  rewrite <- S_INR in *. apply INR_lt in H0. apply INR_lt in H1. lia.
Qed.
Lemma nearest_hold : forall n k i, 0 < k -> i < k * n -> nearest n (k * n) i = i / k.
Proof.
  intros n k i Hk Hi. assert (Hn : 0 < n) by nia. unfold nearest.
  assert (F : floor_nat ((INR i + 1 / 2) * (INR n / INR (k * n)))%R = i / k).
  { apply floor_nat_unique. rewrite mult_INR. assert (Pk : (1 <= INR k)%R) by (change 1%R with (INR 1); apply le_INR; lia). assert (Pn : (0 < INR n)%R) by (apply lt_0_INR; lia).
    replace (INR n / (INR k * INR n))%R with (/ INR k)%R by (field; lra).
    pose proof (Nat.div_mod_eq i k) as E. pose proof (Nat.mod_upper_bound i k ltac:(lia)) as M.
    assert (Er : INR i = (INR k * INR (i / k) + INR (i mod k))%R) by (rewrite <- mult_INR, <- plus_INR; f_equal; exact E).
    assert (Mr : (INR (i mod k) + 1 <= INR k)%R) by (rewrite <- S_INR; apply le_INR; lia). pose proof (pos_INR (i mod k)) as M0.
    split.
    - apply Rmult_le_reg_r with (INR k); [lra|]. rewrite Rmult_assoc, Rinv_l by lra. lra.
    - apply Rmult_lt_reg_r with (INR k); [lra|]. rewrite Rmult_assoc, Rinv_l by lra. lra. }
  rewrite F. apply Nat.min_l. assert (i / k < n) by (apply Nat.div_lt_upper_bound; lia). lia.
Qed.

(** With a simulation resolution [k] times the AWG resolution, every AWG sample is
    held for [k] consecutive simulation slices, and those slices lie within the AWG
    slice of that sample. *)
Theorem C87_hold : forall res k t0 t1 n s, (0 < res)%R -> 1 <= k -> 1 <= n -> (t1 - t0 = INR n / res)%R ->
  length (iq_i s) = n -> length (iq_q s) = n ->
  exists out, digital_to_analog (INR k * res) t0 t1 s = Ok out /\
    length (iq_i out) = k * n /\ length (iq_q out) = k * n /\ length (iq_ts out) = k * n /\
    forall i, i < k * n ->
      nth i (iq_i out) 0%R = nth (i / k) (iq_i s) 0%R /\ nth i (iq_q out) 0%R = nth (i / k) (iq_q s) 0%R /\
      (t0 + INR (i / k) * (1 / res) < nth i (iq_ts out) 0 < t0 + (INR (i / k) + 1) * (1 / res))%R.
Proof.
  intros res k t0 t1 n s Hr Hk Hn Hd Li Lq.
  assert (Pk : (1 <= INR k)%R) by (change 1%R with (INR 1); apply le_INR; lia).
  destruct (C65_centres (INR k * res) t0 t1 (k * n)) as (ts & Et & Lt & N); [nra| |nia|].
  { rewrite Hd, mult_INR. field. lra. }
  unfold digital_to_analog. rewrite Et. cbn [rbind]. eexists. split; [reflexivity|]. cbn [iq_i iq_q iq_ts]. rewrite Lt.
  unfold resize. rewrite !map_length, !seq_length. split; [reflexivity|]. split; [reflexivity|]. split; [reflexivity|].
  intros i Hi. rewrite !(nth_map_d _ (seq 0 (k * n)) i 0) by (rewrite seq_length; exact Hi). rewrite seq_nth by exact Hi. cbn [Nat.add]. rewrite Li, Lq, nearest_hold by lia.
  split; [reflexivity|]. split; [reflexivity|]. rewrite (N i Hi).
  pose proof (Nat.div_mod_eq i k) as E. pose proof (Nat.mod_upper_bound i k ltac:(lia)) as M.
  assert (Er : INR i = (INR k * INR (i / k) + INR (i mod k))%R) by (rewrite <- mult_INR, <- plus_INR; f_equal; exact E).
  assert (Mr : (INR (i mod k) + 1 <= INR k)%R) by (rewrite <- S_INR; apply le_INR; lia). pose proof (pos_INR (i mod k)) as M0.
  assert (Q : ((INR i + 1 / 2) * (1 / (INR k * res)) = (INR (i / k) + (INR (i mod k) + 1 / 2) / INR k) * (1 / res))%R) by (rewrite Er; field; lra).
  rewrite Q. assert (P : (0 < 1 / res)%R) by (apply Rdiv_lt_0_compat; lra).
  assert (B : (0 < (INR (i mod k) + 1 / 2) / INR k < 1)%R).
  { split; [apply Rdiv_lt_0_compat; lra|]. apply Rmult_lt_reg_r with (INR k); [lra|]. unfold Rdiv. rewrite Rmult_assoc, Rinv_l by lra. lra. }
  split; apply Rplus_lt_compat_l, Rmult_lt_compat_r; lra.
Qed.
Print Assumptions C87_hold.
(** For any two resolutions every output sample is one of the input samples, taken
    in order. *)
Theorem C87_order : forall x new i j, x <> [] -> i <= j -> j < new ->
  exists a b, a <= b /\ b < length x /\ nth i (resize x new) 0%R = nth a x 0%R /\ nth j (resize x new) 0%R = nth b x 0%R.
Proof.
  intros x new i j Hx Hij Hj. exists (nearest (length x) new i), (nearest (length x) new j).
  assert (Lx : 0 < length x) by (destruct x; [contradiction|cbn; lia]).
  assert (Pn : (0 < INR new)%R) by (apply lt_0_INR; lia). assert (Px : (0 < INR (length x))%R) by (apply lt_0_INR; lia).
  assert (P : (0 < INR (length x) / INR new)%R) by (apply Rdiv_lt_0_compat; assumption).
  split.
  - unfold nearest. apply Nat.min_le_compat_r. apply INR_le. apply Rnot_lt_le. intro H.
    assert (Hi : (INR i <= INR j)%R) by (apply le_INR; exact Hij). pose proof (pos_INR i).
    set (u := ((INR i + 1 / 2) * (INR (length x) / INR new))%R) in *. set (v := ((INR j + 1 / 2) * (INR (length x) / INR new))%R) in *.
    assert (Huv : (u <= v)%R) by (unfold u, v; apply Rmult_le_compat_r; lra). assert (Hu : (0 <= u)%R) by (unfold u; apply Rmult_le_pos; lra).
    destruct (floor_nat_spec u Hu) as [A _]. destruct (floor_nat_spec v ltac:(lra)) as [_ B]. apply INR_lt in H.
    assert (INR (floor_nat v) + 1 <= INR (floor_nat u))%R by (rewrite <- S_INR; apply le_INR; lia). lra.
  - split; [unfold nearest; pose proof (Nat.le_min_r (floor_nat ((INR j + 1 / 2) * (INR (length x) / INR new))%R) (length x - 1)); lia|].
    unfold resize. rewrite !(nth_map_d _ (seq 0 new) _ 0) by (rewrite seq_length; lia). rewrite !seq_nth by lia. split; reflexivity.
Qed.
Print Assumptions C87_order.
Example C87_example : exists out, digital_to_analog (INR 3 * 1) 0 2 (mkIQ [5; 7]%R [1; 2]%R [1 / 2; 3 / 2]%R) = Ok out /\ iq_i out = [5; 5; 5; 7; 7; 7]%R.
Proof.
  destruct (C87_hold 1 3 0 2 2 (mkIQ [5; 7]%R [1; 2]%R [1 / 2; 3 / 2]%R)) as (out & E & L & _ & _ & N); try lia; try reflexivity; [lra|cbn; lra|].
  exists out. split; [exact E|]. apply (nth_ext _ _ 0%R 0%R); [rewrite L; reflexivity|]. intros i Hi. rewrite L in Hi. destruct (N i Hi) as (-> & _).
  cbn [iq_i]. do 6 (destruct i as [|i]; [reflexivity|]). lia.
Qed.

(** ** C88 Crosstalk *)
Lemma get_all_ok : forall chans s sigs, get_all chans s = Ok sigs -> Forall2 (fun c v => dget c s = Some v) chans sigs.
Proof.
  induction chans as [|c chans IH]; intros s sigs H; cbn in H; [injection H as <-; constructor|].
  destruct (dget c s) as [v|] eqn:E; [|discriminate]. destruct (get_all chans s) as [l|] eqn:G; [|discriminate]. cbn in H. injection H as <-.
  constructor; [exact E|apply IH, G].
Qed.
Lemma set_all_other : forall chans vs s c, ~ In c chans -> dget c (set_all chans vs s) = dget c s.
Proof.
  induction chans as [|x chans IH]; intros [|v vs] s c H; cbn; try reflexivity. rewrite IH by (intro Q; apply H; right; exact Q).
  apply dget_dset_other. intro Q. apply H. left. symmetry. exact Q.
Qed.
Lemma set_all_in : forall chans vs s i, NoDup chans -> length vs = length chans -> i < length chans ->
  dget (nth i chans EmptyString) (set_all chans vs s) = Some (nth i vs []).
Proof.
  induction chans as [|x chans IH]; intros [|v vs] s i N L H; cbn in *; try lia. inversion N; subst.
  destruct i as [|i]; [rewrite set_all_other by assumption; apply dget_dset_same|]. apply IH; [assumption|lia|lia].
Qed.
Lemma same_length_in : forall {A} n (l : list (list A)), same_length n l = true -> forall x, In x l -> length x = n.
Proof.
  intros A n l. induction l as [|y l IH]; intros H x Hx; [destruct Hx|]; destruct Hx as [->|Hx]; cbn in H; apply andb_prop in H; destruct H as [H1 H2]; [apply Nat.eqb_eq, H1|apply IH; assumption].
Qed.
Lemma row_sum : forall row sigs t, length row = length sigs ->
  fold_right Rplus 0%R (map (fun r => (fst r * nth t (snd r) 0)%R) (combine row sigs)) = rs (length sigs) (fun j => (nth j row 0 * nth t (nth j sigs []) 0)%R).
Proof.
  induction row as [|r row IH]; intros [|s sigs] t H; cbn [length] in H; try discriminate; [reflexivity|].
  cbn [combine map fold_right length]. rewrite rs_head, IH by lia. reflexivity.
Qed.
(** Every crossed channel carries, at every time, the matrix-weighted sum of all
    crossed channels before; the other channels are unchanged. *)
Theorem C88_mixing : forall matrix chans s s', NoDup chans -> crosstalk matrix chans s = Ok s' ->
  exists sigs, length sigs = length chans /\
    (forall j, j < length chans -> dget (nth j chans EmptyString) s = Some (nth j sigs [])) /\
    (forall i, i < length chans -> exists out, dget (nth i chans EmptyString) s' = Some out /\ length out = length (nth 0 sigs []) /\
       forall t, t < length out -> nth t out 0%R = rs (length chans) (fun j => (nth j (nth i matrix []) 0 * nth t (nth j sigs []) 0)%R)) /\
    (forall c, ~ In c chans -> dget c s' = dget c s).
Proof.
  intros matrix chans s s' N H. unfold crosstalk in H. destruct (get_all chans s) as [sigs|] eqn:G; [|discriminate]. cbn [rbind] in H.
  destruct (same_length (length (nth 0 sigs [])) sigs) eqn:SL; cbn [negb] in H; [|discriminate].
  destruct (Nat.eqb (length matrix) (length chans) && same_length (length chans) matrix) eqn:SM; cbn [negb] in H; [|discriminate].
  apply andb_prop in SM. destruct SM as [M1 M2]. apply Nat.eqb_eq in M1. injection H as <-.
  pose proof (get_all_ok _ _ _ G) as F. exists sigs.
  assert (L : length sigs = length chans) by (clear -F; induction F; cbn; congruence). split; [exact L|]. split; [|split].
  - clear -F. induction F as [|c v cs vs Hc F IH]; intros j Hj; [cbn in Hj; lia|]. destruct j as [|j]; [exact Hc|]. apply IH. cbn in Hj. lia.
  - intros i Hi. exists (nth i (map (fun row => row_times row sigs) matrix) []). split; [apply set_all_in; [exact N|rewrite map_length; exact M1|exact Hi]|].
    rewrite (nth_map_d _ matrix i []) by lia. unfold row_times. rewrite map_length, seq_length. split; [reflexivity|]. intros t Ht.
    rewrite (nth_map_d _ (seq 0 _) t 0) by (rewrite seq_length; exact Ht). rewrite seq_nth by exact Ht. cbn [Nat.add].
    rewrite row_sum, L; [reflexivity|]. rewrite L. apply (same_length_in _ _ M2). apply nth_In. lia.
  - intros c Hc. apply set_all_other, Hc.
Qed.
Print Assumptions C88_mixing.
(** The identity matrix changes nothing. *)
Definition identity_rows (n : nat) : list (list R) := map (fun i => map (fun j => if Nat.eqb i j then 1%R else 0%R) (seq 0 n)) (seq 0 n).
Theorem C88_identity : forall chans s s' c, NoDup chans -> crosstalk (identity_rows (length chans)) chans s = Ok s' -> dget c s' = dget c s.
Proof.
  intros chans s s' c N H. pose proof H as H0. destruct (C88_mixing _ _ _ _ N H) as (sigs & L & Sg & Mx & Ot).
  destruct (in_dec string_dec c chans) as [I|I]; [|apply Ot, I].
  destruct (In_nth chans c EmptyString I) as (i & Hi & <-). destruct (Mx i Hi) as (out & -> & Lo & Vo). rewrite (Sg i Hi). f_equal.
  assert (Li : length (nth i sigs []) = length (nth 0 sigs [])).
  { unfold crosstalk in H0. destruct (get_all chans s) as [sigs'|] eqn:G; [|discriminate]. cbn [rbind] in H0.
    destruct (same_length (length (nth 0 sigs' [])) sigs') eqn:SL; cbn [negb] in H0; [|discriminate].
    pose proof (get_all_ok _ _ _ G) as F. assert (Es : sigs = sigs').
    { clear -F Sg L. revert sigs L Sg. induction F as [|c0 v cs vs Hc F IH]; intros [|s1 sg] L Sg; cbn in L; try discriminate; [reflexivity|].
      f_equal; [pose proof (Sg 0 ltac:(cbn; lia)) as E; cbn in E; congruence|]. apply IH; [lia|]. intros j Hj. apply (Sg (S j)). cbn. lia. }
    subst sigs'. apply (same_length_in _ _ SL). apply nth_In. lia. }
  apply (nth_ext _ _ 0%R 0%R); [congruence|]. intros t Ht. rewrite (Vo t Ht). rewrite (rs_single _ i).
  - unfold identity_rows. rewrite (nth_map_d _ (seq 0 _) i 0), seq_nth by (rewrite ?seq_length; exact Hi). cbn [Nat.add].
    rewrite (nth_map_d _ (seq 0 _) i 0), seq_nth by (rewrite ?seq_length; exact Hi). cbn [Nat.add]. rewrite Nat.eqb_refl. ring.
  - exact Hi.
  - intros j Hj Q. unfold identity_rows. rewrite (nth_map_d _ (seq 0 _) i 0), seq_nth by (rewrite ?seq_length; exact Hi). cbn [Nat.add].
    rewrite (nth_map_d _ (seq 0 _) j 0), seq_nth by (rewrite ?seq_length; exact Hj). cbn [Nat.add]. destruct (Nat.eqb_spec i j); [congruence|]. ring.
Qed.
Print Assumptions C88_identity.
(** An instruction that does not drive all crossed channels cannot be generated,
    although a missing drive could count as zero. *)
Theorem C88_undriven_channel_refuted : forall matrix chans s c, In c chans -> dget c s = None -> crosstalk matrix chans s = Err KeyError.
Proof.
  intros matrix chans s c I H. unfold crosstalk. assert (E : get_all chans s = Err KeyError).
  { induction chans as [|x chans IH]; [destruct I|]. cbn. destruct I as [->|I]; [rewrite H; reflexivity|]. destruct (dget x s); [|reflexivity]. rewrite (IH I). reflexivity. }
  rewrite E. reflexivity.
Qed.
Print Assumptions C88_undriven_channel_refuted.
Example C88_example : crosstalk [[1; 2]; [3; 4]]%R ["a"; "b"]%string [("a", [1; 0]); ("z", [9]); ("b", [0; 1])]%string%R
  = Ok [("a", [1 * 1 + (2 * 0 + 0); 1 * 0 + (2 * 1 + 0)]); ("z", [9]); ("b", [3 * 1 + (4 * 0 + 0); 3 * 0 + (4 * 1 + 0)])]%string%R.
Proof. reflexivity. Qed.

(** ** C89 Bandwidth limitation *)
(** The rise function consists of positive weights with sum 1. *)
Definition weights (w : list R) : Prop := w <> [] /\ (forall x, In x w -> (0 < x)%R) /\ fold_right Rplus 0%R w = 1%R.
Lemma rise_weights : forall sgn rise res w, (sgn = 1 \/ sgn = -1)%R -> (1 < res)%R -> (1 <= rise * res)%R ->
  rise_fun sgn rise res = Ok w -> weights w /\ length w = floor_nat (rise * res).
Proof.
  intros sgn rise res w Hs Hr H1 H. assert (Pr : (0 < rise)%R) by (apply Rmult_lt_reg_r with res; lra).
  assert (Dt : (0 < 1 / res < 1)%R). { split; [apply Rdiv_lt_0_compat; lra|]. apply Rmult_lt_reg_r with res; [lra|]. unfold Rdiv. rewrite Rmult_assoc, Rinv_l by lra. lra. }
  assert (Dr : (1 / res <= rise)%R). { apply Rmult_le_reg_r with res; [lra|]. unfold Rdiv. rewrite Rmult_assoc, Rinv_l by lra. lra. }
  unfold rise_fun in H. set (n := floor_nat (rise * res)) in *.
  assert (Hn : 1 <= n). { destruct (floor_nat_spec (rise * res)) as [_ B]; [lra|]. fold n in B. destruct n; [cbn in B; lra|lia]. }
  rewrite tf_linspace_ok in H by lia. cbn [rbind] in H.
  set (cen := ((rise + sgn * (1 / res)) / 2)%R) in *. set (sigma := (rise / 4)%R) in *.
  set (off := exp (- (-1 - cen) ^ 2 / (2 * sigma * sigma))) in *.
  set (rf := map (fun t => (exp (- (t - cen) ^ 2 / (2 * sigma * sigma)) - off)%R) (linspace 0 rise n)) in *.
  assert (Pos : forall x, In x rf -> (0 < x)%R).
  { intros x Hx. unfold rf in Hx. apply in_map_iff in Hx. destruct Hx as (t & <- & Ht).
    destruct (In_nth _ _ 0%R Ht) as (i & Hi & <-). rewrite linspace_len in Hi. rewrite linspace_nth by exact Hi.
    set (t := (0 + INR i * ((rise - 0) / INR (n - 1)))%R).
    assert (Tr : (0 <= t <= rise)%R).
    { unfold t. rewrite Rminus_0_r, Rplus_0_l. destruct (Nat.eq_dec n 1) as [E1|E1]; [assert (i = 0) by lia; subst i; cbn [INR]; lra|].
      assert (Pm : (0 < INR (n - 1))%R) by (apply lt_0_INR; lia). assert (Im : (INR i <= INR (n - 1))%R) by (apply le_INR; lia). pose proof (pos_INR i).
      assert (Q : (0 <= INR i / INR (n - 1) <= 1)%R).
      { split; [apply Rmult_le_pos; [lra|left; apply Rinv_0_lt_compat; lra]|]. apply Rmult_le_reg_r with (INR (n - 1)); [lra|]. unfold Rdiv. rewrite Rmult_assoc, Rinv_l by lra. lra. }
      replace (INR i * (rise / INR (n - 1)))%R with (INR i / INR (n - 1) * rise)%R by (field; lra). nra. }
    assert (Pg : (0 < 2 * sigma * sigma)%R) by (unfold sigma; nra).
    assert (Lt : ((t - cen) ^ 2 < (-1 - cen) ^ 2)%R).
    { assert (C0 : (0 <= cen)%R) by (unfold cen; destruct Hs as [-> | ->]; lra).
      assert (U : (t - cen < 1 + cen)%R) by (unfold cen; destruct Hs as [-> | ->]; lra).
      assert (L : (- (t - cen) < 1 + cen)%R) by lra.
      replace ((-1 - cen) ^ 2)%R with ((1 + cen) * (1 + cen))%R by ring. replace ((t - cen) ^ 2)%R with ((t - cen) * (t - cen))%R by ring. nra. }
    apply Rlt_Rminus. unfold off. apply exp_increasing. apply Rmult_lt_compat_r; [apply Rinv_0_lt_compat, Pg|]. lra. }
  assert (Ne : rf <> []) by (unfold rf; intro Q; apply (f_equal (@length R)) in Q; rewrite map_length, linspace_len in Q; cbn in Q; lia).
  pose proof (sum_pos rf Ne Pos) as Sp. set (tot := fold_right Rplus 0%R rf) in *.
  assert (Ew : w = map (fun x => (x / tot)%R) rf) by congruence. subst w. split; [split; [|split]|].
  - intro Q. apply map_eq_nil in Q. contradiction.
  - intros x Hx. apply in_map_iff in Hx. destruct Hx as (y & <- & Hy). apply Rdiv_lt_0_compat; [apply Pos, Hy|exact Sp].
  - rewrite sum_div. fold tot. field. lra.
  - rewrite map_length. unfold rf. rewrite map_length, linspace_len. reflexivity.
Qed.
Lemma weighted_bound : forall w sig B n, weights w -> (forall x, In x sig -> (Rabs x <= B)%R) -> (0 <= B)%R -> (Rabs (rconv_at sig w n) <= B)%R.
Proof.
  intros w sig B n (Ne & Pos & S1) Hb HB. unfold rconv_at.
  assert (Wn : forall k, (0 <= nth k w 0)%R). { intro k. destruct (le_lt_dec (length w) k); [rewrite nth_overflow by assumption; lra|left; apply Pos, nth_In; assumption]. }
  assert (Sn : forall k, (Rabs (nth k sig 0) <= B)%R). { intro k. destruct (le_lt_dec (length sig) k); [rewrite nth_overflow by assumption; rewrite Rabs_R0; lra|apply Hb, nth_In; assumption]. }
  assert (Ab : forall m f, (Rabs (rs m f) <= rs m (fun k => Rabs (f k)))%R).
  { induction m as [|m IH]; intro f; cbn [rs]; [rewrite Rabs_R0; lra|]. eapply Rle_trans; [apply Rabs_triang|]. specialize (IH f). lra. }
  eapply Rle_trans; [apply Ab|]. eapply Rle_trans; [apply (rs_le (S n) _ (fun k => (B * nth k w 0)%R))|].
  - intros k _. rewrite Rabs_mult, (Rabs_pos_eq (nth k w 0%R)) by apply Wn. rewrite Rmult_comm. apply Rmult_le_compat_r; [apply Wn|apply Sn].
  - rewrite rs_scale. rewrite <- (Rmult_1_r B) at 2. apply Rmult_le_compat_l; [exact HB|].
    rewrite <- S1, sum_rs. destruct (le_lt_dec (length w) (S n)) as [Q|Q].
    + replace (S n) with (length w + (S n - length w)) by lia. rewrite rs_app. rewrite (rs_0 (S n - length w)); [lra|]. intros i _. apply nth_overflow. lia.
    + replace (length w) with (S n + (length w - S n)) by lia. rewrite (rs_app (S n)). pose proof (rs_nonneg (length w - S n) (fun i => nth (S n + i) w 0%R) ltac:(intros; apply Wn)). lra.
Qed.
Lemma weighted_settle : forall w c N n, weights w -> length w <= S n -> n < N -> rconv_at (repeat c N) w n = c.
Proof.
  intros w c N n (Ne & Pos & S1) L H. unfold rconv_at. rewrite (rs_ext (S n) _ (fun k => (c * nth k w 0)%R)).
  - rewrite rs_scale. replace (S n) with (length w + (S n - length w)) by lia. rewrite rs_app, (rs_0 (S n - length w)) by (intros i _; apply nth_overflow; lia).
    rewrite <- sum_rs, S1. ring.
  - intros k Hk. rewrite (nth_indep (repeat c N) 0%R c) by (rewrite repeat_length; lia). rewrite nth_repeat. ring.
Qed.
(** Both response devices are stable (the output never exceeds the largest input
    magnitude), keep the length, and settle to a constant input after the rise time:
    ResponseFFT from sample floor(rise_time * resolution) - 1 on, Response one later. *)
Theorem C89_response_fft : forall rise res s, (1 < res)%R -> (1 <= rise * res)%R ->
  exists o, response_fft rise res s = Ok o /\ iq_ts o = iq_ts s /\
    length (iq_i o) = length (iq_i s) /\ length (iq_q o) = length (iq_q s) /\
    (forall B, (0 <= B)%R -> (forall x, In x (iq_i s) -> (Rabs x <= B)%R) -> forall n, n < length (iq_i s) -> (Rabs (nth n (iq_i o) 0) <= B)%R) /\
    (forall B, (0 <= B)%R -> (forall x, In x (iq_q s) -> (Rabs x <= B)%R) -> forall n, n < length (iq_q s) -> (Rabs (nth n (iq_q o) 0) <= B)%R) /\
    (forall c N n, iq_i s = repeat c N -> floor_nat (rise * res) - 1 <= n -> n < N -> nth n (iq_i o) 0%R = c) /\
    (forall c N n, iq_q s = repeat c N -> floor_nat (rise * res) - 1 <= n -> n < N -> nth n (iq_q o) 0%R = c).
Proof.
  intros rise res s Hr H1. unfold response_fft.
  assert (E : exists w, rise_fun (-1) rise res = Ok w).
  { unfold rise_fun. assert (1 <= floor_nat (rise * res)). { destruct (floor_nat_spec (rise * res)) as [_ B]; [lra|]. destruct floor_nat; [cbn in B; lra|lia]. }
    rewrite tf_linspace_ok by lia. eexists. reflexivity. }
  destruct E as (w & E). rewrite E. cbn [rbind]. destruct (rise_weights (-1) rise res w (or_intror eq_refl) Hr H1 E) as [W L].
  eexists. split; [reflexivity|]. cbn [iq_i iq_q iq_ts]. split; [reflexivity|]. split; [apply real_convolve_len|]. split; [apply real_convolve_len|].
  split; [|split; [|split]].
  - intros B HB Hx n Hn. rewrite real_convolve_nth by exact Hn. apply weighted_bound; assumption.
  - intros B HB Hx n Hn. rewrite real_convolve_nth by exact Hn. apply weighted_bound; assumption.
  - intros c N n Hc Hn HN. rewrite Hc. rewrite real_convolve_nth by (rewrite repeat_length; exact HN). apply weighted_settle; [exact W|lia|exact HN].
  - intros c N n Hc Hn HN. rewrite Hc. rewrite real_convolve_nth by (rewrite repeat_length; exact HN). apply weighted_settle; [exact W|lia|exact HN].
Qed.
Print Assumptions C89_response_fft.
Theorem C89_response : forall rise res t0 t1 ts s, (1 < res)%R -> (1 <= rise * res)%R -> create_ts res t0 t1 true = Ok ts ->
  exists o, response rise res t0 t1 s = Ok o /\ iq_ts o = ts /\
    length (iq_i o) = length (iq_i s) /\ length (iq_q o) = length (iq_q s) /\
    (forall B, (0 <= B)%R -> (forall x, In x (iq_i s) -> (Rabs x <= B)%R) -> forall n, n < length (iq_i s) -> (Rabs (nth n (iq_i o) 0) <= B)%R) /\
    (forall c N n, iq_i s = repeat c N -> floor_nat (rise * res) <= n -> n < N -> nth n (iq_i o) 0%R = c) /\
    (iq_i s <> [] -> nth 0 (iq_i o) 0%R = 0%R).
Proof.
  intros rise res t0 t1 ts s Hr H1 Ht. unfold response.
  assert (E : exists w, rise_fun 1 rise res = Ok w).
  { unfold rise_fun. assert (1 <= floor_nat (rise * res)). { destruct (floor_nat_spec (rise * res)) as [_ B]; [lra|]. destruct floor_nat; [cbn in B; lra|lia]. }
    rewrite tf_linspace_ok by lia. eexists. reflexivity. }
  destruct E as (w & E). rewrite E. cbn [rbind]. rewrite Ht. cbn [rbind]. destruct (rise_weights 1 rise res w (or_introl eq_refl) Hr H1 E) as [W L].
  pose proof (proj1 W) as Ne. eexists. split; [reflexivity|]. cbn [iq_i iq_q iq_ts]. split; [reflexivity|].
  split; [apply real_legacy_len, Ne|]. split; [apply real_legacy_len, Ne|]. split; [|split].
  - intros B HB Hx n Hn. rewrite real_legacy_nth by assumption. destruct n; [rewrite Rabs_R0; exact HB|]. apply weighted_bound; assumption.
  - intros c N n Hc Hn HN. rewrite Hc. rewrite real_legacy_nth by (try exact Ne; rewrite repeat_length; exact HN).
    destruct n as [|n]; [destruct w; [contradiction|cbn in L; lia]|]. apply weighted_settle; [exact W|lia|lia].
  - intro Hs. assert (0 < length (iq_i s)) by (destruct (iq_i s); [contradiction|cbn; lia]). rewrite real_legacy_nth by assumption. reflexivity.
Qed.
Print Assumptions C89_response.
(** Response takes its time points from its own resolution, not from the signal: if
    the signal was sampled at another resolution, values and times do not match. *)
Theorem C89_grid_mismatch_refuted : exists o, response 1 2 0 4 (mkIQ [1; 1; 1; 1]%R [0; 0; 0; 0]%R [1 / 2; 3 / 2; 5 / 2; 7 / 2]%R) = Ok o /\
  length (iq_i o) = 4 /\ length (iq_ts o) = 8.
Proof.
  destruct (C65_centres 2 0 4 8) as (ts & E & L & _); [lra|cbn; lra|lia|].
  destruct (C89_response 1 2 0 4 ts (mkIQ [1; 1; 1; 1]%R [0; 0; 0; 0]%R [1 / 2; 3 / 2; 5 / 2; 7 / 2]%R)) as (o & Eo & Et & Li & _); [lra|lra|exact E|].
  exists o. split; [exact Eo|]. split; [exact Li|congruence].
Qed.
Print Assumptions C89_grid_mismatch_refuted.
Example C89_example : exists o, response_fft 2 2 (mkIQ (repeat 3%R 9) (repeat 0%R 9) []) = Ok o /\ nth 5 (iq_i o) 0%R = 3%R.
Proof.
  destruct (C89_response_fft 2 2 (mkIQ (repeat 3%R 9) (repeat 0%R 9) [])) as (o & E & _ & _ & _ & _ & _ & S & _); [lra|lra|].
  exists o. split; [exact E|]. apply (S 3%R 9 5); [reflexivity| |lia].
  replace (2 * 2)%R with (INR 4) by (cbn; ring). rewrite floor_nat_INR. lia.
Qed.

(** ** C90 Noise and offset devices *)
(** The noise recorded is the difference of output and input; below the threshold
    1e-17 the device is transparent. *)
Theorem C90_additive : forall amp noise s, length noise = length (v_values s) ->
  exists out nz, additive_noise amp noise s = Ok (out, nz) /\ v_ts out = v_ts s /\ length (v_values out) = length (v_values s) /\
    (forall n, n < length (v_values s) -> nth n (v_values out) 0%R = (nth n (v_values s) 0 + nth n nz 0)%R) /\
    ((amp < 1 / 10 ^ 17)%R -> v_values out = v_values s) /\
    ((1 / 10 ^ 17 <= amp)%R -> nz = noise).
Proof.
  intros amp noise s L. unfold additive_noise. set (nz := if Rltb amp (1 / 10 ^ 17) then map (fun _ => 0%R) (v_values s) else noise).
  assert (Ln : length (v_values s) = length nz) by (unfold nz; destruct Rltb; [rewrite map_length; reflexivity|symmetry; exact L]).
  rewrite ew_same by exact Ln. cbn [rbind]. do 2 eexists. split; [reflexivity|]. cbn [v_ts v_values]. split; [reflexivity|]. split; [apply ew_len, Ln|]. split; [|split].
  - intros n Hn. rewrite (ew_nth Rplus _ _ 0%R 0%R) by assumption. reflexivity.
  - intro Ha. apply (nth_ext _ _ 0%R 0%R); [apply ew_len, Ln|]. intros n Hn. rewrite ew_len in Hn by exact Ln. rewrite (ew_nth Rplus _ _ 0%R 0%R) by assumption.
    unfold nz, Rltb. destruct Rlt_dec; [|contradiction]. rewrite (nth_map_d _ (v_values s) n 0%R) by exact Hn. ring.
  - intro Ha. unfold nz, Rltb. destruct Rlt_dec; [lra|reflexivity].
Qed.
Print Assumptions C90_additive.
(** DC_Offset shifts every sample by the offset -- and, unintendedly, every time
    point as well. *)
Theorem C90_offset_times_refuted : forall off s n, n < length (v_values s) -> n < length (v_ts s) ->
  nth n (v_values (dc_offset off s)) 0%R = (nth n (v_values s) 0 + off)%R /\
  nth n (v_ts (dc_offset off s)) 0%R = (nth n (v_ts s) 0 + off)%R.
Proof. intros off s n H H'. unfold dc_offset. cbn [v_values v_ts]. rewrite !(nth_map_d _ _ n 0%R) by assumption. split; reflexivity. Qed.
Print Assumptions C90_offset_times_refuted.
Example C90_example : exists out nz, additive_noise (1 / 2) [1; -1]%R (mkV [3; 4]%R [0; 1]%R) = Ok (out, nz) /\ nz = [1; -1]%R.
Proof.
  destruct (C90_additive (1 / 2) [1; -1]%R (mkV [3; 4]%R [0; 1]%R) eq_refl) as (out & nz & E & _ & _ & _ & _ & H). exists out, nz. split; [exact E|]. apply H.
  assert (1 <= 10 ^ 17)%R by (apply pow_R1_Rle; lra). assert (2 <= 10 ^ 17)%R by (simpl; lra).
  apply Rmult_le_reg_r with (10 ^ 17)%R; [lra|]. unfold Rdiv. rewrite Rmult_1_l, Rinv_l by lra. lra.
Qed.
