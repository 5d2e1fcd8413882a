(** Property C138: subsystems without a coupling evolve independently. *)
From Coq Require Import Reals Lra Lia.
From Coquelicot Require Import Complex.
From Verif Require Import Base Mat MExp MExp2 RSum HilbertModel HilbertProofs PropModel FoldModel FoldProps ExpModel ExpProps.
Local Open Scope list_scope.
Local Open Scope nat_scope.
Local Notation length := List.length.

(** [h] is the operator [A] of subsystem [k] of two, acting on both: what
    [hilbert_space_kron] makes of it. *)
Definition acts_on (da db k : nat) (A h : mat) : Prop :=
  exists s, hilbert_space_kron A k [da; db] = Ok s /\ meq (da * db) (da * db) h (ent s).

(** [m] is the model of [a] and [b] together, with no coupling between them: the drift
    is the sum of both drifts and every line drives one of them.  The name of a line
    tells which; the lines of [a] are those found in its controls. *)
Definition uncoupled (a b m : pmodel) : Prop :=
  p_dim m = p_dim a * p_dim b /\ p_lind a = false /\ p_lind b = false /\ p_lind m = false
  /\ (exists ha hb, acts_on (p_dim a) (p_dim b) 0 (p_h0 a) ha /\ acts_on (p_dim a) (p_dim b) 1 (p_h0 b) hb
        /\ meq (p_dim m) (p_dim m) (p_h0 m) (madd ha hb))
  /\ (forall k h, dget k (p_hctrls a) = Some h ->
        exists h', dget k (p_hctrls m) = Some h' /\ acts_on (p_dim a) (p_dim b) 0 h h')
  /\ (forall k h, dget k (p_hctrls a) = None -> dget k (p_hctrls b) = Some h ->
        exists h', dget k (p_hctrls m) = Some h' /\ acts_on (p_dim a) (p_dim b) 1 h h').
Definition of_a (a : pmodel) (signal : dict wave) : dict wave :=
  filter (fun kv => dmem (fst kv) (p_hctrls a)) signal.
Definition not_of_a (a : pmodel) (signal : dict wave) : dict wave :=
  filter (fun kv => negb (dmem (fst kv) (p_hctrls a))) signal.
(** All lines are sampled at the same times. *)
Definition common_grid (signal : dict wave) (n : nat) (ts : list R) : Prop :=
  forall k w, In (k, w) signal -> length (w_values w) = n /\ w_ts w = ts.

Lemma acts_kron_0 : forall da db A h, acts_on da db 0 A h -> meq (da * db) (da * db) h (kron db db A mid).
Proof.
  intros da db A h (s & E & M). cbn in E. injection E as <-. intros i j Hi Hj. rewrite (M i j Hi Hj).
  unfold np_kron_n. cbn. unfold kron.
  assert (F : forall x, x < da * db -> x / db / da = 0 /\ (x / db) mod da = x / db).
  { intros x Hx. assert (x / db < da) by (apply Nat.div_lt_upper_bound; nia). split; [apply Nat.div_small|apply Nat.mod_small]; auto. }
  destruct (F i Hi) as [-> ->], (F j Hj) as [-> ->]. unfold mid at 1. cbn [Nat.eqb]. ring.
Qed.
Lemma acts_kron_1 : forall da db A h, acts_on da db 1 A h -> meq (da * db) (da * db) h (kron db db mid A).
Proof.
  intros da db A h (s & E & M). cbn in E. injection E as <-. intros i j Hi Hj. rewrite (M i j Hi Hj).
  unfold np_kron_n. cbn. unfold kron.
  assert (F : forall x, x < da * db -> x / db / da = 0 /\ (x / db) mod da = x / db).
  { intros x Hx. assert (x / db < da) by (apply Nat.div_lt_upper_bound; nia). split; [apply Nat.div_small|apply Nat.mod_small]; auto. }
  destruct (F i Hi) as [-> ->], (F j Hj) as [-> ->]. unfold mid at 1. cbn [Nat.eqb]. ring.
Qed.

(** exp(A (x) 1 + 1 (x) B) = exp(A) (x) exp(B) *)
Lemma mexp_kron_sum : forall da db A B,
  meq (da * db) (da * db) (mexp (da * db) (madd (kron db db A mid) (kron db db mid B))) (kron db db (mexp da A) (mexp db B)).
Proof.
  intros da db A B. rewrite mexp_commute.
  - rewrite mexp_kron_l, mexp_kron_r, kron_mmul. apply kron_mor; [apply mmul_id_r|apply mmul_id_l].
  - rewrite !kron_mmul. apply kron_mor; rewrite mmul_id_l, mmul_id_r; reflexivity.
Qed.

Lemma to_nil : forall M (mul : M -> M -> M) us p, TimeOrdered mul us p -> us <> [].
Proof. intros M mul us p H. destruct H; [discriminate|]. destruct us; discriminate. Qed.
Lemma to_one_inv : forall M (mul : M -> M -> M) u p, TimeOrdered mul [u] p -> p = u.
Proof.
  intros M mul u p H. inversion H as [|us x q Q E]; [reflexivity|]. exfalso. apply (to_nil _ _ _ _ Q).
  destruct us as [|y [|z us]]; [reflexivity|discriminate|discriminate].
Qed.
Lemma to_snoc_inv : forall M (mul : M -> M -> M) us u p, us <> [] -> TimeOrdered mul (us ++ [u]) p ->
  exists q, TimeOrdered mul us q /\ p = mul u q.
Proof.
  intros M mul us u p N H. inversion H as [x E|us' x q Q E]; subst.
  - destruct us as [|y [|z us]]; [congruence|discriminate|discriminate].
  - apply app_inj_tail in E. destruct E as [-> ->]. exists q. auto.
Qed.
(** Products of Kronecker products. *)
Lemma ordered_kron : forall da db N us U, N = da * db -> TimeOrdered (mmul N) us U ->
  forall uas ubs Ua Ub, length uas = length us -> length ubs = length us ->
  TimeOrdered (mmul da) uas Ua -> TimeOrdered (mmul db) ubs Ub ->
  (forall t u x y, nth_error us t = Some u -> nth_error uas t = Some x -> nth_error ubs t = Some y ->
     meq N N u (kron db db x y)) ->
  meq N N U (kron db db Ua Ub).
Proof.
  intros da db N us U EN H. induction H as [u|us u p P IH]; intros uas ubs Ua Ub La Lb Ta Tb E.
  - destruct uas as [|x [|? ?]]; try discriminate La. destruct ubs as [|y [|? ?]]; try discriminate Lb.
    rewrite (to_one_inv _ _ _ _ Ta), (to_one_inv _ _ _ _ Tb). apply (E 0); reflexivity.
  - rewrite app_length in La, Lb. cbn [length] in La, Lb.
    destruct (rev uas) as [|x ra] eqn:Ra. { apply (f_equal (@rev mat)) in Ra. rewrite rev_involutive in Ra. subst. cbn in La. lia. }
    destruct (rev ubs) as [|y rb] eqn:Rb. { apply (f_equal (@rev mat)) in Rb. rewrite rev_involutive in Rb. subst. cbn in Lb. lia. }
    apply (f_equal (@rev mat)) in Ra, Rb. rewrite rev_involutive in Ra, Rb. cbn [rev] in Ra, Rb.
    set (va := rev ra) in *. set (vb := rev rb) in *. clearbody va vb. subst uas ubs.
    rewrite app_length in La, Lb. cbn [length] in La, Lb.
    assert (Na : va <> []) by (intros ->; apply (to_nil _ _ _ _ P); destruct us; [reflexivity|cbn in La; lia]).
    assert (Nb : vb <> []) by (intros ->; apply (to_nil _ _ _ _ P); destruct us; [reflexivity|cbn in Lb; lia]).
    destruct (to_snoc_inv _ _ _ _ _ Na Ta) as (qa & Qa & ->). destruct (to_snoc_inv _ _ _ _ _ Nb Tb) as (qb & Qb & ->).
    assert (X : meq N N p (kron db db qa qb)).
    { apply (IH va vb); auto; try lia. intros t w w1 w2 H1 H2 H3. apply (E t); (rewrite nth_error_app1; [auto|]); apply nth_error_Some; congruence. }
    assert (Y : meq N N u (kron db db x y)).
    { apply (E (length us)); rewrite nth_error_app2 by lia; [|replace (length us - length va) with 0 by lia|replace (length us - length vb) with 0 by lia];
        [rewrite Nat.sub_diag| |]; reflexivity. }
    rewrite X, Y, EN, kron_mmul. reflexivity.
Qed.

(** The Hamiltonian of a slice is the sum of both. *)
Lemma driven_sum : forall a b m signal t, uncoupled a b m ->
  (forall k w, In (k, w) (not_of_a a signal) -> exists h, dget k (p_hctrls b) = Some h) ->
  meq (p_dim m) (p_dim m) (driven_hamiltonian m signal t)
    (madd (kron (p_dim b) (p_dim b) (driven_hamiltonian a (of_a a signal) t) mid)
          (kron (p_dim b) (p_dim b) mid (driven_hamiltonian b (not_of_a a signal) t))).
Proof.
  intros a b m signal t (Ed & _ & _ & _ & (ha & hb & Ha & Hb & H0) & Ca & Cb) K.
  apply acts_kron_0 in Ha. apply acts_kron_1 in Hb. rewrite <- Ed in Ha, Hb.
  set (N := p_dim m) in *. set (db := p_dim b) in *. set (da := p_dim a) in *.
  unfold driven_hamiltonian.
  match goal with |- meq _ _ (madd _ ?S) (madd (kron _ _ (madd _ ?A) _) (kron _ _ _ (madd _ ?B))) =>
    assert (G : meq N N S (madd (kron db db A mid) (kron db db mid B))) end.
  { clear H0 Ha Hb. induction signal as [|[k w] signal IH].
    - cbn. intros i j _ _. unfold madd, kron, mzero. ring.
    - assert (K' : forall k w, In (k, w) (not_of_a a signal) -> exists h, dget k (p_hctrls b) = Some h).
      { intros k' w' I. apply (K k' w'). unfold not_of_a in *. cbn [filter fst]. destruct (negb _); [right|]; auto. }
      specialize (IH K'). unfold of_a, not_of_a in *. cbn [filter fst fold_right snd].
      destruct (dget k (p_hctrls a)) as [h|] eqn:Ea.
      + assert (D : dmem k (p_hctrls a) = true) by (unfold dmem; rewrite Ea; reflexivity).
        rewrite D. cbn [negb fold_right fst snd].
        destruct (Ca k h Ea) as (h' & -> & A1). apply acts_kron_0 in A1. fold da db in A1. rewrite <- Ed in A1.
        rewrite Ea, A1, IH. intros i j _ _. unfold madd, kron, mscale. ring.
      + assert (D : dmem k (p_hctrls a) = false) by (unfold dmem; rewrite Ea; reflexivity).
        rewrite D. cbn [negb fold_right fst snd].
        assert (I : exists h, dget k (p_hctrls b) = Some h).
        { apply (K k w). cbn [filter fst]. rewrite D. left. reflexivity. }
        destruct I as (h & Eb). destruct (Cb k h Ea Eb) as (h' & -> & A1). apply acts_kron_1 in A1. fold da db in A1. rewrite <- Ed in A1.
        rewrite Eb, A1, IH. intros i j _ _. unfold madd, kron, mscale. ring. }
  rewrite H0, Ha, Hb, G. intros i j _ _. unfold madd, kron. ring.
Qed.

Lemma slice_kron : forall da db N A B H c, N = da * db -> meq N N H (madd (kron db db A mid) (kron db db mid B)) ->
  meq N N (mexp N (mscale c H)) (kron db db (mexp da (mscale c A)) (mexp db (mscale c B))).
Proof.
  intros da db N A B H c -> E. rewrite <- mexp_kron_sum. apply mexp_proper. rewrite E. intros i j _ _. unfold mscale, madd, kron. ring.
Qed.

Lemma grid_samples : forall s n ts, common_grid s n ts -> s <> [] -> samples s = n.
Proof. intros [|[k w] s] n ts G N; [congruence|]. apply (G k w). left; reflexivity. Qed.
Lemma grid_step : forall s n ts dt, common_grid s n ts -> is_step s dt -> dt = (nth 1 ts 0 - nth 0 ts 0)%R.
Proof.
  intros s n ts dt G ([k w] & r & t0 & t1 & l & -> & E & ->). destruct (G k w) as [_ <-]. { apply in_or_app. right. left. reflexivity. }
  cbn [snd] in E. rewrite E. reflexivity.
Qed.
Lemma grid_filter : forall s n ts f, common_grid s n ts -> common_grid (filter f s) n ts.
Proof. intros s n ts f G k w I. apply filter_In in I. apply (G k w), I. Qed.
Lemma step_nonempty : forall s dt, is_step s dt -> s <> [].
Proof. intros s dt ([k w] & r & t0 & t1 & l & -> & _) E. destruct r; discriminate. Qed.

(** The propagator of both together is the Kronecker product of the propagators
    that each has alone, driven by its own lines. *)
Theorem C138_independent : forall a b m signal n ts batch batch_a batch_b r ra rb,
  uncoupled a b m -> common_grid signal n ts -> 0 < n ->
  pwc_controlled a (of_a a signal) (folding_stack n) batch_a = Ok ra ->
  pwc_controlled b (not_of_a a signal) (folding_stack n) batch_b = Ok rb ->
  pwc_controlled m signal (folding_stack n) batch = Ok r ->
  meq (p_dim m) (p_dim m) (pr_U r) (kron (p_dim b) (p_dim b) (pr_U ra) (pr_U rb)).
Proof.
  intros a b m signal n ts batch batch_a batch_b r ra rb Un G Hn Ra Rb R.
  pose proof Un as (Ed & La & Lb & Lm & _).
  destruct (controlled_split _ _ _ _ _ R) as (dt & St & _). destruct (controlled_split _ _ _ _ _ Ra) as (dta & Sta & _).
  destruct (controlled_split _ _ _ _ _ Rb) as (dtb & Stb & _).
  pose proof (grid_filter signal n ts (fun kv => dmem (fst kv) (p_hctrls a)) G) as Ga.
  pose proof (grid_filter signal n ts (fun kv => negb (dmem (fst kv) (p_hctrls a))) G) as Gb.
  fold (of_a a signal) in Ga. fold (not_of_a a signal) in Gb.
  pose proof (grid_samples _ _ _ G (step_nonempty _ _ St)) as S0.
  pose proof (grid_samples _ _ _ Ga (step_nonempty _ _ Sta)) as Sa.
  pose proof (grid_samples _ _ _ Gb (step_nonempty _ _ Stb)) as Sb.
  clear St Sta Stb dt dta dtb.
  assert (K : forall k w, In (k, w) (not_of_a a signal) -> exists h, dget k (p_hctrls b) = Some h).
  { intros k w I. unfold pwc_controlled in Rb. destruct (negb _); [discriminate|].
    destruct (lookup_controls (p_hctrls b) (keys (not_of_a a signal))) as [hks|] eqn:El; [|discriminate].
    apply controls_found in El. clear - El I. induction El as [|kv h s hs E _ IH]; [destruct I|].
    destruct I as [->|I]; [exists h; exact E|exact (IH I)]. }
  rewrite <- S0 in R at 1. rewrite <- Sa in Ra at 1. rewrite <- Sb in Rb at 1.
  destruct (C82_time_slices m signal batch r Lm ltac:(lia) R) as (T & dt & St & L & E).
  destruct (C82_time_slices a (of_a a signal) batch_a ra La ltac:(lia) Ra) as (Ta & dta & Sta & L_a & E_a).
  destruct (C82_time_slices b (not_of_a a signal) batch_b rb Lb ltac:(lia) Rb) as (Tb & dtb & Stb & L_b & E_b).
  apply (grid_step _ _ _ _ G) in St. apply (grid_step _ _ _ _ Ga) in Sta. apply (grid_step _ _ _ _ Gb) in Stb.
  rewrite <- St in Sta, Stb. subst dta dtb. rewrite S0 in L, E. rewrite Sa in L_a, E_a. rewrite Sb in L_b, E_b.
  apply (ordered_kron (p_dim a) (p_dim b) (p_dim m) (pr_dUs r) (pr_U r) Ed T (pr_dUs ra) (pr_dUs rb)); try lia; auto.
  intros t u x y H1 H2 H3. assert (Lt : t < n) by (rewrite <- L; apply nth_error_Some; congruence).
  rewrite (E t Lt) in H1. rewrite (E_a t Lt) in H2. rewrite (E_b t Lt) in H3. injection H1 as <-. injection H2 as <-. injection H3 as <-.
  apply slice_kron; [exact Ed|]. apply driven_sum; auto.
Qed.
Print Assumptions C138_independent.

(** Exponentials of n equal slices. *)
Lemma ordered_repeat : forall d H dt n U, TimeOrdered (mmul d) (repeat (mexp d (mscale (- Ci * RtoC dt)%C H)) (S n)) U ->
  meq d d U (mexp d (mscale (- Ci * RtoC (INR (S n) * dt))%C H)).
Proof.
  intros d H dt. induction n as [|n IH]; intros U T.
  - cbn [repeat] in T. rewrite (to_one_inv _ _ _ _ T). replace (INR 1 * dt)%R with dt by (cbn; ring). reflexivity.
  - assert (R : forall (x : mat) k, repeat x (S k) = repeat x k ++ [x]).
    { intros x k. induction k; [reflexivity|]. cbn [repeat] in *. rewrite IHk at 1. reflexivity. }
    rewrite R in T. set (x := mexp d (mscale (- Ci * RtoC dt)%C H)) in *.
    assert (Ne : repeat x (S n) <> []) by discriminate.
    destruct (to_snoc_inv _ _ _ _ _ Ne T) as (q & Q & ->). unfold x in *.
    rewrite (IH q Q).
    assert (F : forall s, meq d d (mscale (- Ci * RtoC s)%C H) (mscale (RtoC s) (mscale (- Ci)%C H))).
    { intros s i j _ _. unfold mscale. ring. }
    rewrite (mexp_proper d _ _ (F dt)), (mexp_proper d _ _ (F (INR (S n) * dt)%R)), (mexp_proper d _ _ (F (INR (S (S n)) * dt)%R)).
    rewrite mexp_add. replace (dt + INR (S n) * dt)%R with (INR (S (S n)) * dt)%R by (rewrite (S_INR (S n)); ring). reflexivity.
Qed.
Lemma ordered_exists : forall M (mul : M -> M -> M) (u : M) n, exists U, TimeOrdered mul (repeat u (S n)) U.
Proof.
  intros M mul u. induction n as [|n (U & IH)]; [exists u; constructor|]. exists (mul u U).
  assert (R : forall (x : M) k, repeat x (S k) = repeat x k ++ [x]).
  { intros x k. induction k; [reflexivity|]. cbn [repeat] in *. rewrite IHk at 1. reflexivity. }
  rewrite R. constructor. exact IH.
Qed.

(** A subsystem that no line drives evolves with its drift alone, whatever is done to
    the other. *)
Theorem C138_idle : forall a b m signal n ts batch batch_a r ra,
  uncoupled a b m -> common_grid signal n ts -> 0 < n ->
  (forall k w, In (k, w) signal -> exists h, dget k (p_hctrls a) = Some h) ->
  pwc_controlled a signal (folding_stack n) batch_a = Ok ra ->
  pwc_controlled m signal (folding_stack n) batch = Ok r ->
  meq (p_dim m) (p_dim m) (pr_U r)
    (kron (p_dim b) (p_dim b) (pr_U ra)
      (mexp (p_dim b) (mscale (- Ci * RtoC (INR n * (nth 1 ts 0%R - nth 0 ts 0%R)))%C (p_h0 b)))).
Proof.
  intros a b m signal n ts batch batch_a r ra Un G Hn All Ra R.
  pose proof Un as (Ed & La & Lb & Lm & _).
  destruct (controlled_split _ _ _ _ _ R) as (dt & St & _).
  pose proof (grid_samples _ _ _ G (step_nonempty _ _ St)) as S0. clear St dt.
  assert (Fa : of_a a signal = signal /\ not_of_a a signal = []).
  { clear - All. unfold of_a, not_of_a. induction signal as [|[k w] s IH]; [split; reflexivity|]. cbn [filter fst].
    destruct (All k w (or_introl eq_refl)) as (h & E). assert (D : dmem k (p_hctrls a) = true) by (unfold dmem; rewrite E; reflexivity). rewrite D. cbn [negb].
    destruct IH as [I1 I2]. { intros k' w' I. apply (All k' w'). right. exact I. } rewrite I1, I2. split; reflexivity. }
  destruct Fa as [F1 F2]. rewrite <- S0 in R at 1. rewrite <- S0 in Ra at 1.
  destruct (C82_time_slices m signal batch r Lm ltac:(lia) R) as (T & dt & St & L & E).
  destruct (C82_time_slices a signal batch_a ra La ltac:(lia) Ra) as (Ta & dta & Sta & L_a & E_a).
  apply (grid_step _ _ _ _ G) in St. apply (grid_step _ _ _ _ G) in Sta. rewrite <- St in *. subst dta.
  rewrite S0 in *. destruct n as [|n]; [lia|].
  set (ub := mexp (p_dim b) (mscale (- Ci * RtoC dt)%C (p_h0 b))).
  destruct (ordered_exists _ (mmul (p_dim b)) ub n) as (Ub & Tb).
  transitivity (kron (p_dim b) (p_dim b) (pr_U ra) Ub).
  2:{ rewrite Ed. apply kron_mor; [reflexivity|]. apply ordered_repeat. exact Tb. }
  apply (ordered_kron (p_dim a) (p_dim b) (p_dim m) (pr_dUs r) (pr_U r) Ed T (pr_dUs ra) (repeat ub (S n))); auto; try lia.
  { rewrite repeat_length. auto. }
  intros t u x y H1 H2 H3. assert (Lt : t < S n) by (rewrite <- L; apply nth_error_Some; congruence).
  rewrite (E t Lt) in H1. rewrite (E_a t Lt) in H2. injection H1 as <-. injection H2 as <-.
  apply nth_error_In, repeat_spec in H3. subst y.
  unfold ub. apply slice_kron; [exact Ed|].
  assert (K : forall k w, In (k, w) (not_of_a a signal) -> exists h, dget k (p_hctrls b) = Some h) by (rewrite F2; intros k w []).
  rewrite (driven_sum a b m signal t Un K), F1, F2. unfold driven_hamiltonian at 2. cbn [fold_right].
  intros i j _ _. unfold madd, kron, mzero. ring.
Qed.
Print Assumptions C138_idle.

(** The probability to find the first subsystem in level [i] (and the second anywhere). *)
Definition level_a (db i : nat) (psi : mat) : R := rs db (fun j => (Cmod (psi (i * db + j)%nat 0%nat) ^ 2)%R).

Lemma kron_id_entry : forall da db B (psi : mat) i j, i < da -> j < db ->
  mmul (da * db) (kron db db mid B) psi (i * db + j) 0 = mmul db B (fun k _ => psi (i * db + k) 0) j 0.
Proof.
  intros da db B psi i j Hi Hj. unfold mmul, kron. rewrite csum_prod.
  rewrite (csum_single da i); auto.
  - apply csum_ext. intros k Hk. destruct (divmod_add i j db Hj) as [-> ->]. destruct (divmod_add i k db Hk) as [-> ->].
    unfold mid. rewrite Nat.eqb_refl. ring.
  - intros x Hx N. apply csum_0. intros k Hk. destruct (divmod_add i j db Hj) as [-> ->]. destruct (divmod_add x k db Hk) as [-> ->].
    unfold mid. destruct (Nat.eqb_spec i x); [congruence|]. ring.
Qed.

(** No cross talk: driving the second subsystem leaves every outcome probability of the
    first as it is without the second, for product and for entangled states. *)
Theorem C138_no_crosstalk : forall a b m signal n ts batch batch_a batch_b r ra rb (psi : mat) i,
  uncoupled a b m -> common_grid signal n ts -> 0 < n ->
  hermitian (p_dim b) (p_h0 b) -> (forall k h, dget k (p_hctrls b) = Some h -> hermitian (p_dim b) h) ->
  pwc_controlled a (of_a a signal) (folding_stack n) batch_a = Ok ra ->
  pwc_controlled b (not_of_a a signal) (folding_stack n) batch_b = Ok rb ->
  pwc_controlled m signal (folding_stack n) batch = Ok r ->
  i < p_dim a ->
  level_a (p_dim b) i (mmul (p_dim m) (pr_U r) psi)
  = level_a (p_dim b) i (mmul (p_dim m) (kron (p_dim b) (p_dim b) (pr_U ra) mid) psi).
Proof.
  intros a b m signal n ts batch batch_a batch_b r ra rb psi i Un G Hn H0 Hc Ra Rb R Hi.
  pose proof (C138_independent a b m signal n ts batch batch_a batch_b r ra rb Un G Hn Ra Rb R) as E.
  pose proof Un as (Ed & La & Lb & Lm & _).
  destruct (C82_closed_unitary b (not_of_a a signal) (folding_stack n) batch_b rb Lb H0 Hc Rb) as [UU _].
  set (db := p_dim b) in *. set (da := p_dim a) in *. rewrite Ed in *.
  assert (X : meq (da * db) 1 (mmul (da * db) (pr_U r) psi)
     (mmul (da * db) (kron db db mid (pr_U rb)) (mmul (da * db) (kron db db (pr_U ra) mid) psi))).
  { rewrite mmul_assoc. apply mmul_mor; [|reflexivity]. rewrite kron_mmul, E.
    apply kron_mor; [symmetry; apply mmul_id_l|symmetry; apply mmul_id_r]. }
  set (phi := mmul (da * db) (kron db db (pr_U ra) mid) psi) in *.
  pose proof (unitary_norm db 1 (pr_U rb) (fun k _ => phi (i * db + k) 0) UU) as Nm. unfold nrm2 in Nm. cbn [rs] in Nm.
  unfold level_a.
  transitivity (rs db (fun j => (Cmod (mmul db (pr_U rb) (fun k _ => phi (i * db + k)%nat 0%nat) j 0%nat) ^ 2)%R)).
  - apply rs_ext. intros j Hj. rewrite (X (i * db + j) 0); [|nia|lia]. rewrite kron_id_entry by auto. reflexivity.
  - transitivity (rs db (fun j => (0 + Cmod (mmul db (pr_U rb) (fun k _ => phi (i * db + k)%nat 0%nat) j 0%nat) ^ 2)%R)); [apply rs_ext; intros; ring|].
    etransitivity; [exact Nm|]. apply rs_ext. intros; ring.
Qed.
Print Assumptions C138_no_crosstalk.

(** Two qubits with one drive line each, four samples. *)
Definition sx : mat := fun i j => if Nat.eqb i j then RtoC 0 else RtoC 1.
Definition sz : mat := fun i j => if Nat.eqb i j then (if Nat.eqb i 0 then RtoC 1 else RtoC (-1)) else RtoC 0.
Definition embed (k : nat) (A : mat) : mat := match hilbert_space_kron A k [2; 2] with Ok s => ent s | Err _ => mzero end.
Definition one_qubit (line : string) : pmodel :=
  {| p_dim := 2; p_h0 := sz; p_hctrls := [(line, sx)]; p_lind := false; p_cols := []; p_dims := [2]; p_max_ex := 0 |}.
Definition two_qubits : pmodel :=
  {| p_dim := 4; p_h0 := madd (embed 0 sz) (embed 1 sz); p_hctrls := [("d1"%string, embed 0 sx); ("d2"%string, embed 1 sx)];
     p_lind := false; p_cols := []; p_dims := [2; 2]; p_max_ex := 0 |}.
Definition pulse (x : R) : wave := {| w_values := [x; (2 * x)%R; (3 * x)%R; x]; w_ts := [0%R; 1%R; 2%R; 3%R] |}.
Definition both_lines : dict wave := [("d2"%string, pulse 5%R); ("d1"%string, pulse 7%R)].
Example C138_example :
  uncoupled (one_qubit "d1") (one_qubit "d2") two_qubits
  /\ common_grid both_lines 4 [0%R; 1%R; 2%R; 3%R]
  /\ (exists r, pwc_controlled (one_qubit "d1") (of_a (one_qubit "d1") both_lines) (folding_stack 4) None = Ok r)
  /\ (exists r, pwc_controlled (one_qubit "d2") (not_of_a (one_qubit "d1") both_lines) (folding_stack 4) None = Ok r)
  /\ (exists r, pwc_controlled two_qubits both_lines (folding_stack 4) None = Ok r).
Proof.
  assert (E : forall k A, k < 2 -> acts_on 2 2 k A (embed k A)).
  { intros k A Hk. unfold acts_on, embed. destruct k as [|[|k]]; [| |lia]; eexists; split; reflexivity. }
  split; [|split; [|split; [|split]]].
  - repeat split.
    + exists (embed 0 sz), (embed 1 sz). repeat split; apply E; lia.
    + cbn. intros k h H. destruct (String.eqb_spec k "d1") as [->|]; [|discriminate]. injection H as <-.
      exists (embed 0 sx). split; [reflexivity|apply E; lia].
    + cbn. intros k h N H. destruct (String.eqb_spec k "d2") as [->|]; [|discriminate]. injection H as <-.
      exists (embed 1 sx). split; [reflexivity|apply E; lia].
  - intros k w [H|[H|[]]]; injection H as <- <-; split; reflexivity.
  - eexists. reflexivity.
  - eexists. reflexivity.
  - eexists. reflexivity.
Qed.
