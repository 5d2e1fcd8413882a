(** Property C141: pulses played one after the other, backwards, and with an energy offset. *)
From Coq Require Import Reals Lra Lia FunctionalExtensionality.
From Coquelicot Require Import Complex.
From Verif Require Import Base Mat RSum MExp MExp2 PropModel FoldModel FoldProps ExpModel ExpProps IndepProps.
Local Open Scope list_scope.
Local Open Scope nat_scope.
Local Notation length := List.length.

(** The pulses of [a] followed, line by line, by those of [b], on the time grid [ts]. *)
Definition joined (a b : dict wave) (ts : list R) : dict wave :=
  map (fun p => (fst (fst p), {| w_values := w_values (snd (fst p)) ++ w_values (snd (snd p)); w_ts := ts |})) (combine a b).
(** The pulses of [s] played backwards with the opposite sign. *)
Definition backwards (s : dict wave) : dict wave :=
  map (fun kv => (fst kv, {| w_values := map Ropp (rev (w_values (snd kv))); w_ts := w_ts (snd kv) |})) s.
Definition first_step (ts : list R) : R := (nth 1 ts 0 - nth 0 ts 0)%R.
(** The dimension of the propagators: superoperators with dissipation. *)
Definition udim (m : pmodel) : nat := if p_lind m then p_dim m * p_dim m else p_dim m.

Lemma ordered_app : forall M (mul : M -> M -> M), (forall x y z, mul x (mul y z) = mul (mul x y) z) ->
  forall us p vs q, TimeOrdered mul us p -> TimeOrdered mul vs q -> TimeOrdered mul (us ++ vs) (mul q p).
Proof.
  intros M mul As us p vs q P Q. induction Q as [v|vs v q Q IH]; [constructor; exact P|].
  rewrite app_assoc, <- As. constructor. exact IH.
Qed.
Lemma list_ext : forall A (l l' : list A), length l = length l' -> (forall t, t < length l -> nth_error l t = nth_error l' t) -> l = l'.
Proof.
  intros A. induction l as [|x l IH]; intros [|y l'] E H; try discriminate E; [reflexivity|].
  pose proof (H 0 ltac:(cbn; lia)) as H0. injection H0 as ->. f_equal. injection E as E. apply IH; auto.
  intros t Ht. apply (H (S t)). cbn. lia.
Qed.
Lemma slices_ordered : forall m s n ts batch r, common_grid s n ts -> 0 < n ->
  pwc_controlled m s (folding_stack n) batch = Ok r ->
  TimeOrdered (mmul (udim m)) (pr_dUs r) (pr_U r) /\ length (pr_dUs r) = n
  /\ forall t, t < n -> nth_error (pr_dUs r) t
     = Some (if p_lind m then lind_slice (p_dim m) (driven_hamiltonian m s t) (p_cols m) (first_step ts)
             else mexp (p_dim m) (mscale (- Ci * RtoC (first_step ts))%C (driven_hamiltonian m s t))).
Proof.
  intros m s n ts batch r G Hn H. destruct (controlled_split _ _ _ _ _ H) as (dt & A & B & D & E).
  pose proof (grid_samples _ _ _ G (step_nonempty _ _ A)) as S0. rewrite S0 in *.
  rewrite (grid_step _ _ _ _ G A) in D. fold (first_step ts) in D. fold (udim m) in E. split; [|auto].
  destruct (C21_folded_product mat (mmul (udim m)) (mmul_assoc_leibniz (udim m)) (pr_dUs r)) as (p & P1 & P2).
  - intro X. rewrite X in B. cbn in B. lia.
  - rewrite B in P1. rewrite E in P1. injection P1 as ->. exact P2.
Qed.
Lemma controls_ext : forall m (s s' : dict wave) t t', length s = length s' ->
  (forall k kv kv', nth_error s k = Some kv -> nth_error s' k = Some kv' ->
     fst kv = fst kv' /\ nth t (w_values (snd kv)) 0%R = nth t' (w_values (snd kv')) 0%R) ->
  driven_hamiltonian m s t = driven_hamiltonian m s' t'.
Proof.
  intros m s s' t t' E H. unfold driven_hamiltonian. f_equal. revert s' E H.
  induction s as [|kv s IH]; intros [|kv' s'] E H; try discriminate E; [reflexivity|]. cbn [fold_right].
  destruct (H 0 kv kv' eq_refl eq_refl) as [-> ->]. rewrite (IH s'); [reflexivity|injection E as E; exact E|].
  intros k x x' Hx Hx'. apply (H (S k)); auto.
Qed.
Lemma joined_nth : forall a b ts k, nth_error (joined a b ts) k = match nth_error a k, nth_error b k with
  | Some p, Some q => Some (fst p, {| w_values := w_values (snd p) ++ w_values (snd q); w_ts := ts |}) | _, _ => None end.
Proof.
  induction a as [|p a IH]; intros b ts k; [destruct k; reflexivity|]. destruct b as [|q b].
  - destruct k; cbn; [reflexivity|]. destruct (nth_error a k); reflexivity.
  - destruct k; [reflexivity|]. apply (IH b ts k).
Qed.
Lemma joined_length : forall a b ts, length a = length b -> length (joined a b ts) = length a.
Proof. intros a b ts E. unfold joined. rewrite map_length, combine_length. lia. Qed.
Lemma keys_nth : forall (a b : dict wave) k p q, map fst a = map fst b -> nth_error a k = Some p -> nth_error b k = Some q -> fst p = fst q.
Proof.
  intros a b k p q E Hp Hq. apply (map_nth_error fst) in Hp. apply (map_nth_error fst) in Hq. congruence.
Qed.

(** ** C141: Pulses played one after the other: the propagator of the longer gate is the product
    of the propagators of its parts, the later one to the left, for closed and open systems. *)
Theorem C141_one_after_the_other : forall m a b na nb tsa tsb ts batch batch_a batch_b r ra rb,
  map fst a = map fst b -> common_grid a na tsa -> common_grid b nb tsb -> 0 < na -> 0 < nb ->
  first_step tsa = first_step ts -> first_step tsb = first_step ts ->
  pwc_controlled m a (folding_stack na) batch_a = Ok ra ->
  pwc_controlled m b (folding_stack nb) batch_b = Ok rb ->
  pwc_controlled m (joined a b ts) (folding_stack (na + nb)) batch = Ok r ->
  pr_dUs r = pr_dUs ra ++ pr_dUs rb /\ pr_U r = mmul (udim m) (pr_U rb) (pr_U ra).
Proof.
  intros m a b na nb tsa tsb ts batch batch_a batch_b r ra rb Ek Ga Gb Ha Hb Sa Sb Ra Rb R.
  assert (El : length a = length b) by (apply (f_equal (@List.length string)) in Ek; rewrite !map_length in Ek; exact Ek).
  assert (G : common_grid (joined a b ts) (na + nb) ts).
  { intros k w I. apply In_nth_error in I. destruct I as (x & Hx). rewrite joined_nth in Hx.
    destruct (nth_error a x) as [[k1 w1]|] eqn:E1; [|discriminate]. destruct (nth_error b x) as [[k2 w2]|] eqn:E2; [|discriminate].
    injection Hx as <- <-. cbn [w_values w_ts fst snd]. split; [|reflexivity].
    apply nth_error_In in E1, E2. rewrite app_length. rewrite (proj1 (Ga _ _ E1)), (proj1 (Gb _ _ E2)). reflexivity. }
  destruct (slices_ordered m a na tsa batch_a ra Ga Ha Ra) as (Ta & La & Da).
  destruct (slices_ordered m b nb tsb batch_b rb Gb Hb Rb) as (Tb & Lb & Db).
  destruct (slices_ordered m _ (na + nb) ts batch r G ltac:(lia) R) as (T & L & D).
  assert (E : pr_dUs r = pr_dUs ra ++ pr_dUs rb).
  { apply list_ext; [rewrite app_length; lia|]. intros t Ht. rewrite L in Ht. rewrite (D t Ht).
    destruct (Nat.lt_ge_cases t na) as [Lt|Ge].
    - rewrite nth_error_app1 by lia. rewrite (Da t Lt), Sa.
      rewrite (controls_ext m (joined a b ts) a t t); [reflexivity|apply joined_length, El|].
      intros k kv kv' Hk Hk'. rewrite joined_nth, Hk' in Hk. destruct (nth_error b k) as [q|]; [|discriminate]. injection Hk as <-.
      cbn [fst snd w_values]. split; [reflexivity|]. destruct kv' as [k' w']. apply nth_error_In in Hk'. cbn [fst snd]. apply app_nth1. rewrite (proj1 (Ga _ _ Hk')). exact Lt.
    - rewrite nth_error_app2 by lia. rewrite La, (Db (t - na) ltac:(lia)), Sb.
      rewrite (controls_ext m (joined a b ts) b t (t - na)); [reflexivity|rewrite joined_length; [exact El|exact El]|].
      intros k kv kv' Hk Hk'. rewrite joined_nth, Hk' in Hk. destruct (nth_error a k) as [[k1 w1]|] eqn:E1; [|discriminate]. injection Hk as <-.
      pose proof (keys_nth a b k _ _ Ek E1 Hk') as Q. cbn [fst snd w_values] in *. split; [exact Q|].
      apply nth_error_In in E1. rewrite app_nth2; rewrite (proj1 (Ga _ _ E1)); [reflexivity|exact Ge]. }
  split; [exact E|]. rewrite E in T.
  apply (time_ordered_unique _ _ _ _ _ T). apply ordered_app; auto. apply mmul_assoc_leibniz.
Qed.
Print Assumptions C141_one_after_the_other.

(** ** Backwards *)
Lemma ordered_cons_inv : forall M (mul : M -> M -> M), (forall x y z, mul x (mul y z) = mul (mul x y) z) ->
  forall v vs q, vs <> [] -> TimeOrdered mul (v :: vs) q -> exists p, TimeOrdered mul vs p /\ q = mul p v.
Proof.
  intros M mul As v vs. induction vs as [|x vs IH] using rev_ind; intros q N H; [congruence|].
  destruct vs as [|y vs].
  - exists x. split; [constructor|]. change ([v; x]) with ([v] ++ [x]) in H. assert (N1 : [v] <> []) by discriminate. destruct (to_snoc_inv _ _ _ _ _ N1 H) as (p & P & ->).
    rewrite (to_one_inv _ _ _ _ P). reflexivity.
  - change (v :: (y :: vs) ++ [x]) with ((v :: y :: vs) ++ [x]) in H. assert (N1 : v :: y :: vs <> []) by discriminate. destruct (to_snoc_inv _ _ _ _ _ N1 H) as (p & P & ->).
    assert (N2 : y :: vs <> []) by discriminate. destruct (IH p N2 P) as (p' & P' & ->). exists (mul x p'). split; [constructor; exact P'|apply As].
Qed.
Lemma ordered_inverse : forall n us U, TimeOrdered (mmul n) us U -> forall vs V, TimeOrdered (mmul n) vs V ->
  Forall2 (fun v u => meq n n (mmul n v u) mid) (rev vs) us -> meq n n (mmul n V U) mid.
Proof.
  intros n us U H. induction H as [u|us u p P IH]; intros vs V T F.
  - destruct vs as [|v vs] using rev_ind; [inversion F|]. rewrite rev_app_distr in F. cbn in F. inversion F as [|? ? ? ? E F']; subst.
    inversion F' as [X|]; subst. assert (vs = []) as -> by (destruct vs; [reflexivity|cbn in X; destruct (rev vs); discriminate]).
    rewrite (to_one_inv _ _ _ _ T). exact E.
  - destruct vs as [|v vs].
    + cbn in F. inversion F as [X|]. destruct us; discriminate.
    + cbn [rev] in F. apply Forall2_app_inv_l in F. destruct F as (l1 & l2 & F1 & F2 & X).
      inversion F2 as [|? w ? l3 E F3]; subst. inversion F3; subst. apply app_inj_tail in X. destruct X as [<- <-].
      assert (Ne : vs <> []) by (intros ->; cbn in F1; inversion F1; subst; exact (to_nil _ _ _ _ P eq_refl)).
      destruct (ordered_cons_inv _ _ (mmul_assoc_leibniz n) v vs V Ne T) as (q & Q & ->).
      rewrite <- mmul_assoc, (mmul_assoc n n n n v u p), E, mmul_id_l. apply (IH vs q Q F1).
Qed.
Lemma backwards_grid : forall s n ts, common_grid s n ts -> common_grid (backwards s) n ts.
Proof.
  intros s n ts G k w I. unfold backwards in I. apply in_map_iff in I. destruct I as ([k' w'] & E & I). injection E as <- <-.
  cbn [w_values w_ts]. rewrite map_length, rev_length. apply (G _ _ I).
Qed.
Lemma backwards_driven : forall m m' s n ts t i j, common_grid s n ts -> t < n ->
  p_hctrls m' = p_hctrls m -> p_h0 m' = mopp (p_h0 m) ->
  driven_hamiltonian m' (backwards s) t i j = (- driven_hamiltonian m s (n - 1 - t) i j)%C.
Proof.
  intros m m' s n ts t i j G Ht Ec E0. unfold driven_hamiltonian. rewrite Ec, E0. unfold madd at 1. unfold madd at 2. unfold mopp at 1.
  match goal with |- (_ + ?x)%C = (- (_ + ?y))%C => enough (Q : x = (- y)%C) by (rewrite Q; ring) end.
  induction s as [|[k w] s IH]; cbn [backwards map fold_right]; [unfold mzero; ring|].
  assert (G' : common_grid s n ts) by (intros k' w' I; apply (G k' w'); right; exact I).
  specialize (IH G'). fold (backwards s). destruct (G k w (or_introl eq_refl)) as [L _]. cbn [fst snd w_values].
  destruct (dget k (p_hctrls m)) as [h|]; [|exact IH]. unfold madd at 1. unfold madd at 2. rewrite IH. unfold mscale.
  assert (X : nth t (map Ropp (rev (w_values w))) 0%R = (- nth (n - 1 - t) (w_values w) 0)%R).
  { rewrite <- Ropp_0 at 1. rewrite map_nth, rev_nth by lia. rewrite L. f_equal. f_equal. lia. }
  rewrite X, RtoC_opp. ring.
Qed.
(** Pulses played backwards with the opposite sign, with the drift of the opposite sign,
    undo the gate. *)
Theorem C141_backwards : forall m m' s n ts batch batch' r r',
  p_lind m = false -> p_lind m' = false -> p_dim m' = p_dim m -> p_hctrls m' = p_hctrls m -> p_h0 m' = mopp (p_h0 m) ->
  common_grid s n ts -> 0 < n ->
  pwc_controlled m s (folding_stack n) batch = Ok r ->
  pwc_controlled m' (backwards s) (folding_stack n) batch' = Ok r' ->
  meq (p_dim m) (p_dim m) (mmul (p_dim m) (pr_U r') (pr_U r)) mid.
Proof.
  intros m m' s n ts batch batch' r r' L L' Ed Ec E0 G Hn R R'.
  destruct (slices_ordered m s n ts batch r G Hn R) as (T & Ln & D).
  destruct (slices_ordered m' (backwards s) n ts batch' r' (backwards_grid s n ts G) Hn R') as (T' & Ln' & D').
  unfold udim in T, T'. rewrite L in T, D. rewrite L' in T', D'. rewrite Ed in *.
  apply (ordered_inverse (p_dim m) _ _ T _ _ T').
  assert (Q : forall us vs, length vs = length us -> (forall k u v, nth_error us k = Some u -> nth_error vs k = Some v ->
     meq (p_dim m) (p_dim m) (mmul (p_dim m) v u) mid) -> Forall2 (fun v u => meq (p_dim m) (p_dim m) (mmul (p_dim m) v u) mid) vs us).
  { induction us as [|u us IH]; intros [|v vs] E H; try discriminate E; constructor; [apply (H 0); reflexivity|].
    apply IH; [injection E as E; exact E|]. intros k x y Hx Hy. apply (H (S k)); auto. }
  apply Q; [rewrite rev_length; lia|]. intros k u v Hu Hv.
  assert (Lk : k < n) by (rewrite <- Ln; apply nth_error_Some; congruence).
  rewrite (D k Lk) in Hu. injection Hu as <-.
  assert (Hv' : nth_error (pr_dUs r') (n - 1 - k) = Some v).
  { rewrite <- Hv. rewrite (nth_error_nth' _ mid) by lia. rewrite (nth_error_nth' (rev _) mid) by (rewrite rev_length; lia).
    rewrite rev_nth by lia. rewrite Ln'. f_equal. f_equal. lia. }
  rewrite (D' (n - 1 - k) ltac:(lia)) in Hv'. injection Hv' as <-.
  set (A := mscale (- Ci * RtoC (first_step ts))%C (driven_hamiltonian m s k)).
  assert (E : meq (p_dim m) (p_dim m) (mscale (- Ci * RtoC (first_step ts))%C (driven_hamiltonian m' (backwards s) (n - 1 - k))) (mscale (RtoC (-1)) A)).
  { intros i j _ _. unfold A, mscale. rewrite (backwards_driven m m' s n ts) by (auto; lia).
    replace (n - 1 - (n - 1 - k)) with k by lia. change (RtoC (-1)) with (RtoC (- (1))). rewrite RtoC_opp. ring. }
  rewrite (mexp_proper _ _ _ E). apply mexp_inv.
Qed.
Print Assumptions C141_backwards.

(** ** Energy offset *)
Lemma mexp_offset : forall n H (c dt : R),
  meq n n (mexp n (mscale (- Ci * RtoC dt)%C (madd H (mscale (RtoC c) mid)))) (mscale (expi (- dt * c)) (mexp n (mscale (- Ci * RtoC dt)%C H))).
Proof.
  intros n H c dt.
  assert (E : meq n n (mscale (- Ci * RtoC dt)%C (madd H (mscale (RtoC c) mid)))
                      (madd (mscale (Ci * RtoC (- dt * c))%C mid) (mscale (- Ci * RtoC dt)%C H))).
  { intros i j _ _. unfold mscale, madd. rewrite RtoC_mult, RtoC_opp. ring. }
  rewrite (mexp_proper _ _ _ E). rewrite mexp_commute.
  - rewrite (mexp_diag n _ (fun _ => (- dt * c)%R)).
    + intros i j Hi Hj. unfold mmul, mscale. rewrite (csum_single _ i); [rewrite Nat.eqb_refl; reflexivity|exact Hi|].
      intros x Hx Nx. destruct (Nat.eqb_spec i x); [congruence|ring].
    + intros i j _ _. unfold mscale, mid. destruct (Nat.eqb i j); ring.
  - transitivity (mscale (Ci * RtoC (- dt * c))%C (mscale (- Ci * RtoC dt)%C H)).
    + rewrite mmul_scale_l, mmul_id_l. reflexivity.
    + rewrite mmul_scale_r, mmul_id_r. reflexivity.
Qed.
(** An offset c of all energies multiplies the propagator by a phase: no population changes. *)
Theorem C141_offset : forall m m' c s n ts batch batch' r r',
  p_lind m = false -> p_lind m' = false -> p_dim m' = p_dim m -> p_hctrls m' = p_hctrls m -> p_h0 m' = madd (p_h0 m) (mscale (RtoC c) mid) ->
  common_grid s n ts -> 0 < n ->
  pwc_controlled m s (folding_stack n) batch = Ok r ->
  pwc_controlled m' s (folding_stack n) batch' = Ok r' ->
  meq (p_dim m) (p_dim m) (pr_U r') (mscale (expi (- (INR n * first_step ts) * c)) (pr_U r))
  /\ forall psi i, i < p_dim m -> Cmod (mmul (p_dim m) (pr_U r') psi i 0) = Cmod (mmul (p_dim m) (pr_U r) psi i 0).
Proof.
  intros m m' c s n ts batch batch' r r' L L' Ed Ec E0 G Hn R R'.
  destruct (slices_ordered m s n ts batch r G Hn R) as (T & Ln & D).
  destruct (slices_ordered m' s n ts batch' r' G Hn R') as (T' & Ln' & D').
  unfold udim in T, T'. rewrite L in T, D. rewrite L' in T', D'. rewrite Ed in *.
  set (d := p_dim m) in *. set (dt := first_step ts) in *.
  assert (O : forall us U, TimeOrdered (mmul d) us U -> forall vs V, TimeOrdered (mmul d) vs V -> length vs = length us ->
    (forall k u v, nth_error us k = Some u -> nth_error vs k = Some v -> meq d d v (mscale (expi (- dt * c)) u)) ->
    meq d d V (mscale (expi (- (INR (length us) * dt) * c)) U)).
  { intros us U H. induction H as [u|us u p P IH]; intros vs V TV El H.
    - destruct vs as [|v [|]]; try discriminate El. rewrite (to_one_inv _ _ _ _ TV).
      cbn [length INR]. replace (- (1 * dt) * c)%R with (- dt * c)%R by ring. apply (H 0); reflexivity.
    - destruct vs as [|v vs] using rev_ind; [rewrite app_length in El; cbn in El; lia|]. clear IHvs.
      rewrite !app_length in El. cbn [length] in El.
      assert (Ne : vs <> []) by (intros ->; destruct us; [exact (to_nil _ _ _ _ P eq_refl)|cbn in El; lia]).
      destruct (to_snoc_inv _ _ _ _ _ Ne TV) as (q & Q & ->).
      assert (E1 : meq d d v (mscale (expi (- dt * c)) u)).
      { apply (H (length us)); [rewrite nth_error_app2, Nat.sub_diag by lia; reflexivity|].
        rewrite nth_error_app2 by lia. replace (length us - length vs) with 0 by lia. reflexivity. }
      assert (E2 : meq d d q (mscale (expi (- (INR (length us) * dt) * c)) p)).
      { apply (IH vs q Q ltac:(lia)). intros k x y Hx Hy. apply (H k).
        - rewrite nth_error_app1; [exact Hx|]. apply nth_error_Some. congruence.
        - rewrite nth_error_app1; [exact Hy|]. apply nth_error_Some. congruence. }
      rewrite E1, E2, mmul_scale_l, mmul_scale_r, mscale_mscale, <- expi_add. rewrite app_length. cbn [length]. rewrite plus_INR. cbn [INR].
      match goal with |- meq _ _ (mscale (expi ?x) _) (mscale (expi ?y) _) => replace x with y by ring end. reflexivity. }
  assert (E : meq d d (pr_U r') (mscale (expi (- (INR n * dt) * c)) (pr_U r))).
  { rewrite <- Ln. apply (O _ _ T _ _ T'); [lia|]. intros k u v Hu Hv.
    assert (Lk : k < n) by (rewrite <- Ln; apply nth_error_Some; congruence).
    rewrite (D k Lk) in Hu. injection Hu as <-. rewrite (D' k Lk) in Hv. injection Hv as <-.
    rewrite <- mexp_offset. apply mexp_proper. intros i j _ _. unfold mscale, driven_hamiltonian. rewrite Ec, E0. unfold madd, mscale. ring. }
  split; [exact E|]. intros psi i Hi.
  transitivity (Cmod (expi (- (INR n * dt) * c)%R * mmul d (pr_U r) psi i 0%nat)%C).
  - f_equal. unfold mmul. rewrite <- csum_scale. apply csum_ext. intros x Hx. rewrite (E i x Hi Hx). unfold mscale. ring.
  - rewrite Cmod_mult, expi_mod. ring.
Qed.
Print Assumptions C141_offset.

(** The two qubits of [C138_example]: a pulse of four samples followed by another, backwards, and with an offset. *)
Definition shifted (c : R) (m : pmodel) : pmodel :=
  {| p_dim := p_dim m; p_h0 := madd (p_h0 m) (mscale (RtoC c) mid); p_hctrls := p_hctrls m; p_lind := p_lind m; p_cols := p_cols m;
     p_dims := p_dims m; p_max_ex := p_max_ex m |}.
Definition opposite (m : pmodel) : pmodel :=
  {| p_dim := p_dim m; p_h0 := mopp (p_h0 m); p_hctrls := p_hctrls m; p_lind := p_lind m; p_cols := p_cols m;
     p_dims := p_dims m; p_max_ex := p_max_ex m |}.
Definition grid8 : list R := [0; 1; 2; 3; 4; 5; 6; 7]%R.
Example C141_example :
  map fst both_lines = map fst (backwards both_lines) /\ common_grid both_lines 4 [0%R; 1%R; 2%R; 3%R]
  /\ first_step [0%R; 1%R; 2%R; 3%R] = first_step grid8
  /\ (exists r, pwc_controlled two_qubits both_lines (folding_stack 4) None = Ok r)
  /\ (exists r, pwc_controlled (opposite two_qubits) (backwards both_lines) (folding_stack 4) None = Ok r)
  /\ (exists r, pwc_controlled (shifted 3 two_qubits) both_lines (folding_stack 4) None = Ok r)
  /\ (exists r, pwc_controlled two_qubits (joined both_lines (backwards both_lines) grid8) (folding_stack 8) None = Ok r).
Proof.
  split; [reflexivity|]. split; [intros k w [H|[H|[]]]; injection H as <- <-; split; reflexivity|]. split; [reflexivity|].
  repeat split; eexists; reflexivity.
Qed.
