From Coq Require Import Reals Lra Lia List.
Import ListNotations.
From Coquelicot Require Import Complex.
From Verif Require Import Base Mat HilbertModel HilbertProofs HilbertProps PropModel PropProofs Prop2Props ChipModel ChipProps Chip2Props FluxModel.
Local Open Scope R_scope.
Local Notation length := List.length.

(** ** C129: flux dependence of the C-shunt flux qubit *)
Lemma reqb_spec : forall a b, reqb a b = true <-> a = b.
Proof. intros. unfold reqb. destruct (Req_EM_T a b); split; intro H; auto; try discriminate; contradiction. Qed.
Lemma reqb_false : forall a b, reqb a b = false <-> a <> b.
Proof. intros. unfold reqb. destruct (Req_EM_T a b); split; intro H; auto; try discriminate; contradiction. Qed.
Lemma int_part_unique : forall x z, IZR z <= x < IZR z + 1 -> Int_part x = z.
Proof.
  intros x z [A B]. unfold Int_part. assert (U : up x = (z + 1)%Z); [|rewrite U; ring].
  symmetry. apply tech_up; rewrite plus_IZR; lra.
Qed.
Lemma int_part_bounds : forall x, IZR (Int_part x) <= x < IZR (Int_part x) + 1.
Proof. intro x. destruct (base_Int_part x). lra. Qed.
Lemma fmod_range : forall x m, 0 < m -> 0 <= fmod x m < m.
Proof.
  intros x m Hm. unfold fmod. pose proof (int_part_bounds (x / m)) as [A B].
  set (z := IZR (Int_part (x / m))) in *. replace (x - z * m) with ((x / m - z) * m) by (field; lra). nra.
Qed.
Lemma fmod_small : forall x m, 0 <= x < m -> fmod x m = x.
Proof.
  intros x m H. unfold fmod. rewrite (int_part_unique (x / m) 0); [ring|].
  assert (x / m * m = x) by (field; lra). assert (0 <= x / m < 1); [|cbn; lra].
  split; [apply Rmult_le_pos; [lra|left; apply Rinv_0_lt_compat; lra]|]. apply (Rmult_lt_reg_r m); lra.
Qed.
Lemma fmod_period : forall x m, 0 < m -> fmod (x + m) m = fmod x m.
Proof.
  intros x m Hm. unfold fmod. replace ((x + m) / m) with (x / m + 1) by (field; lra).
  pose proof (int_part_bounds (x / m)) as B.
  rewrite (int_part_unique (x / m + 1) (Int_part (x / m) + 1)); rewrite ?plus_IZR; [ring|lra].
Qed.
(** On the grid the interpolation returns the entries, between two points a weighted mean. *)
Lemma interp_at : forall ys hi k w, 0 < hi -> (S k < length ys)%nat -> 0 <= w < 1 ->
  interp_grid ((INR k + w) * hi / INR (length ys - 1)) hi ys = (1 - w) * nth k ys 0 + w * nth (S k) ys 0.
Proof.
  intros ys hi k w Hh Hk Hw. unfold interp_grid. cbv zeta.
  assert (HN : INR (length ys - 1) <> 0) by (apply not_0_INR; lia).
  replace ((INR k + w) * hi / INR (length ys - 1) / hi * INR (length ys - 1)) with (INR k + w) by (field; repeat split; solve [exact HN | lra]).
  rewrite (int_part_unique (INR k + w) (Z.of_nat k)) by (rewrite <- INR_IZR_INZ; lra).
  rewrite Z.min_l by lia. rewrite Nat2Z.id. ring.
Qed.
Lemma grid_below : forall x hi, 0 < hi -> 0 <= x < hi -> exists k w, (S k < 50)%nat /\ 0 <= w < 1 /\ x = (INR k + w) * hi / INR 49.
Proof.
  intros x hi Hh Hx. pose (t := x / hi * 49). assert (Et : x = t * hi / 49) by (unfold t; field; lra).
  assert (T : 0 <= t < 49) by nra.
  pose proof (int_part_bounds t) as B. assert (Z1 : (-1 < Int_part t)%Z) by (apply lt_IZR; cbn; lra).
  assert (Z2 : (Int_part t < 49)%Z) by (apply lt_IZR; lra).
  exists (Z.to_nat (Int_part t)), (t - IZR (Int_part t)).
  assert (E : INR (Z.to_nat (Int_part t)) = IZR (Int_part t)) by (rewrite INR_IZR_INZ, Z2Nat.id by lia; reflexivity).
  split; [lia|]. split; [lra|]. rewrite E. replace (INR 49) with 49 by (rewrite INR_IZR_INZ; reflexivity). rewrite Et at 1. field.
Qed.

Section Flux.
  Variable fmin : (R -> R) -> R.
  Notation minimum_phi := (minimum_phi fmin).
  Notation flux_table := (flux_table fmin).
  (** The search itself, at a flux. *)
  Definition searched (p : fluxpars) (sig : R) : R := fmin (cshunt_potential p sig 0).

  Lemma table_length : forall p, length (flux_table p) = 50%nat.
  Proof. intro. unfold FluxModel.flux_table. rewrite map_length, seq_length. reflexivity. Qed.
  Lemma table_nth : forall p k, (k < 50)%nat -> nth k (flux_table p) 0 = searched p (flux_grid (fp_phi_0 p) k).
  Proof.
    intros p k Hk. unfold FluxModel.flux_table.
    pose (f := fun k => fmin (cshunt_potential p (flux_grid (fp_phi_0 p) k) 0)).
    change (nth k (map f (seq 0 50)) 0 = f k).
    rewrite (nth_indep _ 0 (f 0%nat)) by (rewrite map_length, seq_length; exact Hk).
    rewrite map_nth, seq_nth by exact Hk. reflexivity.
  Qed.
  Lemma grid_0 : forall m, flux_grid m 0 = 0.
  Proof. intro. unfold flux_grid. cbn. field. Qed.
  Lemma interp_0 : forall p, 0 < fp_phi_0 p -> interp_grid (fmod 0 (fp_phi_0 p)) (fp_phi_0 p) (flux_table p) = searched p 0.
  Proof.
    intros p Hp. rewrite fmod_small by lra.
    pose proof (interp_at (flux_table p) (fp_phi_0 p) 0 0 Hp) as X. rewrite table_length in X.
    replace 0 with ((INR 0 + 0) * fp_phi_0 p / INR (50 - 1)) at 1 by (cbn; field). rewrite X by (lia || lra).
    rewrite table_nth by lia. rewrite grid_0. ring.
  Qed.
  (** The cache holds nothing or the table of these parameters. *)
  Definition clean (p : fluxpars) (c : flux_cache) : Prop := fc_ref c = None \/ fc_ref c = Some (flux_table p).
  Lemma minimum_clean : forall p c sig, clean p c -> clean p (snd (minimum_phi p c sig)).
  Proof.
    intros p c sig H. unfold FluxModel.minimum_phi. cbv zeta. destruct (negb _ && _); [exact H|].
    destruct H as [H|H]; rewrite H; cbn [snd]; [right; reflexivity|]. destruct (reqb _ _); [right; exact H|right; reflexivity].
  Qed.
  Lemma minimum_value : forall p c sig, 0 < fp_phi_0 p -> clean p c ->
    fst (minimum_phi p c sig) = interp_grid (fmod sig (fp_phi_0 p)) (fp_phi_0 p) (flux_table p).
  Proof.
    intros p c sig Hp H. unfold FluxModel.minimum_phi. cbv zeta. destruct (negb _ && _) eqn:E.
    - apply andb_true_iff in E. destruct E as [_ E]. apply reqb_spec in E. subst sig. cbn [fst]. symmetry. apply interp_0, Hp.
    - destruct H as [H|H]; rewrite H; [reflexivity|]. destruct (reqb _ _); cbn [fst fc_ref]; [rewrite H|]; reflexivity.
  Qed.
  Lemma run_clean : forall p l c, clean p c -> Forall (fun x => snd (fst x) = p) l -> clean p (flux_run fmin c l).
  Proof.
    intros p l. induction l as [|[[EC p'] f] l IH]; intros c H F; [exact H|]. inversion F as [|x y E F']. subst x y. cbn [fst snd] in E. subst p'.
    cbn [flux_run fold_left fst snd]. apply IH; [|exact F']. destruct f as [s|s|s|d b]; cbn [flux_step].
    - unfold get_frequency. pose proof (minimum_clean p c s H). destruct (minimum_phi p c s). exact H0.
    - unfold get_anharmonicity. pose proof (minimum_clean p c 0 H). destruct (minimum_phi p c 0). exact H0.
    - unfold get_third_order. pose proof (minimum_clean p c 0 H). destruct (minimum_phi p c 0). exact H0.
    - unfold flux_hamiltonian. destruct b; [exact H|]. unfold get_frequency, get_anharmonicity.
      pose proof (minimum_clean p c 0 H). destruct (minimum_phi p c 0) as [x c1]. cbn [snd] in H0. destruct (Nat.ltb 2 d); [|exact H0].
      pose proof (minimum_clean p c1 0 H0). destruct (minimum_phi p c1 0). exact H1.
  Qed.
  (** As long as the parameters stay the same: after any calls of any methods, with any
      signals, the position of the minimum without signal is the one the search finds, at the 49 grid points of a
      period the one it finds at this flux, between two grid points a weighted mean of
      both, and periodic. *)
Theorem C129_minimum :
    forall p l, 0 < fp_phi_0 p -> Forall (fun x => snd (fst x) = p) l ->
    let c := flux_run fmin new_cache l in
    fst (minimum_phi p c 0) = searched p 0
    /\ (forall k, (k < 49)%nat -> fst (minimum_phi p c (INR k * fp_phi_0 p / 49)) = searched p (INR k * fp_phi_0 p / 49))
    /\ (forall sig, fst (minimum_phi p c (sig + fp_phi_0 p)) = fst (minimum_phi p c sig))
    /\ (forall sig, exists k w, (k < 49)%nat /\ 0 <= w < 1
          /\ fmod sig (fp_phi_0 p) = (INR k + w) * (fp_phi_0 p / 49)
          /\ fst (minimum_phi p c sig) = (1 - w) * searched p (INR k * fp_phi_0 p / 49) + w * searched p (INR (S k) * fp_phi_0 p / 49)).
  Proof.
    intros p l Hp F c. assert (C : clean p c) by (apply run_clean; [left; reflexivity|exact F]).
    assert (V := fun sig => minimum_value p c sig Hp C). clearbody c.
    assert (G : forall sig, exists k w, (k < 49)%nat /\ 0 <= w < 1
          /\ fmod sig (fp_phi_0 p) = (INR k + w) * (fp_phi_0 p / 49)
          /\ fst (minimum_phi p c sig) = (1 - w) * searched p (INR k * fp_phi_0 p / 49) + w * searched p (INR (S k) * fp_phi_0 p / 49)).
    { intro sig. destruct (grid_below (fmod sig (fp_phi_0 p)) (fp_phi_0 p) Hp (fmod_range sig _ Hp)) as (k & w & Hk & Hw & E).
      exists k, w. split; [lia|]. split; [exact Hw|]. split.
      - rewrite E. replace (INR 49) with 49 by (rewrite INR_IZR_INZ; reflexivity). field.
      - rewrite V, E. pose proof (interp_at (flux_table p) (fp_phi_0 p) k w Hp) as X. rewrite table_length in X.
        change (50 - 1)%nat with 49%nat in X. rewrite X by (exact Hk || exact Hw).
        rewrite !table_nth by lia. reflexivity. }
    split; [rewrite V; apply interp_0, Hp|]. split; [|split; [|exact G]].
    - intros k Hk. rewrite V. pose proof (interp_at (flux_table p) (fp_phi_0 p) k 0 Hp) as X. rewrite table_length in X.
      change (50 - 1)%nat with 49%nat in X. assert (E49 : INR 49 = 49) by (rewrite INR_IZR_INZ; reflexivity). rewrite E49, Rplus_0_r in X.
      rewrite fmod_small.
      + rewrite X by (lia || lra). rewrite table_nth by lia. unfold flux_grid. ring.
      + pose proof (pos_INR k). assert (INR k < 49) by (rewrite <- E49; apply lt_INR; lia). split; [|nra].
        apply Rmult_le_pos; [nra|lra].
    - intro sig. rewrite !V, fmod_period by exact Hp. reflexivity.
  Qed.

  (** So the Hamiltonian is that of a qubit with the frequency and anharmonicity at the
      minimum found, however often and in whichever order methods were called. *)
Theorem C129_hamiltonian :
    forall n dim a EC p l transform, 0 < fp_phi_0 p -> Forall (fun x => snd (fst x) = p) l ->
    let c := flux_run fmin new_cache l in let x := searched p 0 in
    fst (flux_hamiltonian fmin n dim a EC p c false transform)
    = qubit_hamiltonian n dim (flux_frequency EC p 0 x) (Some (flux_anharmonicity EC p 0 x)) a false transform.
  Proof.
    intros n dim a EC p l transform Hp F c x. assert (C : clean p c) by (apply run_clean; [left; reflexivity|exact F]).
    clearbody c. unfold flux_hamiltonian, get_frequency, get_anharmonicity, qubit_hamiltonian.
    pose proof (minimum_clean p c 0 C) as C1. pose proof (minimum_value p c 0 Hp C) as V1.
    destruct (minimum_phi p c 0) as [x1 c1]. cbn [fst snd] in *. rewrite interp_0 in V1 by exact Hp. subst x1.
    destruct (Nat.ltb 2 dim); [|reflexivity]. pose proof (minimum_value p c1 0 Hp C1) as V2.
    destruct (minimum_phi p c1 0) as [x2 c2]. cbn [fst] in *. rewrite interp_0 in V2 by exact Hp. subst x2. reflexivity.
  Qed.
  (** The values of the other methods at grid points of the flux; the anharmonicity and the third order prefactor use the
      minimum without signal. *)
Theorem C129_methods :
    forall EC p l k, 0 < fp_phi_0 p -> Forall (fun x => snd (fst x) = p) l -> (k < 49)%nat ->
    let c := flux_run fmin new_cache l in let sig := INR k * fp_phi_0 p / 49 in
    fst (get_frequency fmin EC p c sig) = flux_frequency EC p sig (searched p sig)
    /\ (forall sig', fst (get_anharmonicity fmin EC p c sig') = flux_anharmonicity EC p sig' (searched p 0))
    /\ (forall sig', fst (get_third_order fmin EC p c sig') = Rpower (2 * EC / fp_EJ p) (3 / 4) * cshunt_potential p sig' 3 (searched p 0) / 2).
  Proof.
    intros EC p l k Hp F Hk c sig. destruct (C129_minimum p l Hp F) as (M0 & Mk & _). specialize (Mk k Hk). fold c sig in M0, Mk.
    unfold get_frequency, get_anharmonicity, get_third_order.
    destruct (minimum_phi p c sig) as [x c1]. destruct (minimum_phi p c 0) as [x0 c0]. cbn [fst] in *. subst x x0.
    split; [reflexivity|]. split; intro; [reflexivity|]. field.
  Qed.
  (** The table is renewed if the first call after a change of the parameters has a signal, and the calls after
      that are right again. *)
Theorem C129_renewed :
    forall p c sig l, 0 < fp_phi_0 p -> sig <> 0 -> fc_test c <> initial_pot p -> Forall (fun x => snd (fst x) = p) l ->
    let c' := flux_run fmin (snd (minimum_phi p c sig)) l in
    fst (minimum_phi p c' 0) = searched p 0
    /\ forall k, (k < 49)%nat -> fst (minimum_phi p c' (INR k * fp_phi_0 p / 49)) = searched p (INR k * fp_phi_0 p / 49).
  Proof.
    intros p c sig l Hp Hs Hc F c'.
    assert (C : clean p (snd (minimum_phi p c sig))).
    { unfold FluxModel.minimum_phi. cbv zeta. rewrite (proj2 (reqb_false _ _) Hc), (proj2 (reqb_false _ _) Hs). cbn [negb andb snd].
      right. destruct (fc_ref c); reflexivity. }
    assert (C' : clean p c') by (apply run_clean; assumption). clearbody c'.
    split; [rewrite (minimum_value p c' 0 Hp C'); apply interp_0, Hp|]. intros k Hk.
    rewrite (minimum_value p c' _ Hp C'). symmetry. rewrite <- (minimum_value p new_cache _ Hp (or_introl eq_refl)).
    destruct (C129_minimum p [] Hp (Forall_nil _)) as (_ & M & _). symmetry. exact (M k Hk).
  Qed.
  (** With a signal it raises. *)
Theorem C129_signal :
    forall n dim a EC p c transform, flux_hamiltonian fmin n dim a EC p c true transform = (Err NotImplemented, c).
  Proof. reflexivity. Qed.

  (** The search finds the minimum of the potential of [p] at the flux [sig]. *)
  Definition finds (p : fluxpars) (sig : R) : Prop :=
    forall y, cshunt_potential p sig 0 (searched p sig) <= cshunt_potential p sig 0 y.
  Definition angle (p : fluxpars) (sig : R) : R := (fp_phi p + sig) / fp_phi_0 p * 2 * PI.
  Lemma finds_zero : forall p sig, 0 < fp_EJ p -> fp_gamma p = 0 -> finds p sig ->
    cos (searched p sig + angle p sig) = 1 /\ sin (searched p sig + angle p sig) = 0.
  Proof.
    intros p sig HE Hg H. specialize (H (- angle p sig)). cbn [cshunt_potential] in H. cbv zeta in H. rewrite Hg in H.
    fold (angle p sig) in H. replace (- angle p sig + angle p sig) with 0 in H by ring. rewrite cos_0 in H.
    pose proof (COS_bound (searched p sig + angle p sig)) as B.
    assert (E : cos (searched p sig + angle p sig) = 1) by nra. split; [exact E|].
    pose proof (sin2_cos2 (searched p sig + angle p sig)) as S. rewrite E in S. unfold Rsqr in S. nra.
  Qed.
  Lemma at_other : forall p sig p' sig', 0 < fp_EJ p -> fp_gamma p = 0 -> finds p sig ->
    cos (searched p sig + angle p' sig') = cos (angle p' sig' - angle p sig).
  Proof.
    intros p sig p' sig' HE Hg H. destruct (finds_zero p sig HE Hg H) as [E0 E1].
    replace (searched p sig + angle p' sig') with (searched p sig + angle p sig + (angle p' sig' - angle p sig)) by ring.
    rewrite cos_plus, E0, E1. ring.
  Qed.
  (** Without the small junctions' array (gamma = 0) this is a transmon, at any flux: frequency sqrt(8 EJ EC) - EC,
      anharmonicity - EC. *)
Theorem C129_transmon :
    forall EC p sig, 0 < EC -> 0 < fp_EJ p -> fp_gamma p = 0 -> finds p sig ->
    flux_frequency EC p sig (searched p sig) = sqrt (8 * fp_EJ p * EC) - EC
    /\ flux_anharmonicity EC p sig (searched p sig) = - EC.
  Proof.
    intros EC p sig HC HE Hg H. destruct (finds_zero p sig HE Hg H) as [E0 _].
    unfold flux_frequency, flux_anharmonicity. cbn [cshunt_potential]. cbv zeta. fold (angle p sig). rewrite Hg, E0.
    split; [|field; lra].
    assert (A : sqrt (2 * EC / fp_EJ p) * fp_EJ p = sqrt (2 * fp_EJ p * EC)).
    { rewrite <- (sqrt_square (fp_EJ p)) at 2 by lra. rewrite <- sqrt_mult_alt.
      - f_equal. field. lra.
      - apply Rmult_le_pos; [lra|left; apply Rinv_0_lt_compat; exact HE]. }
    assert (B : sqrt (8 * fp_EJ p * EC) = 2 * sqrt (2 * fp_EJ p * EC)).
    { replace (8 * fp_EJ p * EC) with (2 * 2 * (2 * fp_EJ p * EC)) by ring. rewrite sqrt_mult_alt by lra. rewrite sqrt_square by lra. reflexivity. }
    rewrite B, <- A. field. lra.
  Qed.

  (** Finding: the table of minima is not invalidated when a parameter changes.  A model with more than two levels is updated at
      new parameters: the frequency uses the new minimum, the anharmonicity still the old one; updated once more
      without any change, the frequency uses the old one, too. *)
Theorem C129_stale :
    forall n dim a EC p EC' p' transform, (2 < dim)%nat -> 0 < fp_phi_0 p -> 0 < fp_phi_0 p' -> initial_pot p <> initial_pot p' ->
    let c1 := flux_run fmin new_cache [(EC, p, FHam dim false)] in
    let c2 := flux_run fmin c1 [(EC', p', FHam dim false)] in
    let old := searched p 0 in let new := searched p' 0 in
    initial_pot p <> 1312341234 ->
    fst (flux_hamiltonian fmin n dim a EC' p' c1 false transform)
      = qubit_hamiltonian n dim (flux_frequency EC' p' 0 new) (Some (flux_anharmonicity EC' p' 0 old)) a false transform
    /\ fst (flux_hamiltonian fmin n dim a EC' p' c2 false transform)
      = qubit_hamiltonian n dim (flux_frequency EC' p' 0 old) (Some (flux_anharmonicity EC' p' 0 old)) a false transform.
  Proof.
    intros n dim a EC p EC' p' transform Hd Hp Hp' Np c1 c2 old new N0.
    assert (Hd' : Nat.ltb 2 dim = true) by (apply Nat.ltb_lt; exact Hd).
    assert (I : forall q r, 0 < fp_phi_0 q -> 0 < fp_phi_0 r -> interp_grid (fmod 0 (fp_phi_0 q)) (fp_phi_0 q) (flux_table r) = searched r 0).
    { intros q r Hq Hr. rewrite <- (interp_0 r Hr). rewrite !fmod_small by lra. unfold interp_grid, Rdiv. rewrite !Rmult_0_l. reflexivity. }
    assert (E1 : c1 = {| fc_ref := Some (flux_table p); fc_test := initial_pot p |}).
    { unfold c1. cbn [flux_run fold_left flux_step fst snd]. unfold flux_hamiltonian, get_frequency, get_anharmonicity, FluxModel.minimum_phi.
      cbn [new_cache fc_ref fc_test]. rewrite (proj2 (reqb_false _ _)) by auto. rewrite (proj2 (reqb_spec 0 0) eq_refl).
      cbn [negb andb fc_ref fc_test]. rewrite Hd', (proj2 (reqb_spec (initial_pot p) _) eq_refl). reflexivity. }
    assert (E2 : c2 = {| fc_ref := Some (flux_table p); fc_test := initial_pot p' |}).
    { unfold c2. rewrite E1. cbn [flux_run fold_left flux_step fst snd]. unfold flux_hamiltonian, get_frequency, get_anharmonicity, FluxModel.minimum_phi.
      cbn [fc_ref fc_test]. rewrite (proj2 (reqb_false _ _)) by auto. rewrite (proj2 (reqb_spec 0 0) eq_refl).
      cbn [negb andb fc_ref fc_test]. rewrite Hd', (proj2 (reqb_spec (initial_pot p') _) eq_refl). reflexivity. }
    rewrite E1, E2. clear c1 c2 E1 E2.
    unfold flux_hamiltonian, get_frequency, get_anharmonicity, FluxModel.minimum_phi, qubit_hamiltonian.
    cbn [fc_ref fc_test]. rewrite (proj2 (reqb_false (initial_pot p) _)) by auto. rewrite (proj2 (reqb_spec 0 0) eq_refl), (proj2 (reqb_spec (initial_pot p') _) eq_refl).
    cbn [negb andb fc_ref fc_test]. rewrite Hd', (proj2 (reqb_spec (initial_pot p') _) eq_refl). cbn [negb andb fc_ref fc_test fst].
    rewrite !I by assumption. split; reflexivity.
  Qed.

  (** Finding: a change of the parameters that keeps the potential at 0 is not noticed at all; reversing the flux is one. *)
Theorem C129_unnoticed :
    forall n dim a EC p EC' p' transform, (2 < dim)%nat -> 0 < fp_phi_0 p -> 0 < fp_phi_0 p' -> initial_pot p = initial_pot p' ->
    initial_pot p <> 1312341234 ->
    let c1 := flux_run fmin new_cache [(EC, p, FHam dim false)] in let old := searched p 0 in
    fst (flux_hamiltonian fmin n dim a EC' p' c1 false transform)
      = qubit_hamiltonian n dim (flux_frequency EC' p' 0 old) (Some (flux_anharmonicity EC' p' 0 old)) a false transform.
  Proof.
    intros n dim a EC p EC' p' transform Hd Hp Hp' Np N0 c1 old.
    assert (Hd' : Nat.ltb 2 dim = true) by (apply Nat.ltb_lt; exact Hd).
    assert (I : forall q r, 0 < fp_phi_0 q -> 0 < fp_phi_0 r -> interp_grid (fmod 0 (fp_phi_0 q)) (fp_phi_0 q) (flux_table r) = searched r 0).
    { intros q r Hq Hr. rewrite <- (interp_0 r Hr). rewrite !fmod_small by lra. unfold interp_grid, Rdiv. rewrite !Rmult_0_l. reflexivity. }
    assert (E1 : c1 = {| fc_ref := Some (flux_table p); fc_test := initial_pot p |}).
    { unfold c1. cbn [flux_run fold_left flux_step fst snd]. unfold flux_hamiltonian, get_frequency, get_anharmonicity, FluxModel.minimum_phi.
      cbn [new_cache fc_ref fc_test]. rewrite (proj2 (reqb_false _ _)) by auto. rewrite (proj2 (reqb_spec 0 0) eq_refl).
      cbn [negb andb fc_ref fc_test]. rewrite Hd', (proj2 (reqb_spec (initial_pot p) _) eq_refl). reflexivity. }
    rewrite E1. clear c1 E1. rewrite Np.
    unfold flux_hamiltonian, get_frequency, get_anharmonicity, FluxModel.minimum_phi, qubit_hamiltonian.
    cbn [fc_ref fc_test]. rewrite (proj2 (reqb_spec (initial_pot p') _) eq_refl).
    cbn [negb andb fc_ref fc_test]. rewrite Hd', (proj2 (reqb_spec (initial_pot p') _) eq_refl). cbn [negb andb fc_ref fc_test fst].
    rewrite !I by assumption. reflexivity.
  Qed.

  (** Finding: the anharmonicity at a flux signal is taken at the minimum without signal: for gamma = 0, where it is
      the same at every flux, it comes out as - EC cos(2 pi sig / phi_0). *)
Theorem C129_signal_anharmonicity :
    forall EC p sig l, 0 < fp_phi_0 p -> 0 < EC -> 0 < fp_EJ p -> fp_gamma p = 0 -> finds p 0 -> Forall (fun x => snd (fst x) = p) l ->
    fst (get_anharmonicity fmin EC p (flux_run fmin new_cache l) sig) = - EC * cos (2 * PI * sig / fp_phi_0 p).
  Proof.
    intros EC p sig l Hp HC HE Hg H F. unfold get_anharmonicity.
    destruct (C129_minimum p l Hp F) as [V _]. destruct (minimum_phi p _ 0) as [x c]. cbn [fst] in *. subst x.
    unfold flux_anharmonicity. cbn [cshunt_potential]. cbv zeta. fold (angle p sig). rewrite Hg, (at_other p 0 p sig HE Hg H).
    replace (angle p sig - angle p 0) with (2 * PI * sig / fp_phi_0 p) by (unfold angle; field; lra). field. lra.
  Qed.
  Lemma anhar_old : forall EC p p', 0 < fp_EJ p -> fp_gamma p = 0 -> finds p 0 -> 0 < fp_EJ p' -> fp_gamma p' = 0 ->
    flux_anharmonicity EC p' 0 (searched p 0) = - EC * cos (angle p' 0 - angle p 0).
  Proof.
    intros EC p p' HE Hg H HE' Hg'. unfold flux_anharmonicity. cbn [cshunt_potential]. cbv zeta. fold (angle p' 0).
    rewrite Hg', (at_other p 0 p' 0 HE Hg H). field. lra.
  Qed.
End Flux.

Print Assumptions C129_minimum.
Print Assumptions C129_hamiltonian.
Print Assumptions C129_methods.
Print Assumptions C129_renewed.
Print Assumptions C129_signal.
Print Assumptions C129_transmon.
Print Assumptions C129_stale.
Print Assumptions C129_unnoticed.
Print Assumptions C129_signal_anharmonicity.

(** A search that finds the minima of the two potentials used below. *)
Definition two_points (f : R -> R) : R := if Rle_dec (f 0) (f (- (PI / 2))) then 0 else - (PI / 2).
Lemma two_points_finds : forall EJ EL phi_0, 0 < EJ -> 0 < phi_0 ->
  finds two_points {| fp_phi := 0; fp_phi_0 := phi_0; fp_gamma := 0; fp_EJ := EJ; fp_EL := EL |} 0
  /\ finds two_points {| fp_phi := phi_0 / 4; fp_phi_0 := phi_0; fp_gamma := 0; fp_EJ := EJ; fp_EL := EL |} 0.
Proof.
  intros EJ EL phi_0 HJ Hp.
  assert (A0 : (0 + 0) / phi_0 * 2 * PI = 0) by (field; lra).
  assert (A1 : (phi_0 / 4 + 0) / phi_0 * 2 * PI = PI / 2) by (field; lra).
  split; intro y; unfold searched, two_points; cbn [cshunt_potential fp_phi fp_phi_0 fp_gamma fp_EJ]; cbv zeta; rewrite ?A0, ?A1.
  - replace (0 + 0) with 0 by ring. replace (- (PI / 2) + 0) with (- (PI / 2)) by ring. rewrite cos_neg, cos_PI2, cos_0.
    pose proof (COS_bound (y + 0)). destruct (Rle_dec _ _) as [L|L]; [|exfalso; apply L; lra].
    replace (0 + 0) with 0 by ring. rewrite cos_0. nra.
  - replace (0 + PI / 2) with (PI / 2) by ring. replace (- (PI / 2) + PI / 2) with 0 by ring. rewrite cos_PI2, cos_0.
    pose proof (COS_bound (y + PI / 2)). destruct (Rle_dec _ _) as [L|L]; [exfalso; lra|].
    replace (- (PI / 2) + PI / 2) with 0 by ring. rewrite cos_0. nra.
Qed.
(** Finding: the third level is wrong after an update.  A search that always finds the minimum, a quarter flux quantum is
    applied, the model is updated: the energy of the third level is off by the charging energy. *)
Theorem C129_stale_refuted :
  forall EC EJ EL phi_0 : R, 0 < EC -> 0 < EJ -> 0 < phi_0 ->
  exists fmin p p', finds fmin p 0 /\ finds fmin p' 0 /\ fp_EJ p = EJ /\ fp_EJ p' = EJ /\ fp_gamma p = 0 /\ fp_gamma p' = 0
  /\ forall dims k a, (k < length dims)%nat -> ann_oper dims k = Ok a -> (2 < nth k dims 0)%nat ->
     let d := nth k dims 0%nat in
     let f := sqrt (8 * EJ * EC) - EC in
     let before := flux_run fmin new_cache [(EC, p, FHam d false)] in
     exists h h', fst (flux_hamiltonian fmin (prod_dims dims) d (ent a) EC p' new_cache false None) = Ok h
     /\ fst (flux_hamiltonian fmin (prod_dims dims) d (ent a) EC p' before false None) = Ok h'
     /\ forall l, valid dims l -> nth k l 0%nat = 2%nat ->
        h (pos dims l) (pos dims l) = RtoC (2 * f - EC) /\ h' (pos dims l) (pos dims l) = RtoC (2 * f).
Proof.
  intros EC EJ EL phi_0 HC HJ Hp.
  pose (p := {| fp_phi := 0; fp_phi_0 := phi_0; fp_gamma := 0; fp_EJ := EJ; fp_EL := EL |}).
  pose (p' := {| fp_phi := phi_0 / 4; fp_phi_0 := phi_0; fp_gamma := 0; fp_EJ := EJ; fp_EL := EL |}).
  destruct (two_points_finds EJ EL phi_0 HJ Hp) as [F F']. fold p in F. fold p' in F'.
  exists two_points, p, p'. do 2 (split; [assumption|]). do 4 (split; [reflexivity|]).
  intros dims k a Hk Ha Hd d f before.
  assert (A0 : (0 + 0) / phi_0 * 2 * PI = 0) by (field; lra).
  assert (A1 : (phi_0 / 4 + 0) / phi_0 * 2 * PI = PI / 2) by (field; lra).
  assert (P0 : initial_pot p = - EJ).
  { unfold initial_pot, p. cbn [cshunt_potential fp_phi fp_phi_0 fp_gamma fp_EJ]. cbv zeta. rewrite A0. replace (0 + 0) with 0 by ring. rewrite cos_0. ring. }
  assert (P1 : initial_pot p' = 0).
  { unfold initial_pot, p'. cbn [cshunt_potential fp_phi fp_phi_0 fp_gamma fp_EJ]. cbv zeta. rewrite A1. replace (0 + PI / 2) with (PI / 2) by ring. rewrite cos_PI2. ring. }
  destruct (C129_transmon two_points EC p' 0 HC HJ eq_refl F') as [Ef Ea].
  assert (Eo : flux_anharmonicity EC p' 0 (searched two_points p 0) = 0).
  { rewrite (anhar_old two_points EC p p' HJ eq_refl F HJ eq_refl). unfold angle, p, p'. cbn [fp_phi fp_phi_0]. rewrite A0, A1.
    replace (PI / 2 - 0) with (PI / 2) by ring. rewrite cos_PI2. ring. }
  pose proof (C129_hamiltonian two_points (prod_dims dims) d (ent a) EC p' [] None Hp (Forall_nil _)) as H1. cbv zeta in H1. cbn [flux_run fold_left] in H1.
  destruct (C129_stale two_points (prod_dims dims) d (ent a) EC p EC p' None Hd Hp Hp ltac:(rewrite P0, P1; lra) ltac:(rewrite P0; lra)) as [H2 _].
  rewrite Ef in H1, H2. rewrite Ea in H1. rewrite Eo in H2. cbn [fp_EJ p'] in H1, H2.
  destruct (C93_qubit_levels dims k a f (- EC) Hk Ha) as (h & E1 & L1).
  destruct (C93_qubit_levels dims k a f 0 Hk Ha) as (h' & E2 & L2).
  exists h, h'. split; [rewrite H1; exact E1|]. split; [unfold before; rewrite H2; exact E2|].
  intros l Hl E. rewrite (L1 l l Hl Hl), (L2 l l Hl Hl), (proj2 (list_eqb_eq l l) eq_refl), E. unfold level_energy. cbn [INR].
  split; apply C_ext; cbn; field.
Qed.
Print Assumptions C129_stale_refuted.

(** Calls with and without signals in between, at EJ = 18, EC = 1 and a quarter flux quantum: the frequency stays 11 and the
    anharmonicity - 1. *)
Example C129_example :
  let p := {| fp_phi := 1 / 4; fp_phi_0 := 1; fp_gamma := 0; fp_EJ := 18; fp_EL := 0 |} in
  let c := flux_run two_points new_cache [(1, p, FFreq 0); (1, p, FHam 3 false); (1, p, FAnhar (1 / 3)); (1, p, FFreq (5 / 7))] in
  fst (get_frequency two_points 1 p c 0) = 11 /\ fst (get_anharmonicity two_points 1 p c 0) = - 1.
Proof.
  cbv zeta. set (p := {| fp_phi := 1 / 4; fp_phi_0 := 1; fp_gamma := 0; fp_EJ := 18; fp_EL := 0 |}).
  set (l := [(1, p, FFreq 0); (1, p, FHam 3 false); (1, p, FAnhar (1 / 3)); (1, p, FFreq (5 / 7))]).
  assert (F : Forall (fun x => snd (fst x) = p) l) by (unfold l; repeat (constructor; [reflexivity|]); constructor).
  destruct (two_points_finds 18 0 1 ltac:(lra) ltac:(lra)) as [_ W].
  assert (Hp : 0 < fp_phi_0 p) by (cbn; lra).
  destruct (C129_transmon two_points 1 p 0 ltac:(lra) ltac:(cbn; lra) eq_refl W) as [A B].
  destruct (C129_minimum two_points p l Hp F) as (M & _). unfold get_frequency, get_anharmonicity.
  destruct (minimum_phi two_points p _ 0) as [x c]. cbn [fst] in *. subst x. split; [|exact B]. rewrite A. cbn [fp_EJ p].
  replace (8 * 18 * 1) with (12 * 12) by ring. rewrite sqrt_square by lra. ring.
Qed.
Print Assumptions C129_example.
