(** Property C148: constant drives and idling. *)
From Coq Require Import Reals Lra Lia.
From Coquelicot Require Import Complex.
From Verif Require Import Base Mat RSum MExp MExp2 PropModel FoldModel FoldProps ExpModel ExpProps IndepProps SuperProofs
  SplitProps FidModel OpenIndepProps.
Local Open Scope list_scope.
Local Open Scope nat_scope.
Local Notation length := List.length.

(** ** Specification *)
(** Every line keeps its value over the [n] samples. *)
Definition constant_drive (n : nat) (s : dict wave) : Prop :=
  forall k w t, In (k, w) s -> t < n -> nth t (w_values w) 0%R = nth 0 (w_values w) 0%R.
(** No line is driven. *)
Definition idle (n : nat) (s : dict wave) : Prop := forall k w t, In (k, w) s -> t < n -> nth t (w_values w) 0%R = 0%R.
(** [v] is a state of energy [E]. *)
Definition eigenstate (n : nat) (H v : mat) (E : R) : Prop := meq n 1 (mmul n H v) (mscale (RtoC E) v).
(** The mean energy of the state [psi]. *)
Definition mean_energy (n : nat) (H psi : mat) : C := mmul n (madj psi) (mmul n H psi) 0 0.

(** ** Proofs *)
Lemma driven_constant : forall m s n t, constant_drive n s -> t < n -> driven_hamiltonian m s t = driven_hamiltonian m s 0.
Proof.
  intros m s n t C Ht. unfold driven_hamiltonian. f_equal. induction s as [|[k w] s IH]; [reflexivity|]. cbn [fold_right fst snd].
  rewrite (C k w t (or_introl eq_refl) Ht). rewrite IH; [reflexivity|]. intros k' w' t' I. apply (C k' w' t'). right. exact I.
Qed.
Lemma driven_idle : forall m s n d, idle n s -> 0 < n -> meq d d (driven_hamiltonian m s 0) (p_h0 m).
Proof.
  intros m s n d C Hn. unfold driven_hamiltonian.
  match goal with |- meq _ _ (madd _ ?S) _ => assert (Z : meq d d S mzero) end; [|rewrite Z; apply madd_zero_r].
  induction s as [|[k w] s IH]; [reflexivity|]. cbn [fold_right fst snd].
  assert (I : idle n s) by (intros k' w' t' I; apply (C k' w' t'); right; exact I). specialize (IH I).
  rewrite (C k w 0 (or_introl eq_refl) Hn). destruct (dget k (p_hctrls m)) as [h|]; [|exact IH].
  rewrite IH. intros i j _ _. unfold madd, mscale, mzero. ring.
Qed.
Lemma idle_constant : forall n s, idle n s -> constant_drive n s.
Proof. intros n s I k w t Hi Ht. rewrite (I k w t Hi Ht). symmetry. apply (I k w 0 Hi). lia. Qed.

(** ** C148: Under a constant drive the gate is exactly the exponential of the driven
    Hamiltonian over the whole duration: the number of slices does not matter. *)
Theorem C148_exact : forall m s n ts batch r, p_lind m = false -> constant_drive n s -> common_grid s n ts -> 0 < n ->
  pwc_controlled m s (folding_stack n) batch = Ok r ->
  meq (p_dim m) (p_dim m) (pr_U r) (mexp (p_dim m) (mscale (- Ci * RtoC (INR n * first_step ts))%C (driven_hamiltonian m s 0))).
Proof.
  intros m s n ts batch r L C G Hn R. destruct (slices_ordered m s n ts batch r G Hn R) as (T & Ln & D).
  unfold udim in T. rewrite L in *. destruct n as [|n]; [lia|]. apply ordered_repeat.
  replace (repeat _ (S n)) with (pr_dUs r); [exact T|]. apply list_ext; [rewrite repeat_length; exact Ln|].
  intros t Ht. rewrite Ln in Ht. rewrite (D t Ht), (nth_error_repeat _ Ht), (driven_constant m s (S n) t C Ht). reflexivity.
Qed.
Print Assumptions C148_exact.

(** Two samplings of the same constant drive, of the same duration, give the same gate. *)
Theorem C148_resolution : forall m s s' n n' ts ts' batch batch' r r', p_lind m = false ->
  constant_drive n s -> common_grid s n ts -> 0 < n -> constant_drive n' s' -> common_grid s' n' ts' -> 0 < n' ->
  (INR n * first_step ts = INR n' * first_step ts')%R ->
  map (fun kv => (fst kv, nth 0 (w_values (snd kv)) 0%R)) s = map (fun kv => (fst kv, nth 0 (w_values (snd kv)) 0%R)) s' ->
  pwc_controlled m s (folding_stack n) batch = Ok r -> pwc_controlled m s' (folding_stack n') batch' = Ok r' ->
  meq (p_dim m) (p_dim m) (pr_U r) (pr_U r').
Proof.
  intros m s s' n n' ts ts' batch batch' r r' L C G Hn C' G' Hn' Et Es R R'.
  rewrite (C148_exact m s n ts batch r L C G Hn R), (C148_exact m s' n' ts' batch' r' L C' G' Hn' R'), Et.
  replace (driven_hamiltonian m s' 0) with (driven_hamiltonian m s 0); [reflexivity|].
  unfold driven_hamiltonian. f_equal. clear - Es. revert s' Es. induction s as [|[k w] s IH]; intros [|[k' w'] s'] E; try discriminate E; [reflexivity|].
  cbn in E. injection E as -> Ev E. cbn [fold_right fst snd]. rewrite Ev, (IH s' E). reflexivity.
Qed.
Print Assumptions C148_resolution.

(** A state of definite energy of the driven Hamiltonian only collects the phase of its energy. *)
Theorem C148_eigenstates : forall m s n ts batch r v E, p_lind m = false -> constant_drive n s -> common_grid s n ts -> 0 < n ->
  pwc_controlled m s (folding_stack n) batch = Ok r -> eigenstate (p_dim m) (driven_hamiltonian m s 0) v E ->
  meq (p_dim m) 1 (mmul (p_dim m) (pr_U r) v) (mscale (expi (- (E * (INR n * first_step ts)))) v).
Proof.
  intros m s n ts batch r v E L C G Hn R He. set (d := p_dim m) in *. set (T := (INR n * first_step ts)%R).
  transitivity (mmul d (mexp d (mscale (- Ci * RtoC T)%C (driven_hamiltonian m s 0))) v).
  { apply mmul_mor_l. apply (C148_exact m s n ts batch r L C G Hn R). }
  set (B := (fun _ _ => (- Ci * RtoC T * RtoC E)%C) : mat).
  assert (I : meq d 1 (mmul d (mscale (- Ci * RtoC T)%C (driven_hamiltonian m s 0)) v) (mmul 1 v B)).
  { transitivity (mscale (- Ci * RtoC T)%C (mmul d (driven_hamiltonian m s 0) v)); [apply mmul_scale_l|].
    intros i j Hi Hj. unfold mscale at 1. rewrite (He i j Hi Hj). unfold mscale, mmul, B. cbn [csum]. replace j with 0 by lia. ring. }
  transitivity (mmul 1 v (mexp 1 B)); [apply (mexp_intertwine d 1 _ B v I)|].
  assert (D : meq 1 1 (mexp 1 B) (fun i j => if Nat.eqb i j then expi (- (E * T)) else RtoC 0)).
  { apply (mexp_diag 1 B (fun _ => (- (E * T))%R)). intros i j Hi Hj. replace j with i by lia. rewrite Nat.eqb_refl. unfold B.
    rewrite RtoC_opp, RtoC_mult. ring. }
  intros i j Hi Hj. unfold mmul, mscale. cbn [csum]. rewrite D by lia. replace j with 0 by lia. cbn. ring.
Qed.
Print Assumptions C148_eigenstates.

(** The mean energy of every state is conserved. *)
Theorem C148_energy : forall m s n ts batch r psi, p_lind m = false ->
  hermitian (p_dim m) (p_h0 m) -> (forall k h, dget k (p_hctrls m) = Some h -> hermitian (p_dim m) h) ->
  constant_drive n s -> common_grid s n ts -> 0 < n ->
  pwc_controlled m s (folding_stack n) batch = Ok r ->
  mean_energy (p_dim m) (driven_hamiltonian m s 0) (mmul (p_dim m) (pr_U r) psi) = mean_energy (p_dim m) (driven_hamiltonian m s 0) psi.
Proof.
  intros m s n ts batch r psi L H0 Hc C G Hn R.
  pose proof (proj1 (C82_closed_unitary m s _ batch r L H0 Hc R)) as U.
  set (d := p_dim m) in *. set (H := driven_hamiltonian m s 0) in *. set (T := (INR n * first_step ts)%R).
  assert (K : meq d d (mmul d H (pr_U r)) (mmul d (pr_U r) H)).
  { pose proof (C148_exact m s n ts batch r L C G Hn R) as X. fold d H T in X. rewrite X. symmetry. apply mexp_intertwine.
    rewrite mmul_scale_l, mmul_scale_r. reflexivity. }
  assert (Q : meq 1 1 (mmul d (madj (mmul d (pr_U r) psi)) (mmul d H (mmul d (pr_U r) psi))) (mmul d (madj psi) (mmul d H psi))).
  { transitivity (mmul d (mmul d (madj psi) (madj (pr_U r))) (mmul d (pr_U r) (mmul d H psi))).
    - apply mmul_mor; [apply madj_mmul|]. transitivity (mmul d (mmul d H (pr_U r)) psi); [apply mmul_assoc|].
      transitivity (mmul d (mmul d (pr_U r) H) psi); [apply mmul_mor_l, K|symmetry; apply mmul_assoc].
    - transitivity (mmul d (madj psi) (mmul d (madj (pr_U r)) (mmul d (pr_U r) (mmul d H psi)))); [symmetry; apply mmul_assoc|].
      apply mmul_mor_r. transitivity (mmul d (mmul d (madj (pr_U r)) (pr_U r)) (mmul d H psi)); [apply mmul_assoc|].
      transitivity (mmul d mid (mmul d H psi)); [apply mmul_mor_l, U|apply mmul_id_l]. }
  unfold mean_energy. apply Q; lia.
Qed.
Print Assumptions C148_energy.

(** Idling in the dressed frame, where the drift is diagonal: each state collects the phase of its
    energy, and no population changes, whatever the state. *)
Theorem C148_idle : forall m s n ts batch r (E : nat -> R), p_lind m = false -> idle n s -> common_grid s n ts -> 0 < n ->
  meq (p_dim m) (p_dim m) (p_h0 m) (fun i j => if Nat.eqb i j then RtoC (E i) else RtoC 0) ->
  pwc_controlled m s (folding_stack n) batch = Ok r ->
  meq (p_dim m) (p_dim m) (pr_U r) (fun i j => if Nat.eqb i j then expi (- (E i * (INR n * first_step ts))) else RtoC 0)
  /\ forall psi, populations (p_dim m) (mmul (p_dim m) (pr_U r) psi) false = populations (p_dim m) psi false.
Proof.
  intros m s n ts batch r E L I G Hn H0 R. set (d := p_dim m) in *. set (T := (INR n * first_step ts)%R).
  assert (X : meq d d (pr_U r) (fun i j => if Nat.eqb i j then expi (- (E i * T)) else RtoC 0)).
  { pose proof (C148_exact m s n ts batch r L (idle_constant n s I) G Hn R) as X. fold d T in X. rewrite X.
    apply (mexp_diag d _ (fun i => (- (E i * T))%R)). intros i j Hi Hj. unfold mscale.
    rewrite (driven_idle m s n d I Hn i j Hi Hj), (H0 i j Hi Hj). destruct (Nat.eqb i j); [|ring]. rewrite RtoC_opp, RtoC_mult. ring. }
  split; [exact X|]. intro psi. unfold populations. apply map_ext_in. intros i Hi. apply in_seq in Hi. f_equal.
  unfold mmul. rewrite (csum_single d i); [|lia|].
  - rewrite X by lia. rewrite Nat.eqb_refl, Cmod_mult, expi_mod, Rmult_1_l. reflexivity.
  - intros k Hk Nk. rewrite X by lia. destruct (Nat.eqb_spec i k); [congruence|]. ring.
Qed.
Print Assumptions C148_idle.

(** A driven qubit with splitting 2: constant drive 3 over four slices; idling. *)
Definition drive_line (x : R) : dict wave := [("d"%string, {| w_values := [x; x; x; x]; w_ts := [0%R; 1%R; 2%R; 3%R] |})].
Definition split_qubit : pmodel :=
  {| p_dim := 2; p_h0 := sz; p_hctrls := [("d"%string, sx)]; p_lind := false; p_cols := []; p_dims := [2]; p_max_ex := 0 |}.
Example C148_example :
  constant_drive 4 (drive_line 3) /\ idle 4 (drive_line 0) /\ (forall x, common_grid (drive_line x) 4 [0%R; 1%R; 2%R; 3%R])
  /\ hermitian 2 sz /\ hermitian 2 sx
  /\ (forall x, exists r, pwc_controlled split_qubit (drive_line x) (folding_stack 4) None = Ok r)
  /\ meq 2 2 sz (fun i j => if Nat.eqb i j then RtoC (if Nat.eqb i 0 then 1 else -1) else RtoC 0)
  /\ eigenstate 2 (driven_hamiltonian split_qubit (drive_line 0) 0) (fun i _ => if Nat.eqb i 0 then RtoC 1 else RtoC 0) 1.
Proof.
  split; [|split; [|split; [|split; [|split; [|split; [|split]]]]]].
  - intros k w t [H|[]] Ht. injection H as <- <-. destruct t as [|[|[|[|t]]]]; try lia; reflexivity.
  - intros k w t [H|[]] Ht. injection H as <- <-. destruct t as [|[|[|[|t]]]]; try lia; reflexivity.
  - intros x k w [H|[]]. injection H as <- <-. split; reflexivity.
  - intros [|[|i]] [|[|j]] Hi Hj; try lia; apply injective_projections; cbn; ring.
  - intros [|[|i]] [|[|j]] Hi Hj; try lia; apply injective_projections; cbn; ring.
  - intro x. eexists. reflexivity.
  - intros [|[|i]] [|[|j]] Hi Hj; try lia; apply injective_projections; cbn; ring.
  - intros [|[|i]] [|j] Hi Hj; try lia; apply injective_projections; cbn; ring.
Qed.
