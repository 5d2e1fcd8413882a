(** C116: gradient descent, adaptive scan and the combined evolution strategy. *)
From Coq Require Import Reals Lra.
From Verif Require Import Base QuantityModel QuantityProofs PMapModel OptModel OptProps AlgoModel.
Local Open Scope string_scope.
Local Open Scope list_scope.
Local Notation length := List.length.

(** ** Specification *)

(** the value of a numeric option, or its default *)
Definition setting (k : string) (dflt : R) (o : dict oval) (r : R) : Prop :=
  match dget k o with
  | Some (ONum x) => r = x
  | Some (OInt z) => r = IZR z
  | None => r = dflt
  end.

(** [it] is gradient descent with momentum (heavy ball) from [x0]:
    the first step goes down the gradient, every further step also repeats a part of the last one *)
Definition heavy_ball (grad : list R -> option (list R)) (lr mom : R) (x0 : list R) (it : nat -> list R) : Prop :=
  it 0%nat = x0
  /\ (forall k, length (it k) = length x0)
  /\ (forall g i, grad (it 0%nat) = Some g -> i < length x0 ->
        nth i (it 1%nat) 0%R = (nth i (it 0%nat) 0 - lr * nth i g 0)%R)
  /\ (forall k g i, grad (it (S k)) = Some g -> i < length x0 ->
        nth i (it (S (S k))) 0%R
        = (nth i (it (S k)) 0 + mom * (nth i (it (S k)) 0 - nth i (it k) 0) - lr * nth i g 0)%R).

(** a gradient everywhere, of the right length *)
Definition differentiable (n : nat) (grad : list R -> option (list R)) : Prop :=
  forall x, length x = n -> exists g, grad x = Some g /\ length g = n.

(** ** Lemmas *)
Lemma vzip_length : forall f a b, length a = length b -> length (vzip f a b) = length a.
Proof. intros f a b H. unfold vzip. rewrite map_length, combine_length. lia. Qed.

Lemma vzip_nth : forall f a b i, length a = length b -> i < length a ->
  nth i (vzip f a b) 0%R = f (nth i a 0%R) (nth i b 0%R).
Proof.
  intros f a. induction a as [|x a IH]; intros [|y b] i L Hi; cbn [length] in *; try lia; try discriminate.
  destruct i as [|i]; [reflexivity|]. cbn [nth]. change (vzip f (x :: a) (y :: b)) with (f x y :: vzip f a b). cbn [nth]. apply IH; lia.
Qed.

(** the states of the loop *)
Section Loop.
Variable grad : list R -> option (list R).
Variables lr mom : R.

Definition one (s : list R * list R) : list R * list R :=
  match grad (fst s) with
  | Some g => let v := vzip (fun v g => mom * v - lr * g)%R (snd s) g in (vzip Rplus (fst s) v, v)
  | None => s
  end.
Fixpoint iter (k : nat) (s : list R * list R) : list R * list R :=
  match k with O => s | S k' => one (iter k' s) end.
Lemma iter_shift : forall k s, iter k (one s) = one (iter k s).
Proof. induction k as [|k IH]; intro s; cbn [iter]; [reflexivity|]. rewrite IH. reflexivity. Qed.

Lemma one_length : forall n s, differentiable n grad -> length (fst s) = n -> length (snd s) = n ->
  length (fst (one s)) = n /\ length (snd (one s)) = n.
Proof.
  intros n s D H1 H2. unfold one. destruct (D (fst s) H1) as (g & -> & Lg). cbn [fst snd].
  assert (E : length (vzip (fun v g => (mom * v - lr * g)%R) (snd s) g) = n) by (rewrite vzip_length; congruence).
  split; [rewrite vzip_length; congruence|exact E].
Qed.
Lemma iter_length : forall n s k, differentiable n grad -> length (fst s) = n -> length (snd s) = n ->
  length (fst (iter k s)) = n /\ length (snd (iter k s)) = n.
Proof.
  intros n s k D H1 H2. induction k as [|k IH]; cbn [iter]; [auto|]. destruct IH as [A B]. apply (one_length n); assumption.
Qed.

Lemma loop_iter : forall n N x v calls, differentiable n grad -> length x = n -> length v = n ->
  sgd_loop grad N lr mom (x, v, calls)
  = (fst (iter N (x, v)), snd (iter N (x, v)), calls ++ flat_map (fun k => [fst (iter k (x, v)); fst (iter (S k) (x, v))]) (seq 0 N), None).
Proof.
  intros n. induction N as [|N IH]; intros x v calls D Hx Hv; cbn [sgd_loop].
  { cbn. rewrite app_nil_r. reflexivity. }
  unfold sgd_step. destruct (D x Hx) as (g & Eg & Lg). rewrite Eg.
  set (v' := vzip (fun v g => (mom * v - lr * g)%R) v g). set (x' := vzip Rplus x v').
  assert (E : one (x, v) = (x', v')) by (unfold one; cbn [fst snd]; rewrite Eg; reflexivity).
  destruct (one_length n (x, v) D Hx Hv) as [A B]. rewrite E in A, B. cbn [fst snd] in A, B.
  rewrite IH by assumption. rewrite <- E. rewrite iter_shift. cbn [seq flat_map]. rewrite <- seq_shift, !flat_map_concat_map, map_map.
  rewrite <- app_assoc. cbn [iter]. rewrite E. cbn [fst app].
  f_equal. f_equal. f_equal. f_equal. f_equal. f_equal. apply map_ext. intro k. rewrite <- E, !iter_shift. reflexivity.
Qed.
End Loop.

Lemma iter_velocity : forall grad lr mom n s k i, differentiable n grad -> length (fst s) = n -> length (snd s) = n -> i < n ->
  nth i (snd (iter grad lr mom (S k) s)) 0%R
  = (nth i (fst (iter grad lr mom (S k) s)) 0 - nth i (fst (iter grad lr mom k s)) 0)%R.
Proof.
  intros grad lr mom n s k i D H1 H2 Hi. cbn [iter]. destruct (iter_length grad lr mom n s k D H1 H2) as [A B].
  set (t := iter grad lr mom k s) in *. unfold one. destruct (D (fst t) A) as (g & -> & Lg). cbn [fst snd].
  rewrite (vzip_nth Rplus); [lra| |lia]. rewrite vzip_length; congruence.
Qed.

(** The loop of [tf_sgd] is gradient descent with momentum: the point returned is the last
    iterate, and the goal is called at both ends of every step, twice per iteration. *)
Theorem C116_sgd : forall grad x0 o z lr mom,
  differentiable (length x0) grad ->
  dget "maxfun" o = None -> dget "maxiters" o = Some (OInt z) ->
  setting "learning_rate" (1 / 10) o lr -> setting "momentum" (9 / 10) o mom -> (0 <= mom <= 1)%R ->
  exists it, heavy_ball grad lr mom x0 it
  /\ tf_sgd grad x0 o = (Ok (it (Z.to_nat z)), flat_map (fun k => [it k; it (S k)]) (seq 0 (Z.to_nat z)))
  /\ length (snd (tf_sgd grad x0 o)) = (2 * Z.to_nat z)%nat.
Proof.
  intros grad x0 o z lr mom D M I L Mo R.
  set (s := (x0, repeat 0%R (length x0))). exists (fun k => fst (iter grad lr mom k s)).
  assert (H1 : length (fst s) = length x0) by reflexivity.
  assert (H2 : length (snd s) = length x0) by (apply repeat_length).
  assert (E : tf_sgd grad x0 o = (Ok (fst (iter grad lr mom (Z.to_nat z) s)), flat_map (fun k => [fst (iter grad lr mom k s); fst (iter grad lr mom (S k) s)]) (seq 0 (Z.to_nat z)))).
  { unfold tf_sgd. unfold dmem. rewrite M, I. cbn [orange].
    assert (EL : match dget "learning_rate" o with Some v => onum v | None => (1 / 10)%R end = lr).
    { unfold setting in L. destruct (dget "learning_rate" o) as [[r|zz]|]; cbn [onum]; congruence. }
    assert (EM : match dget "momentum" o with Some v => onum v | None => (9 / 10)%R end = mom).
    { unfold setting in Mo. destruct (dget "momentum" o) as [[r|zz]|]; cbn [onum]; congruence. }
    rewrite EL, EM. unfold Rltb. destruct (Rlt_dec mom 0); [lra|]. destruct (Rlt_dec 1 mom); [lra|]. cbn [orb].
    rewrite (loop_iter grad lr mom (length x0)) by assumption. reflexivity. }
  split; [|split; [exact E|]].
  - split; [reflexivity|]. split; [intro k; apply (iter_length grad lr mom (length x0)); assumption|]. split.
    + intros g i Hg Hi. cbn [iter] in *. unfold one. cbn [fst] in Hg |- *. change (fst s) with x0 in *. rewrite Hg. cbn [fst snd].
      destruct (D x0 eq_refl) as (g' & Eg & Lg). rewrite Hg in Eg. injection Eg as <-.
      rewrite vzip_nth; [|rewrite vzip_length; congruence|exact Hi]. rewrite vzip_nth; [|congruence|rewrite H2; exact Hi].
      cbn [snd s]. unfold s. cbn [snd]. rewrite nth_repeat. lra.
    + intros k g i Hg Hi. rewrite <- (iter_velocity grad lr mom (length x0)) by assumption.
      destruct (iter_length grad lr mom (length x0) s (S k) D H1 H2) as [A B].
      remember (iter grad lr mom (S k) s) as t eqn:Et.
      change (iter grad lr mom (S (S k)) s) with (one grad lr mom (iter grad lr mom (S k) s)). rewrite <- Et. unfold one. rewrite Hg. cbn [fst snd].
      destruct (D (fst t) A) as (g' & Eg & Lg). rewrite Hg in Eg. injection Eg as <-.
      rewrite vzip_nth; [|rewrite vzip_length; congruence|lia]. rewrite vzip_nth; [|congruence|lia]. lra.
  - rewrite E. cbn [snd]. clear. generalize (Z.to_nat z) as N. intro N.
    assert (K : forall b, length (flat_map (fun k => [fst (iter grad lr mom k s); fst (iter grad lr mom (S k) s)]) (seq b N)) = 2 * N); [|apply K].
    induction N as [|N IH]; intro b; cbn [seq flat_map]; [reflexivity|]. rewrite app_length, IH. cbn [length]. lia.
Qed.
Print Assumptions C116_sgd.

(** Without valid options nothing is evaluated: "maxfun" is refused even beside "maxiters",
    "maxiters" is required and must be an integer, the momentum must lie in [0, 1]. *)
Theorem C116_sgd_options : forall grad x0 o,
  (dget "maxfun" o <> None -> tf_sgd grad x0 o = (Err KeyError, []))
  /\ (dget "maxiters" o = None -> tf_sgd grad x0 o = (Err KeyError, []))
  /\ (forall v mom, dget "maxfun" o = None -> dget "maxiters" o = Some v -> setting "momentum" (9 / 10) o mom ->
        (mom < 0 \/ 1 < mom)%R -> tf_sgd grad x0 o = (Err ValueError, []))
  /\ (forall r mom, dget "maxfun" o = None -> dget "maxiters" o = Some (ONum r) -> setting "momentum" (9 / 10) o mom ->
        (0 <= mom <= 1)%R -> tf_sgd grad x0 o = (Err TypeError, []))
  /\ (forall z mom, dget "maxfun" o = None -> dget "maxiters" o = Some (OInt z) -> setting "momentum" (9 / 10) o mom ->
        (0 <= mom <= 1)%R -> (0 < z)%Z -> grad x0 = None -> tf_sgd grad x0 o = (Err ValueError, [x0])).
Proof.
  intros grad x0 o. unfold tf_sgd, dmem.
  assert (EM : forall mom, setting "momentum" (9 / 10) o mom -> match dget "momentum" o with Some v => onum v | None => (9 / 10)%R end = mom).
  { intros mom Mo. unfold setting in Mo. destruct (dget "momentum" o) as [[r|zz]|]; cbn [onum]; congruence. }
  split; [intro H; destruct (dget "maxfun" o); [reflexivity|congruence]|].
  split; [intro H; rewrite H; destruct (dget "maxfun" o); reflexivity|].
  split; [|split].
  - intros v mom M I Mo B. rewrite M, I, (EM mom Mo). unfold Rltb. destruct (Rlt_dec mom 0); [reflexivity|]. destruct (Rlt_dec 1 mom); [reflexivity|]. lra.
  - intros r mom M I Mo B. rewrite M, I, (EM mom Mo). unfold Rltb. destruct (Rlt_dec mom 0); [lra|]. destruct (Rlt_dec 1 mom); [lra|]. reflexivity.
  - intros z mom M I Mo B Z0 G. rewrite M, I, (EM mom Mo). unfold Rltb. destruct (Rlt_dec mom 0); [lra|]. destruct (Rlt_dec 1 mom); [lra|].
    cbn [orb orange]. destruct (Z.to_nat z) as [|nn] eqn:En; [lia|]. cbn [sgd_loop sgd_step]. rewrite G. reflexivity.
Qed.
Print Assumptions C116_sgd_options.

(** On a quadratic goal with curvatures [a] and without momentum every coordinate
    shrinks by the factor [1 - lr * a] per iteration; so the default learning rate
    converges from every start if all curvatures lie strictly between 0 and 20. *)
Theorem C116_sgd_quadratic : forall a x0 o z lr,
  length a = length x0 -> dget "maxfun" o = None -> dget "maxiters" o = Some (OInt z) ->
  setting "learning_rate" (1 / 10) o lr -> setting "momentum" (9 / 10) o 0 ->
  exists x, fst (tf_sgd (fun x => Some (vzip Rmult a x)) x0 o) = Ok x
  /\ length x = length x0
  /\ forall i, i < length x0 -> nth i x 0%R = ((1 - lr * nth i a 0) ^ Z.to_nat z * nth i x0 0)%R.
Proof.
  intros a x0 o z lr La M I L Mo. set (grad := fun x => Some (vzip Rmult a x)).
  assert (D : differentiable (length x0) grad) by (intros x Hx; exists (vzip Rmult a x); split; [reflexivity|rewrite vzip_length; congruence]).
  destruct (C116_sgd grad x0 o z lr 0 D M I L Mo ltac:(lra)) as (it & (I0 & IL & I1 & I2) & E & _).
  exists (it (Z.to_nat z)). rewrite E. split; [reflexivity|]. split; [apply IL|]. intros i Hi.
  assert (S1 : forall k, nth i (it (S k)) 0%R = ((1 - lr * nth i a 0) * nth i (it k) 0)%R).
  { intros [|k].
    - rewrite (I1 _ i eq_refl Hi). rewrite vzip_nth; [lra|rewrite IL; congruence|lia].
    - rewrite (I2 k _ i eq_refl Hi). rewrite vzip_nth; [lra|rewrite IL; congruence|lia]. }
  generalize (Z.to_nat z) as N. induction N as [|N IH]; [rewrite I0; cbn [pow]; lra|]. rewrite S1, IH. cbn [pow]. lra.
Qed.
Print Assumptions C116_sgd_quadratic.

Theorem C116_sgd_converges : forall a x0 i eps,
  length a = length x0 -> i < length x0 -> (0 < nth i a 0 < 20)%R -> (0 < eps)%R ->
  exists N, forall z o, (N <= z)%Z -> dget "maxfun" o = None -> dget "maxiters" o = Some (OInt z) ->
  dget "learning_rate" o = None -> setting "momentum" (9 / 10) o 0 ->
  exists x, fst (tf_sgd (fun x => Some (vzip Rmult a x)) x0 o) = Ok x /\ (Rabs (nth i x 0) < eps)%R.
Proof.
  intros a x0 i eps La Hi Ha He. set (q := (1 - 1 / 10 * nth i a 0)%R).
  assert (Q : (Rabs q < 1)%R) by (unfold q; apply Rabs_def1; lra).
  set (c := (Rabs (nth i x0 0) + 1)%R). assert (C : (0 < c)%R) by (unfold c; pose proof (Rabs_pos (nth i x0 0%R)); lra).
  destruct (pow_lt_1_zero q Q (eps / c)) as (N & HN); [apply Rdiv_lt_0_compat; assumption|].
  exists (Z.of_nat N). intros z o Hz M I L Mo.
  destruct (C116_sgd_quadratic a x0 o z (1 / 10) La M I) as (x & E & _ & Hx); [unfold setting; rewrite L; reflexivity|exact Mo|].
  exists x. split; [exact E|]. rewrite (Hx i Hi). fold q. rewrite Rabs_mult.
  specialize (HN (Z.to_nat z) ltac:(lia)). apply Rle_lt_trans with (Rabs (q ^ Z.to_nat z) * c)%R.
  - apply Rmult_le_compat_l; [apply Rabs_pos|]. unfold c. lra.
  - replace eps with (eps / c * c)%R by (field; lra). apply Rmult_lt_compat_r; assumption.
Qed.
Print Assumptions C116_sgd_converges.

(** Finding: the result is the last iterate, reported as a success, not the best point
    evaluated: with goal x^2, a learning rate of two and no momentum it is worse than the start. *)
Theorem C116_last_point_refuted : forall z, (0 < z)%Z ->
  let o := [("maxiters", OInt z); ("learning_rate", OInt 2); ("momentum", OInt 0)] in
  let r := tf_sgd (fun x => Some (vzip Rmult [2%R] x)) [1%R] o in
  exists y, fst r = Ok [y] /\ In [1%R] (snd r) /\ (1 ^ 2 < y ^ 2)%R.
Proof.
  intros z Hz o r.
  destruct (C116_sgd_quadratic [2%R] [1%R] o z 2 eq_refl eq_refl eq_refl) as (x & E & Lx & Hx); [reflexivity|reflexivity|].
  destruct x as [|y [|y' x]]; cbn in Lx; try discriminate. exists y. split; [exact E|].
  assert (D : differentiable 1 (fun x => Some (vzip Rmult [2%R] x))) by (intros x Hl; exists (vzip Rmult [2%R] x); split; [reflexivity|rewrite vzip_length; [reflexivity|symmetry; exact Hl]]).
  destruct (C116_sgd _ [1%R] o z 2 0 D eq_refl eq_refl) as (it & (I0 & _) & E2 & _); [reflexivity|reflexivity|lra|].
  split.
  - unfold r. rewrite E2. cbn [snd]. destruct (Z.to_nat z) as [|n] eqn:En; [lia|]. cbn [seq flat_map app]. left. exact I0.
  - specialize (Hx 0%nat ltac:(cbn; lia)). cbn [nth] in Hx. rewrite Hx, Rmult_1_r, <- !pow_mult, pow1. rewrite Nat.mul_comm, pow_mult.
    replace ((1 - 2 * 2) ^ 2)%R with 9%R by lra. apply Rlt_pow_R1; [lra|lia].
Qed.
Print Assumptions C116_last_point_refuted.

(** ** Adaptive scan *)
Lemma fold_lower : forall r p, (fold_left lower r p = p \/ In (fold_left lower r p) r) /\ (fold_left lower r p <= p)%R
  /\ (forall x, In x r -> fold_left lower r p <= x)%R.
Proof.
  induction r as [|y r IH]; intros p; cbn [fold_left In]; [split; [auto|split; [lra|tauto]]|].
  destruct (IH (lower p y)) as (A & B & C).
  assert (K : (lower p y <= p)%R /\ (lower p y <= y)%R /\ (lower p y = p \/ lower p y = y)) by (unfold lower, Rltb; destruct (Rlt_dec y p); lra).
  destruct K as (K1 & K2 & K3). split; [|split; [lra|]].
  - destruct A as [A|A]; [|right; right; exact A]. rewrite A. destruct K3 as [K3|K3]; [left; exact K3|right; left; symmetry; exact K3].
  - intros x [<-|H]; [lra|apply C, H].
Qed.
Lemma fold_upper : forall r p, (fold_left upper r p = p \/ In (fold_left upper r p) r) /\ (p <= fold_left upper r p)%R
  /\ (forall x, In x r -> x <= fold_left upper r p)%R.
Proof.
  induction r as [|y r IH]; intros p; cbn [fold_left In]; [split; [auto|split; [lra|tauto]]|].
  destruct (IH (upper p y)) as (A & B & C).
  assert (K : (p <= upper p y)%R /\ (y <= upper p y)%R /\ (upper p y = p \/ upper p y = y)) by (unfold upper, Rltb; destruct (Rlt_dec p y); lra).
  destruct K as (K1 & K2 & K3). split; [|split; [lra|]].
  - destruct A as [A|A]; [|right; right; exact A]. rewrite A. destruct K3 as [K3|K3]; [left; exact K3|right; left; symmetry; exact K3].
  - intros x [<-|H]; [lra|apply C, H].
Qed.

(** the probe points the options ask for: the texts read as numbers, then the initial point *)
Definition probes_of (literal : string -> result R) (x0 : R) (o : ascan_options) (ps : list R) : Prop :=
  exists texts xs,
    match as_probes o with Some l => l | None => [] end = map PText texts
    /\ length xs = length texts
    /\ (forall i, i < length texts -> literal (nth i texts "") = Ok (nth i xs 0%R))
    /\ ps = xs ++ (match as_init o with Some true => [x0] | _ => [] end).

Lemma read_probes_ok : forall literal l xs, read_probes literal l = Ok xs <->
  exists texts, l = map PText texts /\ length xs = length texts /\ (forall i, i < length texts -> literal (nth i texts "") = Ok (nth i xs 0%R)).
Proof.
  intros literal. induction l as [|[s|r] l IH]; intros xs; cbn [read_probes].
  - split; [intro E; injection E as <-; exists []; split; [reflexivity|split; [reflexivity|cbn; lia]]|].
    intros ([|t texts] & E & L & _); [|discriminate]. destruct xs; [reflexivity|discriminate].
  - destruct (literal s) as [x|e] eqn:El; cbn [rbind].
    + destruct (read_probes literal l) as [ys|e] eqn:Er; cbn [rbind].
      * split.
        -- intro E. injection E as <-. destruct (proj1 (IH ys) eq_refl) as (texts & -> & L & H). exists (s :: texts). split; [reflexivity|]. split; [cbn; lia|].
           intros [|i] Hi; [exact El|]. cbn [nth]. apply H. cbn in Hi. lia.
        -- intros ([|t texts] & E & L & H); [discriminate|]. cbn [map] in E. injection E as Et El2. subst t. destruct xs as [|y xs]; [discriminate|].
           pose proof (H 0%nat ltac:(cbn; lia)) as H0. cbn [nth] in H0. rewrite El in H0. injection H0 as H0. subst y. f_equal. f_equal.
           assert (K : Ok ys = Ok xs); [|injection K as K; exact K]. apply IH. exists texts. split; [exact El2|]. split; [cbn in L; lia|].
           intros i Hi. apply (H (S i)). cbn. lia.
      * split; [discriminate|]. intros ([|t texts] & E & L & H); [discriminate|]. cbn [map] in E. injection E as Et El2. destruct xs as [|y xs]; [discriminate|].
        assert (K : Err e = Ok xs); [|discriminate]. apply IH. exists texts. split; [exact El2|]. split; [cbn in L; lia|]. intros i Hi. apply (H (S i)). cbn. lia.
    + split; [discriminate|]. intros ([|t texts] & E & L & H); [discriminate|]. cbn [map] in E. injection E as Et El2. subst t.
      specialize (H 0%nat ltac:(cbn; lia)). cbn [nth] in H. congruence.
  - split; [discriminate|]. intros ([|t texts] & E & _); discriminate.
Qed.

(** The scan calls the goal first at every probe point, in order, then at the points the sampling
    library asks for, knowing all before.  Its interval is the smallest one around the bounds and all
    probe points. *)
Theorem C116_scan : forall literal next fuel x0 o iv calls done,
  fst (adaptive_scan literal next fuel x0 o) = Ok (iv, calls, done) ->
  exists b rest ps asked,
    as_bounds o = Some (b :: rest) /\ probes_of literal x0 o ps /\ ps <> []
    /\ calls = ps ++ asked
    /\ (forall i, i < length asked -> next iv (ps ++ firstn i asked) = Some (nth i asked 0%R))
    /\ (done = true -> next iv calls = None)
    /\ (done = false -> length asked = fuel)
    /\ (forall x, In x (fst b :: ps) -> fst iv <= x)%R /\ (In (fst iv) (fst b :: ps))
    /\ (forall x, In x (snd b :: ps) -> x <= snd iv)%R /\ (In (snd iv) (snd b :: ps)).
Proof.
  intros literal next fuel x0 o iv calls done H. unfold adaptive_scan in H.
  destruct (read_probes literal _) as [xs|e] eqn:Er; [|discriminate].
  destruct (as_bounds o) as [[|[lo hi] rest]|] eqn:Eb; try discriminate.
  set (ps := match as_init o with Some true => xs ++ [x0] | _ => xs end) in *.
  assert (Hps : probes_of literal x0 o ps).
  { destruct (proj1 (read_probes_ok literal _ xs) Er) as (texts & E & L & Hl). exists texts, xs. split; [exact E|]. split; [exact L|]. split; [exact Hl|].
    unfold ps. destruct (as_init o) as [[|]|]; [reflexivity|symmetry; apply app_nil_r|symmetry; apply app_nil_r]. }
  clearbody ps. destruct ps as [|p r]; [discriminate|]. cbn [fst] in H. remember (p :: r) as pr eqn:Epr. injection H as <- Hc Hd.
  assert (K : forall told, exists asked, fst (learn next fuel (lower lo (fold_left lower r p), upper hi (fold_left upper r p)) told) = told ++ asked
     /\ (forall i, i < length asked -> next (lower lo (fold_left lower r p), upper hi (fold_left upper r p)) (told ++ firstn i asked) = Some (nth i asked 0%R))
     /\ (snd (learn next fuel (lower lo (fold_left lower r p), upper hi (fold_left upper r p)) told) = true ->
         next (lower lo (fold_left lower r p), upper hi (fold_left upper r p)) (told ++ asked) = None)
     /\ (snd (learn next fuel (lower lo (fold_left lower r p), upper hi (fold_left upper r p)) told) = false -> length asked = fuel)).
  { clear. set (iv := (lower lo _, upper hi _)). induction fuel as [|f IH]; intro told; cbn [learn].
    - exists []. rewrite app_nil_r. split; [reflexivity|]. split; [cbn; lia|]. split; [discriminate|reflexivity].
    - destruct (next iv told) as [x|] eqn:En.
      + destruct (IH (told ++ [x])) as (asked & A & B & C & D). exists (x :: asked). rewrite A, <- app_assoc. split; [reflexivity|]. split; [|split].
        * intros [|i] Hi; [cbn [firstn nth]; rewrite app_nil_r; exact En|]. cbn [firstn nth]. rewrite <- (B i) by (cbn in Hi; lia). rewrite <- app_assoc. reflexivity.
        * intro Hd. rewrite <- C by exact Hd. rewrite <- app_assoc. reflexivity.
        * intro Hd. cbn [length]. rewrite D by exact Hd. reflexivity.
      + exists []. rewrite app_nil_r. split; [reflexivity|]. split; [cbn; lia|]. split; [intros _; exact En|discriminate]. }
  destruct (K pr) as (asked & A & B & C & D). exists (lo, hi), rest, pr, asked.
  split; [reflexivity|]. split; [exact Hps|]. split; [subst pr; discriminate|]. rewrite <- Hc, <- Hd, A.
  split; [reflexivity|]. split; [exact B|]. split; [exact C|]. split; [exact D|]. cbn [fst snd].
  destruct (fold_lower r p) as (A1 & A2 & A3). destruct (fold_upper r p) as (B1 & B2 & B3). subst pr.
  assert (L1 : forall m, (lower lo m <= lo)%R /\ (lower lo m <= m)%R /\ (lower lo m = lo \/ lower lo m = m)) by (intro m; unfold lower, Rltb; destruct (Rlt_dec m lo); lra).
  assert (L2 : forall m, (hi <= upper hi m)%R /\ (m <= upper hi m)%R /\ (upper hi m = hi \/ upper hi m = m)) by (intro m; unfold upper, Rltb; destruct (Rlt_dec hi m); lra).
  specialize (L1 (fold_left lower r p)). specialize (L2 (fold_left upper r p)).
  destruct L1 as (L1 & L1' & L1''), L2 as (L2 & L2' & L2'').
  split; [|split; [|split]].
  - intros x [<-|[<-|Hx]]; [lra|lra|specialize (A3 x Hx); lra].
  - destruct L1'' as [->| ->]; [left; reflexivity|right]. destruct A1 as [-> |A1]; [left; reflexivity|right; exact A1].
  - intros x [<-|[<-|Hx]]; [lra|lra|specialize (B3 x Hx); lra].
  - destruct L2'' as [->| ->]; [left; reflexivity|right]. destruct B1 as [-> |B1]; [left; reflexivity|right; exact B1].
Qed.
Print Assumptions C116_scan.

(** So a library that only asks inside its interval never leaves the hull of bounds and probes. *)
Theorem C116_scan_inside : forall literal next fuel x0 o iv calls done lo hi,
  fst (adaptive_scan literal next fuel x0 o) = Ok (iv, calls, done) ->
  (forall iv told x, next iv told = Some x -> fst iv <= x <= snd iv)%R ->
  (forall b rest ps, as_bounds o = Some (b :: rest) -> probes_of literal x0 o ps -> (lo <= fst b /\ snd b <= hi /\ forall p, In p ps -> lo <= p <= hi)%R) ->
  forall x, In x calls -> (lo <= x <= hi)%R.
Proof.
  intros literal next fuel x0 o iv calls done lo hi H Hn Hb x Hx.
  destruct (C116_scan _ _ _ _ _ _ _ _ H) as (b & rest & ps & asked & Eb & Hps & _ & -> & Ha & _ & _ & _ & I1 & _ & I2).
  destruct (Hb b rest ps Eb Hps) as (B1 & B2 & B4). apply in_app_iff in Hx. destruct Hx as [Hx|Hx]; [apply B4, Hx|].
  destruct (In_nth asked x 0%R Hx) as (i & Hi & Ei). specialize (Ha i Hi). rewrite Ei in Ha. apply Hn in Ha.
  assert (lo <= fst iv)%R by (destruct I1 as [<-|I1]; [exact B1|apply B4, I1]).
  assert (snd iv <= hi)%R by (destruct I2 as [<-|I2]; [exact B2|apply B4, I2]). lra.
Qed.
Print Assumptions C116_scan_inside.

(** Finding: a scan with nothing but bounds (no probe, initial point not asked for) raises
    ValueError: the minimum of an empty list is taken. *)
Theorem C116_scan_without_probes_refuted : forall literal next fuel x0 b rest i,
  i <> Some true ->
  adaptive_scan literal next fuel x0 (mkAS None i (Some (b :: rest))) = (Err ValueError, mkAS None None (Some (b :: rest)))
  /\ adaptive_scan literal next fuel x0 (mkAS (Some []) i (Some (b :: rest))) = (Err ValueError, mkAS (Some []) None (Some (b :: rest))).
Proof.
  intros literal next fuel x0 [lo hi] rest i Hi. unfold adaptive_scan. cbn [as_probes as_init as_bounds read_probes].
  destruct i as [[|]|]; [congruence| |]; split; reflexivity.
Qed.
Print Assumptions C116_scan_without_probes_refuted.

(** Finding: running the same options twice does not scan the same points: the first run removes
    "init_point", so with no other probes the second raises ValueError. *)
Theorem C116_scan_twice_refuted : forall literal next fuel x0 b rest,
  exists r o', adaptive_scan literal next fuel x0 (mkAS None (Some true) (Some (b :: rest))) = (Ok r, o')
  /\ fst (adaptive_scan literal next fuel x0 o') = Err ValueError.
Proof.
  intros literal next fuel x0 [lo hi] rest. unfold adaptive_scan. cbn [as_probes as_init as_bounds read_probes app fold_left].
  eexists. eexists. split; [reflexivity|]. reflexivity.
Qed.
Print Assumptions C116_scan_twice_refuted.

(** Finding: probe points given as numbers, as for [sweep], are refused; they must be texts. *)
Theorem C116_scan_numbers_refuted : forall literal next fuel x0 i b (texts : list string) r rest,
  (forall s, In s texts -> is_ok (literal s) = true) ->
  fst (adaptive_scan literal next fuel x0 (mkAS (Some (map PText texts ++ PNumber r :: rest)) i b)) = Err ValueError.
Proof.
  intros literal next fuel x0 i b texts r rest H. unfold adaptive_scan. cbn [as_probes].
  assert (E : read_probes literal (map PText texts ++ PNumber r :: rest) = Err ValueError); [|rewrite E; reflexivity].
  induction texts as [|s texts IH]; [reflexivity|]. cbn [map app read_probes].
  pose proof (H s (or_introl eq_refl)) as Hs. destruct (literal s); [|discriminate]. cbn [rbind]. rewrite IH; [reflexivity|]. intros t Ht. apply H. right. exact Ht.
Qed.
Print Assumptions C116_scan_numbers_refuted.

(** The exact errors of the bounds, raised before any evaluation. *)
Theorem C116_scan_bounds : forall literal next fuel x0 o ps, probes_of literal x0 o ps ->
  (as_bounds o = None -> fst (adaptive_scan literal next fuel x0 o) = Err KeyError)
  /\ (as_bounds o = Some [] -> fst (adaptive_scan literal next fuel x0 o) = Err IndexError)
  /\ (forall b rest, as_bounds o = Some (b :: rest) -> ps <> [] -> is_ok (fst (adaptive_scan literal next fuel x0 o)) = true).
Proof.
  intros literal next fuel x0 o ps (texts & xs & E & L & H & Ep). unfold adaptive_scan.
  assert (R : read_probes literal (match as_probes o with Some l => l | None => [] end) = Ok xs) by (apply read_probes_ok; exists texts; auto).
  rewrite R. split; [intros ->; reflexivity|]. split; [intros ->; reflexivity|]. intros [lo hi] rest -> Hp.
  assert (Eq : match as_init o with Some true => xs ++ [x0] | _ => xs end = ps) by (rewrite Ep; destruct (as_init o) as [[|]|]; [reflexivity|symmetry; apply app_nil_r|symmetry; apply app_nil_r]).
  rewrite Eq. destruct ps; [congruence|reflexivity].
Qed.
Print Assumptions C116_scan_bounds.

(** ** The evolution strategy with refined samples *)
Section Refined.
Variable es_stop : list (list (list R * R)) -> bool.
Variable es_sigma : list (list (list R * R)) -> R.
Variable es_ask : list (list (list R * R)) -> list (list R).
Variable local : list R -> list R * R.

Lemma gcma_spec : forall fuel o x0 iter sigmas hist hist' stop,
  length hist = iter ->
  (co_conv o <> None -> sigmas = map (fun k => es_sigma (firstn k hist)) (rev (seq 0 iter))) ->
  (forall k, k < iter -> ~ custom_stop es_sigma o k hist) ->
  (forall k, k < iter -> nth k hist [] = map local (generation es_ask o x0 k hist)) ->
  gcma_loop es_stop es_sigma es_ask local fuel true o x0 iter sigmas hist = (hist', stop) -> stop <> StopFuel ->
  (forall k, k < length hist' -> ~ custom_stop es_sigma o k hist')
  /\ (forall k, k < length hist' -> nth k hist' [] = map local (generation es_ask o x0 k hist'))
  /\ ((stop = StopEs /\ es_stop hist' = true)
      \/ (es_stop hist' = false /\ custom_stop es_sigma o (length hist') hist' /\ (stop = StopShrunk \/ stop = StopSigma))).
Proof.
  induction fuel as [|fuel IH]; intros o x0 iter sigmas hist hist' stop HL Hsg Hno Hgen H Hst; cbn [gcma_loop] in H.
  { injection H as <- <-. congruence. }
  destruct (es_stop hist) eqn:Es.
  { injection H as <- <-. rewrite HL. split; [exact Hno|]. split; [exact Hgen|]. left. auto. }
  assert (Fn : firstn iter hist = hist) by (rewrite <- HL; apply firstn_all).
  set (sigmas' := match co_conv o with Some _ => es_sigma hist :: sigmas | None => sigmas end) in *.
  assert (Hsg' : co_conv o <> None -> sigmas' = map (fun k => es_sigma (firstn k hist)) (rev (seq 0 (S iter)))).
  { intro Hc. unfold sigmas'. destruct (co_conv o); [|congruence]. rewrite (Hsg Hc), seq_S, rev_app_distr. cbn [rev app map Nat.add]. rewrite Fn. reflexivity. }
  assert (Hshr : exists b, match co_conv o with Some c => if Nat.ltb c iter then all_shrunk (c - 1) sigmas' else Ok false | None => Ok false end = Ok b
                 /\ (b = true <-> exists c, co_conv o = Some c /\ c < iter /\ shrunk es_sigma c iter hist)).
  { destruct (co_conv o) as [c|] eqn:Ec; [|exists false; split; [reflexivity|split; [discriminate|intros (c & C & _); discriminate]]].
    destruct (Nat.ltb_spec c iter) as [Lc|Lc].
    - rewrite Hsg' by congruence. destruct (all_shrunk_spec (fun k => es_sigma (firstn k hist)) (c - 1) iter ltac:(lia)) as (b & -> & Hb). exists b. split; [reflexivity|].
      rewrite Hb. split; [intro Hall; exists c; split; [reflexivity|split; [exact Lc|exact Hall]]|]. intros (c' & E & _ & Hall). injection E as <-. exact Hall.
    - exists false. split; [reflexivity|]. split; [discriminate|]. intros (c' & E & L & _). injection E as <-. lia. }
  destruct Hshr as (b & Eb & Hb). rewrite Eb in H. destruct b.
  { injection H as <- <-. rewrite HL. split; [exact Hno|]. split; [exact Hgen|]. right. split; [exact Es|]. split; [left; apply Hb; reflexivity|auto]. }
  destruct (match co_sigma o with Some s => Rltb (es_sigma hist) (py_int s) | None => false end) eqn:Esg.
  { injection H as <- <-. rewrite HL. split; [exact Hno|]. split; [exact Hgen|]. right. split; [exact Es|]. split; [|auto]. right.
    destruct (co_sigma o) as [s|]; [|discriminate]. exists s. split; [reflexivity|]. rewrite Fn. apply Rltb_true, Esg. }
  assert (Pref : forall g k, k <= iter -> firstn k (hist ++ [g]) = firstn k hist).
  { intros g k Hk. rewrite firstn_app, HL. replace (k - iter) with 0 by lia. cbn [firstn]. apply app_nil_r. }
  assert (CS : forall g k, k <= iter -> custom_stop es_sigma o k (hist ++ [g]) -> custom_stop es_sigma o k hist).
  { intros g k Hk [(c & E & L & S)|(s & E & L)]; [left; exists c; split; [exact E|split; [exact L|]]|right; exists s; split; [exact E|]].
    - intros i Hi. specialize (S i Hi). rewrite !Pref in S by lia. exact S.
    - rewrite Pref in L by lia. exact L. }
  assert (Rf : forall l, refine local true l = Ok (map local l)) by (intros [|? ?]; reflexivity).
  rewrite Rf in H. eapply IH in H; [exact H| | | | |exact Hst].
  - rewrite app_length. cbn. lia.
  - intro Hc. rewrite (Hsg' Hc). apply map_ext_in. intros k Hk. apply in_rev, in_seq in Hk. rewrite Pref by lia. reflexivity.
  - intros k Hk C. apply CS in C; [|lia]. destruct (Nat.eq_dec k iter) as [->|N]; [|apply (Hno k); [lia|exact C]].
    destruct C as [C|(s & E & L)]; [apply Hb in C; discriminate|]. rewrite E in Esg. rewrite Fn in L. apply Rltb_true in L. congruence.
  - intros k Hk. assert (GE : forall g, generation es_ask o x0 k (hist ++ [g]) = generation es_ask o x0 k hist) by (intro g; unfold generation; rewrite Pref by lia; reflexivity).
    rewrite GE. destruct (Nat.eq_dec k iter) as [->|N]; [|rewrite app_nth1 by lia; apply Hgen; lia].
    rewrite app_nth2 by lia. rewrite HL, Nat.sub_diag. cbn [nth]. unfold generation. rewrite Fn. f_equal.
    destruct (co_init o); cbn [andb]; [destruct (Nat.eqb iter 0); reflexivity|reflexivity].
Qed.
End Refined.

(** Every generation told to the strategy consists of the results (point and value) of the local
    optimisation from the samples asked for, in order, the first preceded by the initial point if
    requested; the loop stops exactly where [cmaes] would. *)
Theorem C116_gcmaes : forall es_stop es_sigma es_ask local fuel o x0 hist stop,
  gcmaes es_stop es_sigma es_ask local fuel (Some o) true x0 = (hist, stop) -> stop <> StopFuel ->
  (forall k, k < length hist -> ~ custom_stop es_sigma o k hist)
  /\ (forall k, k < length hist -> nth k hist [] = map local (generation es_ask o x0 k hist))
  /\ ((stop = StopEs /\ es_stop hist = true)
      \/ (es_stop hist = false /\ custom_stop es_sigma o (length hist) hist /\ (stop = StopShrunk \/ stop = StopSigma))).
Proof.
  intros es_stop es_sigma es_ask local fuel o x0 hist stop H Hs. unfold gcmaes in H.
  apply (gcma_spec es_stop es_sigma es_ask local fuel o x0 0 [] [] hist stop); [reflexivity| | | |exact H|exact Hs].
  - intros _. reflexivity.
  - intros k Hk. inversion Hk.
  - intros k Hk. inversion Hk.
Qed.
Print Assumptions C116_gcmaes.

(** If the local optimisation does nothing, this is [cmaes]. *)
Theorem C116_gcmaes_is_cmaes : forall es_stop es_sigma es_ask func fuel o x0,
  gcmaes es_stop es_sigma es_ask (fun x => (x, func x)) fuel (Some o) true x0
  = (let '(h, _, s) := cma_loop es_stop es_sigma es_ask func fuel o x0 0 [] [] in (h, s)).
Proof.
  intros es_stop es_sigma es_ask func fuel o x0. unfold gcmaes. generalize 0 as it. generalize (@nil R) as sg. generalize (@nil (list (list R * R))) as h.
  induction fuel as [|fuel IH]; intros h sg it; cbn [gcma_loop cma_loop]; [reflexivity|].
  destruct (es_stop h); [reflexivity|]. destruct (match co_conv o with Some c => _ | None => _ end) as [[|]|e]; [reflexivity| |reflexivity].
  destruct (match co_sigma o with Some s => _ | None => _ end); [reflexivity|].
  assert (Rf : forall l, refine (fun x => (x, func x)) true l = Ok (map (fun x => (x, func x)) l)) by (intros [|? ?]; reflexivity).
  rewrite Rf, IH. reflexivity.
Qed.
Print Assumptions C116_gcmaes_is_cmaes.

(** Both groups of options are required; without "lbfgs" the run breaks at its first sample. *)
Theorem C116_gcmaes_options : forall es_stop es_sigma es_ask local fuel x0,
  (forall b, gcmaes es_stop es_sigma es_ask local fuel None b x0 = ([], StopError KeyError))
  /\ (forall init, es_stop [] = false -> es_ask [] <> [] ->
        gcmaes es_stop es_sigma es_ask local (S fuel) (Some (mkCO None None init)) false x0 = ([], StopError KeyError)).
Proof.
  intros es_stop es_sigma es_ask local fuel x0. split; [reflexivity|]. intros init Es Ha. unfold gcmaes. cbn [gcma_loop co_conv co_sigma co_init]. rewrite Es.
  destruct (es_ask []) as [|a l]; [congruence|]. destruct init; cbn [andb Nat.eqb refine]; reflexivity.
Qed.
Print Assumptions C116_gcmaes_options.

Example C116_example :
  fst (tf_sgd (fun x => Some (vzip Rmult [2; 4]%R x)) [1; 3]%R [("maxiters", OInt 0)]) = Ok [1; 3]%R
  /\ setting "momentum" (9 / 10) [("momentum", ONum 0%R)] 0
  /\ probes_of (fun _ => Ok 1%R) 5 (mkAS (Some [PText "1"]) (Some true) None) [1; 5]%R.
Proof.
  split; [|split].
  - unfold tf_sgd. cbn [dmem dget String.eqb Ascii.eqb Bool.eqb]. unfold Rltb. destruct (Rlt_dec _ _); [lra|]. destruct (Rlt_dec _ _); [lra|]. reflexivity.
  - reflexivity.
  - exists ["1"], [1%R]. split; [reflexivity|]. split; [reflexivity|]. split; [intros [|i] Hi; [reflexivity|cbn in Hi; lia]|reflexivity].
Qed.
