(** Properties C30 to C33: gate embedding, excitation cut-off, computational
    projection and frame rotation. *)
From Verif Require Import Base Mat MExp HilbertModel HilbertProofs HilbertProps Hilbert2Proofs.
Local Open Scope list_scope.
Local Open Scope nat_scope.
Local Notation length := List.length.

(** ** C30.  [restrict l ts] reads the levels of the targets, in the order in
    which the targets are given. *)
Theorem C30_embedded_gate :
  forall dims ts M l l',
  NoDup ts -> (forall t, In t ts -> t < length dims) -> valid dims l -> valid dims l' ->
  ((forall q, q < length dims -> ~ In q ts -> nth q l 0 = nth q l' 0) ->
     insert_mat_kron dims ts M (pos dims l) (pos dims l')
     = M (pos (restrict dims ts) (restrict l ts)) (pos (restrict dims ts) (restrict l' ts)))
  /\ ((exists q, q < length dims /\ ~ In q ts /\ nth q l 0 <> nth q l' 0) ->
     insert_mat_kron dims ts M (pos dims l) (pos dims l') = RtoC 0).
Proof. exact insert_entry. Qed.
Print Assumptions C30_embedded_gate.

Lemma outside_dec : forall (dims ts l l' : list nat),
  (forall q, q < length dims -> ~ In q ts -> nth q l 0 = nth q l' 0)
  \/ (exists q, q < length dims /\ ~ In q ts /\ nth q l 0 <> nth q l' 0).
Proof.
  intros dims ts l l'.
  destruct (differ_dec (length dims) l l' (fun q => if in_dec Nat.eq_dec q ts then false else true)) as [H|(q & Hq & P & D)].
  - left. intros q Hq Hi. apply H; auto. destruct (in_dec Nat.eq_dec q ts); auto; contradiction.
  - right. exists q. split; auto. split; auto. destruct (in_dec Nat.eq_dec q ts); auto; discriminate.
Qed.

Theorem C30_embedding_algebra :
  forall dims ts A B, NoDup ts -> (forall t, In t ts -> t < length dims) ->
  let N := prod_dims dims in
  let m := prod_dims (restrict dims ts) in
  meq N N (insert_mat_kron dims ts (mmul m A B)) (mmul N (insert_mat_kron dims ts A) (insert_mat_kron dims ts B))
  /\ meq N N (insert_mat_kron dims ts (madj A)) (madj (insert_mat_kron dims ts A))
  /\ meq N N (insert_mat_kron dims ts mid) mid.
Proof.
  intros dims ts A B Hn Hr N m. split; [|split]; apply meq_labels; intros l l' Hl Hl'.
  - destruct (outside_dec dims ts l l') as [E|E].
    + destruct (insert_entry dims ts (mmul m A B) l l' Hn Hr Hl Hl') as [-> _]; auto.
      unfold mmul at 1 2. symmetry.
      set (td := restrict dims ts) in *.
      assert (Vl : valid td (restrict l ts)) by (apply restrict_valid; auto).
      assert (Vl' : valid td (restrict l' ts)) by (apply restrict_valid; auto).
      set (g := fun y => pos dims (upd_all l ts (nth y (labels td) []))).
      assert (LV : forall y, y < m -> valid td (nth y (labels td) [])).
      { intros y Hy. apply in_labels, nth_In. rewrite labels_length. exact Hy. }
      assert (PL : forall y, y < m -> pos td (nth y (labels td) []) = y).
      { intros y Hy. destruct (pos_surj td y Hy) as (u & Hu & <-).
        rewrite (nth_error_nth _ _ _ (labels_nth td u Hu)). reflexivity. }
      assert (OV : forall y, y < m -> valid dims (upd_all l ts (nth y (labels td) []))).
      { intros y Hy. apply overwrite_valid; auto. }
      rewrite (csum_reindex N m _ g).
      * apply csum_ext. intros y Hy. unfold g.
        destruct (insert_entry dims ts A l (upd_all l ts (nth y (labels td) [])) Hn Hr Hl (OV y Hy)) as [-> _].
        2:{ intros q Hq Hi. rewrite upd_all_other; auto. }
        destruct (insert_entry dims ts B (upd_all l ts (nth y (labels td) [])) l' Hn Hr (OV y Hy) Hl') as [-> _].
        2:{ intros q Hq Hi. rewrite upd_all_other; auto. }
        rewrite (overwrite_restrict dims) by (try apply LV; auto). fold td. rewrite PL by auto. reflexivity.
      * intros y Hy. unfold g. apply pos_lt. auto.
      * intros y y' Hy Hy' Eg. unfold g in Eg. apply pos_inj in Eg; auto.
        assert (X : restrict (upd_all l ts (nth y (labels td) [])) ts = restrict (upd_all l ts (nth y' (labels td) [])) ts) by congruence.
        rewrite !(overwrite_restrict dims) in X by (try apply LV; auto).
        rewrite <- (PL y Hy), <- (PL y' Hy'), X. reflexivity.
      * intros x Hx. destruct (pos_surj dims x Hx) as (k & Hk & <-).
        destruct (outside_dec dims ts l k) as [E'|E'].
        -- left. assert (Vk : valid td (restrict k ts)) by (apply restrict_valid; auto).
           exists (pos td (restrict k ts)). split; [apply pos_lt; auto|]. unfold g. f_equal.
           rewrite (nth_error_nth _ _ _ (labels_nth td _ Vk)).
           apply (labels_ext dims); auto.
           { apply overwrite_valid; auto. }
           intros q Hq. destruct (in_dec Nat.eq_dec q ts) as [I|I].
           ++ destruct (In_nth _ _ 0 I) as (j & Hj & <-). rewrite upd_all_target; auto.
              { apply restrict_nth; auto. }
              { unfold restrict. apply map_length. }
              intros t Ht. rewrite (valid_length _ _ Hl). auto.
           ++ rewrite upd_all_other by auto. auto.
        -- right. destruct (insert_entry dims ts A l k Hn Hr Hl Hk) as [_ Z]. rewrite (Z E'). ring.
    + destruct (insert_entry dims ts (mmul m A B) l l' Hn Hr Hl Hl') as [_ ->]; auto.
      symmetry. apply csum_0. intros x Hx. destruct (pos_surj dims x Hx) as (k & Hk & <-).
      destruct E as (q & Hq & Hi & D).
      destruct (Nat.eq_dec (nth q l 0) (nth q k 0)) as [E1|E1].
      * destruct (insert_entry dims ts B k l' Hn Hr Hk Hl') as [_ Z].
        rewrite Z; [ring|]. exists q. rewrite <- E1. auto.
      * destruct (insert_entry dims ts A l k Hn Hr Hl Hk) as [_ Z].
        rewrite Z; [ring|]. exists q. auto.
  - unfold madj at 2. destruct (outside_dec dims ts l l') as [E|E].
    + destruct (insert_entry dims ts (madj A) l l' Hn Hr Hl Hl') as [-> _]; auto.
      destruct (insert_entry dims ts A l' l Hn Hr Hl' Hl) as [-> _]; auto.
      intros q Hq Hi. symmetry. auto.
    + destruct (insert_entry dims ts (madj A) l l' Hn Hr Hl Hl') as [_ ->]; auto.
      destruct (insert_entry dims ts A l' l Hn Hr Hl' Hl) as [_ ->].
      * rewrite conj_R. reflexivity.
      * destruct E as (q & Hq & Hi & D). exists q. auto.
  - set (td := restrict dims ts).
    assert (Vl : valid td (restrict l ts)) by (apply restrict_valid; auto).
    assert (Vl' : valid td (restrict l' ts)) by (apply restrict_valid; auto).
    destruct (outside_dec dims ts l l') as [E|E].
    + destruct (insert_entry dims ts mid l l' Hn Hr Hl Hl') as [-> _]; auto. fold td. unfold mid.
      destruct (Nat.eqb_spec (pos td (restrict l ts)) (pos td (restrict l' ts))) as [X|X];
        destruct (Nat.eqb_spec (pos dims l) (pos dims l')) as [Y|Y]; auto; exfalso.
      * apply Y. f_equal. apply pos_inj in X; auto. apply (labels_ext dims); auto.
        intros q Hq. destruct (in_dec Nat.eq_dec q ts) as [I|I]; auto.
        destruct (In_nth _ _ 0 I) as (j & Hj & <-). rewrite <- !restrict_nth by auto. congruence.
      * apply X. apply pos_inj in Y; auto. congruence.
    + destruct (insert_entry dims ts mid l l' Hn Hr Hl Hl') as [_ ->]; auto. unfold mid.
      destruct (Nat.eqb_spec (pos dims l) (pos dims l')) as [Y|Y]; auto. apply pos_inj in Y; auto.
      destruct E as (q & Hq & Hi & D). congruence.
Qed.
Print Assumptions C30_embedding_algebra.

(** Hence an embedded gate is unitary whenever the gate is. *)
Theorem C30_embedded_unitary :
  forall dims ts U, NoDup ts -> (forall t, In t ts -> t < length dims) ->
  unitary (prod_dims (restrict dims ts)) U -> unitary (prod_dims dims) (insert_mat_kron dims ts U).
Proof.
  intros dims ts U Hn Hr [H1 H2].
  assert (P : forall A B, meq (prod_dims (restrict dims ts)) (prod_dims (restrict dims ts)) A B ->
              meq (prod_dims dims) (prod_dims dims) (insert_mat_kron dims ts A) (insert_mat_kron dims ts B)).
  { intros A B E. apply meq_labels. intros l l' Hl Hl'.
    destruct (outside_dec dims ts l l') as [O|O].
    - destruct (insert_entry dims ts A l l' Hn Hr Hl Hl') as [-> _]; auto.
      destruct (insert_entry dims ts B l l' Hn Hr Hl Hl') as [-> _]; auto.
      apply E; apply pos_lt; apply restrict_valid; auto.
    - destruct (insert_entry dims ts A l l' Hn Hr Hl Hl') as [_ ->]; auto.
      destruct (insert_entry dims ts B l l' Hn Hr Hl Hl') as [_ ->]; auto. }
  destruct (C30_embedding_algebra dims ts (madj U) U Hn Hr) as (M1 & _ & I).
  destruct (C30_embedding_algebra dims ts U (madj U) Hn Hr) as (M2 & A & _).
  split; rewrite <- A.
  - rewrite <- M1, (P _ _ H1). exact I.
  - rewrite <- M2, (P _ _ H2). exact I.
Qed.
Print Assumptions C30_embedded_unitary.

(** A gate on targets 2 and 0 of a three-level/two-level/two-level register. *)
Example C30_example :
  NoDup [2; 0] /\ (forall t, In t [2; 0] -> t < length [3; 2; 2]) /\ restrict [2; 1; 0] [2; 0] = [0; 2]
  /\ forall M, insert_mat_kron [3; 2; 2] [2; 0] M (pos [3; 2; 2] [2; 1; 0]) (pos [3; 2; 2] [1; 1; 1]) = M 2 4
  /\ insert_mat_kron [3; 2; 2] [2; 0] M (pos [3; 2; 2] [2; 1; 0]) (pos [3; 2; 2] [1; 0; 1]) = RtoC 0.
Proof.
  assert (N : NoDup [2; 0]). { constructor; [simpl; lia|]. constructor; [simpl; lia|]. constructor. }
  assert (R : forall t, In t [2; 0] -> t < length [3; 2; 2]).
  { intros t [<-|[<-|[]]]; simpl; lia. }
  assert (V : forall a b c, a < 3 -> b < 2 -> c < 2 -> valid [3; 2; 2] [a; b; c]).
  { intros. constructor; [auto|]. constructor; [auto|]. constructor; [auto|]. constructor. }
  split; [exact N|]. split; [exact R|]. split; [reflexivity|]. intro M. split.
  - destruct (C30_embedded_gate [3; 2; 2] [2; 0] M [2; 1; 0] [1; 1; 1] N R) as [-> _]; auto; try (apply V; lia).
    intros q Hq Hi. destruct q as [|[|[|q]]]; simpl in *; try lia; auto.
  - destruct (C30_embedded_gate [3; 2; 2] [2; 0] M [2; 1; 0] [1; 0; 1] N R) as [_ ->]; auto; try (apply V; lia).
    exists 1. simpl. split; [lia|]. split; [intros [?|[?|[]]]; lia|lia].
Qed.

(** ** C31 *)
Definition kept (dims : list nat) (max_ex : nat) : list (list nat) :=
  filter (fun l => Nat.leb (list_sum l) max_ex) (labels dims).

Lemma cutter_rows_filter : forall (P : list nat -> nat) max_ex ls ii,
  (forall k l, nth_error ls k = Some l -> P l = ii + k) ->
  cutter_rows ii ls max_ex = map P (filter (fun l => Nat.leb (list_sum l) max_ex) ls).
Proof.
  intros P max_ex. induction ls as [|l ls IH]; intros ii H; auto. simpl.
  assert (E : cutter_rows (S ii) ls max_ex = map P (filter (fun l => Nat.leb (list_sum l) max_ex) ls)).
  { apply IH. intros k l' Hk. rewrite (H (S k) l' Hk). lia. }
  destruct (Nat.leb (list_sum l) max_ex); rewrite E; auto. simpl. f_equal.
  rewrite (H 0 l eq_refl). lia.
Qed.
Lemma cutter_kept : forall dims max_ex, cutter_rows 0 (labels dims) max_ex = map (pos dims) (kept dims max_ex).
Proof.
  intros. apply cutter_rows_filter. intros k l H. simpl.
  assert (V : valid dims l) by (apply in_labels; eapply nth_error_In; eauto).
  pose proof (labels_nth dims l V) as H'.
  apply (proj1 (NoDup_nth_error (labels dims)) (labels_nodup dims)); [|congruence].
  rewrite labels_length. apply pos_lt; auto.
Qed.
Lemma kept_valid : forall dims m r, r < length (kept dims m) ->
  valid dims (nth r (kept dims m) []) /\ list_sum (nth r (kept dims m) []) <= m.
Proof.
  intros dims m r H. pose proof (nth_In _ [] H) as I. apply filter_In in I. destruct I as [I L].
  split; [apply in_labels; auto|apply Nat.leb_le; auto].
Qed.
Lemma kept_nodup : forall dims m, NoDup (kept dims m).
Proof. intros. apply NoDup_filter, labels_nodup. Qed.
Lemma cutter_ent : forall dims m r l, r < length (kept dims m) -> valid dims l ->
  ent (ex_cutter dims m) r (pos dims l) = if list_eqb l (nth r (kept dims m) []) then RtoC 1 else RtoC 0.
Proof.
  intros dims m r l Hr Hl. unfold ex_cutter. cbn [ent]. rewrite cutter_kept.
  rewrite (nth_indep _ 0 (pos dims [])) by (rewrite map_length; auto). rewrite map_nth.
  destruct (kept_valid dims m r Hr) as [V _].
  destruct (Nat.eqb_spec (pos dims l) (pos dims (nth r (kept dims m) []))) as [E|E].
  - apply pos_inj in E; auto. rewrite (proj2 (list_eqb_eq _ _)); auto.
  - destruct (list_eqb l (nth r (kept dims m) [])) eqn:X; auto. apply list_eqb_eq in X. congruence.
Qed.
Lemma cutter_shape : forall dims m, rows (ex_cutter dims m) = length (kept dims m) /\ cols (ex_cutter dims m) = prod_dims dims.
Proof. intros. unfold ex_cutter. cbn [rows cols]. rewrite cutter_kept, map_length. auto. Qed.

(** Applying the cutter from the left picks the kept rows. *)
Lemma cutter_left : forall dims m A r j, r < length (kept dims m) ->
  mmul (prod_dims dims) (ent (ex_cutter dims m)) A r j = A (pos dims (nth r (kept dims m) [])) j.
Proof.
  intros dims m A r j Hr. unfold mmul. destruct (kept_valid dims m r Hr) as [V _].
  rewrite (csum_single _ (pos dims (nth r (kept dims m) []))); [|apply pos_lt; auto|].
  - rewrite cutter_ent by auto. rewrite (proj2 (list_eqb_eq _ _)) by auto. ring.
  - intros x Hx E. destruct (pos_surj dims x Hx) as (l & Hl & <-). rewrite cutter_ent by auto.
    destruct (list_eqb l (nth r (kept dims m) [])) eqn:X; [|ring]. apply list_eqb_eq in X. congruence.
Qed.
Lemma cutter_right : forall dims m A i c, c < length (kept dims m) ->
  mmul (prod_dims dims) A (mtrans (ent (ex_cutter dims m))) i c = A i (pos dims (nth c (kept dims m) [])).
Proof.
  intros dims m A i c Hc. unfold mmul, mtrans. destruct (kept_valid dims m c Hc) as [V _].
  rewrite (csum_single _ (pos dims (nth c (kept dims m) []))); [|apply pos_lt; auto|].
  - rewrite cutter_ent by auto. rewrite (proj2 (list_eqb_eq _ _)) by auto. ring.
  - intros x Hx E. destruct (pos_surj dims x Hx) as (l & Hl & <-). rewrite cutter_ent by auto.
    destruct (list_eqb l (nth c (kept dims m) [])) eqn:X; [|ring]. apply list_eqb_eq in X. congruence.
Qed.

(** The cut operator has one row per label of total excitation at most the
    limit, in label order, and keeps the elements between them. *)
Theorem C31_cut_keeps_low_excitations :
  forall dims m op,
  let ks := kept dims m in
  rows (ex_cutter dims m) = length ks
  /\ (forall l, In l ks <-> valid dims l /\ list_sum l <= m)
  /\ (forall r r', r < r' -> r' < length ks -> pos dims (nth r ks []) < pos dims (nth r' ks []))
  /\ (forall r c, r < length ks -> c < length ks ->
        cut_excitations dims m op r c = op (pos dims (nth r ks [])) (pos dims (nth c ks []))).
Proof.
  intros dims m op ks. split; [apply cutter_shape|]. split; [|split].
  - intro l. unfold ks, kept. rewrite filter_In, in_labels, Nat.leb_le. reflexivity.
  - assert (G : forall ls ii, (forall k l, nth_error ls k = Some l -> pos dims l = ii + k) ->
       let ks := filter (fun l => Nat.leb (list_sum l) m) ls in
       (forall r, r < length ks -> ii <= pos dims (nth r ks [])) /\
       (forall r r', r < r' -> r' < length ks -> pos dims (nth r ks []) < pos dims (nth r' ks []))).
    { induction ls as [|l ls IH]; intros ii H; [simpl; split; intros; lia|].
      destruct (IH (S ii)) as [I1 I2]. { intros k l' Hk. rewrite (H (S k) l' Hk). lia. }
      cbn [filter]. destruct (Nat.leb (list_sum l) m).
      - pose proof (H 0 l eq_refl) as H0. split.
        + intros [|r] Hr; simpl; [lia|]. specialize (I1 r). simpl in Hr. cbv zeta in I1. lia.
        + intros [|r] [|r'] Hr Hr'; try lia; cbn [nth]; simpl in Hr'.
          * specialize (I1 r'). cbv zeta in I1. lia.
          * apply I2; lia.
      - split; [|exact I2]. intros r Hr. specialize (I1 r Hr). lia. }
    apply (G (labels dims) 0). intros k l H. simpl.
    assert (V : valid dims l) by (apply in_labels; eapply nth_error_In; eauto).
    pose proof (labels_nth dims l V) as H'.
    apply (proj1 (NoDup_nth_error (labels dims)) (labels_nodup dims)); [|congruence].
    rewrite labels_length. apply pos_lt; auto.
  - intros r c Hr Hc. unfold cut_excitations. cbv zeta. rewrite (proj2 (cutter_shape dims m)).
    rewrite cutter_right, cutter_left by auto. reflexivity.
Qed.
Print Assumptions C31_cut_keeps_low_excitations.

Lemma blowup_entry : forall dims m op l l', valid dims l -> valid dims l' ->
  blowup_excitations dims m op (pos dims l) (pos dims l')
  = csum (length (kept dims m)) (fun s => Cmult (csum (length (kept dims m)) (fun r =>
      Cmult (if list_eqb l (nth r (kept dims m) []) then RtoC 1 else RtoC 0) (op r s)))
      (if list_eqb l' (nth s (kept dims m) []) then RtoC 1 else RtoC 0)).
Proof.
  intros dims m op l l' Hl Hl'. unfold blowup_excitations. cbv zeta. rewrite (proj1 (cutter_shape dims m)).
  unfold mmul, mtrans. apply csum_ext. intros s Hs. rewrite cutter_ent by auto. f_equal.
  apply csum_ext. intros r Hr. rewrite cutter_ent by auto. reflexivity.
Qed.

(** Blowing up puts the elements back where they came from and zero elsewhere. *)
Theorem C31_blowup_places_elements :
  forall dims m op,
  let ks := kept dims m in
  (forall r c, r < length ks -> c < length ks ->
     blowup_excitations dims m op (pos dims (nth r ks [])) (pos dims (nth c ks [])) = op r c)
  /\ (forall l l', valid dims l -> valid dims l' -> m < list_sum l \/ m < list_sum l' ->
     blowup_excitations dims m op (pos dims l) (pos dims l') = RtoC 0).
Proof.
  intros dims m op ks. pose proof (kept_nodup dims m) as ND. fold ks in ND.
  assert (U : forall r s, r < length ks -> s < length ks -> list_eqb (nth r ks []) (nth s ks []) = Nat.eqb r s).
  { intros r s Hr Hs. destruct (Nat.eqb_spec r s) as [->|E].
    - apply list_eqb_eq; auto.
    - destruct (list_eqb (nth r ks []) (nth s ks [])) eqn:X; auto. apply list_eqb_eq in X.
      exfalso. apply E. apply (proj1 (NoDup_nth ks []) ND); auto. }
  split.
  - intros r c Hr Hc. destruct (kept_valid dims m r Hr), (kept_valid dims m c Hc).
    rewrite blowup_entry by auto. fold ks.
    rewrite (csum_single _ c); auto.
    + rewrite (csum_single _ r); auto.
      * rewrite !U, !Nat.eqb_refl by auto. ring.
      * intros x Hx E. rewrite U by auto. destruct (Nat.eqb_spec r x); [congruence|ring].
    + intros x Hx E. rewrite (U c x) by auto. destruct (Nat.eqb_spec c x); [congruence|ring].
  - intros l l' Hl Hl' H. rewrite blowup_entry by auto. apply csum_0. intros s Hs.
    destruct (kept_valid dims m s Hs) as [_ Ks].
    destruct (list_eqb l' (nth s (kept dims m) [])) eqn:X'; [|ring]. apply list_eqb_eq in X'.
    rewrite csum_0; [ring|]. intros r Hr. destruct (kept_valid dims m r Hr) as [_ Kr].
    destruct (list_eqb l (nth r (kept dims m) [])) eqn:X; [|ring]. apply list_eqb_eq in X.
    exfalso. rewrite <- X in Kr. rewrite <- X' in Ks. lia.
Qed.
Print Assumptions C31_blowup_places_elements.

Theorem C31_cut_after_blowup :
  forall dims m op,
  let n := length (kept dims m) in
  meq n n (cut_excitations dims m (blowup_excitations dims m op)) op
  /\ (forall l l', valid dims l -> valid dims l' -> list_sum l <= m -> list_sum l' <= m ->
      blowup_excitations dims m (cut_excitations dims m op) (pos dims l) (pos dims l') = op (pos dims l) (pos dims l')).
Proof.
  intros dims m op n. split.
  - intros r c Hr Hc.
    destruct (C31_cut_keeps_low_excitations dims m (blowup_excitations dims m op)) as (_ & _ & _ & E).
    rewrite (E r c Hr Hc). apply C31_blowup_places_elements; auto.
  - intros l l' Hl Hl' S S'.
    destruct (C31_cut_keeps_low_excitations dims m op) as (_ & M & _ & E).
    destruct (In_nth _ _ [] (proj2 (M l) (conj Hl S))) as (r & Hr & <-).
    destruct (In_nth _ _ [] (proj2 (M l') (conj Hl' S'))) as (c & Hc & <-).
    destruct (C31_blowup_places_elements dims m (cut_excitations dims m op)) as [B _].
    rewrite (B r c Hr Hc). apply E; auto.
Qed.
Print Assumptions C31_cut_after_blowup.

Example C31_example : kept [3; 3] 2 = [[0; 0]; [0; 1]; [0; 2]; [1; 0]; [1; 1]; [2; 0]].
Proof. reflexivity. Qed.

(** ** C32.  Levels kept for each subsystem: two for the indexed ones, the
    ground state alone for the others. *)
Definition comp_dims (dims index : list nat) : list nat :=
  map (fun k => if mem_nat k (project_index dims index) then 2 else 1) (seq 0 (length dims)).

Lemma projector_eyes : forall P dims s l u,
  valid dims l -> length u = length dims ->
  kron_entry (map (fun kd : nat * nat => if P (fst kd) : bool then seye (snd kd) 2 else seye (snd kd) 1)
                  (combine (seq s (length dims)) dims)) l u
  = if list_eqb l u then RtoC 1 else RtoC 0.
Proof.
  intros P. induction dims as [|d ds IH]; intros s l u Hl Hu; inversion Hl as [|i ? l' ? Hi Hl']; subst.
  - destruct u; simpl in Hu; try lia. reflexivity.
  - destruct u as [|j u]; simpl in Hu; try lia. cbn [length seq combine map kron_entry].
    rewrite IH by (auto; lia). cbn [list_eqb fst snd].
    destruct (P s); cbn [seye ent]; unfold mid; destruct (Nat.eqb i j); destruct (list_eqb l' u); simpl; ring.
Qed.
Lemma projector_shape_gen : forall dims idx s,
  map rows (map (fun kd : nat * nat => if mem_nat (fst kd) idx then seye (snd kd) 2 else seye (snd kd) 1)
                  (combine (seq s (length dims)) dims)) = dims
  /\ map cols (map (fun kd : nat * nat => if mem_nat (fst kd) idx then seye (snd kd) 2 else seye (snd kd) 1)
                  (combine (seq s (length dims)) dims))
     = map (fun k => if mem_nat k idx then 2 else 1) (seq s (length dims)).
Proof.
  induction dims as [|d ds IH]; intros idx s; auto.
  cbn [length seq combine map fst snd]. destruct (IH idx (S s)) as [E1 E2]. rewrite E1, E2.
  destruct (mem_nat s idx); auto.
Qed.
Lemma projector_shape : forall dims idx,
  map rows (map (fun kd : nat * nat => if mem_nat (fst kd) idx then seye (snd kd) 2 else seye (snd kd) 1)
                  (combine (seq 0 (length dims)) dims)) = dims
  /\ map cols (map (fun kd : nat * nat => if mem_nat (fst kd) idx then seye (snd kd) 2 else seye (snd kd) 1)
                  (combine (seq 0 (length dims)) dims))
     = map (fun k => if mem_nat k idx then 2 else 1) (seq 0 (length dims)).
Proof.
  intros. apply projector_shape_gen.
Qed.
Lemma comp_valid : forall dims index u,
  (forall k, k < length dims -> 1 <= nth k dims 0) ->
  (forall k, k < length dims -> mem_nat k (project_index dims index) = true -> 2 <= nth k dims 0) ->
  valid (comp_dims dims index) u -> valid dims u.
Proof.
  intros dims index u H1 H2 Hu. pose proof (valid_length _ _ Hu) as L. unfold comp_dims in L.
  rewrite map_length, seq_length in L. apply valid_intro; auto. intros q Hq.
  assert (Lq : q < length (comp_dims dims index)) by (unfold comp_dims; rewrite map_length, seq_length; auto).
  pose proof (valid_nth _ _ q Hu Lq) as V. unfold comp_dims in V.
  rewrite (nth_indep (map _ _) 0 (if mem_nat 0 (project_index dims index) then 2 else 1)) in V by exact Lq.
  rewrite (map_nth (fun k => if mem_nat k (project_index dims index) then 2 else 1)) in V. rewrite seq_nth in V by auto.
  simpl in V. specialize (H1 q Hq). specialize (H2 q Hq).
  destruct (mem_nat q (project_index dims index)); [specialize (H2 eq_refl)|]; lia.
Qed.
Lemma projector_ent : forall dims index l u, valid dims l -> valid (comp_dims dims index) u ->
  ent (projector dims (project_index dims index)) (pos dims l) (pos (comp_dims dims index) u)
  = if list_eqb l u then RtoC 1 else RtoC 0.
Proof.
  intros dims index l u Hl Hu. unfold projector.
  set (idx := project_index dims index) in *.
  destruct (projector_shape dims idx) as [S1 S2].
  match goal with |- ent (np_kron_n ?ms) _ _ = _ => pose proof (kron_n_entry ms l u) as E end.
  rewrite S1, S2 in E. unfold comp_dims. fold idx. rewrite E; auto.
  apply (projector_eyes (fun k => mem_nat k idx)); auto. rewrite (valid_length _ _ Hu). unfold comp_dims. rewrite map_length, seq_length. auto.
Qed.
Lemma projector_dims : forall dims index,
  rows (projector dims (project_index dims index)) = prod_dims dims /\
  cols (projector dims (project_index dims index)) = prod_dims (comp_dims dims index).
Proof.
  intros. unfold projector. match goal with |- rows (np_kron_n ?ms) = _ /\ _ => destruct (kron_shape ms) as [-> ->] end.
  destruct (projector_shape dims (project_index dims index)) as [-> ->]. auto.
Qed.

(** The projected matrix is indexed by the labels of the computational space,
    and its elements are those of the original matrix between the same labels. *)
Theorem C32_projection_keeps_computational_elements :
  forall A dims index,
  (forall k, k < length dims -> 1 <= nth k dims 0) ->
  (forall k, k < length dims -> mem_nat k (project_index dims index) = true -> 2 <= nth k dims 0) ->
  let r := tf_project_to_comp A dims index false in
  rows r = prod_dims (comp_dims dims index) /\ cols r = prod_dims (comp_dims dims index)
  /\ forall u v, valid (comp_dims dims index) u -> valid (comp_dims dims index) v ->
     ent r (pos (comp_dims dims index) u) (pos (comp_dims dims index) v) = A (pos dims u) (pos dims v).
Proof.
  intros A dims index H1 H2 r. destruct (projector_dims dims index) as [R1 R2].
  unfold r, tf_project_to_comp. cbn [rows cols ent]. split; [auto|]. split; [auto|].
  intros u v Hu Hv. pose proof (comp_valid _ _ _ H1 H2 Hu) as Du. pose proof (comp_valid _ _ _ H1 H2 Hv) as Dv.
  rewrite R1. unfold mmul, mtrans.
  rewrite (csum_single _ (pos dims v)); [|apply pos_lt; auto|].
  - rewrite projector_ent by auto. rewrite (proj2 (list_eqb_eq v v) eq_refl).
    rewrite (csum_single _ (pos dims u)); [|apply pos_lt; auto|].
    + rewrite projector_ent by auto. rewrite (proj2 (list_eqb_eq u u) eq_refl). ring.
    + intros x Hx E. destruct (pos_surj dims x Hx) as (l & Hl & <-). rewrite projector_ent by auto.
      destruct (list_eqb l u) eqn:X; [|ring]. apply list_eqb_eq in X. congruence.
  - intros x Hx E. destruct (pos_surj dims x Hx) as (l & Hl & <-). rewrite projector_ent by auto.
    destruct (list_eqb l v) eqn:X; [|ring]. apply list_eqb_eq in X. congruence.
Qed.
Print Assumptions C32_projection_keeps_computational_elements.

(** With [to_super] the same happens on both tensor factors of a superoperator. *)
Theorem C32_superoperator_projection :
  forall A dims index,
  (forall k, k < length dims -> 1 <= nth k dims 0) ->
  (forall k, k < length dims -> mem_nat k (project_index dims index) = true -> 2 <= nth k dims 0) ->
  let r := tf_project_to_comp A dims index true in
  let c := comp_dims dims index in
  let N := prod_dims dims in
  let n := prod_dims c in
  rows r = n * n /\ cols r = n * n
  /\ forall u u' v v', valid c u -> valid c u' -> valid c v -> valid c v' ->
     ent r (pos c u * n + pos c u') (pos c v * n + pos c v')
     = A (pos dims u * N + pos dims u') (pos dims v * N + pos dims v').
Proof.
  intros A dims index H1 H2 r c N n. destruct (projector_dims dims index) as [R1 R2].
  unfold r, tf_project_to_comp. cbn [rows cols ent skron]. rewrite R1, R2.
  split; [auto|]. split; [auto|]. intros u u' v v' Hu Hu' Hv Hv'. fold c n N.
  pose proof (comp_valid _ _ _ H1 H2 Hu) as Du. pose proof (comp_valid _ _ _ H1 H2 Hv) as Dv.
  pose proof (comp_valid _ _ _ H1 H2 Hu') as Du'. pose proof (comp_valid _ _ _ H1 H2 Hv') as Dv'.
  assert (K : forall x u u', x < N * N -> valid c u -> valid c u' ->
     kron N n (ent (projector dims (project_index dims index))) (ent (projector dims (project_index dims index)))
       x (pos c u * n + pos c u') = if Nat.eqb x (pos dims u * N + pos dims u') then RtoC 1 else RtoC 0).
  { intros x w w' Hx Hw Hw'. unfold kron.
    destruct (divmod_add (pos c w) (pos c w') n (pos_lt _ _ Hw')) as [-> ->].
    destruct (divmod_lt _ _ _ Hx) as [B1 B2].
    destruct (pos_surj dims _ B1) as (l & Hl & El). destruct (pos_surj dims _ B2) as (l' & Hl' & El').
    rewrite <- El, <- El'. unfold c. rewrite !projector_ent by auto.
    assert (Ex : x = pos dims l * N + pos dims l').
    { rewrite El, El'. assert (N <> 0) by nia. rewrite (Nat.div_mod x N) at 1 by auto. lia. }
    pose proof (comp_valid _ _ _ H1 H2 Hw) as Dw. pose proof (comp_valid _ _ _ H1 H2 Hw') as Dw'.
    destruct (Nat.eqb_spec x (pos dims w * N + pos dims w')) as [E|E].
    - rewrite Ex in E.
      destruct (divmod_add (pos dims l) (pos dims l') N (pos_lt _ _ Hl')) as [A1 A2].
      destruct (divmod_add (pos dims w) (pos dims w') N (pos_lt _ _ Dw')) as [B3 B4].
      rewrite E in A1, A2. rewrite B3 in A1. rewrite B4 in A2.
      apply pos_inj in A1; auto. apply pos_inj in A2; auto. subst.
      rewrite !(proj2 (list_eqb_eq _ _)) by auto. ring.
    - destruct (list_eqb l w) eqn:X; [|ring]. destruct (list_eqb l' w') eqn:X'; [|ring].
      apply list_eqb_eq in X, X'. subst l l'. contradiction. }
  assert (B : forall l l', valid dims l -> valid dims l' -> pos dims l * N + pos dims l' < N * N).
  { intros l l' Hl Hl'. pose proof (pos_lt _ _ Hl). pose proof (pos_lt _ _ Hl'). fold N in H, H0. nia. }
  unfold mmul, mtrans.
  rewrite (csum_single _ (pos dims v * N + pos dims v')); [|apply B; auto|].
  - rewrite K by (auto; apply B; auto). rewrite Nat.eqb_refl.
    rewrite (csum_single _ (pos dims u * N + pos dims u')); [|apply B; auto|].
    + rewrite K by (auto; apply B; auto). rewrite Nat.eqb_refl. ring.
    + intros x Hx E. rewrite K by auto. destruct (Nat.eqb_spec x (pos dims u * N + pos dims u')); [contradiction|ring].
  - intros x Hx E. rewrite K by auto. destruct (Nat.eqb_spec x (pos dims v * N + pos dims v')); [contradiction|ring].
Qed.
Print Assumptions C32_superoperator_projection.

Example C32_example : comp_dims [3; 4; 2] [0; 2] = [2; 1; 2] /\ comp_dims [3; 4] [] = [2; 2]
  /\ pos [3; 4; 2] [1; 0; 1] = 9.
Proof. repeat split. Qed.

(** ** C33.  Specification: the subsystem number a line belongs to, and the
    phase a basis label picks up. *)
Inductive acts_on (s : frame_sys) : string -> nat -> Prop :=
| acts_coupling : forall line q conn k,
    dget line (f_couplings s) = Some (q :: conn) ->
    nth_error (f_names s) k = Some q -> acts_on s line k
| acts_subsystem : forall line k,
    dget line (f_couplings s) = None ->
    nth_error (f_names s) k = Some line -> acts_on s line k.

Inductive frame_phase (s : frame_sys) (t : R) (fcs : dict R) (l : list nat) : dict R -> R -> Prop :=
| ph_nil : frame_phase s t fcs l [] 0
| ph_cons : forall line w fc k r ph,
    acts_on s line k -> dget line fcs = Some fc -> frame_phase s t fcs l r ph ->
    frame_phase s t fcs l ((line, w) :: r) (INR (nth k l 0) * (w * t + fc) + ph).

Lemma str_index_nth : forall l x k, str_index x l = Ok k -> nth_error l k = Some x.
Proof.
  induction l as [|y l IH]; intros x k H; simpl in H; [discriminate|].
  destruct (String.eqb_spec x y) as [->|].
  - injection H as <-. reflexivity.
  - destruct (str_index x l) as [j|] eqn:E; [|discriminate]. injection H as <-. simpl. auto.
Qed.
Lemma str_index_ex : forall l x j, nth_error l j = Some x -> exists k, str_index x l = Ok k.
Proof.
  induction l as [|y l IH]; intros x [|j] H; simpl in H; try discriminate; simpl.
  - injection H as ->. rewrite String.eqb_refl. eauto.
  - destruct (String.eqb x y); eauto. destruct (IH x j H) as [k ->]. simpl. eauto.
Qed.
Lemma frame_qubit_acts : forall s line q k,
  frame_qubit s line = Ok q -> str_index q (f_names s) = Ok k -> acts_on s line k.
Proof.
  intros s line q k H H'. apply str_index_nth in H'. unfold frame_qubit in H.
  destruct (dget line (f_couplings s)) as [[|q' conn]|] eqn:E; try discriminate.
  - injection H as ->. eapply acts_coupling; eauto.
  - destruct (existsb (String.eqb line) (f_names s)); [|discriminate]. injection H as ->.
    apply acts_subsystem; auto.
Qed.

Lemma frame_exponent_spec : forall s t fcs, length (f_names s) = length (f_dims s) ->
  forall freqs acc e, frame_exponent s t fcs freqs acc = Ok e ->
  exists ph : list nat -> R,
    (forall l, frame_phase s t fcs l freqs (ph l)) /\
    (match e with None => acc = None /\ freqs = []
     | Some m => forall l l', valid (f_dims s) l -> valid (f_dims s) l' ->
          m (pos (f_dims s) l) (pos (f_dims s) l')
          = Cplus (match acc with None => RtoC 0 | Some a => a (pos (f_dims s) l) (pos (f_dims s) l') end)
                  (if list_eqb l l' then Cmult Ci (RtoC (ph l)) else RtoC 0)
     end).
Proof.
  intros s t fcs Hlen. induction freqs as [|[line w] r IH]; intros acc e H.
  - cbn [frame_exponent] in H. injection H as <-. exists (fun _ => 0%R). split; [intro; constructor|].
    destruct acc; auto. intros l l' Hl Hl'. replace (Cmult Ci (RtoC 0)) with (RtoC 0) by ring.
    destruct (list_eqb l l'); ring.
  - cbn [frame_exponent] in H. destruct (dget line fcs) as [fc|] eqn:F; [|discriminate].
    destruct (frame_qubit s line) as [q|] eqn:Q; [|discriminate]. cbn [rbind] in H.
    destruct (str_index q (f_names s)) as [k|] eqn:K; [|discriminate]. cbn [rbind] in H.
    destruct (ann_oper (f_dims s) k) as [a|] eqn:A; [|discriminate]. cbn [rbind] in H.
    destruct (IH _ _ H) as (ph & P1 & P2).
    assert (Hk : k < length (f_dims s)).
    { rewrite <- Hlen. apply nth_error_Some. rewrite (str_index_nth _ _ _ K). discriminate. }
    exists (fun l => (INR (nth k l 0%nat) * (w * t + fc) + ph l)%R). split.
    + intro l. eapply ph_cons; eauto. eapply frame_qubit_acts; eauto.
    + destruct e as [m|]; [|destruct P2 as [P2 _]; discriminate].
      intros l l' Hl Hl'. rewrite (P2 l l' Hl Hl').
      assert (T : frame_term s t w fc a (pos (f_dims s) l) (pos (f_dims s) l')
                  = if list_eqb l l' then Cmult Ci (RtoC (INR (nth k l 0%nat) * (w * t + fc))) else RtoC 0).
      { unfold frame_term, mscale. rewrite (C29_number_operator _ _ _ Hk A l l' Hl Hl').
        destruct (list_eqb l l'); rewrite ?RtoC_mult; ring. }
      rewrite RtoC_plus. destruct acc as [a0|]; unfold madd; rewrite T; destruct (list_eqb l l'); ring.
Qed.

Lemma frame_phase_det : forall s t fcs l freqs p p',
  NoDup (f_names s) -> frame_phase s t fcs l freqs p -> frame_phase s t fcs l freqs p' -> p = p'.
Proof.
  intros s t fcs l freqs p p' ND H. revert p'. induction H as [|line w fc k r ph Ha Hf H IH]; intros p' H'.
  - inversion H'. reflexivity.
  - inversion H' as [|? ? fc' k' ? ph' Ha' Hf' H'']; subst. rewrite (IH _ H'').
    assert (k = k').
    { assert (W : forall q, nth_error (f_names s) k = Some q -> nth_error (f_names s) k' = Some q -> k = k').
      { intros q A B. apply (proj1 (NoDup_nth_error (f_names s)) ND); [|congruence].
        apply nth_error_Some. congruence. }
      inversion Ha; inversion Ha'; subst; try congruence.
      - eapply W; eauto. congruence.
      - eapply W; eauto. }
    congruence.
Qed.

(** The frame rotation is diagonal and gives a label the phase of its levels. *)
Theorem C33_frame_rotation_phases :
  forall s t freqs fcs U, length (f_names s) = length (f_dims s) ->
  get_frame_rotation s t freqs fcs = Ok U ->
  forall l l', valid (f_dims s) l -> valid (f_dims s) l' ->
  exists ph, frame_phase s t fcs l freqs ph
    /\ U (pos (f_dims s) l) (pos (f_dims s) l') = if list_eqb l l' then expi ph else RtoC 0.
Proof.
  intros s t freqs fcs U Hlen H l l' Hl Hl'. unfold get_frame_rotation in H.
  destruct (frame_exponent s t fcs freqs None) as [e|] eqn:E; [|discriminate]. cbn [rbind] in H. injection H as <-.
  destruct (frame_exponent_spec s t fcs Hlen _ _ _ E) as (ph & P1 & P2).
  exists (ph l). split; [apply P1|]. destruct e as [m|].
  - set (N := prod_dims (f_dims s)).
    set (lab := fun i => nth i (labels (f_dims s)) []).
    assert (LL : forall l, valid (f_dims s) l -> lab (pos (f_dims s) l) = l).
    { intros l0 V. unfold lab. apply nth_error_nth. apply labels_nth; auto. }
    assert (M : meq N N m (fun i j => if Nat.eqb i j then Cmult Ci (RtoC (ph (lab i))) else RtoC 0)).
    { apply meq_labels. intros u v Hu Hv. rewrite (P2 u v Hu Hv). rewrite LL by auto.
      destruct (Nat.eqb_spec (pos (f_dims s) u) (pos (f_dims s) v)) as [X|X].
      - apply pos_inj in X; auto. subst. rewrite (proj2 (list_eqb_eq v v) eq_refl). ring.
      - destruct (list_eqb u v) eqn:Y; [apply list_eqb_eq in Y; congruence|ring]. }
    rewrite (mexp_diag N m _ M) by (apply pos_lt; auto). rewrite LL by auto.
    destruct (Nat.eqb_spec (pos (f_dims s) l) (pos (f_dims s) l')) as [X|X].
    + apply pos_inj in X; auto. subst. rewrite (proj2 (list_eqb_eq l' l') eq_refl). reflexivity.
    + destruct (list_eqb l l') eqn:Y; [apply list_eqb_eq in Y; congruence|reflexivity].
  - destruct P2 as [_ ->]. pose proof (P1 l) as X. inversion X as [Z|]. rewrite expi_0. unfold mid.
    destruct (Nat.eqb_spec (pos (f_dims s) l) (pos (f_dims s) l')) as [Y|Y].
    + apply pos_inj in Y; auto. subst. rewrite (proj2 (list_eqb_eq l' l') eq_refl). reflexivity.
    + destruct (list_eqb l l') eqn:W; [apply list_eqb_eq in W; congruence|reflexivity].
Qed.
Print Assumptions C33_frame_rotation_phases.

Theorem C33_frame_rotation_unitary :
  forall s t freqs fcs U, length (f_names s) = length (f_dims s) -> NoDup (f_names s) ->
  get_frame_rotation s t freqs fcs = Ok U -> unitary (prod_dims (f_dims s)) U.
Proof.
  intros s t freqs fcs U Hlen ND H. set (N := prod_dims (f_dims s)).
  pose proof (C33_frame_rotation_phases s t freqs fcs U Hlen H) as P.
  assert (D : forall i j, i < N -> j < N -> i <> j -> U i j = RtoC 0).
  { intros i j Hi Hj E. destruct (pos_surj _ _ Hi) as (l & Hl & <-). destruct (pos_surj _ _ Hj) as (l' & Hl' & <-).
    destruct (P l l' Hl Hl') as (ph & _ & ->). destruct (list_eqb l l') eqn:X; auto.
    apply list_eqb_eq in X. congruence. }
  assert (O : forall i, i < N -> exists x, U i i = expi x).
  { intros i Hi. destruct (pos_surj _ _ Hi) as (l & Hl & <-). destruct (P l l Hl Hl) as (ph & _ & E).
    exists ph. rewrite E, (proj2 (list_eqb_eq l l) eq_refl). reflexivity. }
  assert (I : forall x, Cmult (expi x) (expi (- x)) = RtoC 1).
  { intro x. rewrite <- expi_add, Rplus_opp_r. apply expi_0. }
  split; intros i j Hi Hj; unfold mmul, madj, mid.
  - rewrite (csum_single _ i); auto.
    + destruct (Nat.eqb_spec i j) as [<-|E].
      * destruct (O i Hi) as [x ->]. rewrite expi_conj, Cmult_comm. apply I.
      * rewrite (D i j) by auto. ring.
    + intros k Hk E. rewrite (D k i) by auto. rewrite conj_R. ring.
  - rewrite (csum_single _ i); auto.
    + destruct (Nat.eqb_spec i j) as [<-|E].
      * destruct (O i Hi) as [x ->]. rewrite expi_conj. apply I.
      * rewrite (D j i) by auto. rewrite conj_R. ring.
    + intros k Hk E. rewrite (D i k) by auto. ring.
Qed.
Print Assumptions C33_frame_rotation_unitary.

(** Rotations over two intervals compose by adding times and frame changes. *)
Theorem C33_composition :
  forall s freqs t1 t2 fc1 fc2 fc U1 U2 U, length (f_names s) = length (f_dims s) -> NoDup (f_names s) ->
  (forall line x1 x2, dget line fc1 = Some x1 -> dget line fc2 = Some x2 -> dget line fc = Some (x1 + x2)%R) ->
  get_frame_rotation s t1 freqs fc1 = Ok U1 -> get_frame_rotation s t2 freqs fc2 = Ok U2 ->
  get_frame_rotation s (t1 + t2) freqs fc = Ok U ->
  meq (prod_dims (f_dims s)) (prod_dims (f_dims s)) (mmul (prod_dims (f_dims s)) U1 U2) U.
Proof.
  intros s freqs t1 t2 fc1 fc2 fc U1 U2 U Hlen ND Hfc H1 H2 H3. apply meq_labels. intros l l' Hl Hl'.
  set (N := prod_dims (f_dims s)).
  pose proof (C33_frame_rotation_phases _ _ _ _ _ Hlen H1) as P1.
  pose proof (C33_frame_rotation_phases _ _ _ _ _ Hlen H2) as P2.
  pose proof (C33_frame_rotation_phases _ _ _ _ _ Hlen H3) as P3.
  unfold mmul. rewrite (csum_single _ (pos (f_dims s) l)); [|apply pos_lt; auto|].
  - destruct (P1 l l Hl Hl) as (p1 & Q1 & ->). destruct (P2 l l' Hl Hl') as (p2 & Q2 & ->).
    destruct (P3 l l' Hl Hl') as (p3 & Q3 & ->). rewrite (proj2 (list_eqb_eq l l) eq_refl).
    destruct (list_eqb l l'); [|ring]. rewrite <- expi_add. f_equal.
    assert (A : frame_phase s (t1 + t2) fc l freqs (p1 + p2)).
    { clear - Q1 Q2 Hfc ND. revert p2 Q2. induction Q1 as [|line w x k r ph Ha Hf Q IH]; intros p2 Q2.
      - inversion Q2. replace (0 + 0)%R with 0%R by ring. constructor.
      - inversion Q2 as [|? ? x' k' ? ph' Ha' Hf' Q']; subst.
        assert (k = k').
        { pose proof (frame_phase_det s t1 fc1 l [(line, w)]) as _.
          assert (W : forall q, nth_error (f_names s) k = Some q -> nth_error (f_names s) k' = Some q -> k = k').
          { intros q A B. apply (proj1 (NoDup_nth_error (f_names s)) ND); [|congruence].
            apply nth_error_Some. congruence. }
          inversion Ha; inversion Ha'; subst; try congruence; eapply W; eauto; congruence. }
        subst k'.
        replace (INR (nth k l 0%nat) * (w * t1 + x) + ph + (INR (nth k l 0%nat) * (w * t2 + x') + ph'))%R
          with (INR (nth k l 0%nat) * (w * (t1 + t2) + (x + x')) + (ph + ph'))%R by ring.
        econstructor; eauto. }
    eapply frame_phase_det; eauto.
  - intros x Hx E. destruct (pos_surj _ _ Hx) as (k & Hk & <-).
    destruct (P1 l k Hl Hk) as (p1 & _ & ->). destruct (list_eqb l k) eqn:X; [|ring].
    apply list_eqb_eq in X. congruence.
Qed.
Print Assumptions C33_composition.

(** The rotation exists exactly when every line is known and has a frame
    change; with no line it is the identity. *)
Theorem C33_defined_for_known_lines :
  forall s t freqs fcs, length (f_names s) = length (f_dims s) -> NoDup (f_names s) ->
  ((exists U, get_frame_rotation s t freqs fcs = Ok U)
   <-> (forall line, In line (keys freqs) -> (exists k, acts_on s line k) /\ exists fc, dget line fcs = Some fc))
  /\ get_frame_rotation s t [] fcs = Ok mid.
Proof.
  intros s t freqs fcs Hlen ND. split; [|reflexivity]. split.
  - intros [U H]. unfold get_frame_rotation in H.
    destruct (frame_exponent s t fcs freqs None) as [e|] eqn:E; [|discriminate].
    destruct (frame_exponent_spec s t fcs Hlen _ _ _ E) as (ph & P1 & _). specialize (P1 []).
    clear - P1. intros line Hin. remember (ph []) as x. clear Heqx. induction P1 as [|line' w fc k r p Ha Hf P IH].
    + destruct Hin.
    + destruct Hin as [<-|Hin]; [|auto]. simpl. eauto.
  - intros H. assert (G : forall acc, exists e, frame_exponent s t fcs freqs acc = Ok e).
    { induction freqs as [|[line w] r IH]; intros acc; [eexists; reflexivity|].
      destruct (H line (or_introl eq_refl)) as ([k Ha] & fc & Hf). cbn [frame_exponent]. rewrite Hf.
      assert (Q : exists q j, frame_qubit s line = Ok q /\ nth_error (f_names s) j = Some q).
      { inversion Ha as [line' q conn k' E N|line' k' E N]; subst; unfold frame_qubit; rewrite E.
        - eauto.
        - replace (existsb (String.eqb line) (f_names s)) with true; eauto. symmetry. apply existsb_exists.
          exists line. split; [eapply nth_error_In; eauto|apply String.eqb_refl]. }
      destruct Q as (q & j & -> & N). cbn [rbind]. destruct (str_index_ex _ _ _ N) as [k' K]. rewrite K. cbn [rbind].
      assert (Hk : k' < length (f_dims s)).
      { rewrite <- Hlen. apply nth_error_Some. rewrite (str_index_nth _ _ _ K). discriminate. }
      unfold ann_oper. rewrite hsk_family by auto. cbn [rbind]. apply IH.
      intros line' Hin. apply H. right; auto. }
    destruct (G None) as [e E]. unfold get_frame_rotation. rewrite E. simpl. eauto.
Qed.
Print Assumptions C33_defined_for_known_lines.

Example C33_example :
  let s := {| f_names := ["Q1"; "Q2"]%string; f_dims := [3; 2];
              f_couplings := [("d1", ["Q1"])]%string |} in
  (forall t w1 w2, exists U, get_frame_rotation s t [("d1"%string, w1); ("Q2"%string, w2)] [("d1"%string, 0%R); ("Q2"%string, 1%R)] = Ok U
    /\ U (pos [3; 2] [2; 1]) (pos [3; 2] [2; 1]) = expi (2 * (w1 * t) + (w2 * t + 1))).
Proof.
  intros s t w1 w2.
  assert (L : length (f_names s) = length (f_dims s)) by reflexivity.
  assert (ND : NoDup (f_names s)).
  { constructor; [simpl; intros [X|[]]; discriminate|]. constructor; [simpl; tauto|constructor]. }
  destruct (C33_defined_for_known_lines s t [("d1"%string, w1); ("Q2"%string, w2)] [("d1"%string, 0%R); ("Q2"%string, 1%R)] L ND) as [[_ D] _].
  assert (A1 : acts_on s "d1" 0) by (eapply acts_coupling; reflexivity).
  assert (A2 : acts_on s "Q2" 1) by (eapply acts_subsystem; reflexivity).
  destruct D as [U HU].
  { intros line [<-|[<-|[]]]; (split; [eauto|eexists; reflexivity]). }
  exists U. split; [exact HU|].
  assert (V : valid (f_dims s) [2; 1]) by (constructor; [auto|]; constructor; [auto|]; constructor).
  destruct (C33_frame_rotation_phases s t _ _ U L HU [2; 1] [2; 1] V V) as (ph & P & E).
  change (f_dims s) with [3; 2] in E. rewrite E. cbn [list_eqb Nat.eqb andb]. f_equal.
  apply (frame_phase_det s t [("d1"%string, 0%R); ("Q2"%string, 1%R)] [2; 1] [("d1"%string, w1); ("Q2"%string, w2)]); auto.
  replace (2 * (w1 * t) + (w2 * t + 1))%R with
    (INR (nth 0 [2; 1] 0)%nat * (w1 * t + 0) + (INR (nth 1 [2; 1] 0)%nat * (w2 * t + 1) + 0))%R by (simpl; ring).
  eapply ph_cons; [exact A1|reflexivity|]. eapply ph_cons; [exact A2|reflexivity|]. constructor.
Qed.
