(** Proofs about signal chains. *)
From Coq Require Import Reals Relations Permutation.
From Verif Require Import Base ChainModel.
Local Open Scope list_scope.

(** ** Specification *)

(** [edge c y x]: device x of chain c lists y among its sources. *)
Definition edge (c : chain) (y x : string) : Prop :=
  exists ss, dget x c = Some ss /\ In y ss.

(** An order in which each device comes after all its sources. *)
Definition topo_sorted (c : chain) (o : list string) : Prop :=
  forall pre x post, o = pre ++ x :: post -> forall y, edge c y x -> In y pre.

Definition acyclic (c : chain) : Prop := forall x, ~ clos_trans _ (edge c) x x.

(** Sources are listed once and belong to the chain. *)
Definition closed_chain (c : chain) : Prop :=
  forall x ss, dget x c = Some ss -> NoDup ss /\ incl ss (keys c).

Definition preds (c : chain) (x : string) : list string :=
  match dget x c with Some ss => ss | None => [] end.

Lemma edge_preds c y x : edge c y x <-> In y (preds c x).
Proof.
  unfold edge, preds. destruct (dget x c) as [ss|].
  - split; [intros [s [[= <-] H]]; exact H|intros H; now exists ss].
  - split; [intros [s [H _]]; discriminate|intros []].
Qed.

Lemma smem_in k l : smem k l = true <-> In k l.
Proof.
  unfold smem. rewrite existsb_exists. split.
  - intros [x [Hx Ex]]. apply String.eqb_eq in Ex. now subst.
  - intros H. exists k. split; auto. apply String.eqb_refl.
Qed.

Lemma nodup_keys_filter {V} (f : string * V -> bool) (c : dict V) :
  NoDup (keys c) -> NoDup (map fst (filter f c)).
Proof.
  induction c as [|[k v] c IH]; cbn; [constructor|].
  intros H. apply NoDup_cons_iff in H as [Hn H]. destruct (f (k, v)); cbn; auto.
  constructor; auto. intros Hin. apply Hn. apply in_map_iff in Hin as [[k' v'] [E Hin]].
  cbn in E; subst. apply filter_In in Hin as [Hin _]. apply in_map_iff. now exists (k, v').
Qed.

Lemma in_succs c n x : NoDup (keys c) ->
  (In x (succs c n) <-> In n (preds c x)).
Proof.
  intros Hnd. unfold succs. rewrite in_map_iff. split.
  - intros [[k ss] [E H]]. cbn in E; subst. apply filter_In in H as [Hin Hs]. cbn in Hs.
    unfold preds. rewrite (dget_in_nodup _ _ _ Hnd Hin). now apply smem_in.
  - unfold preds. destruct (dget x c) as [ss|] eqn:E; [|intros []]. intros H.
    exists (x, ss). split; [reflexivity|]. apply filter_In. split.
    + now apply dget_Some_in.
    + now apply smem_in.
Qed.

Lemma succs_keys c n x : In x (succs c n) -> In x (keys c).
Proof.
  unfold succs. rewrite in_map_iff. intros [[k ss] [E H]]. cbn in E; subst.
  apply filter_In in H as [H _]. apply in_map_iff. now exists (x, ss).
Qed.

(** ** Effect of the inner loop *)
Lemma relax_spec (f : string -> Z) (ks : list string) : forall ss num stack,
  NoDup ss -> incl ss ks -> (forall n, In n ks -> dget n num = Some (f n)) ->
  exists num', relax ss num stack =
      (num', rev (filter (fun n => Z.eqb (f n - 1) 0) ss) ++ stack)
    /\ forall n, In n ks -> dget n num' = Some (f n - (if smem n ss then 1 else 0))%Z.
Proof.
  intros ss. revert f. induction ss as [|s ss IH]; intros f num stack Hnd Hin Hf; cbn.
  - exists num. split; [reflexivity|]. intros n Hn. rewrite Hf by assumption. f_equal. lia.
  - apply NoDup_cons_iff in Hnd as [Hni Hnd].
    rewrite (Hf s) by (apply Hin; now left).
    set (f' := fun n => if String.eqb n s then (f s - 1)%Z else f n).
    destruct (IH f' (dset s (f s - 1)%Z num) (if Z.eqb (f s - 1) 0 then s :: stack else stack)) as [num' [E H]].
    + assumption.
    + intros x Hx. apply Hin. now right.
    + intros n Hn. unfold f'. destruct (String.eqb_spec n s) as [->|Hne].
      * apply dget_dset_same.
      * rewrite dget_dset_other by assumption. now apply Hf.
    + exists num'. rewrite E. split.
      * f_equal.
        assert (EF : filter (fun n => Z.eqb (f' n - 1) 0) ss = filter (fun n => Z.eqb (f n - 1) 0) ss).
        { apply filter_ext_in. intros n Hn. unfold f'.
          destruct (String.eqb_spec n s) as [->|_]; [contradiction|reflexivity]. }
        rewrite EF. destruct (Z.eqb (f s - 1) 0); cbn; [|reflexivity].
        now rewrite <- app_assoc.
      * intros n Hn. rewrite (H n Hn). f_equal. unfold f', smem. cbn.
        destruct (String.eqb_spec n s) as [->|Hne]; cbn; [|reflexivity].
        replace (existsb (String.eqb s) ss) with false; [lia|]. symmetry.
        apply not_true_iff_false. intros HH. apply Hni. now apply smem_in.
Qed.

Definition cnt (c : chain) (ordered : list string) (x : string) : nat :=
  List.length (filter (fun s => smem s (preds c x)) ordered).

Record Inv (c : chain) (num : dict Z) (stack ordered : list string) : Prop := {
  inv_nodup : NoDup (stack ++ ordered);
  inv_incl : incl (stack ++ ordered) (keys c);
  inv_num : forall x, In x (keys c) ->
     dget x num = Some (Z.of_nat (List.length (preds c x)) - Z.of_nat (cnt c ordered x))%Z;
  inv_zero : forall x, In x (keys c) ->
     (List.length (preds c x) = cnt c ordered x <-> In x (stack ++ ordered));
  inv_topo : forall post x pre, ordered = post ++ x :: pre -> incl (preds c x) pre
}.

Lemma cnt_le c ordered x : NoDup ordered -> cnt c ordered x <= List.length (preds c x).
Proof.
  intros H. unfold cnt. apply NoDup_incl_length; [now apply NoDup_filter|].
  intros y Hy. apply filter_In in Hy as [_ Hy]. now apply smem_in.
Qed.

Lemma cnt_full c ordered x : NoDup ordered ->
  List.length (preds c x) = cnt c ordered x -> incl (preds c x) ordered.
Proof.
  intros Hnd E. unfold cnt in E.
  assert (HI : incl (preds c x) (filter (fun s => smem s (preds c x)) ordered)).
  { apply NoDup_length_incl; [now apply NoDup_filter|lia|].
    intros y Hy. apply filter_In in Hy as [_ Hy]. now apply smem_in. }
  intros y Hy. apply HI in Hy. now apply filter_In in Hy.
Qed.

Lemma cnt_full_inv c ordered x : NoDup (preds c x) -> incl (preds c x) ordered ->
  NoDup ordered -> List.length (preds c x) = cnt c ordered x.
Proof.
  intros H1 H2 H3. apply Nat.le_antisymm; [|now apply cnt_le].
  unfold cnt. apply NoDup_incl_length; [assumption|].
  intros y Hy. apply filter_In. split; auto. now apply smem_in.
Qed.

Lemma nodup_app_r {A} (a b : list A) : NoDup (a ++ b) -> NoDup b.
Proof. induction a; cbn; auto. intros H. apply NoDup_cons_iff in H as [_ H]. auto. Qed.

Lemma Inv_init c : NoDup (keys c) -> Inv c (init_num c) (init_stack c) [].
Proof.
  intros Hnd.
  assert (Hst : forall x, In x (init_stack c) <-> In x (keys c) /\ List.length (preds c x) = 0).
  { intros x. unfold init_stack. rewrite <- in_rev, in_map_iff. split.
    - intros [[k ss] [E H]]. cbn in E; subst. apply filter_In in H as [Hin Hz]. cbn in Hz.
      apply Nat.eqb_eq in Hz. split; [apply in_map_iff; now exists (x, ss)|].
      unfold preds. now rewrite (dget_in_nodup _ _ _ Hnd Hin).
    - intros [Hk Hz]. apply dget_in_keys in Hk as [ss Hss]. exists (x, ss). split; [reflexivity|].
      apply filter_In. split; [now apply dget_Some_in|]. cbn. apply Nat.eqb_eq.
      unfold preds in Hz. now rewrite Hss in Hz. }
  constructor.
  - rewrite app_nil_r. unfold init_stack. apply NoDup_rev. now apply nodup_keys_filter.
  - rewrite app_nil_r. intros x Hx. now apply Hst in Hx.
  - intros x Hx. unfold cnt; cbn. rewrite Z.sub_0_r. apply dget_in_keys in Hx as [ss Hss].
    unfold init_num, preds. clear -Hss. induction c as [|[k v] c IH]; cbn in *; [discriminate|].
    destruct (String.eqb x k); [now injection Hss as <-|auto].
  - intros x Hx. rewrite app_nil_r, Hst. unfold cnt; cbn. tauto.
  - intros post x pre E. destruct post; discriminate.
Qed.

Lemma cnt_cons c s ordered x :
  cnt c (s :: ordered) x = (if smem s (preds c x) then 1 else 0) + cnt c ordered x.
Proof. unfold cnt; cbn. destruct (smem s (preds c x)); reflexivity. Qed.

Lemma in_app_mid {A} (x a : A) l r : In x ((a :: l) ++ r) <-> In x (l ++ a :: r).
Proof. cbn. rewrite !in_app_iff; cbn. tauto. Qed.

Lemma Inv_step c num src stack ordered num' stack' : NoDup (keys c) ->
  Inv c num (src :: stack) ordered ->
  relax (succs c src) num stack = (num', stack') ->
  Inv c num' stack' (src :: ordered).
Proof.
  intros Hnd I E.
  set (f := fun x => (Z.of_nat (List.length (preds c x)) - Z.of_nat (cnt c ordered x))%Z).
  assert (Hno : NoDup ordered) by (apply (nodup_app_r (src :: stack)); apply I).
  assert (Hsrc : ~ In src ordered).
  { pose proof (inv_nodup _ _ _ _ I) as H. cbn in H. apply NoDup_cons_iff in H as [H _].
    intros HH. apply H, in_or_app. now right. }
  destruct (relax_spec f (keys c) (succs c src) num stack) as [num2 [E2 Hn2]].
  - now apply nodup_keys_filter.
  - intros x. apply succs_keys.
  - apply I.
  - rewrite E in E2. injection E2 as <- ->.
    set (new := filter (fun n => Z.eqb (f n - 1) 0) (succs c src)).
    assert (Hnew : forall x, In x new <-> In x (keys c) /\ In src (preds c x) /\
                       List.length (preds c x) = S (cnt c ordered x)).
    { intros x. unfold new. rewrite filter_In, (in_succs c src x Hnd). split.
      - intros [H1 H2]. apply Z.eqb_eq in H2. unfold f in H2. split; [|split; [assumption|lia]].
        unfold preds in H1. destruct (dget x c) as [ss|] eqn:Ex; [|destruct H1].
        apply dget_in_keys. now exists ss.
      - intros [_ [H1 H2]]. split; [assumption|]. apply Z.eqb_eq. unfold f. lia. }
    assert (Hnin : forall x, In x new -> ~ In x (src :: stack ++ ordered)).
    { intros x Hx Hin. apply Hnew in Hx as [Hk [_ Hlen]].
      apply (inv_zero _ _ _ _ I x Hk) in Hin. lia. }
    constructor.
    + rewrite <- app_assoc.
      apply (Permutation_NoDup (l := new ++ (src :: stack) ++ ordered)).
      * apply Permutation_app; [apply Permutation_rev|]. cbn. apply Permutation_middle.
      * assert (NoDup new) by (apply NoDup_filter; now apply nodup_keys_filter).
        pose proof (inv_nodup _ _ _ _ I) as Hd. clear -H Hd Hnin.
        induction new as [|y new IH]; cbn; [exact Hd|].
        apply NoDup_cons_iff in H as [H1 H2]. constructor.
        -- rewrite in_app_iff. intros [HH|HH]; [contradiction|]. apply (Hnin y); [now left|exact HH].
        -- apply IH; auto. intros x Hx. apply Hnin. now right.
    + intros x Hx. rewrite <- app_assoc in Hx. apply in_app_iff in Hx as [Hx|Hx].
      * apply in_rev in Hx. now apply Hnew in Hx.
      * apply in_app_mid in Hx. now apply (inv_incl _ _ _ _ I).
    + intros x Hx. rewrite (Hn2 x Hx). f_equal. unfold f. rewrite cnt_cons.
      assert (HE : smem x (succs c src) = smem src (preds c x)).
      { apply eq_true_iff_eq. rewrite !smem_in. now apply in_succs. }
      rewrite HE. destruct (smem src (preds c x)); lia.
    + intros x Hx. rewrite cnt_cons, <- app_assoc, in_app_iff, <- in_rev, Hnew, <- in_app_mid.
      pose proof (inv_zero _ _ _ _ I x Hx) as HZ.
      pose proof (cnt_le c ordered x Hno) as Hle.
      destruct (smem src (preds c x)) eqn:Es.
      * apply smem_in in Es. split.
        -- intros H. left. auto.
        -- intros [[_ [_ H]]|H]; [auto|]. exfalso. apply HZ in H.
           apply Hsrc. now apply (cnt_full c ordered x Hno H).
      * assert (Hns : ~ In src (preds c x)) by (rewrite <- smem_in; congruence).
        cbn [plus]. tauto.
    + intros post x pre Ho. destruct post as [|p post].
      * cbn in Ho. injection Ho as <- <-. apply (cnt_full c ordered src Hno).
        apply (inv_zero _ _ _ _ I); [|now left]. apply (inv_incl _ _ _ _ I). now left.
      * cbn in Ho. injection Ho as <- Ho. eapply (inv_topo _ _ _ _ I); exact Ho.
Qed.

Lemma topo_loop_inv c : NoDup (keys c) -> forall fuel num stack ordered,
  Inv c num stack ordered -> List.length c <= fuel + List.length ordered ->
  exists num' ordered', topo_loop fuel c num stack ordered = Ok (rev ordered')
    /\ Inv c num' [] ordered'.
Proof.
  intros Hnd. induction fuel as [|fuel IH]; intros num stack ordered I Hf.
  - destruct stack as [|s stack]; cbn; [exists num, ordered; auto|].
    exfalso. pose proof (NoDup_incl_length (inv_nodup _ _ _ _ I) (inv_incl _ _ _ _ I)) as H.
    unfold keys in H. rewrite map_length in H. cbn in H. rewrite app_length in H. lia.
  - destruct stack as [|s stack]; cbn; [exists num, ordered; auto|].
    destruct (relax (succs c s) num stack) as [num' stack'] eqn:E.
    apply (IH num' stack' (s :: ordered)); [|cbn; lia].
    eapply Inv_step; eauto.
Qed.

Lemma topo_cases c : NoDup (keys c) ->
  exists num ordered, Inv c num [] ordered /\
    topo c = (if Nat.eqb (List.length ordered) (List.length c) then Ok (rev ordered) else Err C3Error).
Proof.
  intros Hnd. destruct (topo_loop_inv c Hnd (List.length c) _ _ _ (Inv_init c Hnd)) as [num [o [E I]]].
  { cbn. lia. }
  exists num, o. split; auto. unfold topo. rewrite E. cbn. now rewrite rev_length.
Qed.

Lemma rev_mid {A} (l : list A) pre x post :
  rev l = pre ++ x :: post -> l = rev post ++ x :: rev pre.
Proof.
  intros E. rewrite <- (rev_involutive l), E, rev_app_distr. cbn. now rewrite <- app_assoc.
Qed.

Lemma topo_sound c o : NoDup (keys c) -> topo c = Ok o ->
  Permutation o (keys c) /\ topo_sorted c o.
Proof.
  intros Hnd E. destruct (topo_cases c Hnd) as [num [ordered [I Et]]]. rewrite Et in E.
  destruct (Nat.eqb_spec (List.length ordered) (List.length c)) as [HL|]; [|discriminate].
  injection E as <-. split.
  - transitivity ordered; [symmetry; apply Permutation_rev|].
    apply NoDup_Permutation_bis; [apply I| |apply I].
    unfold keys. rewrite map_length. cbn. lia.
  - intros pre x post Ho y Hy. apply rev_mid in Ho.
    apply in_rev. apply edge_preds in Hy.
    exact (inv_topo _ _ _ _ I _ _ _ Ho y Hy).
Qed.

Lemma topo_never_out_of_fuel c : NoDup (keys c) -> topo c <> Err OutOfFuel.
Proof.
  intros Hnd. destruct (topo_cases c Hnd) as [num [ordered [I ->]]].
  destruct (Nat.eqb _ _); discriminate.
Qed.

(** ** Acyclicity *)
Lemma split_pos {A} (x : A) o : In x o -> exists pre post, o = pre ++ x :: post.
Proof. apply in_split. Qed.

Lemma topo_sorted_acyclic c o : NoDup o -> (forall x, In x (keys c) -> In x o) ->
  topo_sorted c o -> acyclic c.
Proof.
  intros Hnd Hin Ht.
  (* R+ y x implies y strictly before x *)
  assert (HB : forall y x, clos_trans _ (edge c) y x ->
            forall pre post, o = pre ++ x :: post -> In y pre).
  { intros y x H. induction H as [y x H|y z x H1 IH1 H2 IH2]; intros pre post E.
    - eapply Ht; eauto.
    - specialize (IH2 _ _ E). apply in_split in IH2 as [p1 [p2 ->]].
      rewrite <- app_assoc in E. cbn in E. specialize (IH1 _ _ E).
      apply in_or_app. now left. }
  intros x H.
  assert (Hx : In x (keys c)).
  { clear -H. apply clos_trans_tn1 in H. remember x as y eqn:Ey in H at 1. clear Ey.
    destruct H as [x H|z x H _];
    destruct H as [ss [H _]]; apply dget_in_keys; now exists ss. }
  apply Hin in Hx. apply in_split in Hx as [pre [post E]].
  specialize (HB x x H pre post E). rewrite E in Hnd.
  apply NoDup_remove_2 in Hnd. apply Hnd, in_or_app. now left.
Qed.

Lemma not_nodup_split (l : list string) : ~ NoDup l ->
  exists a x b d, l = a ++ x :: b ++ x :: d.
Proof.
  induction l as [|y l IH]; intros H; [exfalso; apply H; constructor|].
  destruct (in_dec string_dec y l) as [Hin|Hin].
  - apply in_split in Hin as [b [d ->]]. now exists [], y, b, d.
  - destruct IH as [a [x [b [d ->]]]].
    + intros HN. apply H. now constructor.
    + now exists (y :: a), x, b, d.
Qed.

(** A path: each element is a source of the one before it. *)
Fixpoint back_path (R : string -> string -> Prop) (l : list string) : Prop :=
  match l with
  | [] => True
  | x :: r => match r with [] => True | y :: _ => R y x end /\ back_path R r
  end.
Lemma back_path_cons R x l : back_path R (x :: l) -> back_path R l.
Proof. intros H. exact (proj2 H). Qed.
Lemma back_path_app R a l : back_path R (a ++ l) -> back_path R l.
Proof. induction a; cbn [app]; auto. intros H. apply IHa. eapply back_path_cons; eauto. Qed.
Lemma back_path_trans R b : forall x y d, back_path R (x :: b ++ y :: d) -> clos_trans _ R y x.
Proof.
  induction b as [|z b IH]; intros x y d H.
  - apply t_step. exact (proj1 H).
  - destruct H as [H1 H2]. apply t_trans with z; [|now apply t_step].
    eapply IH. exact H2.
Qed.

Lemma finite_cycle (R : string -> string -> Prop) (U : list string) u :
  In u U -> (forall x, In x U -> exists y, In y U /\ R y x) ->
  exists x, clos_trans _ R x x.
Proof.
  intros Hu H.
  assert (HP : forall n, exists l, List.length l = S n /\ incl l U /\ back_path R l).
  { intros n.
    assert (G : forall n x, In x U -> exists l, List.length l = n /\ incl (x :: l) U /\ back_path R (x :: l)).
    { clear n. induction n as [|n IH]; intros x Hx.
      - exists []. repeat split; auto. intros y [<-|[]]; auto.
      - destruct (H x Hx) as [y [Hy Hr]]. destruct (IH y Hy) as [l [HL [HI HB]]].
        exists (y :: l). split; [cbn; auto|]. split; [|split; assumption].
        intros z [<-|Hz]; auto. }
    destruct (G n u Hu) as [l [HL [HI HB]]]. exists (u :: l). cbn. auto. }
  destruct (HP (List.length U)) as [l [HL [HI HB]]].
  destruct (not_nodup_split l) as [a [x [b [d ->]]]].
  { intros HN. pose proof (NoDup_incl_length HN HI). lia. }
  apply back_path_app in HB. exists x. eapply back_path_trans; exact HB.
Qed.

Lemma topo_complete c : NoDup (keys c) -> closed_chain c -> acyclic c ->
  exists o, topo c = Ok o.
Proof.
  intros Hnd Hc Ha. destruct (topo_cases c Hnd) as [num [ordered [I E]]]. rewrite E.
  destruct (Nat.eqb_spec (List.length ordered) (List.length c)) as [HL|HL]; [now eexists|exfalso].
  assert (Hno : NoDup ordered) by apply I.
  set (U := filter (fun x => negb (smem x ordered)) (keys c)).
  assert (HU : forall x, In x U <-> In x (keys c) /\ ~ In x ordered).
  { intros x. unfold U. rewrite filter_In, negb_true_iff, <- not_true_iff_false, smem_in. tauto. }
  assert (Hne : exists u, In u U).
  { destruct U as [|u U'] eqn:EU; [exfalso|exists u; now left].
    assert (HI : incl (keys c) ordered).
    { intros x Hx. destruct (in_dec string_dec x ordered) as [|Hn]; [assumption|].
      assert (In x (@nil string)) as []. apply HU. auto. }
    pose proof (NoDup_incl_length Hnd HI) as H1.
    pose proof (NoDup_incl_length Hno (inv_incl _ _ _ _ I)) as H2. cbn in H2.
    unfold keys in *. rewrite map_length in *. lia. }
  destruct Hne as [u Hu].
  destruct (finite_cycle (edge c) U u Hu) as [x Hx].
  - intros x Hx. apply HU in Hx as [Hk Hn].
    pose proof (inv_zero _ _ _ _ I x Hk) as HZ. cbn [app] in HZ.
    pose proof Hk as Hk'. apply dget_in_keys in Hk' as [ss Hss].
    assert (Hpre : preds c x = ss) by (unfold preds; now rewrite Hss).
    destruct (Hc x ss Hss) as [Hsd Hsi].
    assert (Hex : exists y, In y ss /\ ~ In y ordered).
    { destruct (existsb (fun y => negb (smem y ordered)) ss) eqn:Ee.
      - apply existsb_exists in Ee as [y [Hy Hb]]. exists y. split; auto.
        rewrite negb_true_iff, <- not_true_iff_false, smem_in in Hb. assumption.
      - exfalso. apply Hn. apply HZ. apply cnt_full_inv; rewrite ?Hpre; auto.
        intros y Hy. destruct (in_dec string_dec y ordered) as [|Hny]; [assumption|exfalso].
        apply not_true_iff_false in Ee. apply Ee. apply existsb_exists. exists y. split; auto.
        rewrite negb_true_iff, <- not_true_iff_false, smem_in. assumption. }
    destruct Hex as [y [Hy Hyn]]. exists y. split.
    + apply HU. split; auto.
    + exists ss. auto.
  - exact (Ha x Hx).
Qed.

(** ** Acceptance of a chain *)
Definition outs (devs : dict device) (k : string) : Z :=
  match dget k devs with
  | Some d => (Z.of_nat (dv_outputs d) - Z.of_nat (dv_inputs d))%Z
  | None => 0%Z
  end.
Definition signal_sum (devs : dict device) (c : chain) : Z :=
  fold_right Z.add 0%Z (map (outs devs) (keys c)).

Definition sources_ok (devs : dict device) (ss : list string) : Prop :=
  exists r, forall s, In s ss -> exists d, dget s devs = Some d /\ dv_resolution d = r.
Definition device_ok (devs : dict device) (kv : string * list string) : Prop :=
  sources_ok devs (snd kv) /\
  exists d, dget (fst kv) devs = Some d /\ dv_inputs d = List.length (snd kv).

Lemma check_sources_ok devs ss : check_sources devs ss = None <-> sources_ok devs ss.
Proof.
  unfold check_sources, sources_ok. destruct ss as [|s0 ss].
  - split; auto. intros _. exists 0%R. intros s [].
  - destruct (dget s0 devs) as [d0|] eqn:E0.
    + assert (G : forall l, check_res devs (dv_resolution d0) l = None <->
          forall s, In s l -> exists d, dget s devs = Some d /\ dv_resolution d = dv_resolution d0).
      { induction l as [|s l IH]; cbn; [split; auto; intros _ s []|].
        destruct (dget s devs) as [d|] eqn:Es.
        - destruct (Req_EM_T (dv_resolution d0) (dv_resolution d)) as [Er|Er].
          + rewrite IH. split.
            * intros H s' [<-|H']; [exists d; auto|auto].
            * intros H s' H'. apply H. now right.
          + split; [discriminate|]. intros H. destruct (H s (or_introl eq_refl)) as [d' [E' R']].
            congruence.
        - split; [discriminate|]. intros H. destruct (H s (or_introl eq_refl)) as [d' [E' _]].
          congruence. }
      rewrite G. split; intros H.
      * exists (dv_resolution d0). exact H.
      * destruct H as [r H]. destruct (H s0 (or_introl eq_refl)) as [d [E R]].
        assert (d = d0) by congruence. subst d. rewrite R. exact H.
    + split; [discriminate|]. intros [r H]. destruct (H s0 (or_introl eq_refl)) as [d [E R]]. congruence.
Qed.

Lemma check_devices_ok devs c : forall z0 z,
  check_devices devs c z0 = Ok z <->
  Forall (device_ok devs) c /\ z = (z0 + signal_sum devs c)%Z.
Proof.
  induction c as [|[k ss] c IH]; intros z0 z; cbn.
  - unfold signal_sum; cbn. split; [intros [= <-]; split; [constructor|lia]|].
    intros [_ ->]. f_equal. lia.
  - destruct (check_sources devs ss) as [e|] eqn:Es.
    + split; [discriminate|]. intros [HF _]. inversion HF as [|? ? [H1 _] _]; subst.
      apply check_sources_ok in H1. cbn in H1. congruence.
    + apply check_sources_ok in Es. unfold signal_sum; cbn [keys map fold_right fst].
      unfold outs at 1. destruct (dget k devs) as [d|] eqn:Ek.
      * destruct (Nat.eqb_spec (dv_inputs d) (List.length ss)) as [Ei|Ei].
        -- rewrite IH. unfold signal_sum, keys. split.
           ++ intros [HF ->]. split; [|lia]. constructor; auto. split; auto. now exists d.
           ++ intros [HF ->]. inversion HF; subst. split; auto. lia.
        -- split; [discriminate|]. intros [HF _]. inversion HF as [|? ? [_ [d' [H1 H2]]] _]; subst.
           cbn in *. congruence.
      * split; [discriminate|]. intros [HF _]. inversion HF as [|? ? [_ [d' [H1 H2]]] _]; subst.
        cbn in *. congruence.
Qed.

Lemma check_chain_ok devs c o :
  check_chain devs c = Ok o <->
  Forall (device_ok devs) c /\ signal_sum devs c = 1%Z /\ topo c = Ok o.
Proof.
  unfold check_chain. destruct (check_devices devs c 0) as [z|e] eqn:E; cbn.
  - pose proof E as E'. apply check_devices_ok in E' as [HF ->]. cbn.
    destruct (Z.eqb_spec (signal_sum devs c) 1) as [E1|E1]; [tauto|].
    split; [discriminate|tauto].
  - split; [discriminate|]. intros [HF [H1 _]].
    assert (check_devices devs c 0 = Ok (0 + signal_sum devs c)%Z) by (apply check_devices_ok; auto).
    congruence.
Qed.

Lemma check_chains_ok devs cs : forall sorted s,
  NoDup (keys cs) -> check_chains devs cs sorted = (s, None) ->
  (forall chan c, dget chan cs = Some c ->
     exists o, dget chan s = Some o /\ check_chain devs c = Ok o)
  /\ (forall chan, ~ In chan (keys cs) -> dget chan s = dget chan sorted).
Proof.
  induction cs as [|[k c] cs IH]; intros sorted s Hnd E; cbn in *.
  - injection E as <-. split; [discriminate|auto].
  - apply NoDup_cons_iff in Hnd as [Hni Hnd].
    destruct (check_chain devs c) as [o|e] eqn:Ec; [|discriminate].
    destruct (IH _ _ Hnd E) as [H1 H2]. split.
    + intros chan c' Hc. destruct (String.eqb_spec chan k) as [->|Hne]; [|auto].
      injection Hc as <-. exists o. split; auto. rewrite H2 by assumption. apply dget_dset_same.
    + intros chan Hn. rewrite H2 by tauto. apply dget_dset_other. intros ->. tauto.
Qed.

Lemma check_chains_err devs cs : forall sorted s e,
  check_chains devs cs sorted = (s, Some e) ->
  exists chan c, In (chan, c) cs /\ check_chain devs c = Err e.
Proof.
  induction cs as [|[k c] cs IH]; intros sorted s e E; cbn in *; [discriminate|].
  destruct (check_chain devs c) as [o|e'] eqn:Ec.
  - destruct (IH _ _ _ E) as [chan [c' [H1 H2]]]. exists chan, c'. auto.
  - injection E as <- <-. exists k, c. auto.
Qed.

Lemma check_chains_reject devs cs : forall sorted,
  (exists chan c e, In (chan, c) cs /\ check_chain devs c = Err e) ->
  snd (check_chains devs cs sorted) <> None.
Proof.
  induction cs as [|[k c] cs IH]; intros sorted [chan [c' [e [Hin He]]]]; cbn; [destruct Hin|].
  destruct (check_chain devs c) as [o|e'] eqn:Ec; [|discriminate].
  apply IH. destruct Hin as [[= <- <-]|Hin]; [congruence|]. now exists chan, c', e.
Qed.

(** ** Data flow *)
Section Flow.
  Context {Sig : Type}.
  Variable proc : string -> string -> list Sig -> Sig.

  (** [flow chan c x s]: s is the signal of device x when every device computes
      its function of the signals of its listed sources, in order. *)
  Inductive flow (chan : string) (c : chain) : string -> Sig -> Prop :=
  | flow_dev x ss ins : dget x c = Some ss -> Forall2 (flow chan c) ss ins ->
      flow chan c x (proc chan x ins).

  Lemma flow_ind2 (chan : string) (c : chain) (P : string -> Sig -> Prop) :
    (forall x ss ins, dget x c = Some ss -> Forall2 (flow chan c) ss ins ->
       Forall2 P ss ins -> P x (proc chan x ins)) ->
    forall x s, flow chan c x s -> P x s.
  Proof.
    intros H. fix IH 3. intros x s [x' ss ins Hg HF].
    apply (H x' ss ins Hg HF). revert ss ins Hg HF.
    assert (G : forall ss ins, Forall2 (flow chan c) ss ins -> Forall2 P ss ins).
    { fix IHF 3. intros ss ins [|a b ss' ins' H1 H2]; [constructor|].
      constructor; [exact (IH a b H1)|exact (IHF _ _ H2)]. }
    intros ss ins _ HF. exact (G ss ins HF).
  Qed.

  Lemma flow_fun chan c x s1 : flow chan c x s1 -> forall s2, flow chan c x s2 -> s1 = s2.
  Proof.
    intros H. induction H as [x ss ins Hg HF IH] using flow_ind2.
    intros s2 H2. inversion H2 as [x' ss' ins' Hg' HF']; subst.
    assert (ss' = ss) by congruence. subst ss'. f_equal.
    clear -IH HF'. revert ins' HF'. induction IH as [|a b ss ins Hab _ IH2]; intros ins' HF'.
    - now inversion HF'.
    - inversion HF' as [|? b' ? ins2 Hb' HF2]; subst. f_equal; auto.
  Qed.

  Lemma collect_ok stack ss ins : @collect Sig stack ss = Ok ins <->
    Forall2 (fun x s => dget x stack = Some s) ss ins.
  Proof.
    revert ins; induction ss as [|x ss IH]; intros ins; cbn.
    - split; [intros [= <-]; constructor|intros H; inversion H; reflexivity].
    - destruct (dget x stack) as [s|] eqn:E.
      + destruct (collect stack ss) as [r|e] eqn:Ec; cbn.
        * split.
          -- intros [= <-]. constructor; auto. now apply IH.
          -- intros H; inversion H as [|? s' ? r' Hs Hr]; subst. apply IH in Hr. congruence.
        * split; [discriminate|]. intros H; inversion H as [|? s' ? r' Hs Hr]; subst.
          apply IH in Hr. discriminate.
      + split; [discriminate|]. intros H; inversion H; congruence.
  Qed.

  Lemma run_chain_ok devs c chan : (forall x, In x (keys c) -> In x (keys devs)) ->
    forall order done stack output trace,
    topo_sorted c (done ++ order) -> NoDup (done ++ order) -> incl order (keys c) ->
    (forall x, In x done -> exists s, dget x stack = Some s /\ flow chan c x s) ->
    exists out trace', run_chain proc devs c chan order stack output trace
        = Ok (out, trace ++ trace')
      /\ map fst trace' = order
      /\ (forall x ins, In (x, ins) trace' -> exists ss, dget x c = Some ss /\ Forall2 (flow chan c) ss ins)
      /\ (order = [] -> out = output)
      /\ (forall pre l, order = pre ++ [l] -> exists s, out = Some s /\ flow chan c l s).
  Proof.
    intros Hdev. induction order as [|x order IH]; intros done stack output trace Ht Hnd Hin Hst.
    - exists output, []. cbn. rewrite app_nil_r. repeat split; auto; try tauto.
      intros pre l E. destruct pre; discriminate.
    - cbn [run_chain].
      destruct (proj1 (dget_in_keys x c) (Hin x (or_introl eq_refl))) as [ss Hss]. rewrite Hss.
      assert (HS : exists ins, collect stack ss = Ok ins /\ Forall2 (flow chan c) ss ins).
      { assert (HI : forall y, In y ss -> In y done).
        { intros y Hy. apply (Ht done x order eq_refl). exists ss. auto. }
        clear -HI Hst. induction ss as [|y ss IHs].
        - exists []. split; [reflexivity|constructor].
        - destruct (Hst y (HI y (or_introl eq_refl))) as [s [Hs Hf]].
          destruct IHs as [ins [E HF]]; [intros; apply HI; now right|].
          exists (s :: ins). cbn. rewrite Hs, E. cbn. split; auto. }
      destruct HS as [ins [-> HF]]. cbn [rbind].
      destruct (proj1 (dget_in_keys x devs) (Hdev x (Hin x (or_introl eq_refl)))) as [d ->].
      set (out := proc chan x ins).
      assert (Hfx : flow chan c x out) by (econstructor; eauto).
      destruct (IH (done ++ [x]) (dset x out stack) (Some out) (trace ++ [(x, ins)]))
        as [o' [tr [E [Hm [Htr [He Hl]]]]]].
      + now rewrite <- app_assoc.
      + now rewrite <- app_assoc.
      + intros y Hy. apply Hin. now right.
      + intros y Hy. destruct (String.eqb_spec y x) as [->|Hne].
        * exists out. split; auto. apply dget_dset_same.
        * apply in_app_iff in Hy as [Hy|[->|[]]]; [|contradiction].
          destruct (Hst y Hy) as [s [Hs Hf]]. exists s. rewrite dget_dset_other; auto.
      + exists o', ((x, ins) :: tr). rewrite E, <- app_assoc. cbn. repeat split; auto.
        * now rewrite Hm.
        * intros y ins' [[= <- <-]|Hy]; [exists ss; auto|auto].
        * discriminate.
        * intros pre l El. destruct pre as [|p pre].
          -- injection El as -> ->. exists out. split; auto.
          -- injection El as -> El. apply (Hl pre l El).
  Qed.
End Flow.

(** ** The final device *)
Definition feeds_at_most_one (c : chain) : Prop :=
  forall y x1 x2, edge c y x1 -> edge c y x2 -> x1 = x2.
Definition is_sink (c : chain) (x : string) : Prop :=
  In x (keys c) /\ forall y, ~ edge c x y.

Lemma last_is_sink c o pre l : topo_sorted c o -> NoDup o -> Permutation o (keys c) ->
  o = pre ++ [l] -> is_sink c l.
Proof.
  intros Ht Hnd HP E. split.
  - eapply Permutation_in; [exact HP|]. rewrite E. apply in_or_app. right. now left.
  - intros y Hy. assert (Hk : In y (keys c)).
    { destruct Hy as [ss [H _]]. apply dget_in_keys. now exists ss. }
    apply (Permutation_in _ (Permutation_sym HP)) in Hk. rewrite E in Hk.
    apply in_split in Hk as [p1 [p2 E2]]. rewrite <- E in E2.
    pose proof (Ht p1 y p2 E2 l Hy) as Hl.
    (* l occurs in p1 and is the last element *)
    destruct p2 as [|z p2] using rev_ind.
    + rewrite E2 in E. apply app_inj_tail in E as [-> ->].
      rewrite E2 in Hnd. apply NoDup_remove_2 in Hnd. apply Hnd. rewrite app_nil_r. exact Hl.
    + rewrite E2 in E. rewrite app_comm_cons, app_assoc in E. apply app_inj_tail in E as [E ->].
      rewrite E2 in Hnd. rewrite app_comm_cons, app_assoc in Hnd.
      apply NoDup_remove_2 in Hnd. apply Hnd. rewrite app_nil_r. apply in_or_app. now left.
Qed.

Lemma sum_ones {A} (f : A -> Z) l : (forall x, In x l -> f x = 1%Z) ->
  fold_right Z.add 0%Z (map f l) = Z.of_nat (List.length l).
Proof.
  induction l as [|a l IH]; intros H; [reflexivity|]. cbn [map fold_right List.length].
  rewrite IH by (intros; apply H; now right). rewrite (H a (or_introl eq_refl)). lia.
Qed.

Lemma signal_sum_count devs c :
  Forall (device_ok devs) c -> (forall x d, In x (keys c) -> dget x devs = Some d -> dv_outputs d = 1) ->
  signal_sum devs c = (Z.of_nat (List.length (keys c)) - Z.of_nat (List.length (List.concat (map snd c))))%Z.
Proof.
  intros HF. unfold signal_sum. induction HF as [|[k ss] c [_ [d [Hd Hi]]] HF IH]; intros Ho; [reflexivity|].
  cbn [keys map fold_right fst snd List.length List.concat] in *. rewrite app_length.
  unfold keys in IH. rewrite IH.
  - unfold outs. rewrite Hd. cbn in Hi. rewrite Hi, (Ho k d (or_introl eq_refl) Hd).
    unfold keys. lia.
  - intros x d' Hx. apply Ho. now right.
Qed.

(** With all outputs equal to one and every device feeding at most one other,
    there is exactly one device that feeds nobody. *)
Lemma unique_sink devs c : NoDup (keys c) -> closed_chain c ->
  Forall (device_ok devs) c -> signal_sum devs c = 1%Z ->
  (forall x d, In x (keys c) -> dget x devs = Some d -> dv_outputs d = 1) ->
  feeds_at_most_one c ->
  forall a b, is_sink c a -> is_sink c b -> a = b.
Proof.
  intros Hnd Hcl HF Hs Ho Hfe a b [Ha1 Ha2] [Hb1 Hb2].
  rewrite (signal_sum_count devs c HF Ho) in Hs.
  set (E := List.concat (map snd c)) in *.
  destruct (string_dec a b) as [|Hab]; [assumption|exfalso].
  assert (HE : forall y, In y E <-> exists x, edge c y x).
  { intros y. unfold E. rewrite in_concat. split.
    - intros [ss [Hss Hy]]. apply in_map_iff in Hss as [[k ss'] [Ek Hin]]. cbn in Ek; subst ss'.
      exists k, ss. split; auto. now apply dget_in_nodup.
    - intros [x [ss [Hg Hy]]]. exists ss. split; auto. apply in_map_iff. exists (x, ss).
      split; auto. now apply dget_Some_in. }
  assert (HEnd : NoDup E).
  { unfold E. clear E HE Hs Ha1 Ha2 Hb1 Hb2 HF Ho Hab.
    assert (G : forall c', incl c' c -> NoDup (keys c') -> NoDup (List.concat (map snd c'))).
    { induction c' as [|[k ss] c' IH]; intros Hi Hn; cbn; [constructor|].
      cbn in Hn. apply NoDup_cons_iff in Hn as [Hk Hn].
      assert (Hg : dget k c = Some ss) by (apply dget_in_nodup; auto; apply Hi; now left).
      assert (Hd : NoDup ss) by (eapply Hcl; eauto).
      assert (IH' : NoDup (List.concat (map snd c'))) by (apply IH; auto; intros x Hx; apply Hi; now right).
      assert (Hdis : forall y, In y ss -> ~ In y (List.concat (map snd c'))).
      { intros y Hy Hy'. apply in_concat in Hy' as [ss' [Hm Hy']].
        apply in_map_iff in Hm as [[k' ss2] [Ek Hin]]. cbn in Ek; subst ss2.
        assert (Hg' : dget k' c = Some ss') by (apply dget_in_nodup; auto; apply Hi; now right).
        assert (k = k') by (apply (Hfe y); [exists ss|exists ss']; auto). subst k'.
        apply Hk. apply in_map_iff. now exists (k, ss'). }
      clear -Hd IH' Hdis. induction ss as [|y ss IHs]; cbn; [assumption|].
      apply NoDup_cons_iff in Hd as [H1 H2]. constructor.
      - rewrite in_app_iff. intros [H|H]; [contradiction|]. apply (Hdis y); [now left|assumption].
      - apply IHs; auto. intros z Hz. apply Hdis. now right. }
    apply G; [apply incl_refl|assumption]. }
  (* a, b and all of E are distinct keys: too many *)
  assert (HN : NoDup (a :: b :: E)).
  { constructor; [|constructor; auto].
    - intros [->|H]; [congruence|]. apply HE in H as [x H]. exact (Ha2 x H).
    - intros H. apply HE in H as [x H]. exact (Hb2 x H). }
  assert (HI : incl (a :: b :: E) (keys c)).
  { intros y [<-|[<-|Hy]]; auto. apply HE in Hy as [x [ss [Hg Hy]]].
    now apply (Hcl x ss Hg). }
  pose proof (NoDup_incl_length HN HI) as HL. cbn in HL. lia.
Qed.
