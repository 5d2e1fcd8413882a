(** Shared vocabulary of the models: Python exceptions as values, ordered
    dictionaries, and a few list helpers.  No model of any particular file of
    /repo lives here. *)
From Coq Require Export List String Bool Arith ZArith Lia.
Export ListNotations.
Local Open Scope list_scope.

(** The exception classes that the modelled code can raise. *)
Inductive exn : Type :=
| OOBError        (* c3.c3objs.QuantityOOBException *)
| MapOOBError     (* c3.parametermap.ParameterMapOOBUpdateException *)
| KeyError        (* dictionary lookup of an absent key *)
| IndexError      (* list index out of range *)
| ValueError
| TypeError
| AttributeError
| NotImplemented
| C3Error         (* plain [Exception("C3:ERROR ...")] raised by the library *)
| FileNotFound
| ZeroDivision
| OptResultOOB
| NaNResult       (* not an exception: the code would silently store NaN *)
| OutOfFuel.      (* not an exception: the model's recursion bound was hit *)

Inductive result (A : Type) : Type :=
| Ok (a : A)
| Err (e : exn).
Arguments Ok {A} a.
Arguments Err {A} e.

Definition rbind {A B} (r : result A) (f : A -> result B) : result B :=
  match r with Ok a => f a | Err e => Err e end.

Definition is_ok {A} (r : result A) : bool :=
  match r with Ok _ => true | Err _ => false end.

(** ** Python dictionaries: insertion-ordered association lists. *)
Section Dict.
  Context {V : Type}.
  Definition dict := list (string * V).

  Fixpoint dget (k : string) (d : dict) : option V :=
    match d with
    | [] => None
    | (k', v) :: d' => if String.eqb k k' then Some v else dget k d'
    end.

  (** [d[k] = v]: overwrite in place, else append at the end. *)
  Fixpoint dset (k : string) (v : V) (d : dict) : dict :=
    match d with
    | [] => [(k, v)]
    | (k', v') :: d' =>
        if String.eqb k k' then (k', v) :: d' else (k', v') :: dset k v d'
    end.

  (** [del d[k]] (no-op when absent; callers check first). *)
  Fixpoint ddel (k : string) (d : dict) : dict :=
    match d with
    | [] => []
    | (k', v') :: d' =>
        if String.eqb k k' then d' else (k', v') :: ddel k d'
    end.

  Definition keys (d : dict) : list string := map fst d.
  Definition dmem (k : string) (d : dict) : bool :=
    match dget k d with Some _ => true | None => false end.
End Dict.
Arguments dict V : clear implicits.

Section DictFacts.
  Context {V : Type}.
  Implicit Types (d : dict V) (k : string) (v : V).

  Lemma dget_dset_same k v d : dget k (dset k v d) = Some v.
  Proof.
    induction d as [|[k' v'] d IH]; cbn; [now rewrite String.eqb_refl|].
    destruct (String.eqb k k') eqn:E; cbn; rewrite E; auto.
  Qed.

  Lemma dget_dset_other k k' v d : k <> k' -> dget k (dset k' v d) = dget k d.
  Proof.
    intros Hne. induction d as [|[k'' v''] d IH]; cbn.
    - destruct (String.eqb_spec k k'); [contradiction|reflexivity].
    - destruct (String.eqb_spec k' k'') as [->|Hn]; cbn.
      + destruct (String.eqb_spec k k''); [contradiction|reflexivity].
      + destruct (String.eqb k k''); auto.
  Qed.

  Lemma dget_Some_in k v d : dget k d = Some v -> In (k, v) d.
  Proof.
    induction d as [|[k' v'] d IH]; cbn; [discriminate|].
    destruct (String.eqb_spec k k') as [->|Hn]; intros H.
    - injection H as ->. now left.
    - right; auto.
  Qed.

  Lemma dget_None_notin k d : dget k d = None <-> ~ In k (keys d).
  Proof.
    induction d as [|[k' v'] d IH]; cbn; [tauto|].
    destruct (String.eqb_spec k k') as [->|Hn].
    - split; [discriminate|]. intros H; exfalso; apply H; now left.
    - rewrite IH. split; intros H.
      + intros [E|E]; [congruence|auto].
      + intros E; apply H; now right.
  Qed.

  Lemma dget_in_keys k d : In k (keys d) <-> exists v, dget k d = Some v.
  Proof.
    destruct (dget k d) as [v|] eqn:E; split.
    - intros _; now exists v.
    - intros _. apply dget_Some_in in E. apply in_map_iff. now exists (k, v).
    - intros H. apply dget_None_notin in E. contradiction.
    - intros [v Hv]; discriminate.
  Qed.

  Lemma dget_in_nodup k v d : NoDup (keys d) -> In (k, v) d -> dget k d = Some v.
  Proof.
    induction d as [|[k' v'] d IH]; cbn; [tauto|].
    intros Hnd Hin. apply NoDup_cons_iff in Hnd as [Hni Hnd].
    destruct Hin as [E|Hin].
    - injection E as -> ->. now rewrite String.eqb_refl.
    - destruct (String.eqb_spec k k') as [->|Hn]; auto.
      exfalso. apply Hni. apply in_map_iff. now exists (k', v).
  Qed.

  Lemma keys_dset_present k v d : In k (keys d) -> keys (dset k v d) = keys d.
  Proof.
    unfold keys.
    induction d as [|[k' v'] d IH]; cbn; [tauto|].
    intros Hin. destruct (String.eqb_spec k k') as [->|Hn]; cbn; [reflexivity|].
    f_equal. apply IH. destruct Hin; [congruence|assumption].
  Qed.

  Lemma dget_ddel_other k k' d : k <> k' -> dget k (ddel k' d) = dget k d.
  Proof.
    intros Hne. induction d as [|[k'' v''] d IH]; cbn; [reflexivity|].
    destruct (String.eqb_spec k' k'') as [->|Hn]; cbn.
    - destruct (String.eqb_spec k k''); [contradiction|reflexivity].
    - destruct (String.eqb k k''); auto.
  Qed.

  Lemma keys_ddel_nodup k d : NoDup (keys d) -> NoDup (keys (ddel k d)).
  Proof.
    unfold keys.
    induction d as [|[k' v'] d IH]; cbn; [auto|].
    intros H. apply NoDup_cons_iff in H as [Hni Hnd].
    destruct (String.eqb_spec k k') as [->|Hn]; cbn; [assumption|].
    constructor; auto. intros Hin. apply Hni.
    clear - Hin. induction d as [|[a b] d IH]; cbn in *; [assumption|].
    destruct (String.eqb k a); cbn in *; tauto.
  Qed.
End DictFacts.
