From Coq Require Import Lia.
From Verif Require Import Base ProviderModel ExpProps.
Local Open Scope string_scope.
Local Open Scope list_scope.
Local Open Scope nat_scope.

(** ** C133: backends of a provider *)

(** The number the last class with this name gets, counting from the first free number *)
Fixpoint last_of (name : string) (next : nat) (cs : list bclass) : option nat :=
  match cs with
  | [] => None
  | c :: cs' => match last_of name (S next) cs' with
                | Some b => Some b
                | None => if String.eqb name (c_name c) then Some next else None
                end
  end.

Lemma verify_spec : forall cs w ret, forallb c_ok cs = true ->
  exists d w', verify_loop w cs ret = (inl d, w') /\ w_next w' = w_next w + List.length cs
    /\ (forall i, i < w_next w -> w_exp w' i = w_exp w i) /\ (forall i, w_next w <= i < w_next w' -> w_exp w' i = "")
    /\ forall name, dget name d = match last_of name (w_next w) cs with Some b => Some b | None => dget name ret end.
Proof.
  induction cs as [|c cs IH]; intros w ret H; cbn [verify_loop forallb] in *.
  - exists ret, w. split; [reflexivity|]. split; [cbn; lia|]. split; [reflexivity|]. split; [intros; lia|]. reflexivity.
  - apply andb_prop in H as [Hc H]. unfold get_backend_instance. rewrite Hc.
    destruct (IH {| w_next := S (w_next w); w_exp := fun i => if Nat.eqb i (w_next w) then "" else w_exp w i |} (dset (c_name c) (w_next w) ret) H) as (d & w' & E & N & K & F & G).
    cbn [w_next w_exp] in *. exists d, w'. split; [exact E|]. split; [cbn; lia|]. split; [|split].
    + intros i Hi. rewrite K by lia. destruct (Nat.eqb_spec i (w_next w)); [lia|reflexivity].
    + intros i Hi. destruct (Nat.eq_dec i (w_next w)) as [->|D]; [|apply F; lia]. rewrite K by lia. rewrite Nat.eqb_refl. reflexivity.
    + intros name. rewrite G. cbn [last_of]. destruct (last_of name (S (w_next w)) cs); [reflexivity|].
      destruct (String.eqb_spec name (c_name c)) as [->|D]; [apply dget_dset_same|apply dget_dset_other; congruence].
Qed.

(** A provider is made if all backends can be made; asking for a name gives the backend of the
    last class of that name and refuses a name no class has *)
Theorem C133_named : forall cs w name, forallb c_ok cs = true -> name <> "" ->
  exists p w', provider_init cs w = (inl p, w')
    /\ (forall filters, backends p (Some name) filters = match last_of name (w_next w) cs with Some b => inl [b] | None => inr BackendNotFound end)
    /\ get_backend p (Some name) = match last_of name (w_next w) cs with Some b => inl b | None => inr BackendNotFound end.
Proof.
  intros cs w name H N. destruct (verify_spec cs w [] H) as (d & w' & E & _ & _ & _ & G).
  exists {| p_backends := d |}, w'. unfold provider_init. rewrite E. split; [reflexivity|].
  assert (B : forall filters, backends {| p_backends := d |} (Some name) filters = match last_of name (w_next w) cs with Some b => inl [b] | None => inr BackendNotFound end).
  { intros filters. unfold backends. cbn [p_backends]. destruct (String.eqb_spec name "") as [->|_]; [contradiction|]. rewrite G.
    destruct (last_of name (w_next w) cs); reflexivity. }
  split; [exact B|]. unfold get_backend. rewrite B. destruct (last_of name (w_next w) cs); reflexivity.
Qed.
Print Assumptions C133_named.

(** A class that cannot be made prevents the provider *)
Theorem C133_refused : forall cs w, forallb c_ok cs = false -> fst (provider_init cs w) = inr NotInstantiable.
Proof.
  assert (G : forall cs w ret, forallb c_ok cs = false -> fst (verify_loop w cs ret) = inr NotInstantiable).
  { induction cs as [|c cs IH]; intros w ret H; [discriminate H|]. cbn [forallb verify_loop] in *. unfold get_backend_instance.
    destruct (c_ok c); cbn [andb] in H; [apply IH, H|reflexivity]. }
  intros cs w H. specialize (G cs w [] H). unfold provider_init. destruct (verify_loop w cs []) as [[d|e] w']; cbn in *; [discriminate|congruence].
Qed.
Print Assumptions C133_refused.

(** The list of all backends has one entry per name, and they are the named ones *)
Theorem C133_all : forall cs w p w', provider_init cs w = (inl p, w') ->
  exists bs, backends p None None = inl bs /\ backends p (Some "") None = inl bs
    /\ forall b, In b bs <-> exists c, In c cs /\ last_of (c_name c) (w_next w) cs = Some b.
Proof.
  intros cs w p w' E. assert (H : forallb c_ok cs = true).
  { destruct (forallb c_ok cs) eqn:F; [reflexivity|]. pose proof (C133_refused cs w F) as R. rewrite E in R. discriminate R. }
  destruct (verify_spec cs w [] H) as (d & w2 & V & _ & _ & _ & G).
  assert (ND : NoDup (keys d)).
  { clear - V. assert (Q : forall cs w ret d w2, NoDup (keys ret) -> verify_loop w cs ret = (inl d, w2) -> NoDup (keys d)).
    { induction cs0 as [|c cs0 IH]; intros w0 ret d0 w1 Hn Hv; cbn [verify_loop] in Hv; [congruence|].
      destruct (get_backend_instance w0 c) as [[b|e] wb]; [|discriminate]. eapply IH; [|exact Hv]. apply nodup_dset', Hn. }
    eapply Q; [|exact V]. constructor. }
  unfold provider_init in E. rewrite V in E. injection E as <- <-. exists (map snd d). split; [reflexivity|]. split; [reflexivity|].
  intros b. cbn [p_backends].
  assert (IG : forall k v, In (k, v) d <-> dget k d = Some v).
  { clear - ND. induction d as [|[a x] d IH]; intros k v; cbn [dget In]; [split; [tauto|discriminate]|].
    cbn [keys map fst] in ND. inversion ND as [|? ? Na Nd]; subst. destruct (String.eqb_spec k a) as [->|D].
    - split; [|intros [= ->]; left; reflexivity]. intros [[= ->]|I]; [reflexivity|]. exfalso. apply Na. apply (in_map fst) in I. exact I.
    - rewrite <- (IH Nd). split; [intros [[= -> ->]|I]; [contradiction|exact I]|right; assumption]. }
  assert (LI : forall name next cs0 b0, last_of name next cs0 = Some b0 -> exists c, In c cs0 /\ c_name c = name).
  { intros name next cs0. revert next. induction cs0 as [|c cs0 IH]; intros next b0 L; [discriminate L|]. cbn [last_of] in L.
    destruct (last_of name (S next) cs0) eqn:L2.
    - destruct (IH _ _ L2) as (c' & I & M). exists c'. split; [right; exact I|exact M].
    - destruct (String.eqb_spec name (c_name c)) as [->|]; [|discriminate]. exists c. split; [left; reflexivity|reflexivity]. }
  rewrite in_map_iff. split.
  - intros ([k v] & <- & I). apply IG in I. rewrite G in I. cbn [snd]. destruct (last_of k (w_next w) cs) eqn:L; [|discriminate I].
    destruct (LI _ _ _ _ L) as (c & Ic & <-). exists c. split; [exact Ic|]. congruence.
  - intros (c & Ic & L). exists (c_name c, b). split; [reflexivity|]. apply IG. rewrite G, L. reflexivity.
Qed.
Print Assumptions C133_all.

(** Two requests to one provider give one backend: an experiment set on one is seen on the other.
    Another provider, made at any later time, has a backend of its own, with an empty experiment. *)
Theorem C133_shared : forall p name b1 b2 w e, get_backend p name = inl b1 -> get_backend p name = inl b2 ->
  w_exp (set_c3_experiment w b1 e) b2 = e.
Proof. intros p name b1 b2 w e H1 H2. rewrite H1 in H2. injection H2 as <-. cbn. rewrite Nat.eqb_refl. reflexivity. Qed.
Print Assumptions C133_shared.
Lemma last_of_range : forall name cs next b, last_of name next cs = Some b -> next <= b < next + List.length cs.
Proof.
  induction cs as [|c cs IH]; intros next b L; [discriminate L|]. cbn [last_of List.length] in *. destruct (last_of name (S next) cs) eqn:L2.
  - injection L as ->. specialize (IH _ _ L2). lia.
  - destruct (String.eqb name (c_name c)); [|discriminate]. injection L as <-. lia.
Qed.
Theorem C133_separate : forall cs1 cs2 w p1 w1 p2 w2 name name' b1 b2 e,
  provider_init cs1 w = (inl p1, w1) -> name <> "" -> get_backend p1 (Some name) = inl b1 ->
  provider_init cs2 (set_c3_experiment w1 b1 e) = (inl p2, w2) -> name' <> "" -> get_backend p2 (Some name') = inl b2 ->
  b1 <> b2 /\ w_exp w2 b1 = e /\ w_exp w2 b2 = "".
Proof.
  intros cs1 cs2 w p1 w1 p2 w2 name name' b1 b2 e I1 N1 G1 I2 N2 G2.
  assert (H1 : forallb c_ok cs1 = true).
  { destruct (forallb c_ok cs1) eqn:F; [reflexivity|]. pose proof (C133_refused cs1 w F) as R. rewrite I1 in R. discriminate R. }
  assert (H2 : forallb c_ok cs2 = true).
  { destruct (forallb c_ok cs2) eqn:F; [reflexivity|]. pose proof (C133_refused cs2 (set_c3_experiment w1 b1 e) F) as R. rewrite I2 in R. discriminate R. }
  destruct (C133_named cs1 w name H1 N1) as (p & w' & E & _ & B). rewrite I1 in E. injection E as <- <-. rewrite G1 in B.
  destruct (last_of name (w_next w) cs1) as [b|] eqn:L1; [|discriminate B]. injection B as <-.
  destruct (C133_named cs2 (set_c3_experiment w1 b1 e) name' H2 N2) as (p & w' & E & _ & B). rewrite I2 in E. injection E as <- <-. rewrite G2 in B.
  destruct (last_of name' (w_next (set_c3_experiment w1 b1 e)) cs2) as [b|] eqn:L2; [|discriminate B]. injection B as <-.
  apply last_of_range in L1. apply last_of_range in L2.
  destruct (verify_spec cs1 w [] H1) as (d1 & v1 & V1 & X1 & _). unfold provider_init in I1. rewrite V1 in I1. injection I1 as _ <-.
  destruct (verify_spec cs2 (set_c3_experiment v1 b1 e) [] H2) as (d2 & v2 & V2 & X2 & K2 & F2 & _). unfold provider_init in I2. rewrite V2 in I2. injection I2 as _ <-.
  cbn [set_c3_experiment w_next] in *. split; [lia|]. split.
  - rewrite K2 by lia. cbn. rewrite Nat.eqb_refl. reflexivity.
  - apply F2. lia.
Qed.
Print Assumptions C133_separate.

(** Finding: [filters] has no effect. *)
Theorem C133_filters_refuted : forall p name filters, backends p name (Some filters) = backends p name None
  /\ (forall bs b, (forall x, filters x = false) -> backends p name None = inl bs -> In b bs ->
        exists bs', backends p name (Some filters) = inl bs' /\ In b bs' /\ filters b = false).
Proof. intros p name filters. split; [reflexivity|]. intros bs b F B I. exists bs. split; [exact B|]. split; [exact I|apply F]. Qed.
Print Assumptions C133_filters_refuted.

(** A backend is handed out only if it is the only one that matches; none and several are refused. *)
Theorem C133_only : forall p name bs, backends p name None = inl bs ->
  (forall b, get_backend p name = inl b <-> bs = [b]) /\ (List.length bs <> 1 -> get_backend p name = inr BackendNotFound).
Proof.
  intros p name bs H. unfold get_backend. rewrite H. destruct bs as [|b [|b' bs]].
  - split; [intro x; split; discriminate|reflexivity].
  - split; [intro x; split; intro E; injection E as <-; reflexivity|cbn; lia].
  - split; [intro x; split; discriminate|reflexivity].
Qed.
Print Assumptions C133_only.
Theorem C133_several : forall c1 c2 cs w, forallb c_ok (c1 :: c2 :: cs) = true -> NoDup (map c_name (c1 :: c2 :: cs)) ->
  exists p w', provider_init (c1 :: c2 :: cs) w = (inl p, w') /\ get_backend p None = inr BackendNotFound.
Proof.
  intros c1 c2 cs w H ND. destruct (verify_spec (c1 :: c2 :: cs) w [] H) as (d & w' & E & _).
  assert (I : provider_init (c1 :: c2 :: cs) w = (inl {| p_backends := d |}, w')) by (unfold provider_init; rewrite E; reflexivity).
  exists {| p_backends := d |}, w'. split; [exact I|].
  destruct (C133_all _ _ _ _ I) as (bs & B & _ & M). destruct (C133_only _ _ _ B) as [_ Q]. apply Q. intro L.
  destruct bs as [|b [|]]; try discriminate L.
  assert (X : forall c, In c (c1 :: c2 :: cs) -> last_of (c_name c) (w_next w) (c1 :: c2 :: cs) = Some b).
  { intros c Ic. destruct (last_of (c_name c) (w_next w) (c1 :: c2 :: cs)) as [x|] eqn:Lx.
    - assert (In x [b]) as [->|[]] by (apply M; exists c; auto). reflexivity.
    - exfalso. revert Lx Ic. generalize (w_next w) as nx. generalize (c1 :: c2 :: cs) as l.
      induction l as [|y l IH]; intros nx Lx Ic; [destruct Ic|]. cbn [last_of] in Lx. destruct (last_of (c_name c) (S nx) l) eqn:Y; [discriminate|].
      destruct Ic as [->|Ic]; [rewrite String.eqb_refl in Lx; discriminate|exact (IH _ Y Ic)]. }
  assert (Y : forall l nx k k' x, last_of k nx l = Some x -> last_of k' nx l = Some x -> k = k').
  { induction l as [|y l IH]; intros nx k k' x A A'; [discriminate|]. cbn [last_of] in A, A'.
    destruct (last_of k (S nx) l) as [u|] eqn:U; destruct (last_of k' (S nx) l) as [u'|] eqn:U'.
    - injection A as ->. injection A' as ->. exact (IH _ _ _ _ U U').
    - injection A as ->. destruct (String.eqb k' (c_name y)); [|discriminate]. injection A' as <-. apply last_of_range in U. lia.
    - injection A' as ->. destruct (String.eqb k (c_name y)); [|discriminate]. injection A as <-. apply last_of_range in U'. lia.
    - destruct (String.eqb_spec k (c_name y)); [|discriminate]. destruct (String.eqb_spec k' (c_name y)); [|discriminate]. congruence. }
  pose proof (Y _ _ _ _ _ (X c1 (or_introl eq_refl)) (X c2 (or_intror (or_introl eq_refl)))) as Z.
  cbn [map] in ND. inversion ND as [|? ? N1 _]; subst. apply N1. left. symmetry. exact Z.
Qed.
Print Assumptions C133_several.

(** Finding: two classes with one name are both created and one of them cannot be reached. *)
Theorem C133_same_name_refuted : forall c w, c_ok c = true -> c_name c <> "" ->
  exists p w', provider_init [c; c] w = (inl p, w') /\ w_next w' = S (S (w_next w)) /\ backends p None None = inl [S (w_next w)].
Proof.
  intros c w H N. unfold provider_init. cbn [verify_loop]. unfold get_backend_instance. rewrite H. cbn [dset w_next].
  rewrite String.eqb_refl. eexists. eexists. split; [reflexivity|]. split; reflexivity.
Qed.
Print Assumptions C133_same_name_refuted.

(** The options as a dictionary: the five documented ones, with their values; others are left out *)
Theorem C133_options : forall V (opts : dict V) d, options_to_dict opts = Ok d ->
  keys d = ["params"; "opt_map"; "shots"; "memory"; "initial_statevector"] /\ forall k, In k (keys d) -> dget k d = dget k opts.
Proof.
  intros V opts d H. unfold options_to_dict in H.
  destruct (dget "params" opts) as [p|] eqn:E1; [|discriminate]. destruct (dget "opt_map" opts) as [o|] eqn:E2; [|discriminate].
  destruct (dget "shots" opts) as [s|] eqn:E3; [|discriminate]. destruct (dget "memory" opts) as [m|] eqn:E4; [|discriminate].
  destruct (dget "initial_statevector" opts) as [i|] eqn:E5; [|discriminate]. injection H as <-. split; [reflexivity|].
  intros k [<-|[<-|[<-|[<-|[<-|[]]]]]]; symmetry; assumption.
Qed.
Print Assumptions C133_options.
Theorem C133_options_missing : forall V (opts : dict V), (options_to_dict opts = Err AttributeError <-> exists k, In k ["params"; "opt_map"; "shots"; "memory"; "initial_statevector"] /\ dget k opts = None).
Proof.
  intros V opts. unfold options_to_dict. split.
  - destruct (dget "params" opts) as [p|] eqn:E1; [|intros _; exists "params"; split; [cbn; tauto|assumption]].
    destruct (dget "opt_map" opts) as [o|] eqn:E2; [|intros _; exists "opt_map"; split; [cbn; tauto|assumption]].
    destruct (dget "shots" opts) as [s|] eqn:E3; [|intros _; exists "shots"; split; [cbn; tauto|assumption]].
    destruct (dget "memory" opts) as [m|] eqn:E4; [|intros _; exists "memory"; split; [cbn; tauto|assumption]].
    destruct (dget "initial_statevector" opts) as [i|] eqn:E5; [discriminate|intros _; exists "initial_statevector"; split; [cbn; tauto|assumption]].
  - intros (k & [<-|[<-|[<-|[<-|[<-|[]]]]]] & ->); repeat (match goal with |- context [dget ?x opts] => destruct (dget x opts) end); reflexivity.
Qed.
Print Assumptions C133_options_missing.

(** Non-vacuity: the one listed simulator *)
Example C133_example : exists p w', provider_init [{| c_name := "c3_qasm_physics_simulator"; c_ok := true |}] {| w_next := 0; w_exp := fun _ => "" |} = (inl p, w')
  /\ get_backend p (Some "c3_qasm_physics_simulator") = inl 0 /\ get_backend p (Some "c3_qasm_perfect_simulator") = inr BackendNotFound /\ get_backend p None = inl 0.
Proof. eexists. eexists. split; [reflexivity|]. repeat split. Qed.
