From Coq Require Import Reals Lra Lia.
From Verif Require Import Base ChainModel.
Local Open Scope string_scope.
Local Open Scope list_scope.

(** ** C136: changing the signal chains of a generator *)

Lemma check_chains_app : forall devs pre cs sorted,
  check_chains devs (pre ++ cs) sorted = match check_chains devs pre sorted with
                                         | (s, None) => check_chains devs cs s
                                         | bad => bad
                                         end.
Proof.
  intros devs pre. induction pre as [|[k c] pre IH]; intros cs sorted; [reflexivity|]. cbn [app check_chains].
  destruct (check_chain devs c); [apply IH|reflexivity].
Qed.
Lemma check_chains_get : forall devs cs sorted s e chan, check_chains devs cs sorted = (s, e) -> ~ In chan (keys cs) -> dget chan s = dget chan sorted.
Proof.
  intros devs. induction cs as [|[k c] cs IH]; intros sorted s e chan H N; cbn [check_chains keys map fst In] in *; [congruence|].
  destruct (check_chain devs c) as [o|x]; [|congruence]. rewrite (IH _ _ _ _ H) by tauto. apply dget_dset_other. intros ->. tauto.
Qed.

(** What a change does: the new chains are stored in every case; if a channel is refused, the
    channels before it have their new order, it and those after it keep what they had *)
Theorem C136_refused : forall g pre chan c post e, NoDup (keys (pre ++ (chan, c) :: post)) ->
  (forall k c', In (k, c') pre -> is_ok (check_chain (g_devices g) c') = true) -> check_chain (g_devices g) c = Err e ->
  exists g', set_chains g (pre ++ (chan, c) :: post) = (g', Some e)
    /\ g_devices g' = g_devices g /\ g_chains g' = pre ++ (chan, c) :: post
    /\ (forall k c', In (k, c') pre -> match check_chain (g_devices g) c' with Ok o => dget k (g_sorted g') = Some o | Err _ => False end)
    /\ (forall k, ~ In k (keys pre) -> dget k (g_sorted g') = dget k (g_sorted g)).
Proof.
  intros g pre chan c post e N P H.
  assert (G : forall pre sorted, NoDup (keys pre) -> (forall k c', In (k, c') pre -> is_ok (check_chain (g_devices g) c') = true) ->
    exists s, check_chains (g_devices g) pre sorted = (s, None)
      /\ (forall k c', In (k, c') pre -> match check_chain (g_devices g) c' with Ok o => dget k s = Some o | Err _ => False end)
      /\ (forall k, ~ In k (keys pre) -> dget k s = dget k sorted)).
  { clear. induction pre as [|[k c] pre IH]; intros sorted N P.
    - exists sorted. split; [reflexivity|]. split; [intros ? ? []|reflexivity].
    - cbn [check_chains]. pose proof (P k c (or_introl eq_refl)) as Q. cbn [keys map fst] in N. inversion N as [|? ? Nk Np]; subst.
      destruct (check_chain (g_devices g) c) as [o|] eqn:E; [|discriminate Q].
      destruct (IH (dset k o sorted) Np (fun k' c' I => P k' c' (or_intror I))) as (s & S1 & S2 & S3). exists s. split; [exact S1|]. split.
      + intros k' c' [[= <- <-]|I]; [rewrite E; rewrite S3 by exact Nk; apply dget_dset_same|apply (S2 k' c' I)].
      + intros k' N'. cbn [keys map fst In] in N'. rewrite S3 by tauto. apply dget_dset_other. intros ->. tauto. }
  assert (Np : NoDup (keys pre)).
  { unfold keys in *. rewrite map_app in N. clear - N. induction (map fst pre) as [|a l IH]; [constructor|]. cbn in N. inversion N; subst.
    constructor; [intro I; apply H1, in_or_app; left; exact I|apply IH; assumption]. }
  destruct (G pre (g_sorted g) Np P) as (s & S1 & S2 & S3).
  assert (E : check_chains (g_devices g) (pre ++ (chan, c) :: post) (g_sorted g) = (s, Some e)).
  { rewrite check_chains_app, S1. cbn [check_chains]. rewrite H. reflexivity. }
  exists {| g_devices := g_devices g; g_chains := pre ++ (chan, c) :: post; g_sorted := s |}. cbn [g_devices g_chains g_sorted].
  split; [|split; [reflexivity|split; [reflexivity|split; [exact S2|exact S3]]]].
  unfold set_chains. destruct (pre ++ (chan, c) :: post) as [|x l] eqn:Q; [destruct pre; discriminate Q|]. rewrite E. reflexivity.
Qed.
Print Assumptions C136_refused.

(** Finding: an empty dictionary of chains changes nothing; chains cannot be removed. *)
Theorem C136_empty_refuted : forall g, set_chains g [] = (g, None).
Proof. reflexivity. Qed.
Print Assumptions C136_empty_refuted.

(** After a refused change an accepted one repairs the generator: signals are those of a
    generator that only saw the accepted chains *)
Lemma run_channels_ext : forall Sig (proc : string -> string -> list Sig -> Sig) g1 g2 chans output sig,
  g_devices g1 = g_devices g2 -> (forall k, In k chans -> dget k (g_chains g1) = dget k (g_chains g2) /\ dget k (g_sorted g1) = dget k (g_sorted g2)) ->
  run_channels proc g1 chans output sig = run_channels proc g2 chans output sig.
Proof.
  intros Sig proc g1 g2 chans. induction chans as [|k chans IH]; intros output sig D H; cbn [run_channels]; [reflexivity|].
  destruct (H k (or_introl eq_refl)) as [-> ->]. destruct (dget k (g_chains g2)) as [c|]; [|reflexivity]. destruct (dget k (g_sorted g2)) as [o|]; [|reflexivity].
  rewrite D. destruct (run_chain proc (g_devices g2) c k o [] output []) as [[out tr]|x]; cbn [rbind]; [|reflexivity].
  destruct out; [|reflexivity]. apply IH; [exact D|]. intros k' I. apply H. right. exact I.
Qed.
Lemma check_chains_indep : forall devs cs s1 s2 k, In k (keys cs) -> snd (check_chains devs cs s1) = None ->
  snd (check_chains devs cs s2) = None /\ dget k (fst (check_chains devs cs s1)) = dget k (fst (check_chains devs cs s2)).
Proof.
  intros devs cs. induction cs as [|[a c] cs IH]; intros s1 s2 k I H; [destruct I|]. cbn [check_chains] in *. destruct (check_chain devs c) as [o|x]; [|discriminate H].
  destruct (in_dec string_dec k (keys cs)) as [J|J]; [apply IH; assumption|].
  cbn [keys map fst In] in I. destruct I as [<-|I]; [|contradiction]. split.
  - clear - H. revert H. generalize (dset a o s1) (dset a o s2). induction cs as [|[b d] cs IH]; intros u v H; [reflexivity|]. cbn [check_chains] in *.
    destruct (check_chain devs d); [apply (IH _ _ H)|discriminate H].
  - assert (X : forall u, dget a (fst (check_chains devs cs (dset a o u))) = Some o).
    { intros u. rewrite <- (dget_dset_same a o u). destruct (check_chains devs cs (dset a o u)) as [v e] eqn:E. exact (check_chains_get devs cs _ v e a E J). }
    rewrite !X. reflexivity.
Qed.
Theorem C136_repair : forall Sig (proc : string -> string -> list Sig -> Sig) g bad good g1 chans,
  good <> [] -> set_chains (fst (set_chains g bad)) good = (g1, None) ->
  incl chans (keys good) ->
  exists g2, set_chains {| g_devices := g_devices g; g_chains := []; g_sorted := [] |} good = (g2, None)
    /\ generate_signals proc g1 chans = generate_signals proc g2 chans.
Proof.
  intros Sig proc g bad good g1 chans NE H I.
  assert (D : g_devices (fst (set_chains g bad)) = g_devices g).
  { unfold set_chains. destruct bad; [reflexivity|]. destruct (check_chains _ _ _). reflexivity. }
  unfold set_chains in H at 1. unfold set_chains. destruct good as [|kc good]; [contradiction|]. rewrite D in H. cbn [g_devices g_sorted] in *.
  set (s0 := g_sorted (fst (set_chains g bad))) in *. clearbody s0.
  destruct (check_chains (g_devices g) (kc :: good) s0) as [s e] eqn:E1. injection H as <- ->.
  assert (K : In (fst kc) (keys (kc :: good))) by (left; reflexivity).
  pose proof (check_chains_indep (g_devices g) (kc :: good) s0 [] (fst kc) K ltac:(rewrite E1; reflexivity)) as [Q _].
  destruct (check_chains (g_devices g) (kc :: good) []) as [s' e'] eqn:E2. cbn [snd] in Q. subst e'. eexists. split; [reflexivity|].
  unfold generate_signals. apply run_channels_ext; [reflexivity|]. intros k Hk. cbn [g_chains g_sorted]. split; [reflexivity|].
  pose proof (check_chains_indep (g_devices g) (kc :: good) s0 [] k (I k Hk) ltac:(rewrite E1; reflexivity)) as [_ R]. rewrite E1, E2 in R. exact R.
Qed.
Print Assumptions C136_repair.

(** A mixer of two signals, and a change that leaves it one. *)
Definition mix_devs : dict device := [("lo", mkDev 0 1 1%R); ("awg", mkDev 0 1 1%R); ("mixer", mkDev 2 1 1%R)].
Definition mix_good : dict chain := [("d1", [("lo", []); ("awg", []); ("mixer", ["lo"; "awg"])])].
Definition mix_bad : dict chain := [("d1", [("lo", []); ("awg", []); ("mixer", ["lo"])])].
(** Finding: after a refused change the generator goes on with the refused chain, in the old
    order: here a mixer of two signals gets one of them. *)
Theorem C136_refused_used_refuted : forall Sig (proc : string -> string -> list Sig -> Sig),
  let g := fst (set_chains (mkGen mix_devs [] []) mix_good) in
  snd (set_chains (mkGen mix_devs [] []) mix_good) = None
  /\ generate_signals proc g ["d1"] = Ok [("d1", proc "d1" "mixer" [proc "d1" "lo" []; proc "d1" "awg" []])]
  /\ snd (set_chains g mix_bad) = Some C3Error
  /\ generate_signals proc (fst (set_chains g mix_bad)) ["d1"] = Ok [("d1", proc "d1" "mixer" [proc "d1" "lo" []])].
Proof.
  intros Sig proc.
  assert (G : set_chains (mkGen mix_devs [] []) mix_good = (mkGen mix_devs mix_good [("d1", ["awg"; "lo"; "mixer"])], None)
              \/ set_chains (mkGen mix_devs [] []) mix_good = (mkGen mix_devs mix_good [("d1", ["lo"; "awg"; "mixer"])], None)).
  { unfold set_chains, mix_good, check_chains, check_chain, check_devices, check_sources, check_res, mix_devs.
    cbn [g_devices g_sorted dget String.eqb Ascii.eqb Bool.eqb dv_inputs dv_outputs dv_resolution List.length Nat.eqb rbind].
    destruct (Req_EM_T 1 1) as [_|X]; [|lra]. cbn. (left; reflexivity) || (right; reflexivity). }
  destruct G as [-> | ->]; cbn [fst snd];
  (split; [reflexivity|]; split; [reflexivity|];
   assert (B : forall o, set_chains (mkGen mix_devs mix_good [("d1", o)]) mix_bad = (mkGen mix_devs mix_bad [("d1", o)], Some C3Error));
   [ intros o; unfold set_chains, mix_bad, check_chains, check_chain, check_devices, check_sources, check_res, mix_devs;
     cbn [g_devices g_sorted dget String.eqb Ascii.eqb Bool.eqb dv_inputs dv_outputs dv_resolution List.length Nat.eqb rbind];
     destruct (Req_EM_T 1 1) as [_|X]; [reflexivity|lra]
   | rewrite B; split; reflexivity ]).
Qed.
Print Assumptions C136_refused_used_refuted.
