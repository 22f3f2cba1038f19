(** * C98: what infer_missing of DummyTree adds is the overall average (exact
    arithmetic). *)
From Coq Require Import Reals Lra.
From stdpp Require Import base decidable list gmap strings.
From Verif Require Import Base Num TreeModel RSum Nominal Utils Query QueryR QueryFacts QueryPredict CV CVFacts Cobweb3 C3Facts C3R Query3 PropsC3 PropsQ3 PyVal Preproc Preproc2
  StructMap Trestle Dummy PropsDummy PropsDummyI.
Set Default Proof Using "Type".
Open Scope list_scope.

Section R.
  Context (rng : nat -> R) (ncmp : nom -> nom -> option bool) (normal : R -> R -> A R).
  Context (pystr : attr -> string) (setord : list attr -> list attr) (rlimit : nat).
  Notation X := (val3 ROps).
  Notation dreachable := (dreachable (N:=ROps) pystr setord rlimit).
  Notation d_infer := (d_infer (N:=ROps) rng ncmp normal pystr setord rlimit).

  Lemma histR evs (s : dst ROps) : dreachable evs s -> Forall d_good evs -> HistR (d_tb s) (dhistory evs).
  Proof. intros Hr Hg. by destruct (run_hist_gen pystr setord rlimit summarises eq summarises_laws evs s Hr Hg). Qed.

  (** ** C98, instances without components, "most likely": what the instance
      lacks gets a kind of value (missing, number, or a nominal value) that no
      other kind exceeds in the whole history; numbers get the overall mean.
      A kind of value that is None is left out like a missing one. *)
  Theorem C98_overall_average evs (s : dst ROps) q (d : inst X) f b rpos d' s' : (0 < rlimit)%nat ->
    dreachable evs s -> Forall d_good evs -> flat_inst d -> (forall j a, j ∈ dhistory evs -> a ∈ map fst j -> simple a) ->
    likely f -> d_infer q d f b rpos s = (Ok d', s') ->
    forall a, dget a d = None -> (exists j, j ∈ dhistory evs /\ dget a j <> None) ->
    exists r, (dget a d' = option_map of_scalar r /\ r <> Some (VNom NNone) \/ dget a d' = None /\ r = Some (VNom NNone)) /\
      (forall k, (b = false -> k <> Missing) -> (having (dhistory evs) a k <= having (dhistory evs) a (kind_of r))%nat) /\
      forall y, r = Some (VNum y) ->
        y = (Rsum (fun x => x) (nums (dhistory evs) a) / INR (length (nums (dhistory evs) a)))%R.
  Proof.
    intros Hl Hr Hg Hd Hall Hf E a Ha Hj. pose proof (histR evs s Hr Hg) as Hh.
    destruct (infer_flat (N:=ROps) rng ncmp normal pystr setord rlimit evs s q d f b rpos Hl Hr Hg Hd Hall) as (d1 & am & Hp & E1).
    rewrite E in E1. cbn [fst] in E1. symmetry in E1.
    assert (Hnd : NoDup (dkeys (n3_av (d_tb s)))) by apply Hh.
    destruct (d_loop_predicts (N:=ROps) rng ncmp normal (d_tb s) f b _ Hnd d1 am d' E1) as [_ K].
    assert (Hk : a ∈ dkeys (n3_av (d_tb s))).
    { pose proof (proj1 (known_table _ _ Hh a) Hj) as Hk. destruct (dget a (n3_av (d_tb s))) eqn:Ea; [|done]. by eapply dget_Some_key. }
    assert (Hget : dget a d1 = None).
    { rewrite <- Ha. symmetry. apply dget_perm; [by destruct Hd|by symmetry]. }
    destruct (K a Hk Hget) as (am' & r & Er & Ed). exists r.
    split.
    { destruct (some_val r) as [w|] eqn:Ew.
      - apply some_val_some in Ew as [-> Hw]. left. split; [done|congruence].
      - apply some_val_none in Ew as [->| ->]; [left|right]; done. }
    assert (Hne : dhistory evs <> []) by (destruct Hj as (j & Hj & _); intros E0; rewrite E0 in Hj; by apply elem_of_nil in Hj).
    destruct (predict3_mode rng ncmp normal _ _ a f b am' r Hh Hne Hf Er) as [M1 M2]. split.
    - intros k Hk'. apply M1. intros Hb _. by apply Hk'.
    - intros y Ey. by apply M2.
  Qed.

  (** ** C98: it returns. *)
  Theorem C98_returns evs (s : dst ROps) q (d : inst X) f b rpos : (0 < rlimit)%nat ->
    dreachable evs s -> Forall d_good evs -> flat_inst d -> (forall j a, j ∈ dhistory evs -> a ∈ map fst j -> simple a) ->
    sampling f /\ (forall n, 0 <= rng n < 1)%R /\ (forall m sd am', exists y, fst (normal m sd am') = Ok y) \/
    likely f /\ (forall j k, j <> k -> rng j <> rng k) ->
    exists d', fst (d_infer q d f b rpos s) = Ok d'.
  Proof.
    intros Hl Hr Hg Hd Hall Hf. pose proof (histR evs s Hr Hg) as Hh.
    destruct (infer_flat (N:=ROps) rng ncmp normal pystr setord rlimit evs s q d f b rpos Hl Hr Hg Hd Hall) as (d1 & am & Hp & ->).
    destruct (decide (dhistory evs = [])) as [E0|Hne].
    - assert (Ek : dkeys (n3_av (d_tb s)) = []).
      { destruct (dkeys (n3_av (d_tb s))) as [|a l] eqn:Ek; [done|].
        destruct (run_hist pystr setord rlimit evs s Hr Hg) as [Hh' _].
        destruct (key_had _ _ a Hh') as (j & Hj & _); [rewrite Ek; left|]. rewrite E0 in Hj. by apply elem_of_nil in Hj. }
      rewrite Ek. by exists d1.
    - apply (d_loop_returns (N:=ROps)). intros a am'. exact (predict3_returns rng ncmp normal _ _ a f b am' Hh Hne Hf).
  Qed.
End R.

(** A history as in the theorems: two instances without components. *)
Section Ex.
  Context (pystr : attr -> string) (setord : list attr -> list attr) (rlimit : nat) (q : torc ROps).
  Definition dr_inst (x : string) : inst (val3 ROps) := [(AStr "a", PStr x)].
  Definition dr_counted (x : string) : inst3 ROps := [(AStr "a", VNom (NStr x))].
  Lemma dr_good x : x <> "#ContinuousValue#"%string -> good3 (dr_counted x).
  Proof.
    intros Hx. split; [apply NoDup_singleton|]. split; [apply Forall_cons_2; [done|apply Forall_nil_2]|].
    intros a. unfold dr_counted. cbn [dget]. destruct (decide _); [|done]. intros [= E]. by apply Hx.
  Qed.
  Lemma dr_flat x : flat_inst (dr_inst x).
  Proof.
    split; [apply NoDup_singleton|]. apply Forall_cons_2; [|apply Forall_nil_2].
    split; [exists "a"%string; by repeat split|by eexists].
  Qed.
  Lemma dr_step x evs (s : dst ROps) : x <> "#ContinuousValue#"%string ->
    dreachable pystr setord rlimit evs s -> Forall d_good evs ->
    exists s', dreachable pystr setord rlimit (evs ++ [DFit false (dr_inst x) q (Ok (dr_counted x)) (Ok (d_id s))]) s'.
  Proof.
    intros Hx Hr Hg. destruct (C59_plain_counted pystr setord rlimit q (dr_inst x) s (flat_plain _ (dr_flat x))) as (i & Ei & Em).
    destruct i as [|[a v] [|]]; try discriminate Em. cbn in Em. injection Em as -> ->.
    destruct (C59_fit_returns pystr setord rlimit evs s false q (dr_inst x) _ Hr Hg Ei (dr_good x Hx)) as (s' & Ef & _).
    exists s'. destruct Hr as (ctr & Hr). exists ctr. eapply drun_snoc; [exact Hr|]. by constructor.
  Qed.
  Lemma ex_C98_hyps : exists evs (s : dst ROps), dreachable pystr setord rlimit evs s /\ Forall d_good evs /\
    dhistory evs = [dr_counted "x"; dr_counted "y"] /\ flat_inst ([] : inst (val3 ROps)) /\
    (forall j a, j ∈ dhistory evs -> a ∈ map fst j -> simple a).
  Proof using q.
    assert (H0 : dreachable pystr setord rlimit [] (d_new (N:=ROps) 0)) by (exists 0%nat; constructor).
    destruct (dr_step "x" _ _ ltac:(done) H0 ltac:(constructor)) as (s1 & H1).
    assert (G1 : Forall d_good ([] ++ [DFit false (dr_inst "x") q (Ok (dr_counted "x")) (Ok (d_id (d_new (N:=ROps) 0)))])).
    { apply Forall_cons_2; [|apply Forall_nil_2]. eexists. split; [done|]. by apply dr_good. }
    destruct (dr_step "y" _ _ ltac:(done) H1 G1) as (s2 & H2). eexists _, s2. split; [exact H2|].
    split; [|split; [|split]].
    - apply Forall_app. split; [exact G1|]. apply Forall_cons_2; [|apply Forall_nil_2]. eexists. split; [done|]. by apply dr_good.
    - done.
    - split; [apply NoDup_nil_2|apply Forall_nil_2].
    - intros j a Hj Ha. change (j ∈ [dr_counted "x"; dr_counted "y"]) in Hj.
      assert (Ek : map fst j = [AStr "a"]) by (apply elem_of_cons in Hj as [->|Hj]; [done|by apply elem_of_list_singleton in Hj as ->]).
      rewrite Ek in Ha. apply elem_of_list_singleton in Ha as ->. exists "a"%string. by repeat split.
  Qed.
End Ex.
Print Assumptions C98_overall_average.
Print Assumptions C98_returns.
