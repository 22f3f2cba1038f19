(** * Clusterings read off a TrestleTree (C91). *)
From Coq Require Import Reals Lra.
From stdpp Require Import base decidable list gmap strings sets.
From Coq Require Import Ascii String ZArith.
From Verif Require Import Base Num TreeModel TreeFun TreeScore TreeRefine TreeSorts TreeInv SpecTree SpecCluster TreeState
  TreeTotal TreeLeaf PropsTotal Nominal Utils CV Cobweb3 C3Facts C3R C3Tree C3Total Query Query3 QueryLinks PropsC3 PropsC3R
  PyVal Preproc Preproc2 StructMap StructFacts PropsStruct PreStd Trestle SpecTrestle
  TreeKeep TrestleFacts TrestleFresh TrestleVals TrestleTotal TrestleRun PropsTrestle PropsTrestleR
  Cluster ClusterFacts ClusterLoop ClusterCU ClusterDepth PropsCluster PropsClusterT Quadruped PropsQuad TCluster.
Set Default Proof Using "Type".
Open Scope nat_scope.
Open Scope list_scope.

Section Any.
  Context {N : NumOps} (rng : nat -> num N).
  Notation F := (num N).
  Notation C := (Cobweb3Class N).
  Notation X := (val3 N).
  Context (ncmp : nom -> nom -> option bool) (normal : F -> F -> A F).
  Context (pystr : attr -> string) (setord : list attr -> list attr) (rlimit : nat) (x0 : ctx3 N).
  Context (nodeord : list nat -> list nat) (heur : list nat -> list nat -> M C F).
  Hypothesis Hnormal : forall m sd : F, amono (normal m sd).
  Notation treachable := (treachable rng ncmp normal pystr setord rlimit x0).
  Notation tstep := (tstep rng ncmp normal pystr setord rlimit x0).
  Notation t_sorts := (t_sorts rng pystr setord rlimit).

  (** The instances are given to ifit (or categorize) one after the other;
      [js] are the concepts that the calls return.  *)
  Inductive t_sorted (mod_ : bool) : tst N -> list (inst X * torc N) -> list nat -> tst N -> Prop :=
  | ts_nil s : t_sorted mod_ s [] [] s
  | ts_cons s d q l j js s1 s2 :
      (if mod_ then t_fit rng pystr setord rlimit q d s else t_cat rng pystr setord rlimit q d s) = (Ok j, s1) ->
      t_sorted mod_ s1 l js s2 -> t_sorted mod_ s ((d, q) :: l) (j :: js) s2.

  Lemma t_sorted_sorts mod_ l : forall s js s', t_sorted mod_ s l js s' <-> t_sorts mod_ l s = (Ok js, s').
  Proof.
    induction l as [|[d q] l IH]; intros s js s'; cbn [TCluster.t_sorts].
    - split; [inversion 1; done|]. intros [= <- <-]. constructor.
    - unfold t_sort. cbn [fst snd]. split.
      + inversion 1 as [|? ? ? ? j js' s1 s2 E1 E2]; subst. apply IH in E2. destruct mod_; rewrite E1, E2; done.
      + destruct (if mod_ then t_fit rng pystr setord rlimit q d s else t_cat rng pystr setord rlimit q d s)
          as [[j|e] s1] eqn:E1; [|done].
        destruct (t_sorts mod_ l s1) as [[js'|e] s2] eqn:E2; [|done].
        intros [= <- <-]. econstructor; [exact E1|by apply IH].
  Qed.

  Lemma t_sort_ok (mod_ : bool) d q (s : tst N) t j s' : state_ok C (t_tree s) t ->
    (if mod_ then t_fit rng pystr setord rlimit q d s else t_cat rng pystr setord rlimit q d s) = (Ok j, s') ->
    exists t', state_ok C (t_tree s') t' /\ (forall i, leaf_in C t i -> leaf_in C t' i) /\ leaf_in C t' j.
  Proof.
    intros Hok E. unfold t_fit, t_cat in E. destruct (t_ready pystr setord rlimit q d s) as [[i|e] s1] eqn:Er; [|by destruct mod_].
    pose proof (grown_ok _ _ _ (ready_grown _ _ _ _ _ _ _ _ Er) Hok) as Hok1.
    assert (E2 : exists s2, sort_in C rng mod_ i (t_tree s1) = (Ok j, s2) /\ t_tree s' = s2).
    { unfold sort_in, on_tree in *. destruct mod_.
      - destruct (cobweb C rng i (t_tree s1)) as [r2 s2]. cbn [fst snd] in E. injection E as -> <-. by exists s2.
      - destruct (cobweb_categorize C rng i (t_tree s1)) as [r2 s2]. cbn [fst snd] in E. injection E as -> <-. by exists s2. }
    destruct E2 as (s2 & E2 & ->). destruct (sort_in_ok C rng _ _ _ _ _ _ Hok1 E2) as (t' & H1 & H2 & H3 & _).
    exists t'. split; [done|]. split; [done|]. by apply H3.
  Qed.
  Lemma t_sorted_ok mod_ l : forall s t js s0, state_ok C (t_tree s) t -> t_sorted mod_ s l js s0 ->
    exists t0, state_ok C (t_tree s0) t0 /\ (forall i, leaf_in C t i -> leaf_in C t0 i) /\ Forall (leaf_in C t0) js /\ List.length js = List.length l.
  Proof.
    induction l as [|[d q] l IH]; intros s t js s0 Hok Hs; inversion Hs as [|? ? ? ? j js' s1 s2 E1 E2]; subst.
    - exists t. split; [done|]. split; [done|]. by split.
    - destruct (t_sort_ok _ _ _ _ _ _ _ Hok E1) as (t1 & H1 & H2 & H3).
      destruct (IH _ _ _ _ H1 E2) as (t0 & G1 & G2 & G3 & G4). exists t0. split; [done|]. split; [auto|].
      split; [constructor; [by apply G2|done]|]. simpl. by rewrite G4.
  Qed.
  Lemma treachable_state evs s : treachable evs s -> exists t, state_ok C (t_tree s) t.
  Proof using Hnormal.
    intros Hr. pose proof (treachable_calls rng ncmp normal pystr setord rlimit Hnormal _ _ _ Hr) as Hc.
    exact (reachable_ok _ _ _ _ _ Hc).
  Qed.

  (** ** C91: cluster_iter on a TrestleTree *)
  (** [s0] is the copy of the tree after sorting. *)
  Theorem C91_cluster_iter evs s mod_ l leaves s0 maxsplit ys r s' :
    treachable evs s -> (forall l x, x ∈ nodeord l <-> x ∈ l) -> reads_only C heur ->
    l <> [] -> 1 <= maxsplit -> t_sorted mod_ s l leaves s0 ->
    t_cluster_iter rng pystr setord rlimit nodeord heur 1 maxsplit mod_ l s = (ys, r, s') ->
    (* the caller's tree is untouched *)
    (st_heap (t_tree s') = st_heap (t_tree s) /\ st_root (t_tree s') = st_root (t_tree s) /\
     st_ctx (t_tree s') = st_ctx (t_tree s) /\ t_sym s' = t_sym s) /\
    (* the labelings *)
    List.length leaves = List.length l /\
    read_off C heur (t_tree s0) leaves maxsplit ys r /\
    (total_order N -> least_next C heur (t_tree s0) leaves ys).
  Proof using Hnormal.
    intros Hr Hset Hread Hne Hmax Hsort E. destruct (treachable_state _ _ Hr) as (t & Hok).
    destruct (t_sorted_ok _ _ _ _ _ _ Hok Hsort) as (t0 & Hok0 & _ & Hleaf & Hlen).
    unfold t_cluster_iter in E. simpl in E. rewrite (proj2 (Nat.ltb_ge maxsplit 1) Hmax) in E.
    apply t_sorted_sorts in Hsort. destruct l as [|dq l]; [done|]. rewrite Hsort in E.
    assert (Hne' : leaves <> []) by (by destruct leaves).
    destruct (cl_loop C nodeord heur maxsplit 1 1 leaves (t_tree s0)) as [[ys' r'] s2] eqn:El. injection E as <- <- <-.
    split; [done|]. split; [done|]. exact (loop_read_off C nodeord heur _ t0 leaves maxsplit ys' r' s2 Hset Hread Hok0 Hleaf Hne' Hmax El).
  Qed.

  (** k_cluster never returns a labeling, and with minsplit > 1 nothing is
      yielded, as on the other trees (C52, C53). *)
  Theorem C91_k_cluster_fails evs s mod_ l k labels s' :
    treachable evs s -> (forall l x, x ∈ nodeord l <-> x ∈ l) -> reads_only C heur ->
    t_k_cluster rng pystr setord rlimit nodeord heur k mod_ l s <> (Ok labels, s').
  Proof using Hnormal.
    intros Hr Hset Hread E. unfold t_k_cluster in E. destruct (k <? 2)%nat; [done|].
    destruct (t_cluster_iter rng pystr setord rlimit nodeord heur 1 max_rounds mod_ l s) as [[ys r] s2] eqn:Ec.
    destruct ys as [|y ys]; [|done]. destruct r as [[]|e]; [|done]. destruct l as [|dq l]; [done|].
    destruct (t_sorts mod_ (dq :: l) s) as [[js|e] s1] eqn:Es.
    - apply t_sorted_sorts in Es.
      destruct (C91_cluster_iter evs s mod_ (dq :: l) js s1 max_rounds [] (Ok tt) s2 Hr Hset Hread ltac:(done) max_rounds_pos Es Ec)
        as (_ & _ & (_ & _ & _ & _ & _ & _ & H & _) & _). by apply H.
    - unfold t_cluster_iter in Ec. change (1 <? 1)%nat with false in Ec. cbv iota in Ec.
      rewrite (proj2 (Nat.ltb_ge max_rounds 1) max_rounds_pos) in Ec. rewrite Es in Ec. done.
  Qed.
  Theorem C91_minsplit_yields_nothing s mod_ l leaves s0 minsplit maxsplit :
    nodeord [] = [] -> l <> [] -> 2 <= minsplit <= maxsplit -> t_sorted mod_ s l leaves s0 ->
    exists s', t_cluster_iter rng pystr setord rlimit nodeord heur minsplit maxsplit mod_ l s = ([], Ok tt, s').
  Proof using.
    intros Hset Hne [Hm1 Hm2] Hsort. unfold t_cluster_iter.
    rewrite (proj2 (Nat.ltb_ge minsplit 1) ltac:(lia)), (proj2 (Nat.ltb_ge maxsplit minsplit) Hm2).
    destruct l as [|i is_]; [done|]. apply t_sorted_sorts in Hsort. rewrite Hsort.
    destruct maxsplit as [|n]; [lia|]. cbn [cl_loop]. rewrite (proj2 (Nat.leb_gt minsplit 1) ltac:(lia)).
    cbn [mret map]. rewrite Hset. cbn [mmapM mret concat]. by eexists.
  Qed.

  (** ** depth_labels *)
  Theorem C91_depth_labels evs s mod_ l leaves s0 :
    treachable evs s -> l <> [] -> t_sorted mod_ s l leaves s0 ->
    exists R, t_depth_labels rng pystr setord rlimit mod_ l s = (Ok R, s0) /\
      List.length leaves = List.length l /\ depth_table C (t_tree s0) leaves R.
  Proof using Hnormal.
    intros Hr Hne Hsort. destruct (treachable_state _ _ Hr) as (t & Hok).
    destruct (t_sorted_ok _ _ _ _ _ _ Hok Hsort) as (t0 & Hok0 & _ & Hleaf & Hlen).
    assert (Hlv : leaves <> []) by (by destruct leaves, l).
    destruct (label_rows_ok C (t_tree s0) t0 leaves Hok0 Hleaf Hlv) as (R & ER & HR). apply t_sorted_sorts in Hsort.
    exists R. split; [|by split]. unfold t_depth_labels. rewrite Hsort. unfold label_rows in ER. rewrite ER.
    unfold on_tree. cbn [fst snd]. by destruct s0.
  Qed.
End Any.

(** ** C91 over the reals: clustering returns *)
Lemma some_fits3 : exists i : inst3 ROps, fits3 i.
Proof.
  exists [(AStr "a", VNum (N:=ROps) 0%R)]. split.
  - split; [apply NoDup_singleton|]. split; [by apply Forall_singleton|].
    intros a. simpl. by case_decide.
  - exists (AStr "a"). split; [done|left].
Qed.
Section Real.
  Context (rng : nat -> R) (sc : option R) (inner : bool).
  Notation C := (Cobweb3Class ROps).
  Notation X := (val3 ROps).
  Notation x0 := (@new_ctx ROps sc inner).
  Context (ncmp : nom -> nom -> option bool) (normal : R -> R -> A R).
  Context (pystr : attr -> string) (setord : list attr -> list attr) (rlimit : nat).
  Context (nodeord : list nat -> list nat).
  Hypothesis Hnormal : forall m sd : R, amono (normal m sd).
  Hypothesis setord_spec : forall l x, x ∈ setord l <-> x ∈ l.
  Hypothesis Hset : forall l x, x ∈ nodeord l <-> x ∈ l.
  Hypothesis Hd : @distinct_draws ROps rng.
  Notation treachable := (treachable (N:=ROps) rng ncmp normal pystr setord rlimit x0).
  Notation t_sorted := (t_sorted (N:=ROps) rng pystr setord rlimit).

  (** Instances that TRESTLE can work with, and searches that answer as assumed. *)
  Definition fitting (dq : inst X * torc ROps) : Prop := t_fits (fst dq) /\ oracle_ok (to_orc (snd dq)).

  Lemma thistory_snoc evs (e : tevent ROps) : thistory (evs ++ [e]) = thist_step (thistory evs) e.
  Proof. unfold thistory. by rewrite fold_left_app. Qed.

  Lemma fitting_sorted mod_ l : forall evs s, treachable evs s -> Forall t_sensible evs -> Forall fitting l ->
    exists js s0 evs0, t_sorted mod_ s l js s0 /\ treachable evs0 s0 /\ Forall t_sensible evs0 /\
      (mod_ = true /\ l <> [] \/ thistory evs <> [] -> thistory evs0 <> []).
  Proof using Hnormal setord_spec Hd.
    induction l as [|[d q] l IH]; intros evs s Hr He HF.
    { exists [], s, evs. split; [constructor|]. split; [done|]. split; [done|]. by intros [[_ ?]|?]. }
    apply Forall_cons in HF as [[Hf Ho] HF]. cbn [fst snd] in Hf, Ho.
    destruct (C76_fitting_never_raises rng sc inner ncmp normal pystr setord rlimit Hnormal setord_spec Hd evs s Hr He) as [_ Hn].
    destruct (Hn q d Ho Hf) as [[c1 E1] [c2 E2]].
    destruct (treachable_wn rng sc inner ncmp normal pystr setord rlimit Hnormal setord_spec evs s Hr He) as (_ & H2 & H3).
    destruct (ready_next rng sc inner ncmp normal pystr setord rlimit Hnormal setord_spec _ _ q d Hr H2 H3 Ho Hf) as (i & s1 & Er & _).
    destruct Hr as (ctr & rpos & Hr). destruct mod_.
    - destruct (t_fit (N:=ROps) rng pystr setord rlimit q d s) as [r s2] eqn:E. simpl in E1. subst r.
      destruct (IH (evs ++ [TFit d q (Ok i) (Ok c1)]) s2) as (js & s0 & evs0 & G1 & G2 & G3 & G4).
      + exists ctr, rpos. eapply trun_snoc; [exact Hr|]. apply tstep_fit; [by apply tf_wf|done|by rewrite Er|done].
      + apply Forall_app. split; [done|]. by apply Forall_singleton.
      + done.
      + exists (c1 :: js), s0, evs0. split; [by econstructor|]. split; [done|]. split; [done|]. intros _. apply G4. right.
        rewrite thistory_snoc. simpl. by destruct (thistory evs).
    - destruct (t_cat (N:=ROps) rng pystr setord rlimit q d s) as [r s2] eqn:E. simpl in E2. subst r.
      destruct (IH (evs ++ [TCat d q (Ok c2)]) s2) as (js & s0 & evs0 & G1 & G2 & G3 & G4).
      + exists ctr, rpos. eapply trun_snoc; [exact Hr|]. apply tstep_cat; [by apply tf_wf|done|done].
      + apply Forall_app. split; [done|]. by apply Forall_singleton.
      + done.
      + exists (c2 :: js), s0, evs0. split; [by econstructor|]. split; [done|]. split; [done|]. intros [[? _]|H]; [done|].
        apply G4. right. by rewrite thistory_snoc.
  Qed.

  (** cluster returns at least one labeling for instances that TRESTLE can work
      with: always if they are fitted, and if they are only categorized then in
      every tree that has been fitted something. *)
  Theorem C91_cluster_returns evs s mod_ l maxsplit :
    treachable evs s -> Forall t_sensible evs -> Forall fitting l -> l <> [] -> 1 <= maxsplit ->
    (mod_ = true \/ thistory evs <> []) ->
    exists ls s', t_cluster (N:=ROps) rng pystr setord rlimit nodeord 1 maxsplit mod_ l s = (ls, Ok tt, s') /\ ls <> [] /\
      Forall (fun labels => List.length labels = List.length l) ls.
  Proof using Hnormal setord_spec Hset Hd.
    intros Hr He HF Hne Hmax Hmod. destruct counting_R as [Hnz Hzz].
    destruct (fitting_sorted mod_ l evs s Hr He HF) as (js & s0 & evs0 & Hsort & Hr0 & He0 & Hh).
    assert (Hh0 : thistory evs0 <> []) by (apply Hh; destruct Hmod as [->|?]; [by left|by right]). clear Hh.
    destruct (treachable_wn rng sc inner ncmp normal pystr setord rlimit Hnormal setord_spec evs0 s0 Hr0 He0) as (_ & H2 & _).
    pose proof (treachable_calls (N:=ROps) rng ncmp normal pystr setord rlimit Hnormal _ _ _ Hr0) as Hc.
    pose proof (all_inst_calls fits3 evs0 H2) as Hi.
    destruct (reachable_total C rng Hnz Hd scales_ok (fun _ => V3) fits3 (fun x i Hx _ => scales_ok_update x i Hx)
      (fun x i Hx Hi => cobweb3_scorable x i Hx Hi) (fun x i s Hs => Hs) x0 _ _ Hc Hi (scales_ok_new sc inner))
      as (_ & Hx & t0 & Hok0 & Hre).
    assert (Ht0 : tall C V3 t0).
    { destruct Hre as [?|(id & ->)]; [done|]. exfalso.
      destruct (C76_fitting_never_raises rng sc inner ncmp normal pystr setord rlimit Hnormal setord_spec Hd evs0 s0 Hr0 He0) as [Hok _].
      destruct (C75_counts (N:=ROps) rng ncmp normal pystr setord rlimit Hnormal setord_spec sc inner evs0 s0 Hr0) as (tb & Htb & Hn & _); [|done|].
      - eapply Forall_impl; [exact He0|]. intros e. destruct e; simpl; try done. intros [_ _ _ Hp]. eapply pV_mono; [|exact Hp]. by intros v [? _].
      - rewrite (so_root _ _ _ Hok0) in Htb. rewrite (table_of_det _ _ _ _ _ Htb (sub_table C (t_tree s0) _ _ Hok0 (sub_refl _ _))) in Hn.
        simpl in Hn. by destruct (thistory evs0). }
    destruct (treachable_state (N:=ROps) rng ncmp normal pystr setord rlimit x0 Hnormal _ _ Hr) as (t & Hok).
    destruct (t_sorted_ok (N:=ROps) rng pystr setord rlimit _ _ _ _ _ _ Hok Hsort) as (t0' & Hok0' & _ & Hleaf & Hlen).
    assert (Hleaf0 : Forall (leaf_in C t0) js).
    { eapply Forall_impl; [exact Hleaf|]. intros j Hj. eapply is_leaf_leaf_in; [exact Hok0|]. by eapply leaf_in_is_leaf. }
    assert (Hjs : js <> []) by (by destruct js, l).
    destruct some_fits3 as (i & Hfi).
    destruct (loop_total C nodeord Hset Hnz scales_ok (fun _ => V3) fits3 (fun x i Hx _ => scales_ok_update x i Hx)
      (fun x i Hx Hi => cobweb3_scorable x i Hx Hi) (fun x i s Hs => Hs) (t_tree s0) t0 js i maxsplit Hok0 Ht0 Hx Hfi Hleaf0 Hjs Hmax)
      as (ys & s' & El & Hys).
    destruct (C91_cluster_iter (N:=ROps) rng ncmp normal pystr setord rlimit x0 nodeord (CU C nodeord) Hnormal evs s mod_ l js s0 maxsplit
      (fst (fst (t_cluster_iter (N:=ROps) rng pystr setord rlimit nodeord (CU C nodeord) 1 maxsplit mod_ l s)))
      (snd (fst (t_cluster_iter (N:=ROps) rng pystr setord rlimit nodeord (CU C nodeord) 1 maxsplit mod_ l s)))
      (snd (t_cluster_iter (N:=ROps) rng pystr setord rlimit nodeord (CU C nodeord) 1 maxsplit mod_ l s))
      Hr Hset (CU_reads C nodeord) Hne Hmax Hsort) as (_ & _ & (_ & Hro & _) & _).
    { by destruct (t_cluster_iter (N:=ROps) rng pystr setord rlimit nodeord (CU C nodeord) 1 maxsplit mod_ l s) as [[? ?] ?]. }
    unfold t_cluster.
    assert (Ei : exists s2, t_cluster_iter (N:=ROps) rng pystr setord rlimit nodeord (CU C nodeord) 1 maxsplit mod_ l s = (ys, Ok tt, s2)).
    { apply t_sorted_sorts in Hsort. unfold t_cluster_iter. change (1 <? 1)%nat with false. cbv iota.
      rewrite (proj2 (Nat.ltb_ge maxsplit 1) Hmax). destruct l as [|dq l]; [done|]. rewrite Hsort, El. by eexists. }
    destruct Ei as (s2 & Ei). rewrite Ei in Hro |- *. exists (map fst ys), s2. split; [done|]. split; [by destruct ys|].
    apply Forall_forall. intros lb Hlb. apply elem_of_list_fmap in Hlb as ([lb' h] & -> & Hin). cbn [fst] in *.
    destruct (Hro lb' h Hin) as [-> _]. done.
  Qed.
End Real.

(** ** The generated quadrupeds can be clustered. *)
Theorem C91_quadrupeds rng sc inner pystr setord rlimit nodeord ctr rpos (l : list (inst (val3 ROps) * torc ROps)) maxsplit :
  (forall l x, x ∈ setord l <-> x ∈ l) -> (forall l x, x ∈ nodeord l <-> x ∈ l) -> @distinct_draws ROps rng ->
  Forall (fun dq => generated (fst dq) /\ oracle_ok (to_orc (snd dq))) l -> l <> [] -> 1 <= maxsplit ->
  exists ls s', t_cluster (N:=ROps) rng pystr setord rlimit nodeord 1 maxsplit true l
      (t_new ctr rpos (new_ctx (N:=ROps) sc inner)) = (ls, Ok tt, s') /\ ls <> [] /\
    Forall (fun labels => List.length labels = List.length l) ls /\
    (* the given tree is still the new one *)
    st_heap (t_tree s') = st_heap (fresh (Cobweb3Class ROps) ctr rpos (new_ctx (N:=ROps) sc inner)) /\ t_sym s' = 0.
Proof.
  intros Hs Hn Hd HF Hne Hm.
  set (normal := fun _ _ : R => (fun a => (Ok 0%R, a)) : A R).
  assert (Hnormal : forall m sd : R, amono (normal m sd)) by (intros m sd a; split; simpl; lia).
  assert (HF' : Forall fitting l).
  { eapply Forall_impl; [exact HF|]. intros dq [Hg Ho]. split; [by apply generated_fits|done]. }
  assert (Hr : treachable (N:=ROps) rng (fun _ _ => None) normal pystr setord rlimit (new_ctx (N:=ROps) sc inner) []
    (t_new ctr rpos (new_ctx (N:=ROps) sc inner))) by (exists ctr, rpos; constructor).
  destruct (C91_cluster_returns rng sc inner (fun _ _ => None) normal pystr setord rlimit nodeord Hnormal Hs Hn Hd
    [] _ true l maxsplit Hr (Forall_nil_2 _) HF' Hne Hm (or_introl eq_refl)) as (ls & s' & E & H1 & H2).
  exists ls, s'. split; [exact E|]. split; [exact H1|]. split; [exact H2|].
  destruct (fitting_sorted rng sc inner (fun _ _ => None) normal pystr setord rlimit Hnormal Hs Hd true l [] _ Hr (Forall_nil_2 _) HF')
    as (js & s0 & evs0 & Hsort & _).
  unfold t_cluster in E. destruct (t_cluster_iter (N:=ROps) rng pystr setord rlimit nodeord (CU (Cobweb3Class ROps) nodeord) 1 maxsplit true l
    (t_new ctr rpos (new_ctx (N:=ROps) sc inner))) as [[ys r] s2] eqn:Ei. injection E as _ _ <-.
  destruct (C91_cluster_iter (N:=ROps) rng (fun _ _ => None) normal pystr setord rlimit _ nodeord _ Hnormal [] _ true l js s0 maxsplit
    ys r s2 Hr Hn (CU_reads (Cobweb3Class ROps) nodeord) Hne Hm Hsort Ei) as ((G1 & _ & _ & G2) & _). by split.
Qed.

(** ** The hypotheses are met *)
(** A dog, a giraffe and the dog again, in a new tree. *)
Lemma ex_C91_quadrupeds : exists d e, generated d /\ generated e /\ d <> e /\
  exists ls s', t_cluster (N:=ROps) ex_draws tr_str tr_ord 100 remove_dups 1 10 true [(d, tr_orc); (e, tr_orc); (d, tr_orc)]
    (t_new 0 0 (new_ctx (N:=ROps) (Some 1%R) true)) = (ls, Ok tt, s') /\ ls <> [].
Proof.
  destruct (made dog 0 eq_refl) as (d & Gd & Td & _). destruct (made giraffe 3 eq_refl) as (e & Ge & Te & _).
  exists d, e. split; [done|]. split; [done|]. split; [intros ->; rewrite Td in Te; by injection Te|].
  destruct (C91_quadrupeds ex_draws (Some 1%R) true tr_str tr_ord 100 remove_dups 0 0 [(d, tr_orc); (e, tr_orc); (d, tr_orc)] 10)
    as (ls & s' & E & Hne & _); [done|apply elem_of_remove_dups|exact ex_draws_distinct| |done|lia|].
  - repeat (apply Forall_cons_2; [split; [done|apply id_oracle_ok]|]). apply Forall_nil_2.
  - by exists ls, s'.
Qed.
(** Categorizing in a tree that has been fitted an instance. *)
Lemma ex_C91_sorted : exists evs s js s0,
  treachable (N:=ROps) ex_draws tr_cmp tr_normal tr_str tr_ord 100 (new_ctx (N:=ROps) (Some 1%R) true) evs s /\ thistory evs <> [] /\
  exists d, generated d /\ t_sorted (N:=ROps) ex_draws tr_str tr_ord 100 false s [(d, tr_orc); (d, tr_orc)] js s0.
Proof.
  destruct (made dog 0 eq_refl) as (d & Gd & _).
  assert (Hn : forall m sd : R, amono (tr_normal m sd)) by (intros m sd a; split; simpl; lia).
  assert (Ho : forall l x, x ∈ tr_ord l <-> x ∈ l) by done.
  assert (Hf : fitting (d, tr_orc)) by (split; [by apply generated_fits|apply id_oracle_ok]).
  destruct (fitting_sorted ex_draws (Some 1%R) true tr_cmp tr_normal tr_str tr_ord 100 Hn Ho ex_draws_distinct true [(d, tr_orc)] []
    (t_new 0 0 (new_ctx (N:=ROps) (Some 1%R) true))) as (js & s & evs & _ & Hr & He & Hh).
  - exists 0, 0. constructor.
  - apply Forall_nil_2.
  - by apply Forall_singleton.
  - destruct (fitting_sorted ex_draws (Some 1%R) true tr_cmp tr_normal tr_str tr_ord 100 Hn Ho ex_draws_distinct false [(d, tr_orc); (d, tr_orc)] evs s Hr He)
      as (js2 & s2 & _ & Hs2 & _); [by repeat (apply Forall_cons_2; [done|])|].
    exists evs, s, js2, s2. split; [done|]. split; [apply Hh; by left|]. by exists d.
Qed.
Print Assumptions C91_cluster_iter.
Print Assumptions C91_k_cluster_fails.
Print Assumptions C91_minsplit_yields_nothing.
Print Assumptions C91_depth_labels.
Print Assumptions C91_cluster_returns.
Print Assumptions C91_quadrupeds.
