(** * cluster (with CU) returns: Cobweb for any numbers in which counts are
    positive, Cobweb/3 over exact arithmetic (C51). *)
From Coq Require Import Reals Lra.
From stdpp Require Import base decidable tactics list gmap strings.
From Verif Require Import Base Num TreeModel TreeFun TreeScore TreeRefine TreeSorts TreeInv
  SpecTree SpecCluster TreeState TreeTotal TreeLeaf Nominal NominalFacts NominalTotal NominalTree CV Cobweb3 C3Facts C3R C3Total
  PropsTotal Utils Query QueryLinks Cluster ClusterFacts ClusterLoop ClusterCU PropsCluster.
Set Default Proof Using "Type".
Open Scope list_scope.

Section Generic.
  Context {N : NumOps} (C : NodeClass N) (rng : nat -> num N) (setord : list nat -> list nat).
  Hypothesis Hset : forall l x, x ∈ setord l <-> x ∈ l.
  Hypothesis Hnz : forall n, neqb N (nofnat N (S n)) (nofnat N 0) = false.
  Hypothesis Hrng : forall j k, j <> k -> neqb N (rng j) (rng k) = false.
  Context (X : nc_ctx C -> Prop) (V : nc_ctx C -> nc_sum C -> Prop) (Good : nc_inst C -> Prop).
  Hypothesis HX : forall x i, X x -> Good i -> X (nc_pre C x i).
  Hypothesis Sc : forall x i, X x -> Good i -> scorable C (V x) x i.
  Hypothesis Hpre : forall x i s, V x s -> V (nc_pre C x i) s.

  Lemma sort_total mod_ i s t : Good i -> X (st_ctx s) -> state_ok C s t -> ready C (V (st_ctx s)) t ->
    exists j s', sort_in C rng mod_ i s = (Ok j, s') /\ X (st_ctx s') /\
      exists t', state_ok C s' t' /\ (tall C (V (st_ctx s')) t' \/ mod_ = false /\ t' = t /\ st_ctx s' = st_ctx s).
  Proof using Hnz Hrng HX Sc Hpre.
    intros Hi Hx Hok Hre.
    assert (Hfu : tsize t <= S (size (st_heap s))).
    { pose proof (tsize_heap C _ _ _ (so_rep _ _ _ Hok) (so_nodup _ _ _ Hok)). lia. }
    destruct mod_; simpl.
    - destruct (cobweb_runs C rng s t i Hok) as (s3 & E2 & Hok2 & Ha & Hx2).
      destruct (fcob_total C rng Hnz Hrng (V (nc_pre C (st_ctx s) i)) (nc_pre C (st_ctx s) i) i
          (Sc _ i (HX _ _ Hx Hi) Hi) (cob_fuel C s) t (st_amb s) (ready_pre C V Hpre _ _ _ Hre)
          (so_nodup _ _ _ Hok) (so_bound _ _ _ Hok) Hfu) as ((j & Hj) & Ht).
      unfold cob_out in *. rewrite Hj in E2. exists j, s3. split; [done|]. rewrite Hx2. split; [by apply HX|].
      eexists. split; [exact Hok2|]. by left.
    - pose proof (categorize_runs C rng s t i Hok) as E2. cbv zeta in E2.
      destruct (fcat_total C rng Hnz Hrng (V (st_ctx s)) (st_ctx s) i
          (Sc _ i Hx Hi) (cob_fuel C s) t (st_amb s) Hre (so_nodup _ _ _ Hok) Hfu) as (j & Hj).
      rewrite Hj in E2. eexists j, _. split; [exact E2|]. split; [done|]. exists t.
      split; [|by right]. apply state_ok_amb; [done|].
      by destruct (fcat_mono C rng (cob_fuel C s) (st_ctx s) t i (st_amb s)) as [Hm _].
  Qed.
  Lemma sorts_total mod_ is_ : forall s t, Forall Good is_ -> X (st_ctx s) -> state_ok C s t -> ready C (V (st_ctx s)) t ->
    exists js s', mmapM C (sort_in C rng mod_) is_ s = (Ok js, s') /\ X (st_ctx s') /\
      exists t', state_ok C s' t' /\ ((mod_ = true /\ is_ <> [] \/ tall C (V (st_ctx s)) t) -> tall C (V (st_ctx s')) t').
  Proof using Hnz Hrng HX Sc Hpre.
    induction is_ as [|i is_ IH]; intros s t HF Hx Hok Hre; simpl.
    { exists [], s. split; [done|]. split; [done|]. exists t. split; [done|]. by intros [[_ ?]|?]. }
    apply Forall_cons in HF as [Hi HF].
    destruct (sort_total mod_ i s t Hi Hx Hok Hre) as (j & s1 & E1 & Hx1 & t1 & Hok1 & Ht1).
    assert (Hre1 : ready C (V (st_ctx s1)) t1).
    { destruct Ht1 as [Ht1|(_ & -> & ->)]; [by left|done]. }
    destruct (IH s1 t1 HF Hx1 Hok1 Hre1) as (js & s' & E2 & Hx2 & t' & Hok2 & Ht2).
    exists (j :: js), s'. rewrite (mbind_ok C _ _ _ _ _ E1), (mbind_ok C _ _ _ _ _ E2). split; [done|]. split; [done|].
    exists t'. split; [done|]. intros H. apply Ht2. right. destruct Ht1 as [Ht1|(Hm & -> & ->)]; [done|].
    destruct H as [[H _]|H]; [congruence|done].
  Qed.

  (** The loop with CU, on a tree whose concepts can be scored. *)
  Lemma loop_total s0 t0 leaves i maxsplit :
    state_ok C s0 t0 -> tall C (V (st_ctx s0)) t0 -> X (st_ctx s0) -> Good i ->
    Forall (leaf_in C t0) leaves -> leaves <> [] -> 1 <= maxsplit ->
    exists ys s', cl_loop C setord (CU C setord) maxsplit 1 1 leaves s0 = (ys, Ok tt, s') /\ ys <> [].
  Proof using Hset Hnz HX Sc Hpre.
    intros Hok0 Ht0 Hx Hi Hleaf Hne Hmax.
    destruct (cl_loop C setord (CU C setord) maxsplit 1 1 leaves s0) as [[ys r] s'] eqn:El.
    destruct (loop_read_off C setord (CU C setord) s0 t0 leaves maxsplit ys r s' Hset (CU_reads C setord) Hok0 Hleaf Hne Hmax El)
      as [(_ & _ & _ & _ & _ & _ & H1 & _ & H2) _].
    destruct r as [[]|e].
    - eexists _, s'. split; [reflexivity|]. by apply H1.
    - exfalso. destruct (H2 e eq_refl) as (l & s1 & s2 & Hs1 & Hcl & Eh).
      destruct (split_from_tall C _ s0 t0 s1 Hok0 Ht0 Hs1) as (Ex & t1 & Hok1 & Hall1).
      assert (Hsc : scorable C (V (st_ctx s0)) (st_ctx s1) i) by (rewrite Ex; by apply Sc).
      destruct (CU_total C Hnz (V (st_ctx s0)) i setord s1 t1 leaves l Hset Hok1 Hall1 Hsc Hcl) as (u & s3 & Eu); [|congruence].
      destruct Hcl as [Hcl _]. apply Forall2_length in Hcl. by destruct leaves, l.
  Qed.

  Theorem cluster_total x0 evs s mod_ instances maxsplit :
    reachable C rng x0 evs s -> all_inst Good evs -> X x0 -> Forall Good instances -> instances <> [] -> 1 <= maxsplit ->
    nc_count C (nc_empty C) = 0 ->
    (mod_ = true \/ exists tb, table_of s (st_root s) tb /\ 0 < nc_count C tb) ->
    exists ls s', cluster C setord rng 1 maxsplit mod_ instances s = (ls, Ok tt, s') /\ ls <> [].
  Proof using Hset Hnz Hrng HX Sc Hpre.
    intros Hreach Hgood Hx0 HF Hne Hmax Hzero Hmod.
    destruct (reachable_total C rng Hnz Hrng X V Good HX Sc Hpre x0 evs s Hreach Hgood Hx0) as (_ & Hx & t & Hok & Hre).
    destruct (sorts_total mod_ instances s t HF Hx Hok Hre) as (js & s0 & E & Hx1 & t0 & Hok0 & Hall).
    assert (Ht0 : tall C (V (st_ctx s0)) t0).
    { apply Hall. destruct Hmod as [->|(tb & Htb & Hc)]; [by left|right]. destruct Hre as [Hre|(id & ->)]; [done|].
      rewrite (so_root _ _ _ Hok) in Htb. rewrite (table_of_det _ _ _ _ _ Htb (sub_table C s _ _ Hok (sub_refl _ _))) in Hc.
      simpl in Hc. lia. }
    apply sorted_by_mmap in E as Hsort.
    destruct (sorted_leaves C rng mod_ s t instances js s0 Hok Hsort) as (t0' & Hok0' & Hleaf & Hlen & _).
    assert (Hleaf0 : Forall (leaf_in C t0) js).
    { eapply Forall_impl; [exact Hleaf|]. intros j Hj. eapply is_leaf_leaf_in; [exact Hok0|]. by eapply leaf_in_is_leaf. }
    assert (Hjs : js <> []) by (by destruct js, instances).
    destruct instances as [|i is_]; [done|]. apply Forall_cons in HF as [Hi HF].
    destruct (loop_total s0 t0 js i maxsplit Hok0 Ht0 Hx1 Hi Hleaf0 Hjs Hmax) as (ys & s' & El & Hys).
    unfold cluster, cluster_iter. simpl (1 <? 1)%nat. cbv iota. rewrite (proj2 (Nat.ltb_ge maxsplit 1) Hmax), E, El.
    eexists _, _. split; [reflexivity|]. by destruct ys.
  Qed.
End Generic.

Section Cobweb.
  Context {N : NumOps} (rng : nat -> num N) (setord : list nat -> list nat).
  Notation C := (CobwebClass N).
  Hypothesis HN : counting N.
  Hypothesis Hd : distinct_draws rng.
  Hypothesis Hset : forall l x, x ∈ setord l <-> x ∈ l.

  Theorem C51_cluster_returns evs s mod_ instances maxsplit :
    reachable C rng tt evs s -> all_inst (C:=C) has_visible evs ->
    Forall has_visible instances -> instances <> [] -> 1 <= maxsplit ->
    (mod_ = true \/ exists tb, table_of s (st_root s) tb /\ 0 < ns_count tb) ->
    exists ls s', cluster C setord rng 1 maxsplit mod_ instances s = (ls, Ok tt, s') /\ ls <> [].
  Proof using HN Hd Hset.
    intros Hr Hg HF Hne Hm Hmod. destruct HN as [Hnz Hzz].
    exact (cluster_total C rng setord Hset Hnz Hd (fun _ => True) (fun _ => VN) has_visible
      (fun _ _ _ _ => Logic.I) (fun x i _ Hi => cobweb_scorable Hnz x i Hi)
      (fun x i s Hs => Hs) tt evs s mod_ instances maxsplit Hr Hg Logic.I HF Hne Hm eq_refl Hmod).
  Qed.
End Cobweb.

Section Cobweb3.
  Context (rng : nat -> num ROps) (setord : list nat -> list nat) (sc : option R) (inner : bool).
  Notation C := (Cobweb3Class ROps).
  Notation x0 := (@new_ctx ROps sc inner).
  Hypothesis Hd : distinct_draws rng.
  Hypothesis Hset : forall l x, x ∈ setord l <-> x ∈ l.

  Theorem C51_cluster_returns_cobweb3 evs s mod_ instances maxsplit :
    reachable C rng x0 evs s -> all_inst (C:=C) (fits3 (N:=ROps)) evs ->
    Forall (fits3 (N:=ROps)) instances -> instances <> [] -> 1 <= maxsplit ->
    (mod_ = true \/ exists tb, table_of s (st_root s) tb /\ 0 < n3_count tb) ->
    exists ls s', cluster C setord rng 1 maxsplit mod_ instances s = (ls, Ok tt, s') /\ ls <> [].
  Proof using Hd Hset.
    intros Hr Hg HF Hne Hm Hmod. destruct counting_R as [Hnz Hzz].
    exact (cluster_total C rng setord Hset Hnz Hd scales_ok (fun _ => V3) fits3
      (fun x i Hx _ => scales_ok_update x i Hx) (fun x i Hx Hi => cobweb3_scorable x i Hx Hi)
      (fun x i s Hs => Hs) x0 evs s mod_ instances maxsplit Hr Hg (scales_ok_new sc inner) HF Hne Hm eq_refl Hmod).
  Qed.
End Cobweb3.

(** The hypotheses are met: a new tree, and any instances with a visible
    attribute. *)
Lemma ex_C51_returns : exists ls s',
  cluster (CobwebClass ROps) remove_dups ex_draws 1 10 true
    [[(AStr "a", NAtom 1)]; [(AStr "a", NAtom 2)]; [(AStr "a", NAtom 1)]] (fresh (CobwebClass ROps) 0 0 tt) = (ls, Ok tt, s') /\ ls <> [].
Proof.
  apply (C51_cluster_returns (N:=ROps) ex_draws remove_dups counting_R ex_draws_distinct (fun l x => elem_of_remove_dups l x) []).
  - exists 0, 0. constructor.
  - constructor.
  - repeat (apply Forall_cons_2; [exists (AStr "a"); split; [done|left]|]). apply Forall_nil_2.
  - discriminate.
  - lia.
  - by left.
Qed.

Print Assumptions C51_cluster_returns.
Print Assumptions C51_cluster_returns_cobweb3.
