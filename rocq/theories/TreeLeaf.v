(** * Leaves through arbitrary histories, including calls that raise. *)
From stdpp Require Import base decidable list gmap strings.
From Verif Require Import Base Num TreeModel TreeFun TreeScore TreeRefine TreeSorts TreeInv
  SpecTree TreeState.

Section Leaf.
  Context {N : NumOps} (C : NodeClass N) (rng : nat -> num N).
  Notation S' := (nc_sum C).
  Notation I := (nc_inst C).

  Lemma categorize_state s t i r s' : state_ok C s t ->
    cobweb_categorize C rng i s = (r, s') ->
    r = fst (fcat C rng (cob_fuel C s) (st_ctx s) t i (st_amb s)) /\
    state_ok C s' t /\ st_heap s' = st_heap s /\ st_root s' = st_root s /\ st_ctx s' = st_ctx s /\
    am_ctr (st_amb s) <= am_ctr (st_amb s').
  Proof.
    intros Hok E. pose proof (categorize_runs C rng s t i Hok) as E2. cbv zeta in E2.
    rewrite E in E2.
    pose proof (fcat_mono C rng (cob_fuel C s) (st_ctx s) t i (st_amb s)) as [Hm _].
    destruct (fcat C rng (cob_fuel C s) (st_ctx s) t i (st_amb s)) as [r' a'].
    cbn [fst snd] in *. inversion E2; subst. split; [done|].
    split; [by apply state_ok_amb|done].
  Qed.

  (** The table a returned leaf had before the call. *)
  Definition grown (i : I) (t : tree C) (id : nat) (s : S') : Prop :=
    exists s0, nc_inc C s0 i = (s, None) /\
      (s0 = nc_empty C \/
       sub C (T id s0 []) t /\ (nc_exact C s0 i = Ok true \/ nc_count C s0 = 0)).

  Lemma grown_sub i t u id s : grown i u id s -> (forall v, sub C v u -> tkids v = [] -> sub C v t) ->
    grown i t id s.
  Proof.
    intros (s0 & Hi & Hx) Hut. exists s0. split; [done|]. destruct Hx as [->|[Hs Hx]]; auto.
  Qed.

  Lemma sub_leaf_kids (id lid : nat) (s ls : S') kids :
    sub C (T lid ls []) (T id s kids) -> kids <> [] ->
    exists k, k ∈ kids /\ sub C (T lid ls []) k.
  Proof.
    intros [[= -> -> <-]|H]%sub_inv Hne; [done|done].
  Qed.

  Theorem sorts_newleaf i c t t' mv r : sorts C i c t t' mv r ->
    forall id s, sub C (T id s []) t' ->
      sub C (T id s []) t \/ (r = Ok id /\ grown i t id s).
  Proof.
    induction 1 as [c t e|c id s s' b Hex Hc Hinc|c id s s0 s1 s2 m n ? ? ? ? ? Hcm Hmn
      |c c' id s s' kids k rest t' mv r kids' Hinc Hp Hc Hs IH Hp'
      |c id s s' s2 kids n Hne Hinc Hinc2 Hn
      |c m s0 sm id s s' kids k1 k2 rest t' mv r kids' Hinc Hp Hne Ha Hb0 Hm Hs IH Hp'
      |c c' id s kids k rest kids1 t' mv r Hp Hne Hp1 Hc Hs IH]; intros lid ls Hu.
    - by left.
    - right. apply sub_inv in Hu as [E|(k & Hk & _)]; [|inversion Hk].
      injection E as -> ->. split; [done|]. exists s. split; [done|]. right.
      split; [apply sub_refl|]. destruct Hc as [->|]; auto.
    - apply sub_leaf_kids in Hu as (k & Hk & Hu); [|done].
      rewrite !elem_of_cons in Hk. destruct Hk as [->|[->|Hk]]; [| |inversion Hk].
      + apply sub_inv in Hu as [E|(k & Hk & _)]; [|inversion Hk].
        injection E as -> ->. left. apply sub_refl.
      + apply sub_inv in Hu as [E|(k & Hk & _)]; [|inversion Hk].
        injection E as -> ->. right. split; [done|]. exists (nc_empty C). auto.
    - apply sub_leaf_kids in Hu as (k' & Hk & Hu).
      2:{ intros ->. apply Permutation_nil in Hp'. done. }
      rewrite Hp' in Hk. apply elem_of_cons in Hk as [->|Hk].
      + destruct (IH _ _ Hu) as [Hl|[Hr Hg]].
        * left. eapply sub_kid; [|done]. rewrite Hp. left.
        * right. split; [done|]. eapply grown_sub; [done|]. intros v Hv _.
          eapply sub_kid; [|done]. rewrite Hp. left.
      + left. eapply sub_kid; [|done]. rewrite Hp. by right.
    - apply sub_leaf_kids in Hu as (k' & Hk & Hu).
      2:{ by destruct kids. }
      apply elem_of_app in Hk as [Hk|Hk].
      + left. by eapply sub_kid.
      + apply elem_of_list_singleton in Hk as ->.
        apply sub_inv in Hu as [E|(k & Hk & _)]; [|inversion Hk].
        injection E as -> ->. right. split; [done|]. exists (nc_empty C). auto.
    - assert (Hm2 : forall v, sub C v (T m sm [k1; k2]) -> tkids v = [] -> sub C v (T id s kids)).
      { intros v [->|(k' & Hk' & Hu')]%sub_inv Hv; [done|].
        eapply sub_kid; [|exact Hu'].
        rewrite !elem_of_cons in Hk'. destruct Hk' as [->|[->|Hk']]; [| |inversion Hk'];
          rewrite Hp; [left|right; left]. }
      apply sub_leaf_kids in Hu as (k' & Hk & Hu).
      2:{ intros ->. apply Permutation_nil in Hp'. done. }
      rewrite Hp' in Hk. apply elem_of_cons in Hk as [->|Hk].
      + destruct (IH _ _ Hu) as [Hl|[Hr Hg]].
        * left. by apply Hm2.
        * right. split; [done|]. eapply grown_sub; eauto.
      + left. eapply sub_kid; [|done]. rewrite Hp. right. by right.
    - assert (Hm2 : forall v, sub C v (T id s kids1) -> tkids v = [] -> sub C v (T id s kids)).
      { intros v [->|(k' & Hk' & Hu')]%sub_inv Hv.
        - simpl in Hv. subst kids1. apply Permutation_nil in Hp1.
          by apply app_eq_nil in Hp1 as [_ ?].
        - rewrite Hp1 in Hk'. apply elem_of_app in Hk' as [Hk'|Hk'].
          + eapply sub_kid; [|done]. rewrite Hp. by right.
          + eapply sub_kid; [rewrite Hp; left|]. destruct k as [kid ks kk].
            eapply sub_kid; [|exact Hu']. done. }
      destruct (IH _ _ Hu) as [Hl|[Hr Hg]].
      + left. by apply Hm2.
      + right. split; [done|]. eapply grown_sub; eauto.
  Qed.

  Theorem sorts_ret i c t t' mv j : sorts C i c t t' mv (Ok j) ->
    exists s, sub C (T j s []) t' /\ grown i t j s.
  Proof.
    remember (Ok j) as r eqn:Er. intros H. revert Er.
    induction H as [c t e|c id s s' b Hex Hc Hinc|c id s s0 s1 s2 m n ? ? ? ? ? Hcm Hmn
      |c c' id s s' kids k rest t' mv r kids' Hinc Hp Hc Hs IH Hp'
      |c id s s' s2 kids n Hne Hinc Hinc2 Hn
      |c m s0 sm id s s' kids k1 k2 rest t' mv r kids' Hinc Hp Hne Ha Hb0 Hm Hs IH Hp'
      |c c' id s kids k rest kids1 t' mv r Hp Hne Hp1 Hc Hs IH]; intros Er.
    - done.
    - injection Er as ->. exists s'. split; [apply sub_refl|]. exists s. split; [done|].
      right. split; [apply sub_refl|]. destruct Hc as [->|]; auto.
    - injection Er as ->. exists s2. split.
      + eapply sub_kid; [right; left|apply sub_refl].
      + exists (nc_empty C). auto.
    - destruct (IH Er) as (sj & Hsj & Hg). exists sj. split.
      + eapply sub_kid; [rewrite Hp'; left|done].
      + eapply grown_sub; [done|]. intros v Hv _. eapply sub_kid; [|done]. rewrite Hp. left.
    - injection Er as ->. exists s2. split.
      + eapply sub_kid; [apply elem_of_app; right; left|apply sub_refl].
      + exists (nc_empty C). auto.
    - destruct (IH Er) as (sj & Hsj & Hg). exists sj. split.
      + eapply sub_kid; [rewrite Hp'; left|done].
      + eapply grown_sub; [done|]. intros v [->|(k' & Hk' & Hu')]%sub_inv Hv; [done|].
        eapply sub_kid; [|exact Hu'].
        rewrite !elem_of_cons in Hk'. destruct Hk' as [->|[->|Hk']]; [| |inversion Hk'];
          rewrite Hp; [left|right; left].
    - destruct (IH Er) as (sj & Hsj & Hg). exists sj. split; [done|].
      eapply grown_sub; [done|]. intros v [->|(k' & Hk' & Hu')]%sub_inv Hv.
      + simpl in Hv. subst kids1. apply Permutation_nil in Hp1.
        by apply app_eq_nil in Hp1 as [_ ?].
      + rewrite Hp1 in Hk'. apply elem_of_app in Hk' as [Hk'|Hk'].
        * eapply sub_kid; [|done]. rewrite Hp. by right.
        * eapply sub_kid; [rewrite Hp; left|]. destruct k as [kid ks kk].
          eapply sub_kid; [|exact Hu']. done.
  Qed.

  (** An invariant of the leaves. *)
  Section Inv.
    Variables (P L : S' -> Prop) (Good : I -> Prop).
    Hypothesis HP : forall i, Good i -> closed C P i.
    Hypothesis HP0 : P (nc_empty C).
    Hypothesis HL0 : L (nc_empty C).
    Hypothesis HLi : forall i s s', Good i -> nc_inc C s i = (s', None) -> P s -> L s ->
      s = nc_empty C \/ nc_exact C s i = Ok true \/ nc_count C s = 0 -> L s'.

    Definition leaves_ok (t : tree C) : Prop := forall id s, sub C (T id s []) t -> L s.

    Lemma tall_sub t u : tall C P t -> sub C u t -> P (tsum u).
    Proof.
      intros Ht Hs. induction Hs as [|id s kids k Hk Hs IH].
      - by destruct Ht.
      - apply tall_inv in Ht as [_ Ht]. rewrite Forall_forall in Ht. auto.
    Qed.

    Lemma grown_ok i t id s : Good i -> tall C P t -> leaves_ok t -> grown i t id s -> L s.
    Proof.
      intros Hg Ht Hl (s0 & Hi & [->|[Hs Hx]]).
      - eapply HLi; eauto.
      - eapply HLi; [done|done| |by eapply Hl|auto].
        exact (tall_sub _ _ Ht Hs).
    Qed.

    Theorem run_leaves x0 s evs s' t : run C rng x0 s evs s' ->
      state_ok C s t -> all_inst Good evs -> tall C P t -> leaves_ok t ->
      exists t', state_ok C s' t' /\ tall C P t' /\ leaves_ok t'.
    Proof.
      intros Hrun Hok Hg Hall Hlo. induction Hrun as [s|s evs s1 e s2 Hrun IH Hst].
      - eauto.
      - apply Forall_app in Hg as [Hg Hge]. rewrite Forall_singleton in Hge.
        destruct (IH Hok Hg) as (t1 & Hok1 & Hall1 & Hlo1).
        destruct Hst as [s1 i r s2 E|s1 i r s2 E|s1 ctr rpos H1 H2|s1 s2 E].
        + destruct (cobweb_sorts C rng P Good HP s1 t1 i r s2 Hok1 Hall1) as (t2 & mv & Hs & Hok2 & Hall2);
            [by apply Hge|done|].
          exists t2. split; [done|]. split; [done|]. intros id tb Hsub.
          destruct (sorts_newleaf _ _ _ _ _ _ Hs _ _ Hsub) as [Hl|[_ Hgr]]; [by eapply Hlo1|].
          eapply grown_ok; [|exact Hall1|exact Hlo1|exact Hgr]. by apply Hge.
        + destruct (categorize_state _ _ _ _ _ Hok1 E) as (_ & Hok2 & _). eauto.
        + exists t1. split; [by apply state_ok_amb|done].
        + destruct (clear_runs C x0 s1) as (s3 & E3 & Hok3 & _). rewrite E in E3.
          injection E3 as <-. eexists. split; [exact Hok3|]. split; [by constructor|].
          intros id tb [[= -> ->]|(k & Hk & _)]%sub_inv; [done|inversion Hk].
    Qed.

    Theorem reachable_leaves x0 evs s : reachable C rng x0 evs s -> all_inst Good evs ->
      exists t, state_ok C s t /\ tall C P t /\ leaves_ok t.
    Proof.
      intros (ctr & rpos & Hrun) Hg. eapply run_leaves; [done|apply fresh_ok|done|by constructor|].
      intros id tb [[= -> ->]|(k & Hk & _)]%sub_inv; [done|inversion Hk].
    Qed.

    Theorem returned_leaf x0 evs s i j s' : reachable C rng x0 evs s -> all_inst Good evs -> Good i ->
      cobweb C rng i s = (Ok j, s') ->
      is_leaf s' j /\
      exists tb0 tb, table_of s' j tb /\ nc_inc C tb0 i = (tb, None) /\ P tb0 /\ L tb0 /\
        (tb0 = nc_empty C \/ table_of s j tb0 /\ is_leaf s j /\
           (nc_exact C tb0 i = Ok true \/ nc_count C tb0 = 0)).
    Proof.
      intros Hr Hg Hi E. destruct (reachable_leaves _ _ _ Hr Hg) as (t & Hok & Hall & Hlo).
      destruct (cobweb_sorts C rng P Good HP s t i _ s' Hok Hall Hi E) as (t' & mv & Hs & Hok' & Hall').
      destruct (sorts_ret _ _ _ _ _ _ Hs) as (sj & Hsj & (s0 & Hinc & Hg0)).
      split; [apply (is_leaf_sub _ _ _ _ Hok'); eauto|].
      exists s0, sj. split; [exact (sub_table _ _ _ _ Hok' Hsj)|]. split; [done|].
      destruct Hg0 as [->|[Hsub Hx]].
      - split; [done|]. split; [done|]. by left.
      - split; [exact (tall_sub _ _ Hall Hsub)|]. split; [by eapply Hlo|]. right.
        split; [exact (sub_table _ _ _ _ Hok Hsub)|]. split; [|done].
        apply (is_leaf_sub _ _ _ _ Hok). eauto.
    Qed.
  End Inv.

  (** ** Persistence of leaves along a run without clear *)
  Section Persist.
    Variables (P : S' -> Prop) (Good : I -> Prop).
    Hypothesis HP : forall i, Good i -> closed C P i.
    Variable R : S' -> S' -> Prop.
    Hypothesis Rrefl : forall s, R s s.
    Hypothesis Rtrans : forall a b c, R a b -> R b c -> R a c.
    Variable NE : S' -> Prop.
    Hypothesis HR : forall i s s', Good i -> P s -> NE s -> nc_inc C s i = (s', None) ->
      nc_exact C s i = Ok true \/ nc_count C s = 0 -> R s s' /\ NE s'.

    Theorem run_persist x0 s evs s' t id tb : run C rng x0 s evs s' ->
      state_ok C s t -> all_inst Good evs -> Forall (fun e => e <> EClear) evs -> tall C P t ->
      sub C (T id tb []) t -> NE tb ->
      exists t' tb', state_ok C s' t' /\ tall C P t' /\ sub C (T id tb' []) t' /\ R tb tb' /\ NE tb'.
    Proof.
      intros Hrun Hok Hg Hnc Hall Hsub Hne. induction Hrun as [s|s evs s1 e s2 Hrun IH Hst].
      - eauto 10.
      - apply Forall_app in Hg as [Hg Hge]. rewrite Forall_singleton in Hge.
        apply Forall_app in Hnc as [Hnc Hnce]. rewrite Forall_singleton in Hnce.
        destruct (IH Hok Hg Hnc) as (t1 & tb1 & Hok1 & Hall1 & Hsub1 & HR1 & Hne1).
        destruct Hst as [s1 i r s2 E|s1 i r s2 E|s1 ctr rpos H1 H2|s1 s2 E]; [| | |done].
        + destruct (cobweb_sorts C rng P Good HP s1 t1 i r s2 Hok1 Hall1) as (t2 & mv & Hs & Hok2 & Hall2);
            [by apply Hge|done|].
          destruct (sorts_leaves _ _ _ _ _ _ _ Hs _ _ Hsub1) as [Hl|(_ & tb2 & b & Hinc & Hl & Hex & Hb)].
          * eauto 10.
          * destruct (HR i tb1 tb2) as [HR2 Hne2]; [by apply Hge| |done|done| |].
            { exact (tall_sub _ _ _ Hall1 Hsub1). }
            { destruct Hb as [->|]; auto. }
            exists t2, tb2. eauto 10.
        + destruct (categorize_state _ _ _ _ _ Hok1 E) as (_ & Hok2 & _). eauto 10.
        + exists t1, tb1. split; [by apply state_ok_amb|done].
    Qed.
  End Persist.
End Leaf.
