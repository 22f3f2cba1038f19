(** * One step of the sorting loop picks the operation with the best result. *)
From Coq Require Import Reals Lra.
From stdpp Require Import base decidable tactics gmap strings list.
From Verif Require Import Base Num TreeModel TreeFun TreeScore TreeRefine TreeSorts TreeInv SpecTree TreeState SortFacts ScoreR ScoreHeap.

Section Step.
  Context (C : NodeClass ROps) (rng : nat -> R).
  Notation S' := (nc_sum C).
  Notation I := (nc_inst C).
  Notation copies := (copies C).

  (** What the four branches of the loop do to [cur] and its children
      (cobweb.py:163-202); for 'best' and 'merge' the child then takes the
      instance in the next round. *)
  Definition perform (cur : nat) (i : I) (b1 : nat) (b2 : option nat) (o : op) : M C unit :=
    match o with
    | OpBest => mbind C (mincrement C cur i) (fun _ => mincrement C b1 i)
    | OpNew => mbind C (mbind C (mincrement C cur i) (fun _ => mcreate_new_child C cur i))
                 (fun _ => mret C tt)
    | OpMerge =>
        match b2 with
        | Some b2 => mbind C (mbind C (mincrement C cur i) (fun _ => mmerge C cur b1 b2))
                       (fun m => mincrement C m i)
        | None => mraise C OtherException
        end
    | OpSplit => msplit C cur b1
    end.

  (** Which operations are open: merging needs more than two children,
      splitting needs a best child with children. *)
  Definition open_op (s : st C) (cur b1 : nat) (o : op) : Prop :=
    match o with
    | OpBest | OpNew => True
    | OpMerge => exists l, children_of s cur l /\ 2 < length l
    | OpSplit => exists l, children_of s b1 l /\ l <> []
    end.

  (** Tables of a concept, its children and its grandchildren. *)
  Record local_view (s : st C) (cur : nat) (tb : S') (kids : list (nat * S')) : Prop := {
    lv_view : node_view s cur tb kids;
    lv_local : local_ok s cur kids;
    lv_copies : copies tb;
    lv_kids : Forall (fun c => copies (snd c)) kids;
    lv_deep : forall b tbb, (b, tbb) ∈ kids -> exists bkids,
      node_view s b tbb bkids /\ Forall (fun c => copies (snd c)) bkids /\
      b ∉ map fst bkids /\ cur ∉ map fst bkids;
  }.

  Lemma view_amb (s : st C) cur tb kids a : node_view s cur tb kids ->
    node_view (St (st_heap s) (st_root s) a (st_ctx s)) cur tb kids.
  Proof. done. Qed.

  Lemma local_amb (s : st C) cur kids a : local_ok s cur kids -> am_ctr (st_amb s) <= am_ctr a ->
    local_ok (St (st_heap s) (st_root s) a (st_ctx s)) cur kids.
  Proof. intros [H1 H2 H3] Ha. split; [done|done|]. simpl. intros id Hid. specialize (H3 id Hid). lia. Qed.

  Lemma mtwo_best_view (s : st C) cur tb kids i : node_view s cur tb kids ->
    mtwo_best C rng cur i s =
      let o := two_best_children C rng (st_ctx s) tb kids i (st_amb s) in
      (fst o, St (st_heap s) (st_root s) (snd o) (st_ctx s)).
  Proof.
    intros ((n & Hn & Htb) & (n' & Hn' & Hc) & HF). rewrite Hn in Hn'. injection Hn' as <-.
    unfold mtwo_best. rewrite (mbind_ok C _ _ _ _ _ (mget_ok C cur s n Hn)).
    rewrite Hc. rewrite (mbind_ok C _ _ _ _ _ (mtables_view C s kids HF)). rewrite Htb.
    unfold mamb. simpl. by destruct (two_best_children _ _ _ _ _ _ _).
  Qed.

  Lemma mbest_op_view (rg : nat -> R) (s : st C) cur tb kids i b1 tb1 bk b2 (o2 : option (nat * S')) cu :
    node_view s cur tb kids -> node_view s b1 tb1 bk ->
    b2 = option_map fst o2 -> (forall b t, o2 = Some (b, t) -> table_of s b t) ->
    mbest_op C rg cur i b1 b2 cu s =
      let o := get_best_operation C rg (st_ctx s) tb kids i (b1, tb1) o2 bk cu all_ops (st_amb s) in
      (fst o, St (st_heap s) (st_root s) (snd o) (st_ctx s)).
  Proof.
    intros ((n & Hn & Htb) & (n' & Hn' & Hc) & HF) ((m & Hm & Htm) & (m' & Hm' & Hcm) & HFm) -> Ho2.
    rewrite Hn in Hn'. injection Hn' as <-. rewrite Hm in Hm'. injection Hm' as <-.
    unfold mbest_op. rewrite (mbind_ok C _ _ _ _ _ (mget_ok C cur s n Hn)).
    rewrite Hc. rewrite (mbind_ok C _ _ _ _ _ (mtables_view C s kids HF)).
    rewrite (mbind_ok C _ _ _ _ _ (mget_ok C b1 s m Hm)).
    rewrite Hcm. rewrite (mbind_ok C _ _ _ _ _ (mtables_view C s bk HFm)). rewrite Htb, Htm.
    destruct o2 as [[b t]|]; simpl option_map.
    - destruct (Ho2 b t eq_refl) as (n2 & Hn2 & Ht2). cbn [option_map fst].
      erewrite mbind_ok; [|rewrite (mbind_ok C _ _ _ _ _ (mget_ok C b s n2 Hn2)); reflexivity].
      rewrite Ht2. unfold mamb. simpl. by destruct (get_best_operation _ _ _ _ _ _ _ _ _ _ _ _).
    - erewrite mbind_ok; [|reflexivity].
      unfold mamb. simpl. by destruct (get_best_operation _ _ _ _ _ _ _ _ _ _ _ _).
  Qed.

  Section At.
    Context (s : st C) (cur : nat) (tb : S') (kids : list (nat * S')) (i : I).
    Hypothesis Hv : local_view s cur tb kids.
    Hypothesis Hi : counts C i.

    (** The first child named by two_best_children is one that, given the
        instance, yields the largest category utility; the number reported is
        that category utility; the second is a best one among the others. *)
    Theorem two_best_optimal cu b1 b2 s1 :
      mtwo_best C rng cur i s = (Ok (cu, b1, b2), s1) ->
      b1 ∈ map fst kids /\ b2 <> Some b1 /\
      (forall b, b2 = Some b -> b ∈ map fst kids) /\
      forall c, c ∈ map fst kids -> exists s' u,
        perform cur i c None OpBest s = (Ok tt, s') /\
        fst (mcategory_utility C cur s') = Ok u /\ (u <= cu)%R /\ (c = b1 -> u = cu) /\
        (forall b, b2 = Some b -> c <> b1 -> exists sb ub,
           perform cur i b None OpBest s = (Ok tt, sb) /\
           fst (mcategory_utility C cur sb) = Ok ub /\ (u <= ub)%R).
    Proof.
      intros E. destruct Hv as [Hview Hloc Hcp Hck Hdeep].
      rewrite (mtwo_best_view s cur tb kids i Hview) in E. cbv zeta in E.
      destruct (two_best_children _ _ _ _ _ _ _) as [r a'] eqn:Eb. simpl in E.
      injection E as Er Es. subst r s1.
      destruct (two_best_spec _ _ _ _ _ _ _ _ _ _ _ Eb) as (Hb1 & Hb2).
      destruct (two_best_max C rng (st_ctx s) tb kids i _ _ _ _ _ Hcp Hck Hi (lo_nodup _ _ _ _ Hloc) Eb)
        as (Hcu & Hall & Hsec).
      split; [done|]. split.
      { intros ->. destruct Hb2 as [_ Hb2]. by apply (Hb2 (lo_nodup _ _ _ _ Hloc)). }
      split.
      { intros b ->. by destruct Hb2. }
      assert (Hperf : forall c u, c ∈ map fst kids -> cu_for_insert C (st_ctx s) tb kids c i = Ok u ->
        exists s', perform cur i c None OpBest s = (Ok tt, s') /\ fst (mcategory_utility C cur s') = Ok u).
      { intros c u Hc Hu. apply elem_of_list_fmap in Hc as ([c' tc] & -> & Hc).
        exact (insert_predicted C s cur tb kids i Hview Hloc Hcp Hck c' tc u Hc Hu). }
      intros c Hc. destruct (Hall c Hc) as (u & Hu & Hle).
      destruct (Hperf c u Hc Hu) as (s' & E1 & E2).
      exists s', u. split; [done|]. split; [done|]. split; [done|]. split.
      { intros ->. rewrite Hcu in Hu. by injection Hu. }
      intros b -> Hne. destruct Hb2 as [Hbin _]. destruct (Hall b Hbin) as (ub & Hub & _).
      destruct (Hperf b ub Hbin Hub) as (sb & E3 & E4).
      exists sb, ub. split; [done|]. split; [done|]. by eapply Hsec.
    Qed.

    (** get_best_operation at the heap level, in terms of tables. *)
    Lemma bridge cu b1 b2 s1 :
      mtwo_best C rng cur i s = (Ok (cu, b1, b2), s1) ->
      exists tb1 bk o2 a1,
        s1 = St (st_heap s) (st_root s) a1 (st_ctx s) /\
        (forall rg, mbest_op C rg cur i b1 b2 cu s1 =
           let o := get_best_operation C rg (st_ctx s) tb kids i (b1, tb1) o2 bk cu all_ops a1 in
           (fst o, St (st_heap s) (st_root s) (snd o) (st_ctx s))) /\
        (forall o', applies C kids o2 bk all_ops o' = true <-> open_op s cur b1 o') /\
        (forall a2, am_ctr a1 <= am_ctr a2 -> forall o' u',
          applies C kids o2 bk all_ops o' = true ->
          predicted C (st_ctx s) tb kids i (b1, tb1) o2 bk cu o' u' ->
          exists s', perform cur i b1 b2 o' (St (st_heap s) (st_root s) a2 (st_ctx s)) = (Ok tt, s') /\
            fst (mcategory_utility C cur s') = Ok u').
    Proof.
      intros E. destruct Hv as [Hview Hloc Hcp Hck Hdeep].
      rewrite (mtwo_best_view s cur tb kids i Hview) in E. cbv zeta in E.
      pose proof (two_best_mono C rng (st_ctx s) tb kids i (st_amb s)) as [Hm1 _].
      destruct (two_best_children _ _ _ _ _ _ _) as [r a1] eqn:Eb. simpl in E, Hm1.
      injection E as Er Es. subst r s1.
      destruct (two_best_spec _ _ _ _ _ _ _ _ _ _ _ Eb) as (Hb1 & Hb2).
      destruct (two_best_max C rng (st_ctx s) tb kids i _ _ _ _ _ Hcp Hck Hi (lo_nodup _ _ _ _ Hloc) Eb)
        as (Hcu & _ & _).
      apply elem_of_list_fmap in Hb1 as ([b1' tb1] & Heq & Hb1). simpl in Heq. subst b1'.
      destruct (Hdeep b1 tb1 Hb1) as (bk & Hvb & Hcb & Hbb & Hcurb).
      assert (Ho2 : exists o2, b2 = option_map fst o2 /\ (forall b t, o2 = Some (b, t) -> (b, t) ∈ kids /\ b1 <> b) /\ (o2 = None -> length kids = 1%nat)).
      { destruct b2 as [b2|].
        - destruct Hb2 as [Hb2 Hne]. apply elem_of_list_fmap in Hb2 as ([b2' tb2] & Heq & Hb2).
          simpl in Heq. subst b2'. exists (Some (b2, tb2)). split; [done|]. split; [|done].
          intros b t [= <- <-]. split; [done|]. apply Hne, Hloc.
        - exists None. split; [done|]. split; [done|]. done. }
      destruct Ho2 as (o2 & -> & Ho2 & Hnone).
      assert (Hview2 : Forall (fun c => table_of s (fst c) (snd c)) kids) by apply Hview.
      exists tb1, bk, o2, a1. split; [done|]. split; [|split].
      - intros rg. rewrite (mbest_op_view rg _ cur tb kids i b1 tb1 bk _ o2 cu); [done|done|done|done|].
        intros b t Hb. rewrite Forall_forall in Hview2. apply (Hview2 (b, t)). by apply Ho2.
      - intros o'. unfold applies, open_op. rewrite andb_true_iff.
        assert (Hin : bool_decide (o' ∈ all_ops) = true).
        { apply bool_decide_eq_true_2. unfold all_ops. destruct o'; set_solver. }
        rewrite Hin. destruct o'.
        + done.
        + done.
        + rewrite andb_true_iff, bool_decide_eq_true. split.
          * intros (_ & Hlen & _). exists (map fst kids). split; [apply Hview|]. by rewrite map_length.
          * intros (l & Hl & Hlen). destruct Hview as (_ & Hch & _).
            rewrite (children_of_det _ _ _ _ _ Hl Hch), map_length in Hlen.
            split; [done|]. split; [done|]. destruct o2; [done|]. specialize (Hnone eq_refl). lia.
        + split.
          * intros [_ Hbk]. exists (map fst bk). split; [apply Hvb|]. by destruct bk.
          * intros (l & Hl & Hne). destruct Hvb as (_ & Hch & _).
            rewrite (children_of_det _ _ _ _ _ Hl Hch) in Hne. split; [done|]. by destruct bk.
      - intros a2 Ha2. set (s2 := St (st_heap s) (st_root s) a2 (st_ctx s)).
        assert (Hv2 : node_view s2 cur tb kids) by (by apply view_amb).
        assert (Hl2 : local_ok s2 cur kids) by (apply local_amb; [done|lia]).
        intros o' u' Ho' Hp'. destruct o'; simpl in Hp'.
        + subst u'. exact (insert_predicted C s2 cur tb kids i Hv2 Hl2 Hcp Hck b1 tb1 cu Hb1 Hcu).
        + destruct (new_predicted C s2 cur tb kids i Hv2 Hl2 Hcp Hck u' Hp') as (id & s' & E1 & E3).
          exists s'. split; [|done]. unfold perform. by rewrite (mbind_ok C _ _ _ _ _ E1).
        + destruct Hp' as ([b2 tb2] & -> & Hp'). destruct (Ho2 b2 tb2 eq_refl) as [Hb2' Hne].
          destruct (merge_predicted C s2 cur tb kids i Hv2 Hl2 Hcp Hck b1 b2 tb1 tb2 u' Hb1 Hb2' Hne Hp')
            as (m & s3 & s' & E1 & E3 & E4).
          exists s'. split; [|done]. unfold perform. simpl. by rewrite (mbind_ok C _ _ _ _ _ E1).
        + exact (split_predicted C s2 cur tb kids Hv2 Hl2 Hcp Hck b1 tb1 bk u' Hb1 Hvb Hcb Hbb Hcurb Hp').
    Qed.

    (** The operation that get_best_operation returns is open, leads to the
        category utility it reports, and no other open operation leads to a
        larger one. *)
    Theorem best_op_optimal cu b1 b2 s1 u o s2 :
      mtwo_best C rng cur i s = (Ok (cu, b1, b2), s1) ->
      mbest_op C rng cur i b1 b2 cu s1 = (Ok (u, o), s2) ->
      open_op s cur b1 o /\ (exists s', perform cur i b1 b2 o s2 = (Ok tt, s') /\ fst (mcategory_utility C cur s') = Ok u) /\
      forall o', open_op s cur b1 o' -> exists s' u',
        perform cur i b1 b2 o' s2 = (Ok tt, s') /\ fst (mcategory_utility C cur s') = Ok u' /\ (u' <= u)%R.
    Proof.
      intros E E2. destruct (bridge _ _ _ _ E) as (tb1 & bk & o2 & a1 & -> & Hbest & Happ & Hdo).
      rewrite Hbest in E2. cbv zeta in E2.
      pose proof (best_op_mono C rng (st_ctx s) tb kids i (b1, tb1) o2 bk cu all_ops a1) as [Hm2 _].
      destruct (get_best_operation _ _ _ _ _ _ _ _ _ _ _ _) as [r a2] eqn:Eo. simpl in E2, Hm2.
      injection E2 as Er Es. subst r s2.
      destruct (best_op_max C (st_ctx s) tb kids i (b1, tb1) o2 bk cu all_ops rng a1 u o a2 Eo)
        as (Ha & Hp & Hmax).
      split; [by apply Happ|]. split; [by apply Hdo|].
      intros o' Ho'. apply Happ in Ho'. destruct (Hmax o' Ho') as (u' & Hpu & Hle & _).
      destruct (Hdo a2 Hm2 o' u' Ho' Hpu) as (s' & E1 & E3). eauto.
    Qed.

    (** Ties: the open operations, in the order best, new, merge, split, each
        take one random number; among those that lead to the same, maximal
        category utility the one with the largest number is returned; if the
        numbers are the same too, the one whose name comes last. *)
    Theorem best_op_draws cu b1 b2 s1 u o s2 ops k k' o' s' :
      mtwo_best C rng cur i s = (Ok (cu, b1, b2), s1) ->
      mbest_op C rng cur i b1 b2 cu s1 = (Ok (u, o), s2) ->
      sublist ops [OpBest; OpNew; OpMerge; OpSplit] -> (forall q, q ∈ ops <-> open_op s cur b1 q) ->
      ops !! k = Some o -> ops !! k' = Some o' ->
      perform cur i b1 b2 o' s2 = (Ok tt, s') -> fst (mcategory_utility C cur s') = Ok u ->
      (rng (am_rpos (st_amb s1) + k')%nat <= rng (am_rpos (st_amb s1) + k)%nat)%R /\
      (rng (am_rpos (st_amb s1) + k')%nat = rng (am_rpos (st_amb s1) + k)%nat -> name_le o' o).
    Proof.
      intros E E2 Hsub Hops Hk Hk' Hpf Hcu.
      destruct (bridge _ _ _ _ E) as (tb1 & bk & o2 & a1 & -> & Hbest & Happ & Hdo).
      rewrite Hbest in E2. cbv zeta in E2.
      pose proof (best_op_mono C rng (st_ctx s) tb kids i (b1, tb1) o2 bk cu all_ops a1) as [Hm2 _].
      destruct (get_best_operation _ _ _ _ _ _ _ _ _ _ _ _) as [r a2] eqn:Eo. simpl in E2, Hm2.
      injection E2 as Er Es. subst r s2.
      destruct (best_op_max C (st_ctx s) tb kids i (b1, tb1) o2 bk cu all_ops rng a1 u o a2 Eo)
        as (Ha & Hp & Hmax).
      assert (Ho' : applies C kids o2 bk all_ops o' = true).
      { apply Happ, Hops. by eapply elem_of_list_lookup_2. }
      destruct (Hmax o' Ho') as (u' & Hpu & Hle & Hd).
      destruct (Hdo a2 Hm2 o' u' Ho' Hpu) as (s3 & E1 & E3).
      assert (Heq : (Ok tt, s') = (Ok tt, s3)) by congruence. injection Heq as ->.
      rewrite Hcu in E3. injection E3 as <-. specialize (Hd eq_refl).
      assert (Hdraw : forall q n, ops !! n = Some q -> draw C kids o2 bk all_ops q = n).
      { intros q n Hq. clear -Hq Hops Hsub Happ.
        assert (HB : applies C kids o2 bk all_ops OpBest = true) by done.
        assert (HN : applies C kids o2 bk all_ops OpNew = true) by done.
        assert (Hin : forall q, q ∈ ops <-> applies C kids o2 bk all_ops q = true).
        { intros q'. by rewrite Happ, Hops. }
        assert (Hop : ops = OpBest :: OpNew :: (if applies C kids o2 bk all_ops OpMerge then [OpMerge] else [])
                        ++ (if applies C kids o2 bk all_ops OpSplit then [OpSplit] else [])).
        { pose proof (proj2 (Hin _) HB) as I1. pose proof (proj2 (Hin _) HN) as I2.
          pose proof (Hin OpMerge) as I3. pose proof (Hin OpSplit) as I4.
          revert I1 I2 I3 I4. clear Hq Hin Hops Happ. generalize (applies C kids o2 bk all_ops OpMerge) as bm.
          generalize (applies C kids o2 bk all_ops OpSplit) as bs. intros bs bm I1 I2 I3 I4.
          repeat match goal with H : sublist _ (_ :: _) |- _ => inversion H; clear H; subst
            | H : sublist _ [] |- _ => inversion H; clear H; subst end;
          destruct bm, bs; try done; exfalso;
          repeat match goal with H : _ <-> true = true |- _ => pose proof (proj2 H eq_refl); clear H
            | H : _ <-> false = true |- _ => pose proof (proj1 H); clear H end; set_solver. }
        rewrite Hop in Hq. unfold draw. rewrite HB, HN.
        destruct (applies C kids o2 bk all_ops OpMerge) eqn:EM, (applies C kids o2 bk all_ops OpSplit) eqn:ES;
          simpl in Hq; destruct n as [|[|[|[|n]]]]; simpl in Hq; try done; injection Hq as <-; done. }
      rewrite (Hdraw o k Hk), (Hdraw o' k' Hk') in Hd. exact Hd.
    Qed.

    (** Every open operation that leads to the maximal category utility is
        returned under some random numbers in [0,1). *)
    Theorem best_op_any_tied cu b1 b2 s1 u o s2 o' s' :
      mtwo_best C rng cur i s = (Ok (cu, b1, b2), s1) ->
      mbest_op C rng cur i b1 b2 cu s1 = (Ok (u, o), s2) ->
      open_op s cur b1 o' ->
      perform cur i b1 b2 o' s2 = (Ok tt, s') -> fst (mcategory_utility C cur s') = Ok u ->
      exists rg, (forall n, 0 <= rg n < 1)%R /\ fst (mbest_op C rg cur i b1 b2 cu s1) = Ok (u, o').
    Proof.
      intros E E2 Ho' Hpf Hcu.
      destruct (bridge _ _ _ _ E) as (tb1 & bk & o2 & a1 & -> & Hbest & Happ & Hdo).
      rewrite Hbest in E2. cbv zeta in E2.
      pose proof (best_op_mono C rng (st_ctx s) tb kids i (b1, tb1) o2 bk cu all_ops a1) as [Hm2 _].
      destruct (get_best_operation _ _ _ _ _ _ _ _ _ _ _ _) as [r a2] eqn:Eo. simpl in E2, Hm2.
      injection E2 as Er Es. subst r s2.
      destruct (best_op_max C (st_ctx s) tb kids i (b1, tb1) o2 bk cu all_ops rng a1 u o a2 Eo)
        as (Ha & Hp & Hmax).
      apply Happ in Ho'. destruct (Hmax o' Ho') as (u' & Hpu & Hle & Hd).
      destruct (Hdo a2 Hm2 o' u' Ho' Hpu) as (s3 & E1 & E3).
      assert (Heq : (Ok tt, s') = (Ok tt, s3)) by congruence. injection Heq as ->.
      rewrite Hcu in E3. injection E3 as <-.
      destruct (best_op_tie C (st_ctx s) tb kids i (b1, tb1) o2 bk cu all_ops rng a1 u o a2 o' Eo Ho' Hpu)
        as (rg & Hrg & Eg).
      exists rg. split; [done|]. rewrite Hbest. exact Eg.
    Qed.
  End At.
End Step.

(** ** Reachable states *)
Section Reach.
  Context (C : NodeClass ROps) (rng : nat -> R).
  Notation S' := (nc_sum C).

  Definition kview (u : tree C) : list (nat * S') := map (fun k => (tid k, tsum k)) (tkids u).

  Lemma kview_fst u : map fst (kview u) = map tid (tkids u).
  Proof. unfold kview. by rewrite map_map. Qed.

  Lemma sub_view s t u : state_ok C s t -> sub C u t -> node_view s (tid u) (tsum u) (kview u).
  Proof.
    intros Hok Hu. split; [by eapply sub_table|]. split.
    - rewrite kview_fst. by eapply sub_children.
    - rewrite Forall_forall. intros c Hc. apply elem_of_list_fmap in Hc as (k & -> & Hk).
      simpl. eapply sub_table; [exact Hok|]. by eapply sub_kid_of.
  Qed.

  Lemma sub_nodup (t u : tree C) : NoDup (ids t) -> sub C u t -> NoDup (ids u).
  Proof.
    intros Hnd Hu. induction Hu as [|i tb kids k Hk Hv IH]; [done|]. apply IH.
    apply NoDup_kids in Hnd as [_ Hnd]. by eapply NoDup_in_kid.
  Qed.

  Lemma kid_ids (u k : tree C) : k ∈ tkids u -> forall j, j ∈ ids k -> j ∈ concat (map ids (tkids u)).
  Proof. intros Hk j Hj. apply elem_of_list_In, in_concat. exists (ids k). rewrite <- !elem_of_list_In. split; [|done]. apply elem_of_list_fmap. eauto. Qed.

  Lemma sub_local_view (P : S' -> Prop) s t u : (forall sm, P sm -> copies C sm) ->
    state_ok C s t -> tall C P t -> sub C u t ->
    local_view C s (tid u) (tsum u) (kview u).
  Proof.
    intros HP Hok Hall Hu.
    assert (Hcp : forall v, sub C v t -> copies C (tsum v)).
    { intros v Hv. apply HP. clear -Hv Hall. induction Hv as [|id sm kids k Hk Hv IH].
      - by inversion Hall.
      - apply IH. inversion Hall as [? ? ? _ HF]; subst. rewrite Forall_forall in HF. by apply HF. }
    assert (Hkids : forall v, sub C v t -> Forall (fun c => copies C (snd c)) (kview v)).
    { intros v Hv. rewrite Forall_forall. intros c Hc. apply elem_of_list_fmap in Hc as (k & -> & Hk).
      simpl. apply Hcp. by eapply sub_kid_of. }
    assert (Hnd : forall v, sub C v t -> NoDup (map tid (tkids v)) /\ tid v ∉ concat (map ids (tkids v))).
    { intros v Hv. pose proof (sub_nodup t v (so_nodup _ _ _ Hok) Hv) as Hn.
      destruct v as [id sm kids]. apply NoDup_kids in Hn as [Hn1 Hn2]. split; [by apply NoDup_tids|done]. }
    assert (Htid : forall v k : tree C, k ∈ tkids v -> tid k ∈ concat (map ids (tkids v))).
    { intros v k Hk. eapply kid_ids; [done|]. apply sub_tid, sub_refl. }
    split.
    - by eapply sub_view.
    - split.
      + rewrite kview_fst. by apply Hnd.
      + rewrite kview_fst. intros Hin. apply elem_of_list_fmap in Hin as (k & Heq & Hk).
        destruct (Hnd u Hu) as [_ Hni]. apply Hni. rewrite Heq. by apply Htid.
      + rewrite kview_fst. intros id [->|Hin]; apply (so_bound _ _ _ Hok).
        * by apply sub_tid.
        * apply elem_of_list_fmap in Hin as (k & -> & Hk). apply sub_tid. by eapply sub_kid_of.
    - by apply Hcp.
    - by apply Hkids.
    - intros b tbb Hb. apply elem_of_list_fmap in Hb as (k & Heq & Hk). injection Heq as -> ->.
      assert (Hkt : sub C k t) by (by eapply sub_kid_of).
      exists (kview k). split; [by eapply sub_view|]. split; [by apply Hkids|].
      rewrite kview_fst. split; intros Hin; apply elem_of_list_fmap in Hin as (g & Heq & Hg).
      + destruct (Hnd k Hkt) as [_ Hni]. apply Hni. rewrite Heq. by apply Htid.
      + destruct (Hnd u Hu) as [_ Hni]. apply Hni. rewrite Heq.
        eapply kid_ids; [exact Hk|]. destruct k as [kid ksm kk]. simpl in Hg |- *.
        right. by apply (Htid (T kid ksm kk)).
  Qed.

  (** Fringe split at a leaf of the tree. *)
  Lemma leaf_fringe s t cur tb : state_ok C s t -> sub C (T cur tb []) t ->
    cur <= am_ctr (st_amb s) /\
    (forall p, parent_of s cur (Some p) ->
       p <> cur /\ p <= am_ctr (st_amb s) /\ exists np, st_heap s !! p = Some np).
  Proof.
    intros Hok Hu. split; [apply (so_bound _ _ _ Hok), (sub_tid C (T cur tb [])); done|].
    intros p (n & Hn & Hp).
    destruct (rep_sub C _ _ _ _ (so_rep _ _ _ Hok) Hu) as (q & Hq & Hc).
    apply rep_lookup in Hq. simpl in Hq. rewrite Hn in Hq. injection Hq as ->. simpl in Hp. subst q.
    destruct Hc as [Heq|(v & Hv & Hin & Heq)].
    { destruct (rep_sub C _ _ _ _ (so_rep _ _ _ Hok) (sub_refl C t)) as (q & Hq & [_|Hc]).
      - apply rep_lookup in Hq. pose proof (rep_lookup _ _ _ _ (so_rep _ _ _ Hok)) as Hr.
        rewrite <- Heq in Hr. simpl in Hr. rewrite Hn in Hr. done.
      - destruct Hc as (v & Hv & Hin & _). pose proof (sub_size C _ _ Hv).
        destruct v as [vi vs vk]. pose proof (kid_size C t vi vs vk Hin). lia. }
    injection Heq as ->. split; [|split].
    - intros Heq. pose proof (sub_unique C t v (T cur tb []) (so_nodup _ _ _ Hok) Hv Hu Heq) as ->.
      inversion Hin.
    - apply (so_bound _ _ _ Hok). by apply sub_tid.
    - destruct (sub_table _ _ _ _ Hok Hv) as (np & Hnp & _). eauto.
  Qed.
End Reach.
