(** * Properties of CobwebTree that hold for any arithmetic.

    [N] is an arbitrary number system and [rng] an arbitrary source of random
    numbers, so every choice the scores could make is covered.  [reachable C
    rng tt evs s]: the state [s] of a tree object after the calls [evs]
    (ifit, categorize, clear, and activity of other trees in between); [evs]
    records the result of each call, including exceptions. *)
From stdpp Require Import base decidable list gmap strings.
From Verif Require Import Base Num FloatNum TreeModel TreeFun TreeScore TreeRefine TreeSorts TreeInv
  SpecTree TreeState TreeRel TreeSim TreeLeaf Nominal NominalFacts NominalTree NominalHidden Example.

Section Props.
  Context {N : NumOps} (rng : nat -> num N).
  Notation C := (CobwebClass N).

  (** ** C01 *)
  Theorem C01_root_is_histogram evs s :
    reachable C rng tt evs s -> all_inst (C:=C) good evs -> all_ok evs ->
    exists tb, table_of s (st_root s) tb /\
      ns_count tb = length (history evs) /\
      forall a v, entry tb a v = occ (history evs) a v.
  Proof.
    intros Hr Hg Hao.
    destruct (reachable_tinv C rng Hist LeafV good (hist_laws N) tt evs s Hr Hg Hao)
      as (t & Hok & Ht).
    exists (tsum t). rewrite (so_root _ _ _ Hok).
    split; [apply (sub_table _ _ _ _ Hok), sub_refl|].
    apply tinv_summ in Ht. destruct Ht as (Hc & _ & He). done.
  Qed.

  (** The same for a plain list of raw ifit calls on a new tree. *)
  Theorem C01_ifit_all ctr rpos (l : list raw) s :
    Forall (fun i : raw => dwf i) l ->
    ifit_all rng l (fresh C ctr rpos tt) = (Ok tt, s) ->
    exists tb, table_of s (st_root s) tb /\
      ns_count tb = length l /\ forall a v, entry tb a v = rocc l a v.
  Proof.
    intros Hwf E.
    destruct (ifit_all_tinv rng l _ _ [] s (fresh_ok C ctr rpos tt)) as (t & h & Hok & Ht & Hl & Ho);
      [|done|done|].
    { apply ti_leaf; [apply Hist_empty|]. intros i j Hi. inversion Hi. }
    exists (tsum t). rewrite (so_root _ _ _ Hok).
    split; [apply (sub_table _ _ _ _ Hok), sub_refl|].
    apply tinv_summ in Ht. destruct Ht as (Hc & _ & He). simpl in Hl.
    split; [congruence|]. intros a v. rewrite He. apply Ho.
  Qed.

  (** ** C02 *)
  Theorem C02_children_partition evs s p l :
    reachable C rng tt evs s -> all_inst (C:=C) good evs -> all_ok evs ->
    in_tree s p -> children_of s p l -> l <> [] ->
    exists tb tbs, table_of s p tb /\ Forall2 (table_of s) l tbs /\
      ns_count tb = sumn (map ns_count tbs) /\
      forall a v, entry tb a v = sumn (map (fun c => entry c a v) tbs).
  Proof.
    intros Hr Hg Hao Hin Hch Hne.
    destruct (reachable_tinv C rng Hist LeafV good (hist_laws N) tt evs s Hr Hg Hao)
      as (t & Hok & Ht).
    apply (in_tree_sub _ _ _ _ Hok) in Hin as (u & Hu & <-).
    destruct (tinv_sub C Hist LeafV good (hist_laws N) t _ u Ht Hu) as (lu & Htu & _).
    rewrite (children_of_det _ _ _ _ _ Hch (sub_children _ _ _ _ Hok Hu)) in *. clear l Hch.
    destruct Htu as [id sm l Hs Hl|id sm kids ls l H2 HF _ Hp Hs]; [done|].
    exists sm, (map tsum kids).
    split; [exact (sub_table _ _ _ _ Hok Hu)|].
    split.
    { simpl. assert (Hk : forall k, k ∈ kids -> sub C k t).
      { intros k Hk. eapply sub_trans; [|exact Hu]. eapply sub_kid; [done|apply sub_refl]. }
      clear -Hk Hok. induction kids as [|k kids IH]; simpl; constructor.
      - apply (sub_table _ _ _ _ Hok). apply Hk. left.
      - apply IH. intros k' Hk'. apply Hk. by right. }
    destruct Hs as (Hc & _ & He). split.
    - rewrite Hc. etransitivity; [apply (Permutation_length Hp)|]. clear -HF.
      induction HF as [|k lk kids ls Hk HF IH]; simpl; [done|].
      etransitivity; [apply app_length|]. f_equal; [|exact IH]. apply tinv_summ in Hk.
      symmetry. by destruct Hk.
    - intros a v. rewrite He. etransitivity; [apply (occ_perm _ _ a v Hp)|]. clear -HF.
      induction HF as [|k lk kids ls Hk HF IH]; simpl; [done|].
      etransitivity; [apply occ_app|]. f_equal; [|exact IH]. apply tinv_summ in Hk.
      destruct Hk as (_ & _ & Hk). by rewrite Hk.
  Qed.

  (** ** C03: the loops need at most one step per concept. *)
  Theorem C03_terminates evs s (i : inst) :
    reachable C rng tt evs s ->
    exists l : list nat, NoDup l /\ (forall id, id ∈ l <-> in_tree s id) /\
      (forall k, length l <= k ->
         fst (mcobweb C rng k (st_root s) i s) = fst (cobweb C rng i s) /\
         fst (mcategorize C rng k (st_root s) i s) = fst (cobweb_categorize C rng i s)) /\
      fst (cobweb C rng i s) <> Err OutOfFuel /\ fst (cobweb C rng i s) <> Err Dangling /\
      fst (cobweb_categorize C rng i s) <> Err OutOfFuel /\
      fst (cobweb_categorize C rng i s) <> Err Dangling.
  Proof.
    intros Hr. destruct (reachable_ok C rng tt evs s Hr) as (t & Hok).
    exists (ids t). split; [apply Hok|]. split.
    { intros id. symmetry. by apply in_tree_ids. }
    rewrite length_ids.
    pose proof Hok as [Hrep Hroot Hnd Hb].
    assert (Hcob : forall k, tsize t <= k ->
      fst (mcobweb C rng k (st_root s) i s) =
      fo_res (fcob C rng (tsize t) (st_ctx s) t i (st_amb s))).
    { intros k Hk. destruct s as [h r a x]. simpl in *. subst r.
      destruct (mcobweb_refines C rng k h (tid t) a x None t i Hrep Hnd Hb eq_refl)
        as (h' & E & _). rewrite E. cbn [fst].
      by rewrite (fcob_fuel C rng (cobweb_real N) k (tsize t)). }
    assert (Hcat : forall k, tsize t <= k ->
      fst (mcategorize C rng k (st_root s) i s) =
      fst (fcat C rng (tsize t) (st_ctx s) t i (st_amb s))).
    { intros k Hk. destruct s as [h r a x]. simpl in *. subst r.
      rewrite (mcategorize_refines C rng k h (tid t) a x None t i Hrep Hnd). cbn [fst].
      by rewrite (fcat_fuel C rng (cobweb_real N) k (tsize t)). }
    pose proof (tsize_heap C _ _ _ Hrep Hnd) as Hsz.
    assert (E1 : fst (cobweb C rng i s) = fo_res (fcob C rng (tsize t) (st_ctx s) t i (st_amb s))).
    { unfold cobweb, mbind, mpre, mroot, mheap_size. cbv beta iota. cbn [st_heap st_root st_amb st_ctx].
      rewrite <- (Hcob (S (size (st_heap s)))) by lia. destruct s as [h r a x]. done. }
    assert (E2 : fst (cobweb_categorize C rng i s) = fst (fcat C rng (tsize t) (st_ctx s) t i (st_amb s))).
    { unfold cobweb_categorize, mbind, mroot, mheap_size. cbv beta iota.
      by rewrite <- (Hcat (S (size (st_heap s)))) by lia. }
    split.
    { intros k Hk. by rewrite E1, E2, Hcob, Hcat. }
    rewrite E1, E2.
    pose proof (fcob_terminates C rng (cobweb_real N) (tsize t) (st_ctx s) t i (st_amb s)
      Hnd Hb (le_n _)) as R1.
    pose proof (fcat_terminates C rng (cobweb_real N) (tsize t) (st_ctx s) t i (st_amb s)
      Hnd (le_n _)) as R2.
    repeat split; intros E; rewrite E in *; by (destruct R1 || destruct R2).
  Qed.

  (** ** C04 *)
  Theorem C04_proper_tree evs s : reachable C rng tt evs s -> hierarchy s.
  Proof.
    intros Hr. eapply (reachable_hierarchy C rng (fun _ => True) (fun _ => True)); [|done|done|].
    - intros i _. apply cob_closed.
    - unfold all_inst. by apply Forall_forall.
  Qed.

  (** ** C05 *)
  Theorem C05_returned_leaf evs s (i : inst) j s' :
    reachable C rng tt evs s -> all_inst (C:=C) good evs -> good i ->
    cobweb C rng i s = (Ok j, s') ->
    is_leaf s' j /\
    exists tb, table_of s' j tb /\ 0 < ns_count tb /\
      (forall a v, visible a = true -> dget a i = Some v ->
         dget a (ns_av tb) = Some [(v, ns_count tb)]) /\
      (forall a, visible a = true -> dget a i = None -> dget a (ns_av tb) = None).
  Proof.
    intros Hr Hg Hi E.
    destruct (returned_leaf C rng someHist leafHist good (hist_closed (N:=N)) (ex_intro _ [] Hist_empty)
      leafHist_empty (leafHist_inc (N:=N)) tt evs s i j s' Hr Hg Hi E)
      as (Hl & tb0 & tb & Htb & Hinc & HP & HL & Hc).
    split; [done|]. exists tb. split; [done|].
    assert (Hlh : leafHist tb).
    { eapply (leafHist_inc (N:=N)); [exact Hi|exact Hinc|exact HP|exact HL|].
      destruct Hc as [?|(_ & _ & ?)]; auto. }
    simpl in Hinc. injection Hinc as <-.
    exact (leafHist_inst tb0 i Hlh Hi HP).
  Qed.

  (** ** C06 *)
  Theorem C06_leaves_pure evs s id tb :
    reachable C rng tt evs s -> all_inst (C:=C) good evs ->
    is_leaf s id -> table_of s id tb ->
    forall a d, visible a = true -> dget a (ns_av tb) = Some d ->
      0 < ns_count tb /\ exists v, d = [(v, ns_count tb)].
  Proof.
    intros Hr Hg Hl Htb a d Ha Hd.
    destruct (reachable_leaves C rng someHist leafHist good (hist_closed (N:=N))
      (ex_intro _ [] Hist_empty) leafHist_empty (leafHist_inc (N:=N)) tt evs s Hr Hg)
      as (t & Hok & _ & Hlo).
    apply (is_leaf_sub _ _ _ _ Hok) in Hl as (tb' & Hs).
    rewrite (table_of_det _ _ _ _ _ Htb (sub_table _ _ _ _ Hok Hs)) in *.
    pose proof (Hlo _ _ Hs) as HL.
    destruct (leafHist_single tb' a d HL Ha Hd) as [v ->]. split; [|eauto].
    destruct HL as (l & (Hc & [_ Hav] & _) & _). destruct (Hav _ _ Hd) as (_ & _ & Hpos).
    apply (Hpos v). simpl. by rewrite decide_True.
  Qed.

  (** ** C07 *)
  Theorem C07_leaves_persist evs0 s evs s' id tb :
    reachable C rng tt evs0 s -> run C rng tt s evs s' ->
    all_inst (C:=C) good evs0 -> all_inst (C:=C) good evs ->
    Forall (fun e => e <> EClear) evs ->
    is_leaf s id -> table_of s id tb -> 0 < ns_count tb ->
    is_leaf s' id /\ exists tb', table_of s' id tb' /\
      ns_count tb <= ns_count tb' /\
      forall a v, visible a = true -> sees tb a v <-> sees tb' a v.
  Proof.
    intros Hr Hrun Hg0 Hg Hnc Hl Htb Hpos.
    destruct (reachable_leaves C rng someHist leafHist good (hist_closed (N:=N))
      (ex_intro _ [] Hist_empty) leafHist_empty (leafHist_inc (N:=N)) tt evs0 s Hr Hg0)
      as (t & Hok & Hall & _).
    apply (is_leaf_sub _ _ _ _ Hok) in Hl as (tb1 & Hs).
    rewrite (table_of_det _ _ _ _ _ Htb (sub_table _ _ _ _ Hok Hs)) in *.
    destruct (run_persist C rng someHist good (hist_closed (N:=N)) grows) with
      (NE := fun s : nsum => 0 < ns_count s) (x0 := tt) (s := s) (evs := evs) (s' := s') (t := t)
      (id := id) (tb := tb1) as (t' & tb' & Hok' & _ & Hs' & [HR1 HR2] & _); try done.
    - intros a b c [H1 H2] [H3 H4]. split; [lia|]. intros x v Hx. by rewrite H2, H4.
    - intros i a b Hgi HPa Hne. by apply grows_inc.
    - split; [apply (is_leaf_sub _ _ _ _ Hok'); eauto|].
      exists tb'. split; [exact (sub_table _ _ _ _ Hok' Hs')|done].
  Qed.

  (** ** C08 *)
  Theorem C08_categorize_read_only evs s (i : inst) r s' :
    reachable C rng tt evs s -> cobweb_categorize C rng i s = (r, s') ->
    st_heap s' = st_heap s /\ st_root s' = st_root s /\
    forall j, r = Ok j -> is_leaf s j.
  Proof.
    intros Hr E. destruct (reachable_ok C rng tt evs s Hr) as (t & Hok).
    destruct (categorize_state C rng s t i r s' Hok E) as (Er & _ & Hh & Hro & _).
    split; [done|]. split; [done|]. intros j ->.
    symmetry in Er. apply (is_leaf_sub _ _ _ _ Hok).
    pose proof (fcat_leaf C rng _ _ _ _ _ _ Er) as Hl.
    destruct Hl as [sj Hl]. exists sj. clear -Hl.
    induction Hl as [|id sm kids k j sj Hk Hl IH]; [apply sub_refl|by eapply sub_kid].
  Qed.

  (** ** C09 *)
  (** [tb'] is [tb] with the instance [i] added once. *)
  Definition plus_inst (tb : nsum) (i : inst) (tb' : nsum) : Prop :=
    ns_count tb' = S (ns_count tb) /\
    forall a v, entry tb' a v = entry tb a v + (if decide (dget a i = Some v) then 1 else 0).

  Theorem C09_only_path_changes evs s (i : inst) j s' :
    reachable C rng tt evs s -> good i -> cobweb C rng i s = (Ok j, s') ->
    (* ancestors of the returned leaf (and itself) gained the instance *)
    (forall id tb tb', in_tree s id -> in_tree s' id -> desc s' id j ->
       table_of s id tb -> table_of s' id tb' -> plus_inst tb i tb') /\
    (* every other concept existed before and is as before *)
    (forall id, in_tree s' id -> ~ desc s' id j ->
       in_tree s id /\
       (forall tb, table_of s id tb <-> table_of s' id tb) /\
       (forall l, children_of s id l <-> children_of s' id l)) /\
    (* only concepts with children disappear *)
    (forall id, in_tree s id -> ~ in_tree s' id -> ~ is_leaf s id).
  Proof.
    intros Hr Hg E. destruct (reachable_ok C rng tt evs s Hr) as (t & Hok).
    assert (Hall : tall C (fun _ => True) t).
    { clear. induction t as [id sm kids IH] using (tree_ind' C). by constructor. }
    destruct (cobweb_sorts C rng (fun _ => True) (fun _ => True) (fun i _ => cob_closed i)
      s t i (Ok j) s' Hok Hall Logic.I E) as (t' & mv & Hs & Hok' & _).
    pose proof (sorts_path C i _ t t' mv j Hs (so_nodup _ _ _ Hok) (so_bound _ _ _ Hok)) as Hpath.
    assert (Hdesc : forall u', sub C u' t' -> desc s' (tid u') j <-> j ∈ ids u').
    { intros u' Hu'. split.
      - intros Hd. destruct (desc_sub C s' t' u' j Hok' Hu' Hd) as (v & Hv & <-).
        by apply sub_tid.
      - intros (v & Hv & <-)%(ids_sub C). by eapply sub_desc. }
    split; [|split].
    - intros id tb tb' Hin Hin' Hd Htb Htb'.
      apply (in_tree_sub _ _ _ _ Hok') in Hin' as (u' & Hu' & <-).
      destruct (Hpath u' Hu') as [[Hj [Hnew|(u & Hu & Hid & Hinc)]]|[Hj _]].
      + exfalso. apply (in_tree_ids _ _ _ _ Hok) in Hin.
        pose proof (so_bound _ _ _ Hok _ Hin). lia.
      + rewrite (table_of_det _ _ _ _ _ Htb' (sub_table _ _ _ _ Hok' Hu')).
        rewrite <- Hid in Htb. rewrite (table_of_det _ _ _ _ _ Htb (sub_table _ _ _ _ Hok Hu)).
        simpl in Hinc. injection Hinc as <-. split; [done|]. intros a v.
        apply (inc_fold_entry i (ns_av (tsum u)) a v). apply Hg.
      + exfalso. by apply Hj, Hdesc.
    - intros id Hin' Hd. apply (in_tree_sub _ _ _ _ Hok') in Hin' as (u' & Hu' & <-).
      destruct (Hpath u' Hu') as [[Hj _]|[Hj Hu]]; [exfalso; by apply Hd, Hdesc|].
      split; [apply (in_tree_sub _ _ _ _ Hok); eauto|].
      pose proof (sub_table _ _ _ _ Hok' Hu') as T1. pose proof (sub_table _ _ _ _ Hok Hu) as T2.
      pose proof (sub_children _ _ _ _ Hok' Hu') as C1. pose proof (sub_children _ _ _ _ Hok Hu) as C2.
      split; intros l; split; intros H.
      + by rewrite (table_of_det _ _ _ _ _ H T2).
      + by rewrite (table_of_det _ _ _ _ _ H T1).
      + by rewrite (children_of_det _ _ _ _ _ H C2).
      + by rewrite (children_of_det _ _ _ _ _ H C1).
    - intros id Hin Hnin [_ Hch].
      apply (in_tree_sub _ _ _ _ Hok) in Hin as (u & Hu & <-).
      destruct (sorts_survive C i _ t t' mv _ Hs u Hu) as [Hk|(u' & Hu' & Hid)].
      + pose proof (children_of_det _ _ _ _ _ Hch (sub_children _ _ _ _ Hok Hu)) as Hn.
        by destruct (tkids u).
      + apply Hnin. apply (in_tree_sub _ _ _ _ Hok'). eauto.
  Qed.

  (** ** C19 *)
  Theorem C19_rejected_no_trace (i : raw) a v s :
    (a, v) ∈ i ->
    a = AStr "" \/ a = ATup [] \/ (exists z, a = ANum z) \/ v = PNone \/ v = PUnhashable ->
    ifit rng i s = (Err ValueError, s) /\ categorize rng i s = (Err ValueError, s).
  Proof.
    intros Hin Hbad.
    assert (E : sanity i = Err ValueError).
    { apply sanity_rejects. exists a, v. split; [done|].
      destruct Hbad as [->|[->|[[z ->]|[->| ->]]]]; auto. }
    unfold ifit, categorize. by rewrite E.
  Qed.

  (** ** C22 *)
  Theorem C22_ids_never_reused evs0 s evs s' :
    reachable C rng tt evs0 s -> run C rng tt s evs s' ->
    (forall id, in_tree s id -> id <= am_ctr (st_amb s)) /\
    am_ctr (st_amb s) <= am_ctr (st_amb s') /\
    (forall id, in_tree s' id -> ~ in_tree s id -> am_ctr (st_amb s) < id).
  Proof.
    intros Hr Hrun. destruct (reachable_ok C rng tt evs0 s Hr) as (t & Hok).
    destruct (run_ok C rng tt s evs s' t Hrun Hok) as (t' & Hok' & Hle & Hid).
    split; [|split; [done|]].
    - intros id Hin. apply Hok. by apply (in_tree_ids _ _ _ _ Hok).
    - intros id Hin Hn. destruct (Hid id) as [H|H]; [by apply (in_tree_ids _ _ _ _ Hok')| |done].
      exfalso. apply Hn. by apply (in_tree_ids _ _ _ _ Hok).
  Qed.

  (** An object that is not (or no longer) in the tree is never touched again:
      no later node takes its place. *)
  Theorem C22_dead_objects_untouched evs0 s evs s' id :
    reachable C rng tt evs0 s -> run C rng tt s evs s' ->
    id <= am_ctr (st_amb s) -> ~ in_tree s id ->
    st_heap s' !! id = st_heap s !! id /\ ~ in_tree s' id.
  Proof.
    intros Hr Hrun Hle Hni. destruct (reachable_ok C rng tt evs0 s Hr) as (t & Hok).
    induction Hrun as [s|s evs s1 e s2 Hrun IH Hst]; [done|].
    destruct (IH Hr Hle Hni Hok) as [E1 N1].
    destruct (run_ok C rng tt s evs s1 t Hrun Hok) as (t1 & Hok1 & Hle1 & _).
    assert (Hle2 : id <= am_ctr (st_amb s1)) by lia.
    assert (Hn2 : ~ in_tree s2 id).
    { destruct (step_ok C rng tt s1 e s2 t1 Hst Hok1) as (t2 & Hok2 & _ & Hid2).
      rewrite (in_tree_ids _ _ _ _ Hok2). intros [Hin|Hlt]%Hid2; [|lia].
      apply N1. by apply (in_tree_ids _ _ _ _ Hok1). }
    split; [|done]. rewrite <- E1.
    destruct Hst as [s1 i r s2 E|s1 i r s2 E|s1 ctr rpos H1 H2|s1 s2 E].
    - apply (cobweb_frame C rng s1 t1 i r s2 id Hok1 E); [|done].
      by rewrite <- (in_tree_ids _ _ _ _ Hok1).
    - by destruct (categorize_state C rng s1 t1 i r s2 Hok1 E) as (_ & _ & -> & _).
    - done.
    - unfold mclear, mbind in E. simpl in E. injection E as <-. simpl.
      rewrite lookup_insert_ne; [done|]. lia.
  Qed.

  (** Every new node takes an id above the counter, temporaries included. *)
  Theorem C22_gensym s : exists id s', mgensym C s = (Ok id, s') /\
    am_ctr (st_amb s) < id /\ id <= am_ctr (st_amb s').
  Proof. eexists _, _. split; [reflexivity|]. simpl. lia. Qed.

  (** ** C24 *)
  Theorem C24_fit_root perms iterations first (l : list raw) ctr rpos s :
    (forall k l, Permutation (perms k l) l) ->
    Forall (fun i : raw => dwf i) l ->
    fit rng perms iterations first l (fresh C ctr rpos tt) = (Ok tt, s) ->
    exists tb, table_of s (st_root s) tb /\
      ns_count tb = iterations * length l /\
      forall a v, entry tb a v = iterations * rocc l a v.
  Proof.
    intros Hp Hwf E.
    assert (Hgen : exists t h, state_ok C s t /\ tinv C Hist LeafV t h /\
      length h = iterations * length l /\ forall a v, occ h a v = iterations * rocc l a v).
    { assert (H0 : tinv C Hist LeafV (T (S ctr) (nc_empty C) []) []).
      { apply ti_leaf; [apply Hist_empty|]. intros i j Hi. inversion Hi. }
      unfold fit in E. destruct iterations as [|n].
      - injection E as <-. eexists _, []. split; [apply fresh_ok|]. done.
      - destruct first.
        + destruct (fit_loop_tinv rng perms Hp (S n) 1 (perms 0 l) _ _ [] s (fresh_ok C ctr rpos tt) H0)
            as (t & h & Hok & Ht & Hl & Ho); [by rewrite Hp|done|].
          exists t, h. split; [done|]. split; [done|].
          rewrite (Permutation_length (Hp 0 l)) in Hl. split; [done|].
          intros a v. rewrite Ho, (rocc_perm _ _ a v (Hp 0 l)). done.
        + destruct (fit_loop_tinv rng perms Hp (S n) 1 l _ _ [] s (fresh_ok C ctr rpos tt) H0)
            as (t & h & Hok & Ht & Hl & Ho); [done|done|].
          exists t, h. done. }
    destruct Hgen as (t & h & Hok & Ht & Hl & Ho).
    exists (tsum t). rewrite (so_root _ _ _ Hok).
    split; [apply (sub_table _ _ _ _ Hok), sub_refl|].
    apply tinv_summ in Ht. destruct Ht as (Hc & _ & He).
    split; [rewrite Hc; exact Hl|]. intros a v. rewrite He. apply Ho.
  Qed.

  (** ** C25 *)
  Theorem C25_clear_like_new s cs :
    let s1 := snd (mclear C tt s) in
    let s2 := fresh C (am_ctr (st_amb s)) (am_rpos (st_amb s)) tt in
    fst (exec C rng tt cs s1) = fst (exec C rng tt cs s2) /\
    same_view eq (snd (exec C rng tt cs s1)) (snd (exec C rng tt cs s2)).
  Proof. exact (clear_like_new C rng (cobweb_real N) tt s cs). Qed.

  (** ** C26 *)
  (** Two call sequences whose instances agree on the visible attributes. *)
  Definition same_but_hidden (c1 c2 : call C) : Prop :=
    match c1, c2 with
    | CFit i1, CFit i2 | CCat i1, CCat i2 => dfilter visible (i1 : inst) = dfilter visible (i2 : inst)
    | COther a b, COther c d => a = c /\ b = d
    | CClear, CClear => True
    | _, _ => False
    end.
  Definition same_visible_table (t1 t2 : nsum) : Prop :=
    ns_count t1 = ns_count t2 /\
    forall a, visible a = true -> dget a (ns_av t1) = dget a (ns_av t2).

  Theorem C26_hidden_irrelevant cs1 cs2 ctr rpos :
    Forall2 same_but_hidden cs1 cs2 ->
    let o1 := exec C rng tt cs1 (fresh C ctr rpos tt) in
    let o2 := exec C rng tt cs2 (fresh C ctr rpos tt) in
    fst o1 = fst o2 /\ same_view (C1:=C) (C2:=C) same_visible_table (snd o1) (snd o2).
  Proof.
    intros HF. cbv zeta.
    destruct (exec_rel C C rng vis_tables vis_insts eq (hidden_sim N) (cobweb_real N)
      tt tt cs1 cs2 (fresh C ctr rpos tt) (fresh C ctr rpos tt) eq_refl) as [H1 H2].
    - eapply Forall2_impl; [exact HF|]. intros [i|i|a b|] [k|k|c d|]; done.
    - apply (srel_fresh C C vis_tables vis_insts eq (hidden_sim N)). done.
    - split; [done|]. apply (srel_view C C vis_tables eq) in H2. destruct H2 as [V1 V2 V3 V4 V5].
      split; [done|done|done|done|]. intros id t1 t2 Hin Ht1 Ht2.
      destruct (V5 id t1 t2 Hin Ht1 Ht2) as [Hc Hv]. split; [done|].
      intros a Ha. by apply vis_dget.
  Qed.
End Props.

(** ** The hypotheses are met by the run of [Example.v]. *)
Section Examples.
  Notation CF := (CobwebClass FloatOps).

  Example ex_C01 : exists tb, table_of ex_state (st_root ex_state) tb /\
    ns_count tb = 6 /\ entry tb (AStr "color") (NStr "red") = 3.
  Proof.
    destruct (C01_root_is_histogram ex_rng ex_events ex_state ex_reachable ex_good ex_ok)
      as (tb & H1 & H2 & H3).
    exists tb. split; [exact H1|]. rewrite H2, H3, ex_events_eq.
    split; vm_compute; reflexivity.
  Qed.

  (** The root has three children; one of them is an inner concept. *)
  Example ex_C02 : children_of ex_state (st_root ex_state) [1; 11; 20].
  Proof. apply children_lookup. vm_compute. reflexivity. Qed.

  Example ex_C05 : fst (cobweb CF ex_rng (mk "blue" "square" 9) ex_state) = Ok 20.
  Proof. vm_compute. reflexivity. Qed.

  (** Concept 1 is a leaf holding two instances that differ in [_id]. *)
  Example ex_C06 : is_leaf ex_state 1 /\ exists tb, table_of ex_state 1 tb /\ ns_count tb = 2.
  Proof.
    split.
    - split; [|apply children_lookup; vm_compute; reflexivity].
      eapply desc_child; [apply desc_refl|].
      exists [1; 11; 20]. split; [exact ex_C02|left].
    - exists (NSum 2 [(AStr "color", [(NStr "red", 2)]); (AStr "shape", [(NStr "square", 2)]);
                      (AStr "_id", [(NAtom 1, 1); (NAtom 2, 1)])]).
      split; [apply table_lookup; vm_compute; reflexivity|done].
  Qed.

  Example ex_C09 : exists j, fst (cobweb CF ex_rng (mk "green" "square" 9) ex_state) = Ok j /\ j <> 20.
  Proof. eexists. split; [vm_compute; reflexivity|]. done. Qed.

  Example ex_C26 : Forall2 (same_but_hidden (N:=FloatOps)) ex_calls
     (map (fun c : call CF => match c with
                    | CFit i => CFit (C:=CF) (dfilter visible (i : inst))
                    | CCat i => CCat (C:=CF) (dfilter visible (i : inst))
                    | c => c end) ex_calls).
  Proof. repeat constructor. Qed.

  Example ex_C24 : fst (fit (N:=FloatOps) ex_rng (fun _ l => rev l) 2 true
      (map (fun i : inst => map (fun p => (fst p, PVal (snd p))) i) ex_insts)
      (fresh CF 0 0 tt)) = Ok tt.
  Proof. vm_compute. reflexivity. Qed.
End Examples.

Print Assumptions C01_root_is_histogram.
Print Assumptions C01_ifit_all.
Print Assumptions C02_children_partition.
Print Assumptions C03_terminates.
Print Assumptions C04_proper_tree.
Print Assumptions C05_returned_leaf.
Print Assumptions C06_leaves_pure.
Print Assumptions C07_leaves_persist.
Print Assumptions C08_categorize_read_only.
Print Assumptions C09_only_path_changes.
Print Assumptions C19_rejected_no_trace.
Print Assumptions C22_ids_never_reused.
Print Assumptions C22_dead_objects_untouched.
Print Assumptions C22_gensym.
Print Assumptions C24_fit_root.
Print Assumptions C25_clear_like_new.
Print Assumptions C26_hidden_irrelevant.
