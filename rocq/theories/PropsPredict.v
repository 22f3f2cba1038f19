(** * The predicted category utilities exist and are the actual ones, for every
      operation, in CobwebTree and Cobweb3Tree (C12); exact arithmetic. *)
From Coq Require Import Reals Lra.
From stdpp Require Import base decidable tactics gmap strings list.
From Verif Require Import Base Num TreeModel TreeFun TreeScore TreeRefine TreeSorts TreeInv SpecTree TreeState TreeTotal
  TreeRel TreeSim SortFacts ScoreR ScoreHeap ScoreStep RSum Nominal NominalFacts NominalTotal NominalTree NominalR PropsTotal PropsScore
  CV CVFacts Cobweb3 C3Facts C3Scales C3R C3Total C3Copies PropsC3 PropsC3R PropsC3E PropsClimb PropsQuery PropsTree.

(** ** Specification *)
Section Gen.
  Context (C : NodeClass ROps).
  (** [x] is the answer of a cu_for method; performing the operation in [s] succeeds and
      leaves the concept [p] with this category utility. *)
  Definition foretold (x : res R) (p : nat) (performed : res unit * st C) : Prop :=
    exists u s', x = Ok u /\ performed = (Ok tt, s') /\ fst (mcategory_utility C p s') = Ok u.
  Record all_foretold (s : st C) (cur : nat) (tb : nc_sum C) (kids : list (nat * nc_sum C)) (i : nc_inst C) : Prop := {
    ft_insert : forall c, c ∈ map fst kids ->
      foretold (cu_for_insert C (st_ctx s) tb kids c i) cur
        (mbind C (mincrement C cur i) (fun _ => mincrement C c i) s);
    ft_new : foretold (cu_for_new_child C (st_ctx s) tb (map snd kids) i) cur
        (mbind C (mincrement C cur i) (fun _ => mbind C (mcreate_new_child C cur i) (fun _ => mret C tt)) s);
    ft_merge : forall b1 b2, b1 ∈ kids -> b2 ∈ kids -> fst b1 <> fst b2 ->
      foretold (cu_for_merge C (st_ctx s) tb kids b1 b2 i) cur
        (mbind C (mbind C (mincrement C cur i) (fun _ => mmerge C cur (fst b1) (fst b2))) (fun m => mincrement C m i) s);
    ft_split : forall c tc ckids, (c, tc) ∈ kids -> node_view s c tc ckids ->
      foretold (cu_for_split C (st_ctx s) tb kids c ckids) cur (msplit C cur c s);
    ft_fringe : kids = [] -> exists leaf p s' u, cu_for_fringe_split C (st_ctx s) tb i = Ok u /\
      mfringe_split C cur i s = (Ok leaf, s') /\ children_of s' p [cur; leaf] /\ fst (mcategory_utility C p s') = Ok u;
  }.

  Context (V : nc_sum C -> Prop) (i : nc_inst C).
  Hypothesis Hnz : forall n, neqb ROps (nofnat ROps (S n)) (nofnat ROps 0) = false.

  Lemma insert_total x s (kids : list (nat * nc_sum C)) b : scorable C V x i -> V s -> Forall (fun c => V (snd c)) kids ->
    exists u, cu_for_insert C x s kids b i = Ok u.
  Proof.
    intros Sc Hs HF. unfold cu_for_insert. destruct (tcopy_total C V x i Sc s Hs) as (t & -> & Ht). cbn [rbind].
    destruct (tinc_total C V x i Sc t Ht) as (t' & -> & Ht'). cbn [rbind].
    match goal with |- context [rmapM ?f ?l] => destruct (mapM_total C V f l) as (l' & -> & Hl') end.
    { intros c Hc. rewrite Forall_forall in HF. destruct (tcopy_total C V x i Sc _ (HF c Hc)) as (k & -> & Hk). cbn [rbind].
      case_decide; [by apply (tinc_total C V x i Sc)|eauto]. }
    cbn [rbind]. by apply (cu_total C Hnz V x i Sc).
  Qed.

  Lemma fringe_total x s : scorable C V x i -> V s -> exists u, cu_for_fringe_split C x s i = Ok u.
  Proof.
    intros Sc Hs. unfold cu_for_fringe_split. destruct (tcopy_total C V x i Sc s Hs) as (t & -> & Ht). cbn [rbind].
    rewrite decide_True by (by apply (sc_count _ _ _ _ Sc)).
    destruct (tcopy_total C V x i Sc t Ht) as (k & -> & Hk). cbn [rbind].
    destruct (tinc_total C V x i Sc t Ht) as (t' & -> & Ht'). cbn [rbind].
    destruct (tnew_total C V x i Sc) as (n & -> & Hn). cbn [rbind].
    apply (cu_total C Hnz V x i Sc); [done|]. simpl. apply Forall_cons_2; [done|]. by apply Forall_singleton.
  Qed.

  Lemma view_same (s : st C) cur tb tb' kids kids' :
    node_view s cur tb kids -> node_view s cur tb' kids' -> tb = tb' /\ kids = kids'.
  Proof using Type.
    intros ((n & Hn & <-) & Hc & HF) ((n' & Hn' & <-) & Hc' & HF').
    rewrite Hn in Hn'. injection Hn' as <-. split; [done|].
    pose proof (children_of_det _ _ _ _ _ Hc Hc') as Heq. clear Hc Hc'. revert kids' HF' Heq.
    induction kids as [|[c t] kids IH]; intros [|[c' t'] kids'] HF' Heq; try done.
    simpl in Heq. injection Heq as -> Heq. apply Forall_cons in HF as [(n1 & Hn1 & Ht1) HF].
    apply Forall_cons in HF' as [(n2 & Hn2 & Ht2) HF']. simpl in *.
    f_equal; [|by apply IH]. rewrite Hn1 in Hn2. injection Hn2 as <-. by rewrite <- Ht1, Ht2.
  Qed.

  Lemma foretell s (t : tree C) cur tb kids : state_ok C s t -> tall C V t -> scorable C V (st_ctx s) i ->
    in_tree s cur -> (exists tb' kids', local_view C s cur tb' kids') -> node_view s cur tb kids -> all_foretold s cur tb kids i.
  Proof.
    intros Hok Hall Sc Hin (tb' & kids' & Hlv) Hview.
    destruct (proj1 (in_tree_sub C s t cur Hok) Hin) as (v & Hv & Heq).
    assert (HV : forall w, sub C w t -> V (tsum w)).
    { intros w Hw. clear -Hall Hw. induction Hw as [|id' s' ks k Hk Hw IH].
      - destruct w. by inversion Hall.
      - apply IH. inversion Hall as [? ? ? _ HF]; subst. rewrite Forall_forall in HF. by apply HF. }
    assert (HK : forall w, sub C w t -> Forall (fun c => V (snd c)) (kview C w)).
    { intros w Hw. apply Forall_forall. intros c Hc. apply elem_of_list_fmap in Hc as (k & -> & Hk).
      apply HV. by eapply sub_kid_of. }
    destruct (view_same s cur _ _ _ _ (lv_view _ _ _ _ _ Hlv) Hview) as [-> ->].
    pose proof (sub_view C s t v Hok Hv) as Hvw. rewrite Heq in Hvw.
    destruct (view_same s cur _ _ _ _ Hview Hvw) as [-> ->]. clear Hvw.
    destruct Hlv as [_ Hl H1 H2 H3]. pose proof (HV v Hv) as Hvv. pose proof (HK v Hv) as Hkv.
    split.
    - intros c Hc. apply elem_of_list_fmap in Hc as ([c' tc] & -> & Hc). simpl.
      destruct (insert_total (st_ctx s) _ _ c' Sc Hvv Hkv) as (u & E).
      destruct (insert_predicted C s cur _ _ i Hview Hl H1 H2 c' tc u Hc E) as (s' & E1 & E2). by exists u, s'.
    - assert (Hsn : Forall V (map snd (kview C v))) by (by apply Forall_fmap).
      destruct (new_total C Hnz V (st_ctx s) i Sc _ _ Hvv Hsn) as (u & E).
      destruct (new_predicted C s cur _ _ i Hview Hl H1 H2 u E) as (id & s' & E1 & E2). exists u, s'. split; [done|]. split; [|done].
      revert E1. unfold mbind. destruct (mincrement C cur i s) as [[|] s1]; [|done].
      by intros ->.
    - intros [c1 t1] [c2 t2] Hc1 Hc2 Hne. simpl in Hne |- *.
      assert (HVk : forall c, c ∈ kview C v -> V (snd c)) by (by apply Forall_forall).
      destruct (merge_total C Hnz V (st_ctx s) i Sc _ _ (c1, t1) (c2, t2) Hvv Hkv (HVk _ Hc1) (HVk _ Hc2)) as (u & E).
      destruct (merge_predicted C s cur _ _ i Hview Hl H1 H2 c1 c2 t1 t2 u Hc1 Hc2 Hne E) as (m & s1 & s' & E1 & E2 & E3).
      exists u, s'. split; [done|]. split; [|done]. unfold mbind at 1. by rewrite E1.
    - intros c tc ckids Hc Hvc. destruct (H3 c tc Hc) as (ck & Hck & Hcp & Hc1 & Hc2).
      destruct (view_same s c tc tc ckids ck Hvc Hck) as [_ ->].
      assert (Hcv : Forall (fun c => V (snd c)) ck).
      { pose proof Hc as Hk. unfold kview in Hk. apply elem_of_list_fmap in Hk as (k & [= -> ->] & Hk).
        assert (Hsk : sub C k t) by (by eapply sub_kid_of).
        destruct (view_same s (tid k) _ _ _ _ Hck (sub_view C s t k Hok Hsk)) as [_ ->]. by apply HK. }
      destruct (split_total C Hnz V (st_ctx s) i Sc _ (kview C v) c ck Hvv Hkv Hcv) as (u & E).
      destruct (split_predicted C s cur _ _ Hview Hl H1 H2 c tc ck u Hc Hck Hcp Hc1 Hc2 E) as (s' & E1 & E2). by exists u, s'.
    - intros Hnil. destruct (fringe_total (st_ctx s) _ Sc Hvv) as (u & E).
      destruct v as [id tbv kv]. simpl in Hnil, Heq, E, H1, Hvv, Hview |- *. subst id.
      unfold kview in Hnil. simpl in Hnil. apply map_eq_nil in Hnil. subst kv.
      destruct (leaf_fringe C s t cur tbv Hok Hv) as [Hf1 Hf2].
      destruct (fringe_predicted C s cur tbv i u) as (leaf & p & s' & E1 & E2 & E3); try done.
      + by destruct Hview.
      + by apply (sc_count _ _ _ _ Sc).
      + by exists leaf, p, s', u.
  Qed.
End Gen.

(** ** C12 without assuming the prediction: every cu_for method returns, and what
    it returns is the utility after the operation. *)
Theorem C12_all_foretold (rng : nat -> R) evs s cur tb kids i :
  distinct_draws (N:=ROps) rng -> reachable RC rng tt evs s -> all_inst (C:=RC) has_visible evs -> has_visible i ->
  in_tree s cur -> node_view s cur tb kids -> (0 < ns_count tb)%nat -> all_foretold RC s cur tb kids i.
Proof.
  intros Hd Hr Hg Hi Hin Hv Hpos. pose proof (ct_pos _ counting_R) as Hnz.
  destruct (reachable_total RC rng Hnz Hd (fun _ => True) (fun _ => VN) has_visible
      (fun _ _ _ _ => Logic.I) (fun x i _ Hi => cobweb_scorable Hnz x i Hi)
      (fun x i s Hs => Hs) tt evs s Hr Hg Logic.I) as (_ & _ & t & Hok & Hre).
  pose proof (reach_local rng evs s cur Hr Hin) as Hl.
  destruct Hre as [Hall|(id' & ->)].
  - apply (foretell RC VN i Hnz s t cur tb kids Hok Hall); try done. exact (cobweb_scorable (N:=ROps) Hnz (st_ctx s) i Hi).
  - exfalso. destruct (proj1 (in_tree_sub RC s _ cur Hok) Hin) as (v & Hs & <-).
    pose proof (sub_table _ _ _ _ Hok Hs) as Ht. apply sub_inv in Hs as [->|(k & Hk & _)]; [|inversion Hk].
    rewrite (table_of_det _ _ _ _ _ (proj1 Hv) Ht) in Hpos. simpl in Hpos. lia.
Qed.

Theorem C12_all_foretold3 (rng : nat -> R) sc inner evs s cur tb kids (i : inst3 ROps) :
  distinct_draws (N:=ROps) rng -> reachable RC3 rng (@new_ctx ROps sc inner) evs s ->
  all_inst (C:=RC3) (fits3 (N:=ROps)) evs -> fits3 i ->
  in_tree s cur -> node_view s cur tb kids -> (0 < n3_count tb)%nat -> all_foretold RC3 s cur tb kids i.
Proof.
  intros Hd Hr Hg Hi Hin Hv Hpos. destruct counting_R as [Hnz Hzz].
  destruct (reachable_total RC3 rng Hnz Hd scales_ok (fun _ => V3) fits3
      (fun x i Hx _ => scales_ok_update x i Hx) (fun x i Hx Hi => cobweb3_scorable x i Hx Hi)
      (fun x i s Hs => Hs) _ evs s Hr Hg (scales_ok_new sc inner)) as (_ & Hx & t & Hok & Hre).
  assert (Hg' : all_inst (C:=RC3) (good3 (N:=ROps)) evs).
  { eapply Forall_impl; [exact Hg|]. intros e He k Hk. by apply He. }
  pose proof (reach_local3 rng sc inner evs s cur Hr Hg' Hin) as Hl.
  destruct Hre as [Hall|(id' & ->)].
  - apply (foretell RC3 V3 i Hnz s t cur tb kids Hok Hall); try done. exact (cobweb3_scorable _ i Hx Hi).
  - exfalso. destruct (proj1 (in_tree_sub RC3 s _ cur Hok) Hin) as (v & Hs & <-).
    pose proof (sub_table _ _ _ _ Hok Hs) as Ht. apply sub_inv in Hs as [->|(k & Hk & _)]; [|inversion Hk].
    rewrite (table_of_det _ _ _ _ _ (proj1 Hv) Ht) in Hpos. simpl in Hpos. lia.
Qed.

(** ** The hypotheses are met: the root of a tree over [a=x] and [a=y], with two
    children, and one of these, a leaf. *)
Lemma view_exists evs s cur l : reachable RC ex_draws tt evs s -> in_tree s cur -> children_of s cur l ->
  exists tb kids, node_view s cur tb kids /\ map fst kids = l.
Proof.
  intros Hr Hin Hch. destruct (reach_local ex_draws evs s cur Hr Hin) as (tb & kids & Hl).
  exists tb, kids. split; [by destruct Hl|]. destruct (lv_view _ _ _ _ _ Hl) as (_ & Hc & _).
  exact (children_of_det _ _ _ _ _ Hc Hch).
Qed.

Lemma ex_C12 : exists evs s cur tb kids leaf tl,
  distinct_draws (N:=ROps) ex_draws /\ reachable RC ex_draws tt evs s /\ all_inst (C:=RC) has_visible evs /\
  in_tree s cur /\ node_view s cur tb kids /\ (0 < ns_count tb)%nat /\ length kids = 2%nat /\
  in_tree s leaf /\ node_view s leaf tl [] /\ (0 < ns_count tl)%nat.
Proof.
  pose proof (exec_reachable RC ex_draws tt
    [@CFit _ RC [(AStr "a", NStr "x")]; @CFit _ RC [(AStr "a", NStr "y")]] 0 0) as Hr.
  match type of Hr with reachable _ _ _ ?evs ?s =>
    assert (Hev : evs = [@EFit _ RC [(AStr "a", NStr "x")] (Ok 1%nat); @EFit _ RC [(AStr "a", NStr "y")] (Ok 3%nat)])
      by (vm_compute; reflexivity);
    assert (Hroot : st_root s = 2%nat) by (vm_compute; reflexivity);
    assert (Hch : option_map nd_children (st_heap s !! 2%nat) = Some [1; 3]%nat) by (vm_compute; reflexivity);
    assert (Hc1 : option_map nd_children (st_heap s !! 1%nat) = Some []) by (vm_compute; reflexivity);
    assert (Hcnt : option_map (fun n : node RC => ns_count (nd_sum n)) (st_heap s !! 2%nat) = Some 2%nat) by (vm_compute; reflexivity);
    assert (Hcnt1 : option_map (fun n : node RC => ns_count (nd_sum n)) (st_heap s !! 1%nat) = Some 1%nat) by (vm_compute; reflexivity);
    rewrite Hev in Hr; clear Hev; revert Hr Hroot Hch Hc1 Hcnt Hcnt1; generalize s
  end.
  intros s Hr Hroot Hch Hc1 Hcnt Hcnt1.
  destruct (st_heap s !! 2%nat) as [n2|] eqn:E2; [|done]. destruct (st_heap s !! 1%nat) as [n1|] eqn:E1; [|done].
  simpl in Hch, Hc1, Hcnt, Hcnt1. injection Hch as Hch. injection Hc1 as Hc1. injection Hcnt as Hcnt. injection Hcnt1 as Hcnt1.
  assert (Hin : in_tree s 2%nat) by (rewrite <- Hroot; apply desc_refl).
  assert (Hin1 : in_tree s 1%nat).
  { unfold in_tree. rewrite Hroot. eapply desc_child; [apply desc_refl|]. exists [1; 3]%nat. split; [by exists n2|left]. }
  destruct (view_exists _ s 2%nat [1; 3]%nat Hr Hin) as (tb & kids & Hv & Hk); [by exists n2|].
  destruct (view_exists _ s 1%nat [] Hr Hin1) as (tl & kids1 & Hv1 & Hk1); [by exists n1|].
  apply map_eq_nil in Hk1 as ->.
  eexists _, s, 2%nat, tb, kids, 1%nat, tl. split; [apply ex_draws_distinct|]. split; [exact Hr|]. split.
  { apply Forall_cons_2; [intros i ->; exists (AStr "a"); split; [done|left]|].
    apply Forall_cons_2; [intros i ->; exists (AStr "a"); split; [done|left]|apply Forall_nil_2]. }
  split; [done|]. split; [done|]. split.
  { rewrite (table_of_det _ _ _ _ _ (proj1 Hv) (ex_intro _ n2 (conj E2 eq_refl))). lia. }
  split; [by rewrite <- (map_length fst), Hk|]. split; [done|]. split; [done|].
  rewrite (table_of_det _ _ _ _ _ (proj1 Hv1) (ex_intro _ n1 (conj E1 eq_refl))). lia.
Qed.
Print Assumptions C12_all_foretold3.

(** In a Cobweb3Tree: the root over four mixed instances. *)
Lemma ex_C12_3 : exists evs s tb kids, distinct_draws (N:=ROps) ex_draws /\
  reachable RC3 ex_draws (@new_ctx ROps (Some 0.5%R) true) evs s /\ all_inst (C:=RC3) (fits3 (N:=ROps)) evs /\
  fits3 (xci 2 "p") /\ in_tree s (st_root s) /\ node_view s (st_root s) tb kids /\ n3_count tb = 4%nat.
Proof.
  destruct ex_C31 as (evs & s & Hr & Hg & Hok & Hh).
  assert (Hg' : all_inst (C:=RC3) (good3 (N:=ROps)) evs).
  { eapply Forall_impl; [exact Hg|]. intros e He i Hi. by apply He. }
  destruct (C31_root_summaries ex_draws (Some 0.5%R) true evs s Hr Hg' Hok) as (tb & Htb & Hn & _).
  assert (Hin : in_tree s (st_root s)) by constructor.
  destruct (reach_local3 ex_draws _ _ evs s (st_root s) Hr Hg' Hin) as (tb' & kids & Hl).
  exists evs, s, tb', kids. split; [apply ex_draws_distinct|]. split; [done|]. split; [done|]. split; [by apply xci_fits|].
  split; [done|]. pose proof (lv_view _ _ _ _ _ Hl) as Hv. split; [done|].
  rewrite (table_of_det _ _ _ _ _ (proj1 Hv) Htb), Hn. by rewrite Hh.
Qed.
