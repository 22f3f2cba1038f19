(** * Hill climbing: which operations ifit commits, where categorize goes, and
      when a tree has a single concept (C67-C70).

    [climb], [choice], [best_child], [best_op] and [outcome] are the
    specification in [TreeClimb.v]: an operation is as good as the category
    utility (method category_utility, cobweb.py:404-445) that the concept has
    after the operation was carried out on the objects of the tree. *)
From Coq Require Import Reals Lra.
From stdpp Require Import base decidable tactics gmap strings list.
From Verif Require Import Base Num TreeModel TreeFun TreeScore TreeRefine TreeSorts TreeInv
  SpecTree TreeState TreeTotal TreeRel TreeSim SortFacts ScoreR ScoreHeap ScoreStep TreeClimb TreeOne RSum
  Nominal NominalFacts NominalTotal NominalTree NominalR PropsTotal PropsScore
  CV CVFacts Cobweb3 C3Facts C3Scales C3R C3Tree C3Total C3Copies PropsC3 PropsC3R PropsC3E.

(** Two instances agree on everything that counts for sorting. *)
Definition agree {V} (i j : list (attr * V)) : Prop := forall a, visible a = true -> dget a i = dget a j.

(** The state in which ifit starts to sort [i]: Cobweb/3 has taken the numbers
    of [i] into the scales of the tree (cobweb3.py:78-91). *)
Definition prepared {N} (C : NodeClass N) (i : nc_inst C) (s : st C) : st C :=
  St (st_heap s) (st_root s) (st_amb s) (nc_pre C (st_ctx s) i).

Lemma tall_mono {N} (C : NodeClass N) (P Q : nc_sum C -> Prop) t : (forall tb, P tb -> Q tb) ->
  tall C P t -> tall C Q t.
Proof.
  intros HPQ. induction t as [id s kids IH] using (tree_ind' C). rewrite !tall_inv. intros [Hs Hk].
  split; [auto|]. rewrite Forall_forall in *. auto.
Qed.

Section Nominal.
  Context (rng : nat -> R).

  (** ** C67 *)
  Theorem C67_ifit_climbs evs s i j s' :
    reachable RC rng tt evs s -> cobweb RC rng i s = (Ok j, s') ->
    climb RC i s (st_root s) j s'.
  Proof.
    intros Hr E. destruct (reach_cwf rng evs s Hr) as (t & Hok & Hall & _).
    pose proof (cobweb_climbs RC rng cwf i cwf_copies (cwf_closed i) (cwf_counts i) s t j s' Hok Hall E) as H.
    destruct s as [h r a []]. exact H.
  Qed.

  (** ** C68 *)
  Theorem C68_categorize_greedy evs s i j s' :
    reachable RC rng tt evs s -> cobweb_categorize RC rng i s = (Ok j, s') ->
    forall p c, in_tree s p -> child_of s p c -> desc s c j -> best_child RC i s p [] c.
  Proof.
    intros Hr E. destruct (reach_cwf rng evs s Hr) as (t & Hok & Hall & _).
    exact (categorize_greedy RC rng cwf i cwf_copies (cwf_counts i) s t j s' Hok Hall E).
  Qed.
End Nominal.

(** ** C69: the same in Cobweb3Tree. *)
Section Numeric.
  Context (rng : nat -> num ROps) (sc : option R) (inner : bool).
  Notation C := (Cobweb3Class ROps).
  Notation x0 := (@new_ctx ROps sc inner).
  Notation good := (good3 (N:=ROps)).

  Lemma reach_some evs s : reachable C rng x0 evs s -> all_inst (C:=C) good evs ->
    exists t, state_ok C s t /\ tall C (somesum C HistR) t.
  Proof.
    intros Hr Hg. destruct (reachable_from summarises eq summarises_laws rng x0 evs s Hr Hg) as (t & Hok & Hall).
    exists t. split; [done|]. eapply tall_mono; [|exact Hall]. intros tb (l & Hl & _). by exists l.
  Qed.

  Lemma some_copies (tb : nc_sum C) : somesum C HistR tb -> copies C tb.
  Proof. intros [l Hl]. by eapply copies3. Qed.

  Theorem C69_ifit_climbs3 evs s (i : inst3 ROps) j s' :
    reachable C rng x0 evs s -> all_inst (C:=C) good evs -> good i -> cobweb C rng i s = (Ok j, s') ->
    climb C i (prepared C i s) (st_root s) j s'.
  Proof.
    intros Hr Hg Hi E. destruct (reach_some evs s Hr Hg) as (t & Hok & Hall).
    exact (cobweb_climbs C rng _ i some_copies (closed3 i Hi) (counts3 i) s t j s' Hok Hall E).
  Qed.

  Theorem C69_categorize_greedy3 evs s (i : inst3 ROps) j s' :
    reachable C rng x0 evs s -> all_inst (C:=C) good evs -> good i ->
    cobweb_categorize C rng i s = (Ok j, s') ->
    forall p c, in_tree s p -> child_of s p c -> desc s c j -> best_child C i s p [] c.
  Proof.
    intros Hr Hg Hi E. destruct (reach_some evs s Hr Hg) as (t & Hok & Hall).
    exact (categorize_greedy C rng _ i some_copies (counts3 i) s t j s' Hok Hall E).
  Qed.

  Lemma reach_local3 evs s cur : reachable C rng x0 evs s -> all_inst (C:=C) good evs -> in_tree s cur ->
    exists tb kids, local_view C s cur tb kids.
  Proof.
    intros Hr Hg Hin. destruct (reach_some evs s Hr Hg) as (t & Hok & Hall).
    destruct (proj1 (in_tree_sub C s t cur Hok) Hin) as (v & Hu & <-).
    eexists _, _. eapply (sub_local_view C (somesum C HistR)); [apply some_copies|done|done|done].
  Qed.

  (** The operation chosen at one concept, with its predicted utility. *)
  Theorem C69_best_operation3 evs s cur (i : inst3 ROps) cu b1 b2 s1 u o s2 :
    reachable C rng x0 evs s -> all_inst (C:=C) good evs -> in_tree s cur ->
    mtwo_best C rng cur i s = (Ok (cu, b1, b2), s1) ->
    mbest_op C rng cur i b1 b2 cu s1 = (Ok (u, o), s2) ->
    open_op C s cur b1 o /\
    (exists s', perform C cur i b1 b2 o s2 = (Ok tt, s') /\ fst (mcategory_utility C cur s') = Ok u) /\
    forall o', open_op C s cur b1 o' -> exists s' u',
      perform C cur i b1 b2 o' s2 = (Ok tt, s') /\
      fst (mcategory_utility C cur s') = Ok u' /\ (u' <= u)%R.
  Proof.
    intros Hr Hg Hin E E2. destruct (reach_local3 evs s cur Hr Hg Hin) as (tb & kids & Hl).
    exact (best_op_optimal C rng s cur tb kids i Hl (counts3 i) cu b1 b2 s1 u o s2 E E2).
  Qed.

  (** ** C70 in Cobweb3Tree *)
  Lemma exact3_of_same s l (i : inst3 ROps) : HistR s l -> l <> [] -> good i ->
    (forall j, j ∈ l -> agree i j) -> n3_exact s i = Ok true.
  Proof.
    intros HH Hne Hg Hs. unfold n3_exact. apply rall_true. intros a Hin.
    unfold exact1. destruct (hidden a) eqn:Hh; [done|].
    assert (Ha : visible a = true) by (unfold visible; by rewrite Hh).
    assert (exists v, dget a i = Some v) as [v Hv].
    { apply elem_of_app in Hin as [Hin|Hin]; [by apply dget_key_Some|].
      apply elem_of_filterb in Hin as [Hin _].
      apply (Hist3_key summarises s l a HH) in Hin as (k & Hk & Hin).
      apply dget_key_Some in Hin as [v Hv]. exists v. by rewrite (Hs k Hk a Ha). }
    rewrite Hv. rewrite (HistR_only s l a v HH Hne).
    2:{ intros k Hk. by rewrite <- (Hs k Hk a Ha). }
    destruct v as [v|x]; unfold only.
    - cbn [dget]. rewrite decide_True by done. by rewrite Nat.eqb_refl.
    - cbn [dget]. rewrite decide_True by done. cbn [length Nat.eqb negb cv_num]. rewrite Nat.eqb_refl. cbn [negb].
      set (c := @CVal ROps (n3_count s) x 0%R).
      assert (Hc : ustd c = 0%R).
      { assert (Ec : c = summ (repeat x (n3_count s))).
        { rewrite (summ_const _ x).
          - by rewrite repeat_length.
          - destruct HH as (-> & _). by destruct l.
          - intros y Hy. apply elem_of_list_In in Hy. by apply repeat_spec in Hy. }
        rewrite Ec. apply ustd_summ. intros y z Hy Hz.
        apply elem_of_list_In in Hy, Hz. by rewrite (repeat_spec _ _ _ Hy), (repeat_spec _ _ _ Hz). }
      destruct (ustd_ok c) as [E _]; [simpl; lra|]. rewrite E, Hc. cbn [rbind].
      replace (neqb ROps 0%R (nofnat ROps 0)) with true; [|symmetry; by apply Reqb_true].
      cbn [negb]. f_equal. by apply Reqb_true.
  Qed.

  Lemma exact3_nil s (i : inst3 ROps) : HistR s [] -> good i -> exists b, n3_exact s i = Ok b.
  Proof. intros Hs _. by eapply exact_total. Qed.

  Theorem C70_single_concept3 evs s :
    reachable C rng x0 evs s -> all_inst (C:=C) good evs -> all_ok evs ->
    children_of s (st_root s) [] <-> (forall i j, i ∈ history evs -> j ∈ history evs -> agree i j).
  Proof.
    intros Hr Hg Hao. split.
    - intros Hch. change (forall i j : inst3 ROps, i ∈ history evs -> j ∈ history evs -> agree i j).
      intros i j Hi Hj a Ha.
      pose proof (one_concept_leaf C rng HistR LeafR good histR_laws x0 evs s Hr Hg Hao Hch i j Hi Hj a Ha) as H.
      destruct (dget a i) as [[v|y]|], (dget a j) as [[w|z]|]; simpl in H; try done; by subst.
    - intros Hs. destruct (one_concept C rng HistR LeafR good histR_laws agree exact3_of_same exact3_nil
        x0 evs s Hr Hg Hs) as (tb & Hok & _). by eapply one_children.
  Qed.

  Theorem C70_repeat_returns_same3 evs s (i : inst3 ROps) :
    reachable C rng x0 evs s -> all_inst (C:=C) good evs -> good i ->
    (forall j k, j ∈ history evs -> k ∈ history evs -> agree j k) ->
    (forall j, j ∈ history evs -> agree i j) ->
    (exists s', cobweb C rng i s = (Ok (st_root s), s') /\ st_root s' = st_root s) /\
    fst (cobweb_categorize C rng i s) = Ok (st_root s).
  Proof.
    exact (one_concept_next C rng HistR LeafR good histR_laws agree exact3_of_same exact3_nil x0 evs s i).
  Qed.
End Numeric.

(** ** C70 in CobwebTree, in any arithmetic. *)
Section Single.
  Context (N : NumOps) (rng : nat -> num N).
  Notation C := (CobwebClass N).

  Lemma exactN_of_same s l i : Hist s l -> l <> [] -> good i ->
    (forall j, j ∈ l -> agree i j) -> nc_exact C s i = Ok true.
  Proof. intros HH Hne _ Hs. simpl. f_equal. exact (exact_of_same s l i HH Hne Hs). Qed.
  Lemma exactN_nil s i : Hist s [] -> good i -> exists b, nc_exact C s i = Ok b.
  Proof. intros _ _. by eexists. Qed.

  Theorem C70_single_concept evs s :
    reachable C rng tt evs s -> all_inst (C:=C) good evs -> all_ok evs ->
    children_of s (st_root s) [] <-> (forall i j, i ∈ history evs -> j ∈ history evs -> agree i j).
  Proof.
    intros Hr Hg Hao. split.
    - intros Hch. exact (one_concept_leaf C rng Hist LeafV good (hist_laws N) tt evs s Hr Hg Hao Hch).
    - intros Hs. destruct (one_concept C rng Hist LeafV good (hist_laws N) agree exactN_of_same exactN_nil
        tt evs s Hr Hg Hs) as (tb & Hok & _). by eapply one_children.
  Qed.

  Theorem C70_repeat_returns_same evs s i :
    reachable C rng tt evs s -> all_inst (C:=C) good evs -> good i ->
    (forall j k, j ∈ history evs -> k ∈ history evs -> agree j k) ->
    (forall j, j ∈ history evs -> agree i j) ->
    (exists s', cobweb C rng i s = (Ok (st_root s), s') /\ st_root s' = st_root s) /\
    fst (cobweb_categorize C rng i s) = Ok (st_root s).
  Proof.
    exact (one_concept_next C rng Hist LeafV good (hist_laws N) agree exactN_of_same exactN_nil tt evs s i).
  Qed.
End Single.

(** ** The hypotheses are met *)
(** A third instance is sorted into, and categorized in, a tree whose root has
    two children (C67, C68). *)
Lemma ex_C67 : exists evs s i l j s' k s2,
  reachable RC ex_draws tt evs s /\ children_of s (st_root s) l /\ length l = 2%nat /\
  cobweb RC ex_draws i s = (Ok j, s') /\ cobweb_categorize RC ex_draws i s = (Ok k, s2).
Proof.
  pose proof (exec_reachable RC ex_draws tt
    [@CFit _ RC [(AStr "a", NStr "x")]; @CFit _ RC [(AStr "a", NStr "y")]] 0 0) as Hr.
  match type of Hr with reachable _ _ _ ?evs ?s =>
    assert (Hev : evs = [@EFit _ RC [(AStr "a", NStr "x")] (Ok 1%nat); @EFit _ RC [(AStr "a", NStr "y")] (Ok 3%nat)])
      by (vm_compute; reflexivity);
    assert (Hroot : st_root s = 2%nat) by (vm_compute; reflexivity);
    assert (Hch : option_map nd_children (st_heap s !! 2%nat) = Some [1; 3]%nat)
      by (vm_compute; reflexivity);
    rewrite Hev in Hr; clear Hev; revert Hr Hroot Hch; generalize s
  end.
  intros s Hr Hroot Hch.
  assert (Hv : forall v, has_visible [(AStr "a", v)]).
  { intros v. exists (AStr "a"). split; [done|]. left. }
  assert (Hg : all_inst (C:=RC) has_visible
    [@EFit _ RC [(AStr "a", NStr "x")] (Ok 1%nat); @EFit _ RC [(AStr "a", NStr "y")] (Ok 3%nat)]).
  { apply Forall_cons_2; [intros i ->; apply Hv|].
    apply Forall_cons_2; [intros i ->; apply Hv|apply Forall_nil_2]. }
  destruct (C20_fitting_never_raises (N:=ROps) ex_draws counting_R ex_draws_distinct _ s Hr Hg) as [_ Hn].
  destruct (Hn [(AStr "a", NStr "z")] (Hv _)) as [[j Hj] [k Hk]].
  destruct (cobweb RC ex_draws [(AStr "a", NStr "z")] s) as [r s'] eqn:E1.
  destruct (cobweb_categorize RC ex_draws [(AStr "a", NStr "z")] s) as [r2 s2] eqn:E2.
  simpl in Hj, Hk. subst r r2.
  eexists _, s, [(AStr "a", NStr "z")], [1; 3]%nat, j, s', k, s2.
  split; [exact Hr|]. split; [|split; [done|split; [exact E1|exact E2]]].
  rewrite Hroot. destruct (st_heap s !! 2%nat) as [n|] eqn:E; [|done].
  injection Hch as Hch. by exists n.
Qed.

(** In Cobweb3Tree: the root of a tree of differing instances has children
    (C69, C70), and sorting one more instance succeeds. *)
Lemma ex_C69 : exists evs s (i : inst3 ROps) j s',
  reachable RC3 ex_draws (@new_ctx ROps (Some 0.5%R) true) evs s /\
  all_inst (C:=RC3) (good3 (N:=ROps)) evs /\ all_ok evs /\ good3 i /\
  ~ children_of s (st_root s) [] /\ cobweb RC3 ex_draws i s = (Ok j, s').
Proof.
  destruct ex_C31 as (evs & s & Hr & Hg & Hok & Hh).
  assert (Hg' : all_inst (C:=RC3) (good3 (N:=ROps)) evs).
  { eapply Forall_impl; [exact Hg|]. intros e He i Hi. by apply He. }
  destruct (C63_fitting_never_raises ex_draws (Some 0.5%R) true ex_draws_distinct evs s Hr Hg) as [_ Hn].
  destruct (xci_fits 5 "q") as [Hi Hv]; [done|].
  destruct (Hn _ Hi Hv) as [[j Hj] _].
  destruct (cobweb RC3 ex_draws (xci 5 "q") s) as [r s'] eqn:E1. simpl in Hj. subst r.
  exists evs, s, (xci 5 "q"), j, s'. repeat (split; [done|]). split; [|done].
  intros Hch. pose proof (proj1 (C70_single_concept3 ex_draws (Some 0.5%R) true evs s Hr Hg' Hok) Hch) as Ha.
  rewrite Hh in Ha.
  assert (E : dget (AStr "c") (xci 1 "p") = dget (AStr "c") (xci 3 "q")).
  { apply Ha; [left|right; left|done]. }
  discriminate E.
Qed.

(** Three instances that differ in a hidden number only (C70). *)
Lemma ex_C70 : exists evs s, reachable RC3 ex_draws (@new_ctx ROps None false) evs s /\
  all_inst (C:=RC3) (good3 (N:=ROps)) evs /\ all_ok evs /\ length (history evs) = 3%nat /\
  (forall i j, i ∈ history evs -> j ∈ history evs -> agree i j).
Proof.
  set (f := fun y => [(AStr "x", @VNum ROps 2%R); (AStr "c", VNom (NStr "p")); (AStr "_id", @VNum ROps y)] : inst3 ROps).
  destruct (ex_C3_run None false [f 1; f 2; f 3]%R) as (evs & s & Hr & Hg & Hok & Hh).
  { assert (H : forall y, fits3 (f y)).
    { intros y. split.
      - split; [apply (bool_decide_unpack _); by vm_compute|]. split; [by repeat constructor|].
        intros a E. apply dget_In, elem_of_list_In in E. simpl in E. destruct E as [E|[E|[E|[]]]]; try done; by injection E.
      - exists (AStr "x"). split; [done|]. left. }
    repeat (apply Forall_cons_2; [apply H|]). apply Forall_nil_2. }
  exists evs, s. split; [done|]. split.
  { eapply Forall_impl; [exact Hg|]. intros e He i Hi. by apply He. }
  split; [done|]. rewrite Hh. split; [done|].
  assert (H : forall i, i ∈ [f 1; f 2; f 3]%R -> exists y, i = f y).
  { intros i Hi. apply elem_of_list_In in Hi. simpl in Hi. destruct Hi as [<-|[<-|[<-|[]]]]; by eexists. }
  intros i j Hi Hj a Ha. destruct (H i Hi) as [y ->], (H j Hj) as [z ->]. unfold f. simpl.
  repeat case_decide; try done. by subst a.
Qed.

Print Assumptions C67_ifit_climbs.
Print Assumptions C69_ifit_climbs3.
Print Assumptions C70_single_concept3.
