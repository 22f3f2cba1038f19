(** * When a tree consists of a single concept. *)
From stdpp Require Import base decidable tactics gmap strings list.
From Verif Require Import Base Num TreeModel TreeFun TreeScore TreeRefine TreeSorts TreeInv SpecTree TreeState.
Set Default Proof Using "Type*".

Section One.
  Context {N : NumOps} (C : NodeClass N) (rng : nat -> num N).
  Notation I := (nc_inst C).
  Notation S' := (nc_sum C).
  Variable Summ : S' -> list I -> Prop.
  Variable Leaf : list I -> Prop.
  Variable Good : I -> Prop.
  Hypothesis L : summ_laws C Summ Leaf Good.
  Variable same : I -> I -> Prop.
  Hypothesis Hex : forall s l i, Summ s l -> l <> [] -> Good i -> (forall j, j ∈ l -> same i j) ->
    nc_exact C s i = Ok true.
  Hypothesis Hex0 : forall s i, Summ s [] -> Good i -> exists b, nc_exact C s i = Ok b.

  Lemma leaf_absorbs s id tb l i : state_ok C s (T id tb []) -> Summ tb l -> Good i ->
    (forall j, j ∈ l -> same i j) ->
    exists s' tb', cobweb C rng i s = (Ok id, s') /\ state_ok C s' (T id tb' []) /\ Summ tb' (l ++ [i]) /\
      st_root s' = id.
  Proof.
    intros Hok Hs Hg Hsame. destruct (cobweb_runs C rng s _ i Hok) as (s' & E & Hok' & _).
    unfold cob_out, cob_fuel in *. cbn [fcob] in *.
    edestruct (sl_inc _ _ _ _ L) as (tb' & Ei & Hs'); [exact Hs|exact Hg|].
    assert (Hb : exists b, nc_exact C tb i = Ok b /\ (b || (nc_count C tb =? 0)%nat) = true).
    { destruct l as [|j l].
      - destruct (Hex0 tb i Hs Hg) as [b Eb]. exists b. split; [done|].
        rewrite (sl_count _ _ _ _ L _ _ Hs). by destruct b.
      - exists true. split; [|done]. by eapply Hex. }
    destruct Hb as (b & Eb & Hb). rewrite Eb, Hb, Ei in *. simpl in *.
    exists s', tb'. split; [done|]. split; [done|]. split; [|by apply (so_root _ _ _ Hok')].
    eapply (sl_perm _ _ _ _ L); [exact Hs'|]. apply Permutation_cons_append.
  Qed.

  Theorem one_concept x0 evs s : reachable C rng x0 evs s -> all_inst Good evs ->
    (forall i j, i ∈ history evs -> j ∈ history evs -> same i j) ->
    exists tb, state_ok C s (T (st_root s) tb []) /\ Summ tb (history evs).
  Proof.
    intros (ctr & rpos & Hrun). remember (fresh C ctr rpos x0) as s0 eqn:E0. revert E0.
    induction Hrun as [s|s evs s1 e s2 Hrun IH Hst]; intros -> Hg Hsame.
    { eexists. split; [apply fresh_ok|]. exact (sl_empty _ _ _ _ L). }
    apply Forall_app in Hg as [Hg Hge]. rewrite Forall_singleton in Hge.
    rewrite history_snoc in Hsame |- *. specialize (IH eq_refl Hg).
    destruct Hst as [s1 i r s2 E|s1 i r s2 E|s1 c p H1 H2|s1 s2 E]; simpl in *.
    - destruct IH as (tb & Hok & Hs).
      { intros j k Hj Hk. apply Hsame; apply elem_of_app; by left. }
      destruct (leaf_absorbs _ _ _ _ i Hok Hs (Hge i eq_refl)) as (s' & tb' & E' & Hok' & Hs' & Hroot).
      { intros j Hj. apply Hsame; apply elem_of_app; [right; by left|by left]. }
      rewrite E in E'. injection E' as -> <-. exists tb'. rewrite Hroot. done.
    - destruct (IH Hsame) as (tb & Hok & Hs). exists tb.
      pose proof (categorize_runs C rng s1 _ i Hok) as E2. simpl in E2. rewrite E in E2.
      injection E2 as -> ->. split; [|done]. by apply state_ok_amb.
    - destruct (IH Hsame) as (tb & Hok & Hs). exists tb. split; [|done]. by apply state_ok_amb.
    - destruct (clear_runs C x0 s1) as (s3 & E2 & Hok2 & _). rewrite E in E2. injection E2 as <-.
      rewrite (so_root _ _ _ Hok2). eexists. split; [exact Hok2|]. exact (sl_empty _ _ _ _ L).
  Qed.

  (** The next call on such a tree. *)
  Theorem one_concept_next x0 evs s i : reachable C rng x0 evs s -> all_inst Good evs -> Good i ->
    (forall j k, j ∈ history evs -> k ∈ history evs -> same j k) ->
    (forall j, j ∈ history evs -> same i j) ->
    (exists s', cobweb C rng i s = (Ok (st_root s), s') /\ st_root s' = st_root s) /\
    fst (cobweb_categorize C rng i s) = Ok (st_root s).
  Proof.
    intros Hr Hg Hgi Hsame Hi. destruct (one_concept x0 evs s Hr Hg Hsame) as (tb & Hok & Hs). split.
    - destruct (leaf_absorbs _ _ _ _ i Hok Hs Hgi Hi) as (s' & tb' & E' & Hok' & Hs' & Hroot). eauto.
    - rewrite (categorize_runs C rng s _ i Hok). done.
  Qed.

  Lemma one_children s tb id : state_ok C s (T id tb []) -> children_of s id [].
  Proof using Type. intros Hok. apply (sub_children C s _ (T id tb []) Hok). constructor. Qed.

  (** Conversely. *)
  Theorem one_concept_leaf x0 evs s : reachable C rng x0 evs s -> all_inst Good evs -> all_ok evs ->
    children_of s (st_root s) [] -> Leaf (history evs).
  Proof using L.
    intros Hr Hg Hao Hch. destruct (reachable_tinv C rng Summ Leaf Good L x0 evs s Hr Hg Hao) as (t & Hok & Ht).
    assert (Hs : sub C t t) by constructor. pose proof (sub_children C s t t Hok Hs) as Hc.
    rewrite (so_root _ _ _ Hok) in Hch.
    destruct Ht as [id sm l Hsm Hl|id sm kids ls l H2 HF Hn Hp Hsm]; [done|].
    pose proof (children_of_det _ _ _ _ _ Hc Hch) as Heq. destruct kids; simpl in *; [lia|done].
  Qed.
End One.
