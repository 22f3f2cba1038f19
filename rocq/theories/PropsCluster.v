(** * Clusterings read off a tree (cluster.py): C51 to C54. *)
From stdpp Require Import base decidable list gmap strings.
From Verif Require Import Base Num TreeModel TreeFun TreeScore TreeRefine TreeSorts TreeInv
  SpecTree SpecCluster TreeState TreeLeaf Nominal Utils Query QueryLinks Cluster ClusterFacts ClusterLoop ClusterDepth.
Set Default Proof Using "Type".
Open Scope list_scope.

Section Props.
  Context {N : NumOps} (C : NodeClass N) (rng : nat -> num N) (setord : list nat -> list nat)
    (heur : list nat -> list nat -> M C (num N)).
  Notation F := (num N).
  Notation tree := (tree C).
  Notation st := (st C).

  Lemma sorted_by_mmap mod_ is_ : forall s js s',
    sorted_by C rng mod_ s is_ js s' <-> mmapM C (sort_in C rng mod_) is_ s = (Ok js, s').
  Proof.
    induction is_ as [|i is_ IH]; intros s js s'; simpl.
    - split; [inversion 1; done|]. intros [= <- <-]. constructor.
    - unfold TreeModel.mbind. split.
      + inversion 1 as [|? ? ? j js' s1 s2 E1 E2]; subst. unfold sort_in in *. destruct mod_; rewrite E1; apply IH in E2; by rewrite E2.
      + destruct (sort_in C rng mod_ i s) as [[j|e] s1] eqn:E1; [|done].
        destruct (mmapM C (sort_in C rng mod_) is_ s1) as [[js'|e] s2] eqn:E2; [|done].
        intros [= <- <-]. econstructor; [|by apply IH]. unfold sort_in in E1. by destruct mod_.
  Qed.

  (** The leaves that the sorting returned are leaves at the end. *)
  Lemma sorted_leaves mod_ s t is_ js s0 : state_ok C s t -> sorted_by C rng mod_ s is_ js s0 ->
    exists t0, state_ok C s0 t0 /\ Forall (leaf_in C t0) js /\ length js = length is_ /\ (mod_ = false -> t0 = t).
  Proof.
    intros Hok Hs. apply sorted_by_mmap in Hs. destruct (sorted_ok C rng mod_ is_ s t _ _ Hok Hs) as (t0 & H1 & _ & H2 & H3).
    destruct (H3 js eq_refl) as [H4 H5]. eauto 6.
  Qed.
  Lemma leaf_in_is_leaf (s : st) t j : state_ok C s t -> leaf_in C t j -> is_leaf s j.
  Proof.
    intros Hok (tb & Hj). split; [apply (in_tree_ids C _ _ _ Hok); by apply (sub_tid C (T j tb []))|].
    exact (sub_children C s t (T j tb []) Hok Hj).
  Qed.

  Lemma is_leaf_leaf_in (s : st) t j : state_ok C s t -> is_leaf s j -> leaf_in C t j.
  Proof.
    intros Hok [Hin Hch]. destruct (proj1 (in_tree_sub C s t j Hok) Hin) as (v & Hv & <-).
    pose proof (children_of_det _ _ _ _ _ Hch (sub_children C s t v Hok Hv)) as Hk. destruct v as [i sv [|k kids]]; [|done].
    by exists sv.
  Qed.

  Lemma splits_refines (s : st) leaves x l l' : clustering s leaves l -> splits_at s leaves x l l' -> refines l' l.
  Proof.
    intros [Hcl Hanti] (Hx & L1 & L2 & H) i j Eij.
    assert (Hlk : forall k, l !! k = None <-> l' !! k = None) by (intros k; rewrite !lookup_ge_None; lia).
    destruct (l !! i) as [a|] eqn:Ea; destruct (l !! j) as [b|] eqn:Eb; try done.
    2: { apply Hlk in Eb. rewrite <- Eij in Eb. apply Hlk in Eb. congruence. }
    2: { apply Hlk in Ea. rewrite Eij in Ea. apply Hlk in Ea. congruence. }
    assert (Hi : i < length l) by (by eapply lookup_lt_Some). assert (Hj : j < length l) by (by eapply lookup_lt_Some).
    destruct (l' !! i) as [a'|] eqn:Ea'; [|apply Hlk in Ea'; congruence]. symmetry in Eij.
    destruct (lookup_lt_is_Some_2 leaves i) as (li & Eli); [lia|]. destruct (lookup_lt_is_Some_2 leaves j) as (lj & Elj); [lia|].
    destruct (H i a a' li Ea Ea' Eli) as [P1 Q1]. destruct (H j b a' lj Eb Eij Elj) as [P2 Q2].
    assert (Ha : a ∈ l) by (by eapply elem_of_list_lookup_2). assert (Hb : b ∈ l) by (by eapply elem_of_list_lookup_2).
    destruct (decide (a = x)) as [->|Hax]; destruct (decide (b = x)) as [->|Hbx]; try done.
    - rewrite (Q2 Hbx) in P1. f_equal. apply Hanti; [done|done|]. eapply desc_child; [constructor|]. by apply P1.
    - rewrite (Q1 Hax) in P2. f_equal. symmetry. apply Hanti; [done|done|]. eapply desc_child; [constructor|]. by apply P2.
    - by rewrite <- (Q1 Hax), <- (Q2 Hbx).
  Qed.

  (** The heuristic, called for the clustering [l] of the tree after some
      splits, raised or gave [h]. *)
  Definition heur_raises (s0 : st) (leaves : list nat) (e : exn) : Prop :=
    exists l s1 s2, split_from C s0 s1 /\ clustering s1 leaves l /\ heur l leaves s1 = (Err e, s2).
  Definition heur_value (s0 : st) (leaves l : list nat) (h : F) : Prop :=
    exists s1 s2, split_from C s0 s1 /\ clustering s1 leaves l /\ heur l leaves s1 = (Ok h, s2).

  (** What the pairs [ys] that the loop yields say about the tree [s0] and its
      leaves, when it ends with [r]. *)
  Definition read_off (s0 : st) (leaves : list nat) (maxsplit : nat) (ys : list (list nat * F)) (r : res unit) : Prop :=
    Forall (is_leaf s0) leaves /\
    (forall l h, (l, h) ∈ ys -> length l = length leaves /\ clustering s0 leaves l /\
      exists s1 s2, split_from C s0 s1 /\ top_clustering s1 leaves l /\ heur l leaves s1 = (Ok h, s2)) /\
    (forall l h, ys !! 0 = Some (l, h) -> top_clustering s0 leaves l) /\
    (forall i l h l' h', ys !! i = Some (l, h) -> ys !! (S i) = Some (l', h') -> exists x, splits_at s0 leaves x l l') /\
    (forall i j l h l' h', i <= j -> ys !! i = Some (l, h) -> ys !! j = Some (l', h') -> refines l' l) /\
    length ys <= maxsplit /\
    (r = Ok tt -> ys <> []) /\
    (r = Ok tt -> length ys < maxsplit -> exists h, last ys = Some (leaves, h)) /\
    (forall e, r = Err e -> heur_raises s0 leaves e).
  (** Of all the splits of one cluster, the next clustering is the one with the
      least value of the heuristic. *)
  Definition least_next (s0 : st) (leaves : list nat) (ys : list (list nat * F)) : Prop :=
    forall i l h l' h', ys !! i = Some (l, h) -> ys !! (S i) = Some (l', h') ->
    exists hx, heur_value s0 leaves l' hx /\
      forall x2 l2, splits_at s0 leaves x2 l l2 -> exists h2, heur_value s0 leaves l2 h2 /\ nltb N h2 hx = false.

  Lemma loop_read_off s0 t0 leaves maxsplit ys r s2 :
    (forall l x, x ∈ setord l <-> x ∈ l) -> reads_only C heur ->
    state_ok C s0 t0 -> Forall (leaf_in C t0) leaves -> leaves <> [] -> 1 <= maxsplit ->
    cl_loop C setord heur maxsplit 1 1 leaves s0 = (ys, r, s2) ->
    read_off s0 leaves maxsplit ys r /\ (total_order N -> least_next s0 leaves ys).
  Proof.
    intros Hset Hread Hok0 Hleaf Hne' Hmax El.
    pose proof (loop_ok C setord heur Hset Hread s0 t0 leaves Hok0 maxsplit 1 1 s0 t0 ltac:(lia)
      (inv_start C s0 t0 leaves Hok0 Hleaf) Hne') as Hloop.
    rewrite El in Hloop. destruct Hloop as [[L1 L2 L3 L4 L5 L6] L7].
    assert (Hstep : forall i l h l' h', ys !! i = Some (l, h) -> ys !! (S i) = Some (l', h') -> exists x, splits_at s0 leaves x l l').
    { intros i l h l' h' Hl Hl'. destruct (L4 _ _ _ _ _ Hl Hl') as (x & hx & Hx & _). eauto. }
    split.
    - split; [eapply Forall_impl; [exact Hleaf|]; intros j; by apply leaf_in_is_leaf|].
      split. { intros l h Hl. destruct (L3 l h Hl) as [Hcl Hv]. split; [|done]. destruct Hcl as [Hcl _]. by rewrite <- (Forall2_length _ _ _ Hcl). }
      split. { intros l h Hl. eapply lab_top; [exact Hok0|by apply inv_start|reflexivity|by eapply L2]. }
      split; [done|]. split; [|split; [done|]; split; [intros Hr; apply L7; [lia|done]|]; by split].
      intros i j l h l' h' Hij Hl Hl'. revert l' h' Hl'. induction Hij as [|j Hij IH]; intros l' h' Hl'.
      { rewrite Hl in Hl'. injection Hl' as <- <-. by intros a b Hab. }
      destruct (lookup_lt_is_Some_2 ys j) as ([lm hm] & Hm). { apply lookup_lt_Some in Hl'. lia. }
      destruct (Hstep _ _ _ _ _ Hm Hl') as (x & Hx). intros a b Hab. eapply IH; [exact Hm|].
      eapply splits_refines; [|exact Hx|exact Hab]. by eapply L3, elem_of_list_lookup_2.
    - intros Hord i l h l' h' Hl Hl'. destruct (L4 _ _ _ _ _ Hl Hl') as (x & hx & _ & Hv & Hall).
      exists hx. split; [done|]. by apply Hall.
  Qed.

  (** ** C51: cluster_iter *)
  (** [s0] is the copy of the tree after sorting the instances, [leaves] what
      the sorting returned. *)
  Theorem C51_cluster_iter x0 evs s mod_ instances leaves s0 maxsplit ys r s' :
    reachable C rng x0 evs s -> (forall l x, x ∈ setord l <-> x ∈ l) -> reads_only C heur ->
    instances <> [] -> 1 <= maxsplit -> sorted_by C rng mod_ s instances leaves s0 ->
    cluster_iter C rng setord heur 1 maxsplit mod_ instances s = (ys, r, s') ->
    (st_heap s' = st_heap s /\ st_root s' = st_root s /\ st_ctx s' = st_ctx s) /\
    Forall (is_leaf s0) leaves /\
    (forall l h, (l, h) ∈ ys -> length l = length instances /\ clustering s0 leaves l /\
      exists s1 s2, split_from C s0 s1 /\ top_clustering s1 leaves l /\ heur l leaves s1 = (Ok h, s2)) /\
    (forall l h, ys !! 0 = Some (l, h) -> top_clustering s0 leaves l) /\
    (forall i l h l' h', ys !! i = Some (l, h) -> ys !! (S i) = Some (l', h') -> exists x, splits_at s0 leaves x l l') /\
    (forall i j l h l' h', i <= j -> ys !! i = Some (l, h) -> ys !! j = Some (l', h') -> refines l' l) /\
    length ys <= maxsplit /\
    (r = Ok tt -> ys <> []) /\
    (r = Ok tt -> length ys < maxsplit -> exists h, last ys = Some (leaves, h)) /\
    (forall e, r = Err e -> heur_raises s0 leaves e).
  Proof.
    intros Hreach Hset Hread Hne Hmax Hsort E.
    destruct (reachable_ok _ _ _ _ _ Hreach) as (t & Hok).
    destruct (sorted_leaves _ _ _ _ _ _ Hok Hsort) as (t0 & Hok0 & Hleaf & Hlen & _).
    unfold cluster_iter in E. simpl in E. rewrite (proj2 (Nat.ltb_ge maxsplit 1) Hmax) in E.
    apply sorted_by_mmap in Hsort. destruct instances as [|i0 is_]; [done|]. rewrite Hsort in E.
    assert (Hne' : leaves <> []) by (by destruct leaves).
    destruct (cl_loop C setord heur maxsplit 1 1 leaves s0) as [[ys' r'] s2] eqn:El. injection E as <- <- <-.
    destruct (loop_read_off s0 t0 leaves maxsplit ys' r' s2 Hset Hread Hok0 Hleaf Hne' Hmax El) as [H _].
    split; [done|]. rewrite <- Hlen. exact H.
  Qed.

  (** Of all the splits of one cluster, a next one is the one with the least
      value of the heuristic. *)
  Theorem C51_least_split x0 evs s mod_ instances leaves s0 maxsplit ys r s' i l h l' h' :
    reachable C rng x0 evs s -> (forall l x, x ∈ setord l <-> x ∈ l) -> reads_only C heur -> total_order N ->
    sorted_by C rng mod_ s instances leaves s0 ->
    cluster_iter C rng setord heur 1 maxsplit mod_ instances s = (ys, r, s') ->
    ys !! i = Some (l, h) -> ys !! (S i) = Some (l', h') ->
    exists hx, heur_value s0 leaves l' hx /\
      forall x2 l2, splits_at s0 leaves x2 l l2 -> exists h2, heur_value s0 leaves l2 h2 /\ nltb N h2 hx = false.
  Proof.
    intros Hreach Hset Hread Hord Hsort E Hl Hl'.
    destruct (reachable_ok _ _ _ _ _ Hreach) as (t & Hok).
    destruct (sorted_leaves _ _ _ _ _ _ Hok Hsort) as (t0 & Hok0 & Hleaf & Hlen & _).
    unfold cluster_iter in E. simpl in E. destruct (maxsplit <? 1)%nat eqn:Em; [injection E as <- <- <-; done|].
    destruct instances as [|i0 is_]; [injection E as <- <- <-; done|]. apply sorted_by_mmap in Hsort. rewrite Hsort in E.
    assert (Hne' : leaves <> []) by (by destruct leaves). apply Nat.ltb_ge in Em.
    destruct (cl_loop C setord heur maxsplit 1 1 leaves s0) as [[ys' r'] s2] eqn:El. injection E as <- <- <-.
    destruct (loop_read_off s0 t0 leaves maxsplit ys' r' s2 Hset Hread Hok0 Hleaf Hne' Em El) as [_ H].
    exact (H Hord i l h l' h' Hl Hl').
  Qed.

  (** cluster_split_search returns the best of the clusterings of
      cluster_iter, or labels everything with the root. *)
  Theorem C51_split_search finite minsplit maxsplit mod_ instances s ys r s' :
    cluster_iter C rng setord heur minsplit maxsplit mod_ instances s = (ys, r, s') ->
    match fst (cluster_split_search C rng setord heur finite minsplit maxsplit mod_ instances s) with
    | Err e => r = Err e
    | Ok l =>
        r = Ok tt /\
        (l = map (fun _ => st_root s) instances /\ Forall (fun y => finite (snd y) = false) ys \/
         exists h, (l, h) ∈ ys /\
           (total_order N -> (forall a b, finite a = true -> finite b = false -> nltb N b a = false) ->
            forall l2 h2, (l2, h2) ∈ ys -> nltb N h2 h = false))
    end.
  Proof.
    intros E. unfold cluster_split_search. rewrite E. cbn [fst].
    destruct r as [[]|e]; [|done]. split; [done|].
    set (stp := fun (b : option (list nat * F)) y => match b with
       | None => if finite (snd y) then Some y else None
       | Some b' => if nltb N (snd y) (snd b') then Some y else b end).
    (* [seen] are the clusterings passed so far *)
    assert (Hfold : forall ys seen b,
      match b with
      | None => Forall (fun y => finite (snd y) = false) seen
      | Some y => y ∈ seen /\ (total_order N -> (forall a c, finite a = true -> finite c = false -> nltb N c a = false) ->
          forall y2, y2 ∈ seen -> nltb N (snd y2) (snd y) = false)
      end ->
      match foldl stp b ys with
      | None => Forall (fun y => finite (snd y) = false) (seen ++ ys)
      | Some y => y ∈ seen ++ ys /\ (total_order N -> (forall a c, finite a = true -> finite c = false -> nltb N c a = false) ->
          forall y2, y2 ∈ seen ++ ys -> nltb N (snd y2) (snd y) = false)
      end).
    { clear. induction ys as [|y ys IH]; intros seen b Hb; simpl; [by rewrite app_nil_r|].
      replace (seen ++ y :: ys) with ((seen ++ [y]) ++ ys) by (by rewrite <- app_assoc). apply IH. clear IH.
      destruct b as [b|]; unfold stp.
      - destruct Hb as [Hb1 Hb2]. destruct (nltb N (snd y) (snd b)) eqn:Eb.
        + split; [apply elem_of_app; right; left|]. intros Ho Hf y2 [Hy|Hy]%elem_of_app.
          * specialize (Hb2 Ho Hf y2 Hy). destruct Ho as (Ho1 & Ho2 & Ho3). eapply Ho3; [exact Hb2|by apply Ho2].
          * apply elem_of_list_singleton in Hy as ->. apply (proj1 Ho).
        + split; [apply elem_of_app; by left|]. intros Ho Hf y2 [Hy|Hy]%elem_of_app; [by apply Hb2|].
          by apply elem_of_list_singleton in Hy as ->.
      - destruct (finite (snd y)) eqn:Ef.
        + split; [apply elem_of_app; right; left|]. intros Ho Hf y2 [Hy|Hy]%elem_of_app.
          * apply Hf; [done|]. by apply (proj1 (Forall_forall _ _) Hb).
          * apply elem_of_list_singleton in Hy as ->. apply (proj1 Ho).
        + apply Forall_app. by split; [|constructor]. }
    specialize (Hfold ys [] None (Forall_nil_2 _)). simpl in Hfold. fold stp.
    destruct (foldl stp None ys) as [[l h]|]; [right|by left]. destruct Hfold as [H1 H2]. exists h. split; [done|].
    intros Ho Hf l2 h2 Hl2. exact (H2 Ho Hf _ Hl2).
  Qed.

  Lemma max_rounds_pos : 1 <= max_rounds.
  Proof. unfold max_rounds. lia. Qed.

  (** ** C52: k_cluster never returns a labeling *)
  Theorem C52_k_cluster_fails x0 evs s mod_ instances k l s' :
    reachable C rng x0 evs s -> (forall l x, x ∈ setord l <-> x ∈ l) -> reads_only C heur ->
    k_cluster C rng setord heur k mod_ instances s <> (Ok l, s').
  Proof.
    intros Hreach Hset Hread E. unfold k_cluster in E. destruct (k <? 2)%nat; [done|].
    destruct (cluster_iter C rng setord heur 1 max_rounds mod_ instances s) as [[ys r] s2] eqn:Ec.
    destruct ys as [|y ys]; [|done]. destruct r as [[]|e]; [|done].
    destruct instances as [|i is_]; [done|].
    destruct (mmapM C (sort_in C rng mod_) (i :: is_) s) as [[js|e] s1] eqn:Es.
    - apply sorted_by_mmap in Es.
      pose proof (C51_cluster_iter x0 evs s mod_ (i :: is_) js s1 max_rounds [] (Ok tt) s2 Hreach Hset Hread ltac:(done) max_rounds_pos Es Ec) as H.
      destruct H as (_ & _ & _ & _ & _ & _ & _ & H & _). by apply H.
    - unfold cluster_iter in Ec. change (1 <? 1)%nat with false in Ec. cbv iota in Ec.
      rewrite (proj2 (Nat.ltb_ge max_rounds 1) max_rounds_pos) in Ec. rewrite Es in Ec. done.
  Qed.
  (** What it does: a TypeError, if neither the sorting nor the heuristic raise. *)
  Theorem C52_k_cluster_type_error x0 evs s mod_ instances leaves s0 k :
    reachable C rng x0 evs s -> (forall l x, x ∈ setord l <-> x ∈ l) -> reads_only C heur ->
    instances <> [] -> 2 <= k -> sorted_by C rng mod_ s instances leaves s0 -> (forall e, ~ heur_raises s0 leaves e) ->
    fst (k_cluster C rng setord heur k mod_ instances s) = Err TypeError.
  Proof.
    intros Hreach Hset Hread Hne Hk Hsort Hh. unfold k_cluster. rewrite (proj2 (Nat.ltb_ge k 2) Hk).
    destruct (cluster_iter C rng setord heur 1 max_rounds mod_ instances s) as [[ys r] s2] eqn:Ec.
    pose proof (C51_cluster_iter x0 evs s mod_ instances leaves s0 max_rounds ys r s2 Hreach Hset Hread Hne max_rounds_pos Hsort Ec) as H.
    destruct H as (_ & _ & _ & _ & _ & _ & _ & H & _ & He).
    destruct r as [[]|e]; [|destruct (Hh e); by apply He]. by destruct ys; [destruct (H eq_refl)|].
  Qed.

  (** ** C53: with minsplit > 1 nothing is yielded *)
  Theorem C53_minsplit_yields_nothing s mod_ instances leaves s0 minsplit maxsplit :
    setord [] = [] -> instances <> [] -> 2 <= minsplit <= maxsplit -> sorted_by C rng mod_ s instances leaves s0 ->
    exists s', cluster_iter C rng setord heur minsplit maxsplit mod_ instances s = ([], Ok tt, s') /\
      st_heap s' = st_heap s /\ st_root s' = st_root s.
  Proof.
    intros Hset Hne [Hm1 Hm2] Hsort. unfold cluster_iter.
    rewrite (proj2 (Nat.ltb_ge minsplit 1) ltac:(lia)), (proj2 (Nat.ltb_ge maxsplit minsplit) Hm2).
    destruct instances as [|i is_]; [done|]. apply sorted_by_mmap in Hsort. rewrite Hsort.
    destruct maxsplit as [|n]; [lia|]. cbn [cl_loop]. rewrite (proj2 (Nat.leb_gt minsplit 1) ltac:(lia)).
    cbn [mret map]. rewrite Hset. cbn [mmapM mret concat]. eexists. split; [reflexivity|]. done.
  Qed.

  (** ** C54: depth_labels *)
  (** Row [d], column [i]: the concept [min d k] steps below the root on the
      way to the [i]-th leaf, which is [k] steps below the root. *)
  Definition at_depth (s : st) (leaf d a : nat) : Prop :=
    exists k, edges s leaf k (st_root s) /\ desc s a leaf /\ edges s a (Nat.min d k) (st_root s).

  Lemma anc_at_unique (s : st) t u v j k : state_ok C s t -> subd C t u k -> subd C t v k ->
    j ∈ ids u -> j ∈ ids v -> u = v.
  Proof.
    intros Hok Hu. revert v. induction Hu as [|u' u k Hu' IH Hu]; intros v Hv Hju Hjv.
    { by inversion Hv. }
    inversion Hv as [|v' ? ? Hv' Hvk]; subst.
    assert (Hup : forall w (c : tree), c ∈ tkids w -> j ∈ ids c -> j ∈ ids w). { intros [iw sw kw] c Hc Hj. by eapply ids_kid. }
    assert (u' = v') as -> by (apply IH; [done|by eapply Hup|by eapply Hup]).
    pose proof (sub_nodup C t v' (so_nodup _ _ _ Hok) (subd_sub _ _ _ _ Hv')) as Hnd. destruct v' as [iv sv kv].
    apply NoDup_kids in Hnd as [_ Hnd]. by eapply (kids_disjoint C kv).
  Qed.
  (** What the rows [R] of labels say about the tree [s0] and its leaves. *)
  Definition depth_table (s0 : st) (leaves : list nat) (R : list (list nat)) : Prop :=
    Forall (is_leaf s0) leaves /\
    (* one row per depth, one entry per instance *)
    (exists leaf, leaf ∈ leaves /\ edges s0 leaf (pred (length R)) (st_root s0)) /\
    (forall leaf k, leaf ∈ leaves -> edges s0 leaf k (st_root s0) -> k < length R) /\
    Forall (fun row => length row = length leaves) R /\
    (forall d row i leaf a, R !! d = Some row -> leaves !! i = Some leaf -> row !! i = Some a -> at_depth s0 leaf d a) /\
    (* from the root to the leaves *)
    R !! 0 = Some (repeat (st_root s0) (length leaves)) /\
    last R = Some leaves /\
    (* each row refines the one before *)
    (forall d row row' i a b, R !! d = Some row -> R !! (S d) = Some row' -> row !! i = Some a -> row' !! i = Some b ->
       child_of s0 a b \/ is_leaf s0 a /\ b = a) /\
    (forall d row row', R !! d = Some row -> R !! (S d) = Some row' -> refines row' row).
  (** The part of depth_labels after sorting (122-149). *)
  Definition label_rows (temp : list nat) : M C (list (list nat)) :=
    mbind C (mmapM C (path C) temp) (fun paths s => (rows (map (padded (max_len paths)) paths), s)).
  Lemma label_rows_ok s0 t0 leaves : state_ok C s0 t0 -> Forall (leaf_in C t0) leaves -> leaves <> [] ->
    exists R, label_rows leaves s0 = (Ok R, s0) /\ depth_table s0 leaves R.
  Proof.
    intros Hok0 Hleaf Hlv.
    destruct (paths_ok C s0 t0 leaves Hok0 Hleaf) as (ps & Eps & Hps).
    assert (Hlp : length ps = length leaves) by (symmetry; by eapply Forall2_length).
    destruct (max_len_ge ps) as [Hmax1 Hmax2]. set (m := max_len ps) in *.
    assert (Hpne : ps <> []) by (by destruct leaves, ps). specialize (Hmax2 Hpne).
    assert (Hpad : forall p, p ∈ ps -> exists n j tb, length p = S n /\ subd C t0 (T j tb []) n /\ length (padded m p) = m /\
      forall d, d < m -> exists v, padded m p !! d = Some (tid v) /\ subd C t0 v (Nat.min d n) /\ sub C (T j tb []) v).
    { intros p Hp. apply elem_of_list_lookup in Hp as Hi. destruct Hi as (i & Hi).
      destruct (Forall2_lookup_r _ _ _ _ _ Hps Hi) as (j & Hj & n & tb & H1 & H2 & H3 & H4).
      exists n, j, tb. split; [done|]. split; [done|].
      destruct (padded_lookup m p n j H2 H3) as [H5 H6]. { rewrite <- H2. by apply Hmax1. } split; [done|].
      intros d Hd. destruct (H4 (Nat.min d n)) as (v & Hv & Hd' & Hs'); [lia|]. exists v. by rewrite H6. }
    set (R := map (fun d => map (fun g => default 0 (g !! d)) (map (padded m) ps)) (seq 0 m)).
    assert (ER : rows (map (padded m) ps) = Ok R).
    { apply rows_ok; [by destruct ps|]. apply Forall_forall. intros f Hf. apply elem_of_list_fmap in Hf as (p & -> & Hp).
      by destruct (Hpad p Hp) as (n & j & tb & _ & _ & H & _). }
    assert (HRlen : length R = m). { unfold R. by rewrite map_length, seq_length. }
    (* the entries *)
    assert (Hrow : forall d row, R !! d = Some row -> d < m /\ row = map (fun p => default 0 (padded m p !! d)) ps).
    { intros d row Hd. assert (d < m) by (rewrite <- HRlen; by eapply lookup_lt_Some). split; [done|].
      change (((fun d => map (fun g => default 0 (g !! d)) (map (padded m) ps)) <$> seq 0 m) !! d = Some row) in Hd.
      rewrite list_lookup_fmap, lookup_seq_lt in Hd by done. simpl in Hd. injection Hd as <-. by rewrite map_map. }
    assert (Hent : forall d row i a, R !! d = Some row -> row !! i = Some a ->
      exists p n j tb v, leaves !! i = Some j /\ ps !! i = Some p /\ length p = S n /\ subd C t0 (T j tb []) n /\ a = tid v /\
        subd C t0 v (Nat.min d n) /\ sub C (T j tb []) v).
    { intros d row i a Hd Ha. destruct (Hrow d row Hd) as [Hdm ->].
      change (((fun p => default 0 (padded m p !! d)) <$> ps) !! i = Some a) in Ha. rewrite list_lookup_fmap in Ha.
      destruct (ps !! i) as [p|] eqn:Hp; [|done]. simpl in Ha. injection Ha as <-.
      destruct (Forall2_lookup_r _ _ _ _ _ Hps Hp) as (j & Hj & n & tb & H1 & H2 & H3 & H4).
      destruct (padded_lookup m p n j H2 H3) as [H5 H6]. { rewrite <- H2. apply Hmax1. by eapply elem_of_list_lookup_2. }
      destruct (H4 (Nat.min d n)) as (v & Hv & Hd' & Hs'); [lia|].
      exists p, n, j, tb, v. rewrite H6 by done. rewrite Hv. by repeat split. }
    assert (Hedge : forall v k, subd C t0 v k -> edges s0 (tid v) k (st_root s0)).
    { intros v k Hv. by destruct (mdepth_subd C s0 t0 v k Hok0 Hv). }
    assert (Hrl : Forall (fun row => length row = length leaves) R).
    { apply Forall_forall. intros row Hr. apply elem_of_list_lookup in Hr as (d & Hd). destruct (Hrow d row Hd) as [_ ->].
      rewrite map_length. lia. }
    exists R. split.
    { unfold label_rows. rewrite (mbind_ok C _ _ _ _ _ Eps). fold m. by rewrite ER. }
    split; [eapply Forall_impl; [exact Hleaf|]; intros j; by apply leaf_in_is_leaf|].
    split. { destruct Hmax2 as (p & Hp & Ep). apply elem_of_list_lookup in Hp as (i & Hp).
      destruct (Forall2_lookup_r _ _ _ _ _ Hps Hp) as (j & Hj & n & tb & H1 & H2 & H3 & H4). exists j.
      split; [by eapply elem_of_list_lookup_2|]. rewrite HRlen, <- Ep, H2. exact (Hedge _ _ H1). }
    split. { intros leaf k Hl Hk. apply elem_of_list_lookup in Hl as (i & Hl).
      destruct (Forall2_lookup_l _ _ _ _ _ Hps Hl) as (p & Hp & n & tb & H1 & H2 & H3 & H4).
      rewrite (edges_det C s0 leaf k n (st_root s0) (root_parent C s0 t0 Hok0) Hk (Hedge _ _ H1)). rewrite HRlen.
      specialize (Hmax1 p ltac:(by eapply elem_of_list_lookup_2)). lia. }
    split; [done|].
    split. { intros d row i leaf a Hd Hl Ha. destruct (Hent d row i a Hd Ha) as (p & n & j & tb & v & Hj & _ & _ & H1 & -> & H2 & H3).
      rewrite Hl in Hj. injection Hj as ->. exists n. split; [exact (Hedge _ _ H1)|]. split; [|by apply Hedge].
      exact (sub_desc C s0 t0 v (T j tb []) Hok0 (subd_sub _ _ _ _ H2) H3). }
    assert (Hm : 0 < m). { destruct Hmax2 as (p & Hp & <-). by destruct (Hpad p Hp) as (n & _ & _ & -> & _); lia. }
    split.
    { destruct (lookup_lt_is_Some_2 R 0) as (row & H0); [lia|]. rewrite H0. f_equal. apply list_eq. intros i.
      assert (Hl0 : length row = length leaves) by (apply (proj1 (Forall_forall _ _) Hrl); by eapply elem_of_list_lookup_2).
      destruct (row !! i) as [a|] eqn:Ea.
      - destruct (Hent 0 row i a H0 Ea) as (p & n & j & tb & v & _ & _ & _ & _ & -> & Hv & _). simpl in Hv. inversion Hv; subst.
        rewrite repeat_lookup; [by rewrite (so_root _ _ _ Hok0)|]. rewrite <- Hl0. by eapply lookup_lt_Some.
      - symmetry. apply lookup_ge_None in Ea. apply lookup_ge_None. rewrite repeat_length. lia. }
    split.
    { rewrite last_lookup, HRlen. destruct (lookup_lt_is_Some_2 R (pred m)) as (row & H0); [lia|]. rewrite H0. f_equal. apply list_eq. intros i.
      assert (Hl0 : length row = length leaves) by (apply (proj1 (Forall_forall _ _) Hrl); by eapply elem_of_list_lookup_2).
      destruct (row !! i) as [a|] eqn:Ea.
      - destruct (Hent _ row i a H0 Ea) as (p & n & j & tb & v & Hj & Hp & Hpl & Hn & -> & Hv & Hs). rewrite Hj. f_equal.
        assert (n <= pred m). { specialize (Hmax1 p ltac:(by eapply elem_of_list_lookup_2)). lia. }
        rewrite Nat.min_r in Hv by lia.
        assert (v = T j tb []) as ->; [|done]. eapply (anc_at_unique s0 t0 v (T j tb []) j n Hok0 Hv Hn); [by apply (sub_tid C (T j tb []))|].
        apply (tid_in_ids C (T j tb [])).
      - symmetry. apply lookup_ge_None in Ea. apply lookup_ge_None. lia. }
    assert (Hadj : forall d row row' i a b, R !! d = Some row -> R !! (S d) = Some row' -> row !! i = Some a -> row' !! i = Some b ->
      exists va vb ka kb, a = tid va /\ b = tid vb /\ subd C t0 va ka /\ subd C t0 vb kb /\
        (vb ∈ tkids va /\ ka = d /\ kb = S d \/ va = vb /\ tkids va = [] /\ ka <= d)).
    { intros d row row' i a b Hd Hd' Ha Hb.
      destruct (Hent d row i a Hd Ha) as (p & n & j & tb & va & Hj & Hp & Hpl & Hn & -> & Hva & Hsa).
      destruct (Hent (S d) row' i b Hd' Hb) as (p' & n' & j' & tb' & vb & Hj' & Hp' & Hpl' & Hn' & -> & Hvb & Hsb).
      rewrite Hj in Hj'. injection Hj' as <-. rewrite Hp in Hp'. injection Hp' as <-. assert (n' = n) as -> by lia.
      assert (T j tb' [] = T j tb []) as Etb by (eapply (sub_unique C t0); [apply (so_nodup _ _ _ Hok0)|by eapply subd_sub|by eapply subd_sub|done]).
      rewrite Etb in Hsb. exists va, vb, (Nat.min d n), (Nat.min (S d) n). split; [done|]. split; [done|]. split; [done|]. split; [done|].
      assert (Hjin : forall v, sub C (T j tb []) v -> j ∈ ids v) by (intros v Hv; by apply (sub_tid C (T j tb []))).
      destruct (decide (n <= d)) as [Hnd|Hnd].
      - right. rewrite Nat.min_r in Hva by lia. rewrite Nat.min_r in Hvb by lia.
        assert (va = T j tb []) as -> by (eapply (anc_at_unique s0 t0 _ _ j n Hok0 Hva Hn); [by apply Hjin|apply Hjin, sub_refl]).
        assert (vb = T j tb []) as -> by (eapply (anc_at_unique s0 t0 _ _ j n Hok0 Hvb Hn); [by apply Hjin|apply Hjin, sub_refl]).
        split; [done|]. split; [done|lia].
      - left. rewrite Nat.min_l in Hva by lia. rewrite Nat.min_l in Hvb by lia. rewrite !Nat.min_l by lia. split; [|done].
        inversion Hvb as [|w ? ? Hw Hwk]; subst.
        assert (w = va) as ->; [|done]. eapply (anc_at_unique s0 t0 _ _ j d Hok0 Hw Hva); [|by apply Hjin].
        destruct w. eapply ids_kid; [exact Hwk|by apply Hjin]. }
    split.
    - intros d row row' i a b Hd Hd' Ha Hb. destruct (Hadj d row row' i a b Hd Hd' Ha Hb) as (va & vb & ka & kb & -> & -> & Hva & Hvb & [[Hk _]|(<- & Hk & _)]).
      + left. exists (map tid (tkids va)). split; [apply (sub_children C s0 t0 va Hok0); by eapply subd_sub|]. apply elem_of_list_fmap. eauto.
      + right. split; [|done]. apply (leaf_in_is_leaf s0 t0 _ Hok0). exists (tsum va). destruct va as [i1 s1 k1]. simpl in Hk. subst k1. by eapply subd_sub.
    - intros d row row' Hd Hd' i j Eij.
      assert (Hl0 : length row = length leaves) by (apply (proj1 (Forall_forall _ _) Hrl); by eapply elem_of_list_lookup_2).
      assert (Hl1 : length row' = length leaves) by (apply (proj1 (Forall_forall _ _) Hrl); by eapply elem_of_list_lookup_2).
      destruct (row' !! i) as [b|] eqn:Eb.
      + symmetry in Eij.
        destruct (lookup_lt_is_Some_2 row i) as (a1 & Ea1). { rewrite Hl0, <- Hl1. by eapply lookup_lt_Some. }
        destruct (lookup_lt_is_Some_2 row j) as (a2 & Ea2). { rewrite Hl0, <- Hl1. by eapply lookup_lt_Some. }
        rewrite Ea1, Ea2. f_equal.
        destruct (Hadj d row row' i a1 b Hd Hd' Ea1 Eb) as (va & vb & ka & kb & -> & Eb1 & Hva & Hvb & H1).
        destruct (Hadj d row row' j a2 b Hd Hd' Ea2 Eij) as (va2 & vb2 & ka2 & kb2 & -> & Eb2 & Hva2 & Hvb2 & H2).
        assert (vb2 = vb) as ->.
        { eapply (sub_unique C t0); [apply (so_nodup _ _ _ Hok0)|by eapply subd_sub|by eapply subd_sub|congruence]. }
        assert (Hkk : forall w k1 k2, subd C t0 w k1 -> subd C t0 w k2 -> k1 = k2).
        { intros w k1 k2 Hw1 Hw2. exact (edges_det C s0 (tid w) k1 k2 (st_root s0) (root_parent C s0 t0 Hok0) (Hedge _ _ Hw1) (Hedge _ _ Hw2)). }
        destruct H1 as [(H1 & -> & ->)|(<- & H1 & Hle)], H2 as [(H2 & -> & ->)|(<- & H2 & Hle2)]; try done.
        * f_equal. eapply (anc_at_unique s0 t0 va va2 (tid vb) d Hok0 Hva Hva2).
          -- destruct va. eapply ids_kid; [exact H1|apply tid_in_ids].
          -- destruct va2. eapply ids_kid; [exact H2|apply tid_in_ids].
        * pose proof (Hkk _ _ _ Hva2 Hvb). lia.
        * pose proof (Hkk _ _ _ Hva Hvb2). lia.
      + symmetry in Eij. apply lookup_ge_None in Eb, Eij. rewrite !lookup_ge_None_2 by lia. done.
  Qed.

  Theorem C54_depth_labels x0 evs s mod_ instances leaves s0 :
    reachable C rng x0 evs s -> instances <> [] -> sorted_by C rng mod_ s instances leaves s0 ->
    exists R, depth_labels C rng mod_ instances s = (Ok R, s0) /\
      Forall (is_leaf s0) leaves /\
      (* one row per depth, one entry per instance *)
      (exists leaf, leaf ∈ leaves /\ edges s0 leaf (pred (length R)) (st_root s0)) /\
      (forall leaf k, leaf ∈ leaves -> edges s0 leaf k (st_root s0) -> k < length R) /\
      Forall (fun row => length row = length instances) R /\
      (forall d row i leaf a, R !! d = Some row -> leaves !! i = Some leaf -> row !! i = Some a -> at_depth s0 leaf d a) /\
      (* from the root to the leaves *)
      R !! 0 = Some (repeat (st_root s0) (length instances)) /\
      last R = Some leaves /\
      (* each row refines the one before *)
      (forall d row row' i a b, R !! d = Some row -> R !! (S d) = Some row' -> row !! i = Some a -> row' !! i = Some b ->
         child_of s0 a b \/ is_leaf s0 a /\ b = a) /\
      (forall d row row', R !! d = Some row -> R !! (S d) = Some row' -> refines row' row).
  Proof.
    intros Hreach Hne Hsort.
    destruct (reachable_ok _ _ _ _ _ Hreach) as (t & Hok).
    destruct (sorted_leaves _ _ _ _ _ _ Hok Hsort) as (t0 & Hok0 & Hleaf & Hlen & _).
    assert (Hlv : leaves <> []) by (by destruct leaves, instances).
    destruct (label_rows_ok s0 t0 leaves Hok0 Hleaf Hlv) as (R & ER & HR). apply sorted_by_mmap in Hsort.
    exists R. split; [|rewrite <- Hlen; exact HR]. unfold depth_labels. rewrite (mbind_ok C _ _ _ _ _ Hsort). exact ER.
  Qed.

  Theorem C54_no_instances s mod_ : depth_labels C rng mod_ [] s = (Err IndexError, s).
  Proof. done. Qed.
End Props.

Print Assumptions C51_cluster_iter.
Print Assumptions C51_least_split.
Print Assumptions C51_split_search.
Print Assumptions C52_k_cluster_fails.
Print Assumptions C52_k_cluster_type_error.
Print Assumptions C53_minsplit_yields_nothing.
Print Assumptions C54_depth_labels.
