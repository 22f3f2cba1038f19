(** * Facts about whole runs that hold for every kind of concept table. *)
From stdpp Require Import base decidable list gmap strings.
From Verif Require Import Base Num TreeModel TreeFun TreeScore TreeRefine TreeSorts TreeInv
  SpecTree TreeState TreeRel TreeSim TreeLeaf.

Section Gen.
  Context {N : NumOps} (C : NodeClass N) (rng : nat -> num N).
  Notation S' := (nc_sum C).
  Notation I := (nc_inst C).

  (** The context is a function of what has been fitted, exceptions included. *)
  Theorem reachable_ctx x0 evs s : reachable C rng x0 evs s ->
    st_ctx s = fold_left (nc_pre C) (history evs) x0.
  Proof.
    intros (ctr & rpos & Hrun).
    assert (Hgen : forall s0 evs s, run C rng x0 s0 evs s -> (exists t, state_ok C s0 t) -> st_ctx s0 = x0 ->
      (exists t, state_ok C s t) /\ st_ctx s = fold_left (nc_pre C) (history evs) x0).
    { clear. intros s0 evs s Hrun Ht0 Hx0. induction Hrun as [s|s evs s1 e s2 Hrun IH Hst]; [done|].
      destruct (IH Ht0 Hx0) as [[t Hok] Hx]. rewrite history_snoc.
      destruct Hst as [s1 i r s2 E|s1 i r s2 E|s1 ctr rpos H1 H2|s1 s2 E]; simpl.
      - destruct (cobweb_runs C rng s1 t i Hok) as (s3 & E2 & Hok2 & _ & Hx2).
        rewrite E in E2. injection E2 as -> <-. split; [eauto|].
        rewrite Hx2, Hx, fold_left_app. done.
      - destruct (categorize_state C rng s1 t i r s2 Hok E) as (_ & Hok2 & _ & _ & Hx2 & _).
        split; [eauto|]. by rewrite Hx2.
      - split; [|done]. exists t. by apply state_ok_amb.
      - destruct (clear_runs C x0 s1) as (s3 & E2 & Hok2 & _ & Hx2).
        rewrite E in E2. injection E2 as <-. split; [eauto|]. done. }
    destruct (Hgen _ _ _ Hrun) as [_ H]; [eauto using fresh_ok|done|done].
  Qed.

  (** A table property that may depend on what has been fitted. *)
  Theorem reachable_hist (P : list I -> S' -> Prop) (Good : I -> Prop) x0 evs s :
    (forall h, P h (nc_empty C)) ->
    (forall h i tb, P h tb -> P (h ++ [i]) tb) ->
    (forall h i, Good i -> closed C (P (h ++ [i])) i) ->
    reachable C rng x0 evs s -> all_inst Good evs ->
    exists t, state_ok C s t /\ tall C (P (history evs)) t.
  Proof.
    intros H0 Hmono Hcl (ctr & rpos & Hrun).
    assert (Hgen : forall s0 evs s, run C rng x0 s0 evs s -> all_inst Good evs ->
      (exists t, state_ok C s0 t /\ tall C (P []) t) ->
      exists t, state_ok C s t /\ tall C (P (history evs)) t).
    { clear -H0 Hmono Hcl. intros s0 evs s Hrun Hg Ht0.
      induction Hrun as [s|s evs s1 e s2 Hrun IH Hst]; [done|].
      apply Forall_app in Hg as [Hg Hge]. rewrite Forall_singleton in Hge.
      destruct (IH Hg Ht0) as (t & Hok & Hall). rewrite history_snoc.
      destruct Hst as [s1 i r s2 E|s1 i r s2 E|s1 ctr rpos H1 H2|s1 s2 E]; simpl.
      - assert (Hall' : tall C (P (history evs ++ [i])) t).
        { clear -Hall Hmono. induction t as [id sm kids IH] using (tree_ind' C).
          apply tall_inv in Hall as [Hs HF]. constructor; [by apply Hmono|].
          rewrite Forall_forall in *. auto. }
        destruct (cobweb_sorts C rng _ (closed C (P (history evs ++ [i]))) (fun k H => H)
          s1 t i r s2 Hok Hall' (Hcl _ i (Hge i eq_refl)) E) as (t' & mv & _ & Hok' & Ht').
        eauto.
      - destruct (categorize_state C rng s1 t i r s2 Hok E) as (_ & Hok2 & _). eauto.
      - exists t. split; [by apply state_ok_amb|done].
      - destruct (clear_runs C x0 s1) as (s3 & E2 & Hok2 & _).
        rewrite E in E2. injection E2 as <-. eexists. split; [exact Hok2|]. constructor; auto. }
    intros Hg. apply (Hgen _ _ _ Hrun Hg). eexists. split; [apply fresh_ok|]. constructor; auto.
  Qed.

  (** ** Termination *)
  Context (HR : real_class C).
  (** [with_pre s i]: the state after the context was updated with [i]. *)
  Definition with_pre (s : st C) (i : I) : st C :=
    St (st_heap s) (st_root s) (st_amb s) (nc_pre C (st_ctx s) i).

  Theorem reachable_terminates x0 evs s (i : I) : reachable C rng x0 evs s ->
    exists l : list nat, NoDup l /\ (forall id, id ∈ l <-> in_tree s id) /\
      (forall k, length l <= k ->
         fst (mcobweb C rng k (st_root s) i (with_pre s i)) = fst (cobweb C rng i s) /\
         fst (mcategorize C rng k (st_root s) i s) = fst (cobweb_categorize C rng i s)) /\
      fst (cobweb C rng i s) <> Err OutOfFuel /\ fst (cobweb C rng i s) <> Err Dangling /\
      fst (cobweb_categorize C rng i s) <> Err OutOfFuel /\
      fst (cobweb_categorize C rng i s) <> Err Dangling.
  Proof.
    intros Hr. destruct (reachable_ok C rng x0 evs s Hr) as (t & Hok).
    exists (ids t). split; [apply Hok|]. split.
    { intros id. symmetry. by apply in_tree_ids. }
    rewrite length_ids.
    pose proof Hok as [Hrep Hroot Hnd Hb].
    assert (Hcob : forall k, tsize t <= k ->
      fst (mcobweb C rng k (st_root s) i (with_pre s i)) =
      fo_res (fcob C rng (tsize t) (nc_pre C (st_ctx s) i) t i (st_amb s))).
    { intros k Hk. destruct s as [h r a x]. unfold with_pre. simpl in *. subst r.
      destruct (mcobweb_refines C rng k h (tid t) a (nc_pre C x i) None t i Hrep Hnd Hb eq_refl)
        as (h' & E & _). rewrite E. cbn [fst].
      by rewrite (fcob_fuel C rng HR k (tsize t)). }
    assert (Hcat : forall k, tsize t <= k ->
      fst (mcategorize C rng k (st_root s) i s) =
      fst (fcat C rng (tsize t) (st_ctx s) t i (st_amb s))).
    { intros k Hk. destruct s as [h r a x]. simpl in *. subst r.
      rewrite (mcategorize_refines C rng k h (tid t) a x None t i Hrep Hnd). cbn [fst].
      by rewrite (fcat_fuel C rng HR k (tsize t)). }
    pose proof (tsize_heap C _ _ _ Hrep Hnd) as Hsz.
    assert (E1 : fst (cobweb C rng i s) = fo_res (fcob C rng (tsize t) (nc_pre C (st_ctx s) i) t i (st_amb s))).
    { unfold cobweb, mbind, mpre, mroot, mheap_size. cbv beta iota. cbn [st_heap st_root st_amb st_ctx].
      rewrite <- (Hcob (S (size (st_heap s)))) by lia. destruct s as [h r a x]. done. }
    assert (E2 : fst (cobweb_categorize C rng i s) = fst (fcat C rng (tsize t) (st_ctx s) t i (st_amb s))).
    { unfold cobweb_categorize, mbind, mroot, mheap_size. cbv beta iota.
      by rewrite <- (Hcat (S (size (st_heap s)))) by lia. }
    split.
    { intros k Hk. by rewrite E1, E2, Hcob, Hcat. }
    rewrite E1, E2.
    pose proof (fcob_terminates C rng HR (tsize t) (nc_pre C (st_ctx s) i) t i (st_amb s)
      Hnd Hb (le_n _)) as R1.
    pose proof (fcat_terminates C rng HR (tsize t) (st_ctx s) t i (st_amb s)
      Hnd (le_n _)) as R2.
    repeat split; intros E; rewrite E in *; by (destruct R1 || destruct R2).
  Qed.

  (** ** categorize is read-only and returns a leaf *)
  Theorem reachable_read_only x0 evs s (i : I) r s' :
    reachable C rng x0 evs s -> cobweb_categorize C rng i s = (r, s') ->
    st_heap s' = st_heap s /\ st_root s' = st_root s /\ st_ctx s' = st_ctx s /\
    forall j, r = Ok j -> is_leaf s j.
  Proof.
    intros Hr E. destruct (reachable_ok C rng x0 evs s Hr) as (t & Hok).
    destruct (categorize_state C rng s t i r s' Hok E) as (Er & _ & Hh & Hro & Hx & _).
    split; [done|]. split; [done|]. split; [done|]. intros j ->.
    symmetry in Er. apply (is_leaf_sub _ _ _ _ Hok).
    pose proof (fcat_leaf C rng _ _ _ _ _ _ Er) as Hl.
    destruct Hl as [sj Hl]. exists sj. clear -Hl.
    induction Hl as [|id sm kids k j sj Hk Hl IH]; [apply sub_refl|by eapply sub_kid].
  Qed.

  (** ** A fit changes only the path to the returned leaf *)
  Theorem reachable_path (P : S' -> Prop) x0 evs s t (i : I) j s' :
    reachable C rng x0 evs s -> closed C P i -> state_ok C s t -> tall C P t ->
    cobweb C rng i s = (Ok j, s') ->
    (forall id tb tb', in_tree s id -> in_tree s' id -> desc s' id j ->
       table_of s id tb -> table_of s' id tb' -> P tb /\ nc_inc C tb i = (tb', None)) /\
    (forall id, in_tree s' id -> ~ desc s' id j ->
       in_tree s id /\
       (forall tb, table_of s id tb <-> table_of s' id tb) /\
       (forall l, children_of s id l <-> children_of s' id l)) /\
    (forall id, in_tree s id -> ~ in_tree s' id -> ~ is_leaf s id).
  Proof.
    intros Hr Hg Hok Hall E.
    destruct (cobweb_sorts C rng P (closed C P) (fun i H => H)
      s t i (Ok j) s' Hok Hall Hg E) as (t' & mv & Hs & Hok' & _).
    pose proof (sorts_path C i _ t t' mv j Hs (so_nodup _ _ _ Hok) (so_bound _ _ _ Hok)) as Hpath.
    assert (Hdesc : forall u', sub C u' t' -> desc s' (tid u') j <-> j ∈ ids u').
    { intros u' Hu'. split.
      - intros Hd. destruct (desc_sub C s' t' u' j Hok' Hu' Hd) as (v & Hv & <-).
        by apply sub_tid.
      - intros (v & Hv & <-)%(ids_sub C). by eapply sub_desc. }
    split; [|split].
    - intros id tb tb' Hin Hin' Hd Htb Htb'.
      apply (in_tree_sub _ _ _ _ Hok') in Hin' as (u' & Hu' & <-).
      destruct (Hpath u' Hu') as [[Hj [Hnew|(u & Hu & Hid & Hinc)]]|[Hj _]].
      + exfalso. apply (in_tree_ids _ _ _ _ Hok) in Hin.
        pose proof (so_bound _ _ _ Hok _ Hin). lia.
      + rewrite (table_of_det _ _ _ _ _ Htb' (sub_table _ _ _ _ Hok' Hu')).
        rewrite <- Hid in Htb. rewrite (table_of_det _ _ _ _ _ Htb (sub_table _ _ _ _ Hok Hu)).
        split; [by eapply tall_sub|done].
      + exfalso. by apply Hj, Hdesc.
    - intros id Hin' Hd. apply (in_tree_sub _ _ _ _ Hok') in Hin' as (u' & Hu' & <-).
      destruct (Hpath u' Hu') as [[Hj _]|[Hj Hu]]; [exfalso; by apply Hd, Hdesc|].
      split; [apply (in_tree_sub _ _ _ _ Hok); eauto|].
      pose proof (sub_table _ _ _ _ Hok' Hu') as T1. pose proof (sub_table _ _ _ _ Hok Hu) as T2.
      pose proof (sub_children _ _ _ _ Hok' Hu') as C1. pose proof (sub_children _ _ _ _ Hok Hu) as C2.
      split; intros l; split; intros H.
      + by rewrite (table_of_det _ _ _ _ _ H T2).
      + by rewrite (table_of_det _ _ _ _ _ H T1).
      + by rewrite (children_of_det _ _ _ _ _ H C2).
      + by rewrite (children_of_det _ _ _ _ _ H C1).
    - intros id Hin Hnin [_ Hch].
      apply (in_tree_sub _ _ _ _ Hok) in Hin as (u & Hu & <-).
      destruct (sorts_survive C i _ t t' mv _ Hs u Hu) as [Hk|(u' & Hu' & Hid)].
      + pose proof (children_of_det _ _ _ _ _ Hch (sub_children _ _ _ _ Hok Hu)) as Hn.
        by destruct (tkids u).
      + apply Hnin. apply (in_tree_sub _ _ _ _ Hok'). eauto.
  Qed.

  (** ** Ids *)
  Theorem reachable_ids x0 evs0 s evs s' :
    reachable C rng x0 evs0 s -> run C rng x0 s evs s' ->
    (forall id, in_tree s id -> id <= am_ctr (st_amb s)) /\
    am_ctr (st_amb s) <= am_ctr (st_amb s') /\
    (forall id, in_tree s' id -> ~ in_tree s id -> am_ctr (st_amb s) < id).
  Proof.
    intros Hr Hrun. destruct (reachable_ok C rng x0 evs0 s Hr) as (t & Hok).
    destruct (run_ok C rng x0 s evs s' t Hrun Hok) as (t' & Hok' & Hle & Hid).
    split; [|split; [done|]].
    - intros id Hin. apply Hok. by apply (in_tree_ids _ _ _ _ Hok).
    - intros id Hin Hn. destruct (Hid id) as [H|H]; [by apply (in_tree_ids _ _ _ _ Hok')| |done].
      exfalso. apply Hn. by apply (in_tree_ids _ _ _ _ Hok).
  Qed.
End Gen.
