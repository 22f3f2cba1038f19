(** * From functional trees to heap states and runs. *)
From stdpp Require Import base decidable list gmap strings.
From Verif Require Import Base Num TreeModel TreeFun TreeScore TreeRefine TreeSorts TreeInv SpecTree.

Section State.
  Context {N : NumOps} (C : NodeClass N) (rng : nat -> num N).
  Notation S' := (nc_sum C).
  Notation I := (nc_inst C).
  Notation tree := (tree C).
  Notation st := (st C).

  (** The heap of [s] represents the tree [t]. *)
  Record state_ok (s : st) (t : tree) : Prop := {
    so_rep : rep C (st_heap s) None t;
    so_root : st_root s = tid t;
    so_nodup : NoDup (ids t);
    so_bound : forall j, j ∈ ids t -> j <= am_ctr (st_amb s);
  }.

  (** ** Bridges: spec vocabulary in terms of the tree *)
  Lemma rep_sub h p t u : rep C h p t -> sub C u t ->
    exists q, rep C h q u /\ (u = t \/ exists v, sub C v t /\ u ∈ tkids v /\ q = Some (tid v)).
  Proof.
    intros Hr Hs. revert p Hr.
    induction Hs as [|id s kids k Hk Hs IH]; intros p Hr.
    - exists p. auto.
    - pose proof (rep_inv _ _ _ _ _ _ Hr) as [_ Hks]. rewrite Forall_forall in Hks.
      destruct (IH _ (Hks k Hk)) as (q & Hq & [->|(v & Hv & Hu & ->)]).
      + exists (Some id). split; [by apply Hks|]. right. exists (T id s kids).
        split; [apply sub_refl|done].
      + exists (Some (tid v)). split; [done|]. right. exists v. split; [|done].
        by eapply sub_kid.
  Qed.

  Lemma sub_children s t u : state_ok s t -> sub C u t ->
    children_of s (tid u) (map tid (tkids u)).
  Proof.
    intros Hok Hs. destruct (rep_sub _ _ _ _ (so_rep _ _ Hok) Hs) as (q & Hq & _).
    apply rep_lookup in Hq. eexists. split; [exact Hq|done].
  Qed.

  Lemma sub_table s t u : state_ok s t -> sub C u t -> table_of s (tid u) (tsum u).
  Proof.
    intros Hok Hs. destruct (rep_sub _ _ _ _ (so_rep _ _ Hok) Hs) as (q & Hq & _).
    apply rep_lookup in Hq. eexists. split; [exact Hq|done].
  Qed.

  Lemma children_of_det s id l l' : children_of s id l -> children_of (C:=C) s id l' -> l = l'.
  Proof. intros (n & H1 & <-) (n' & H2 & <-). congruence. Qed.
  Lemma table_of_det s id l l' : table_of s id l -> table_of (C:=C) s id l' -> l = l'.
  Proof. intros (n & H1 & <-) (n' & H2 & <-). congruence. Qed.
  Lemma parent_of_det s id l l' : parent_of s id l -> parent_of (C:=C) s id l' -> l = l'.
  Proof. intros (n & H1 & <-) (n' & H2 & <-). congruence. Qed.

  Lemma desc_trans (s : st) a b c : desc s a b -> desc s b c -> desc s a c.
  Proof. intros H1 H2. induction H2; [done|]. by eapply desc_child. Qed.

  Lemma sub_kid_of u (t : tree) : forall v, sub C v t -> u ∈ tkids v -> sub C u t.
  Proof.
    intros v Hv Hu. eapply sub_trans; [|exact Hv]. destruct v. eapply sub_kid; [done|].
    apply sub_refl.
  Qed.

  (** Descendants of a subtree of [t] are its subtrees. *)
  Lemma desc_sub s t u b : state_ok s t -> sub C u t ->
    desc s (tid u) b -> exists v, sub C v u /\ tid v = b.
  Proof.
    intros Hok Hu Hd. induction Hd as [|b c Hd IH (l & Hl & Hc)].
    - exists u. split; [apply sub_refl|done].
    - destruct IH as (v & Hv & <-).
      pose proof (sub_children _ _ _ Hok (sub_trans _ _ _ _ Hv Hu)) as Hl'.
      rewrite (children_of_det _ _ _ _ Hl Hl') in Hc.
      apply elem_of_list_fmap in Hc as (w & -> & Hw).
      exists w. split; [|done]. by eapply sub_kid_of.
  Qed.

  Lemma sub_desc s t u v : state_ok s t -> sub C u t -> sub C v u -> desc s (tid u) (tid v).
  Proof.
    intros Hok Hu Hv.
    induction Hv as [|id tb kids k Hk Hv IH].
    - apply desc_refl.
    - eapply desc_trans; [|apply IH].
      + eapply desc_child; [apply desc_refl|].
        exists (map tid kids). split.
        * by apply (sub_children _ _ (T id tb kids) Hok).
        * apply elem_of_list_fmap. eauto.
      + eapply sub_kid_of; [exact Hu|done].
  Qed.

  Lemma in_tree_sub s t id : state_ok s t ->
    in_tree s id <-> exists u, sub C u t /\ tid u = id.
  Proof.
    intros Hok. unfold in_tree. rewrite (so_root _ _ Hok). split.
    - intros Hd. eapply desc_sub; [exact Hok|apply sub_refl|done].
    - intros (u & Hu & <-). eapply sub_desc; [exact Hok|apply sub_refl|done].
  Qed.

  Lemma in_tree_ids s t id : state_ok s t -> in_tree s id <-> id ∈ ids t.
  Proof.
    intros Hok. rewrite in_tree_sub by done. split.
    - intros (u & Hu & <-). by apply sub_tid.
    - apply ids_sub.
  Qed.

  Lemma desc_dec s t id j : state_ok s t -> in_tree s id -> desc s id j \/ ~ desc s id j.
  Proof.
    intros Hok (u & Hu & <-)%(in_tree_sub _ _ _ Hok).
    destruct (decide (j ∈ ids u)) as [Hj|Hj].
    - left. apply ids_sub in Hj as (v & Hv & <-). by eapply sub_desc.
    - right. intros Hd. apply Hj. destruct (desc_sub _ _ _ _ Hok Hu Hd) as (v & Hv & <-). by apply sub_tid.
  Qed.

  Lemma is_leaf_sub s t id : state_ok s t ->
    is_leaf s id <-> exists tb, sub C (T id tb []) t.
  Proof.
    intros Hok. split.
    - intros [Hin Hc]. apply (in_tree_sub _ _ _ Hok) in Hin as (u & Hu & <-).
      pose proof (sub_children _ _ _ Hok Hu) as Hc'.
      pose proof (children_of_det _ _ _ _ Hc Hc') as E.
      destruct u as [i tb [|k ks]]; [|done]. by exists tb.
    - intros (tb & Hs). split; [apply (in_tree_sub _ _ _ Hok); eauto|].
      by apply (sub_children _ _ _ Hok Hs).
  Qed.

  (** ** The hierarchy *)
  Lemma sub_size u (t : tree) : sub C u t -> tsize u <= tsize t.
  Proof.
    induction 1 as [|id s kids k Hk Hs IH]; [done|]. simpl.
    apply elem_of_list_split in Hk as (l1 & l2 & ->).
    rewrite map_app, sumn_app. simpl. lia.
  Qed.

  Lemma kid_size k id s (kids : list tree) : k ∈ kids -> tsize k < tsize (T id s kids).
  Proof.
    intros (l1 & l2 & ->)%elem_of_list_split. simpl. rewrite map_app, sumn_app. simpl. lia.
  Qed.

  Theorem state_hierarchy s t : state_ok s t -> branchy C t -> hierarchy s.
  Proof.
    intros Hok Hbr.
    assert (Hkid : forall p c, in_tree s p -> child_of s p c ->
      exists u k, sub C u t /\ tid u = p /\ k ∈ tkids u /\ tid k = c).
    { intros p c Hp (l & Hl & Hc). apply (in_tree_sub _ _ _ Hok) in Hp as (u & Hu & <-).
      rewrite (children_of_det _ _ _ _ Hl (sub_children _ _ _ Hok Hu)) in Hc.
      apply elem_of_list_fmap in Hc as (k & -> & Hk). eauto 6. }
    assert (Hpar : forall u k, sub C u t -> k ∈ tkids u -> parent_of s (tid k) (Some (tid u))).
    { intros u k Hu Hk. destruct (rep_sub _ _ _ _ (so_rep _ _ Hok) Hu) as (q & Hq & _).
      destruct u as [i tb kids]. apply rep_inv in Hq as [_ Hks].
      rewrite Forall_forall in Hks. specialize (Hks k Hk). apply rep_lookup in Hks.
      eexists. split; [exact Hks|done]. }
    split.
    - intros id (u & Hu & <-)%(in_tree_sub _ _ _ Hok).
      destruct (sub_table _ _ _ Hok Hu) as (n & Hn & _). eauto.
    - rewrite (so_root _ _ Hok). pose proof (rep_lookup _ _ _ _ (so_rep _ _ Hok)) as Hl.
      eexists. split; [exact Hl|done].
    - intros p c Hp Hc. destruct (Hkid p c Hp Hc) as (u & k & Hu & <- & Hk & <-). auto.
    - intros c p Hc Hp. apply (in_tree_sub _ _ _ Hok) in Hc as (u & Hu & <-).
      destruct (rep_sub _ _ _ _ (so_rep _ _ Hok) Hu) as (q & Hq & [->|(v & Hv & Hk & ->)]).
      + pose proof (rep_lookup _ _ _ _ (so_rep _ _ Hok)) as Hl.
        assert (parent_of s (tid t) None) as Hn by (eexists; split; [exact Hl|done]).
        pose proof (parent_of_det _ _ _ _ Hp Hn). done.
      + pose proof (parent_of_det _ _ _ _ Hp (Hpar v u Hv Hk)) as [= ->].
        split; [apply (in_tree_sub _ _ _ Hok); eauto|].
        eexists. split; [by eapply sub_children|]. apply elem_of_list_fmap. eauto.
    - intros id (u & Hu & <-)%(in_tree_sub _ _ _ Hok). rewrite (so_root _ _ Hok).
      assert (Hup : forall v w, sub C w t -> sub C v w -> up s (tid v) (tid w)).
      { intros v w Hw Hv. revert Hw. induction Hv as [|i tb kids k Hk Hv IH]; intros Hw.
        - apply up_refl.
        - assert (Hkt : sub C k t) by (eapply sub_kid_of; [exact Hw|done]).
          specialize (IH Hkt). assert (Hs1 : up s (tid k) i).
          { eapply up_step; [|apply up_refl]. by apply (Hpar (T i tb kids)). }
          clear -IH Hs1. simpl. induction IH as [|a p b Hp IH IH2]; [done|].
          eapply up_step; [done|auto]. }
      apply Hup; [apply sub_refl|done].
    - intros p l (u & Hu & <-)%(in_tree_sub _ _ _ Hok) Hl.
      rewrite (children_of_det _ _ _ _ Hl (sub_children _ _ _ Hok Hu)).
      assert (Hnd : NoDup (ids u)).
      { clear -Hu Hok. pose proof (so_nodup _ _ Hok) as Hnd. clear Hok.
        induction Hu as [|i tb kids k Hk Hv IH]; [done|]. apply IH.
        apply NoDup_kids in Hnd as [_ Hnd]. by eapply NoDup_in_kid. }
      destruct u as [i tb kids]. apply NoDup_kids in Hnd as [_ Hnd]. by apply NoDup_tids.
    - intros p c Hp Hc Hd. destruct (Hkid p c Hp Hc) as (u & k & Hu & <- & Hk & <-).
      assert (Hkt : sub C k t) by (by eapply sub_kid_of).
      destruct (desc_sub _ _ _ _ Hok Hkt Hd) as (v & Hv & Hvt).
      assert (v = u) as ->.
      { eapply sub_unique; [exact (so_nodup _ _ Hok)| |done|done]. by eapply sub_trans. }
      destruct u as [i tb kids]. pose proof (sub_size _ _ Hv).
      pose proof (kid_size k i tb kids Hk). lia.
    - intros p l (u & Hu & <-)%(in_tree_sub _ _ _ Hok) Hl.
      rewrite (children_of_det _ _ _ _ Hl (sub_children _ _ _ Hok Hu)).
      assert (Hb : branchy C u).
      { clear -Hu Hbr. induction Hu as [|i tb kids k Hk Hv IH]; [done|]. apply IH.
        apply branchy_inv in Hbr as [_ Hk']. rewrite Forall_forall in Hk'. auto. }
      rewrite map_length. destruct u as [i tb kids].
      apply branchy_inv in Hb as [[->|?] _]; simpl; lia.
  Qed.

  (** ** Fuel *)
  Lemma length_ids (t : tree) : length (ids t) = tsize t.
  Proof.
    induction t as [i s kids IH] using (tree_ind' C). simpl. f_equal.
    induction kids as [|k ks IHk]; [done|].
    apply Forall_cons in IH as [Hk IH]. simpl. rewrite app_length, Hk. f_equal. auto.
  Qed.

  Lemma rep_dom h p t j : rep C h p t -> j ∈ ids t -> exists n, h !! j = Some n.
  Proof.
    intros Hr (u & Hu & <-)%(ids_sub C). destruct (rep_sub _ _ _ _ Hr Hu) as (q & Hq & _).
    apply rep_lookup in Hq. eauto.
  Qed.

  Lemma tsize_heap h p t : rep C h p t -> NoDup (ids t) -> tsize t <= size h.
  Proof.
    intros Hr Hnd. rewrite <- length_ids, <- size_dom.
    rewrite <- (size_list_to_set (C:=gset nat)) by done.
    apply subseteq_size. intros j Hj. apply elem_of_list_to_set in Hj.
    apply elem_of_dom. by eapply rep_dom.
  Qed.

  (** ** Calls *)
  Definition cob_fuel (s : st) : nat := S (size (st_heap s)).
  Definition cob_out (s : st) (t : tree) (i : I) : fout C :=
    fcob C rng (cob_fuel s) (nc_pre C (st_ctx s) i) t i (st_amb s).

  Lemma cobweb_runs s t i : state_ok s t ->
    exists s', cobweb C rng i s = (fo_res (cob_out s t i), s') /\
      state_ok s' (fo_tree (cob_out s t i)) /\
      st_amb s' = fo_amb (cob_out s t i) /\
      st_ctx s' = nc_pre C (st_ctx s) i.
  Proof.
    intros Hok. destruct s as [h r a x]. destruct Hok as [Hr Hroot Hnd Hb]. simpl in *. subst r.
    pose proof (mcobweb_refines C rng (S (size h)) h (tid t) a (nc_pre C x i) None t i Hr Hnd Hb eq_refl)
      as (h' & E & Hr' & Hf).
    pose proof (fcob_ids C rng (S (size h)) (nc_pre C x i) t i a Hnd Hb) as Hids.
    unfold cob_out, cob_fuel. cbn [st_heap st_ctx st_amb].
    assert (Ec : cobweb C rng i (St h (tid t) a x) =
      mcobweb C rng (S (size h)) (tid t) i (St h (tid t) a (nc_pre C x i))) by done.
    rewrite Ec, E. clear E Ec. remember (S (size h)) as fu eqn:Efu. clear Efu.
    eexists. split; [reflexivity|].
    destruct Hids as (I1 & I2 & I3 & I4).
    split; [|done]. split; simpl.
    - exact Hr'.
    - done.
    - done.
    - intros j Hj. destruct (I2 j Hj) as [Hin|[_ Hle]]; [|done].
      specialize (Hb _ Hin). lia.
  Qed.

  (** Objects outside the tree are left alone. *)
  Lemma cobweb_frame s t i r s' id : state_ok s t -> cobweb C rng i s = (r, s') ->
    id ∉ ids t -> id <= am_ctr (st_amb s) -> st_heap s' !! id = st_heap s !! id.
  Proof.
    intros Hok E Hni Hle. destruct s as [h rt a x]. destruct Hok as [Hr Hroot Hnd Hb]. simpl in *. subst rt.
    pose proof (mcobweb_refines C rng (S (size h)) h (tid t) a (nc_pre C x i) None t i Hr Hnd Hb eq_refl)
      as (h' & E' & _ & Hf & _).
    assert (Ec : cobweb C rng i (St h (tid t) a x) =
      mcobweb C rng (S (size h)) (tid t) i (St h (tid t) a (nc_pre C x i))) by done.
    rewrite Ec in E. rewrite E' in E. remember (S (size h)) as fu eqn:Efu. clear Efu.
    injection E as _ <-. simpl. by apply Hf.
  Qed.

  Lemma categorize_runs s t i : state_ok s t ->
    let o := fcat C rng (cob_fuel s) (st_ctx s) t i (st_amb s) in
    cobweb_categorize C rng i s = (fst o, St (st_heap s) (st_root s) (snd o) (st_ctx s)).
  Proof.
    intros Hok. destruct s as [h r a x]. destruct Hok as [Hr Hroot Hnd Hb]. simpl in *. subst r.
    unfold cobweb_categorize, mbind, mroot, mheap_size. simpl.
    exact (mcategorize_refines C rng (S (size h)) h (tid t) a x None t i Hr Hnd).
  Qed.

  Lemma state_ok_amb s t a : state_ok s t -> am_ctr (st_amb s) <= am_ctr a ->
    state_ok (St (st_heap s) (st_root s) a (st_ctx s)) t.
  Proof.
    intros [H1 H2 H3 H4] Hle. split; simpl; auto. intros j Hj. specialize (H4 j Hj). lia.
  Qed.

  Lemma clear_runs x0 s : exists s',
    mclear C x0 s = (Ok tt, s') /\
    state_ok s' (T (S (am_ctr (st_amb s))) (nc_empty C) []) /\
    st_amb s' = Amb (S (am_ctr (st_amb s))) (am_rpos (st_amb s)) /\
    st_ctx s' = x0.
  Proof.
    destruct s as [h r [c rp] x]. eexists. split; [reflexivity|]. split; [|done].
    split; simpl.
    - constructor; [by rewrite lookup_insert|constructor].
    - done.
    - apply NoDup_singleton.
    - intros j ->%elem_of_list_singleton. done.
  Qed.

  Lemma fresh_ok ctr rpos x0 : state_ok (fresh C ctr rpos x0) (T (S ctr) (nc_empty C) []).
  Proof.
    split; simpl.
    - constructor; [by rewrite lookup_singleton|constructor].
    - done.
    - apply NoDup_singleton.
    - intros j ->%elem_of_list_singleton. done.
  Qed.

  (** ** Every state of a run represents a tree. *)
  Lemma step_ok x0 s e s' t : step C rng x0 s e s' -> state_ok s t ->
    exists t', state_ok s' t' /\
      am_ctr (st_amb s) <= am_ctr (st_amb s') /\
      (forall j, j ∈ ids t' -> j ∈ ids t \/ am_ctr (st_amb s) < j).
  Proof.
    intros Hst Hok. destruct Hst as [s i r s' E|s i r s' E|s ctr rpos H1 H2|s s' E].
    - destruct (cobweb_runs s t i Hok) as (s2 & E2 & Hok2 & Ha & _).
      rewrite E in E2. injection E2 as -> <-.
      eexists. split; [exact Hok2|].
      pose proof (fcob_ids C rng (cob_fuel s) (nc_pre C (st_ctx s) i) t i (st_amb s)
        (so_nodup _ _ Hok) (so_bound _ _ Hok)) as (I1 & I2 & I3 & I4).
      rewrite Ha. split; [unfold cob_out; lia|].
      intros j Hj. destruct (I2 j Hj) as [?|[? ?]]; [by left|right; lia].
    - pose proof (categorize_runs s t i Hok) as E2. simpl in E2. rewrite E in E2.
      injection E2 as -> ->.
      pose proof (fcat_mono C rng (cob_fuel s) (st_ctx s) t i (st_amb s)) as [Hm _].
      exists t. split; [by apply state_ok_amb|]. simpl. split; [done|auto].
    - exists t. split; [by apply state_ok_amb|]. simpl. auto.
    - destruct (clear_runs x0 s) as (s2 & E2 & Hok2 & Ha & _).
      rewrite E in E2. injection E2 as <-. eexists. split; [exact Hok2|].
      rewrite Ha. simpl. split; [lia|]. intros j ->%elem_of_list_singleton. right. lia.
  Qed.

  Theorem run_ok x0 s evs s' t : run C rng x0 s evs s' -> state_ok s t ->
    exists t', state_ok s' t' /\
      am_ctr (st_amb s) <= am_ctr (st_amb s') /\
      (forall j, j ∈ ids t' -> j ∈ ids t \/ am_ctr (st_amb s) < j).
  Proof.
    intros Hrun Hok. induction Hrun as [s|s evs s1 e s2 Hrun IH Hst].
    - exists t. auto.
    - destruct (IH Hok) as (t1 & Hok1 & Hc1 & Hi1).
      destruct (step_ok _ _ _ _ _ Hst Hok1) as (t2 & Hok2 & Hc2 & Hi2).
      exists t2. split; [done|]. split; [lia|].
      intros j Hj. destruct (Hi2 j Hj) as [Hj1|?]; [by apply Hi1|right; lia].
  Qed.

  Theorem reachable_ok x0 evs s : reachable C rng x0 evs s -> exists t, state_ok s t.
  Proof.
    intros (ctr & rpos & Hrun).
    destruct (run_ok _ _ _ _ _ Hrun (fresh_ok ctr rpos x0)) as (t & Hok & _). eauto.
  Qed.

  Lemma history_snoc (evs : list (event C)) e :
    history (evs ++ [e]) = hist_step (history evs) e.
  Proof. unfold history. by rewrite fold_left_app. Qed.

  (** ** Invariants along runs: classes whose table operations succeed *)
  Section Closed.
    Variable P : S' -> Prop.
    Variable Good : I -> Prop.
    Hypothesis HP : forall i, Good i -> closed C P i.
    Hypothesis HP0 : P (nc_empty C).

    Lemma cobweb_sorts s t i r s' : state_ok s t -> tall C P t -> Good i ->
      cobweb C rng i s = (r, s') ->
      exists t' mv, sorts C i (am_ctr (st_amb s)) t t' mv r /\ state_ok s' t' /\ tall C P t'.
    Proof.
      intros Hok Hall Hg E. destruct (cobweb_runs s t i Hok) as (s2 & E2 & Hok2 & Ha & _).
      rewrite E in E2. injection E2 as -> <-.
      destruct (fcob_sorts C rng P i (HP i Hg) (cob_fuel s) (nc_pre C (st_ctx s) i) t (st_amb s)
        Hall (so_nodup _ _ Hok) (so_bound _ _ Hok)) as [Hs Hall'].
      eauto 6.
    Qed.

    Theorem run_branchy x0 s evs s' t : run C rng x0 s evs s' ->
      state_ok s t -> all_inst Good evs -> tall C P t -> branchy C t ->
      exists t', state_ok s' t' /\ tall C P t' /\ branchy C t'.
    Proof.
      intros Hrun Hok Hg Hall Hbr. induction Hrun as [s|s evs s1 e s2 Hrun IH Hst].
      - eauto.
      - apply Forall_app in Hg as [Hg Hge]. rewrite Forall_singleton in Hge.
        destruct (IH Hok Hg) as (t1 & Hok1 & Hall1 & Hbr1).
        destruct Hst as [s1 i r s2 E|s1 i r s2 E|s1 ctr rpos H1 H2|s1 s2 E].
        + destruct (cobweb_sorts s1 t1 i r s2 Hok1 Hall1 (Hge i eq_refl) E)
            as (t2 & mv & Hs & Hok2 & Hall2).
          exists t2. split; [done|]. split; [done|]. by eapply sorts_branchy.
        + pose proof (categorize_runs s1 t1 i Hok1) as E2. simpl in E2. rewrite E in E2.
          injection E2 as -> ->.
          pose proof (fcat_mono C rng (cob_fuel s1) (st_ctx s1) t1 i (st_amb s1)) as [Hm _].
          exists t1. split; [by apply state_ok_amb|done].
        + exists t1. split; [by apply state_ok_amb|done].
        + destruct (clear_runs x0 s1) as (s3 & E2 & Hok2 & _).
          rewrite E in E2. injection E2 as <-. eexists. split; [exact Hok2|].
          split; constructor; auto.
    Qed.

    Theorem reachable_hierarchy x0 evs s : reachable C rng x0 evs s -> all_inst Good evs ->
      hierarchy s.
    Proof.
      intros (ctr & rpos & Hrun) Hg.
      destruct (run_branchy _ _ _ _ _ Hrun (fresh_ok ctr rpos x0) Hg) as (t & Hok & _ & Hbr).
      - constructor; auto.
      - constructor; auto.
      - by eapply state_hierarchy.
    Qed.
  End Closed.

  (** ** Tables along clean runs *)
  Section Summ.
    Variable Summ : S' -> list I -> Prop.
    Variable Leaf : list I -> Prop.
    Variable Good : I -> Prop.
    Hypothesis L : summ_laws C Summ Leaf Good.

    Definition somesum (s : S') : Prop := exists l, Summ s l.

    Lemma summ_closed i : Good i -> closed C somesum i.
    Proof.
      intros Hg. split.
      - exists []. by eapply sl_empty.
      - intros s [l Hl]. edestruct (sl_inc _ _ _ _ L) as (s' & E & Hs'); [done|done|].
        exists s'. split; [done|]. by eexists.
      - intros s1 s2 [l1 H1] [l2 H2].
        edestruct (sl_add _ _ _ _ L s1 s2) as (s' & E & Hs'); [done|done|].
        exists s'. split; [done|]. by eexists.
    Qed.

    Lemma tinv_tall t l : tinv C Summ Leaf t l -> tall C somesum t.
    Proof.
      revert l. induction t as [i s kids IH] using (tree_ind' C). intros l Ht.
      constructor; [exists l; by apply tinv_summ in Ht|].
      inversion Ht; subst; [constructor|].
      rewrite Forall_forall in *. intros k Hk.
      apply elem_of_list_lookup in Hk as [n Hn].
      match goal with HF : Forall2 _ kids ?ls |- _ =>
        destruct (Forall2_lookup_l _ _ _ _ _ HF Hn) as (lk & _ & Hkl) end.
      eapply IH; [by eapply elem_of_list_lookup_2|done].
    Qed.

    Theorem run_tinv x0 s evs s' t l : run C rng x0 s evs s' ->
      state_ok s t -> all_inst Good evs -> all_ok evs -> tinv C Summ Leaf t l ->
      exists t', state_ok s' t' /\ tinv C Summ Leaf t' (fold_left hist_step evs l).
    Proof.
      intros Hrun Hok Hg Hao Hti. induction Hrun as [s|s evs s1 e s2 Hrun IH Hst].
      - eauto.
      - apply Forall_app in Hg as [Hg Hge]. rewrite Forall_singleton in Hge.
        apply Forall_app in Hao as [Hao Hae]. rewrite Forall_singleton in Hae.
        destruct (IH Hok Hg Hao) as (t1 & Hok1 & Hti1).
        rewrite fold_left_app. simpl.
        destruct Hst as [s1 i r s2 E|s1 i r s2 E|s1 ctr rpos H1 H2|s1 s2 E].
        + destruct r as [j|?]; [|done].
          destruct (cobweb_sorts somesum Good summ_closed s1 t1 i (Ok j) s2 Hok1
            (tinv_tall _ _ Hti1) (Hge i eq_refl) E) as (t2 & mv & Hs & Hok2 & Hall2).
          exists t2. split; [done|]. simpl.
          eapply tinv_perm; [exact L| |apply Permutation_cons_append].
          eapply sorts_tinv; [exact L|done| |done]. by apply Hge.
        + pose proof (categorize_runs s1 t1 i Hok1) as E2. simpl in E2. rewrite E in E2.
          injection E2 as -> ->.
          pose proof (fcat_mono C rng (cob_fuel s1) (st_ctx s1) t1 i (st_amb s1)) as [Hm _].
          exists t1. split; [by apply state_ok_amb|done].
        + exists t1. split; [by apply state_ok_amb|done].
        + destruct (clear_runs x0 s1) as (s3 & E2 & Hok2 & _).
          rewrite E in E2. injection E2 as <-. eexists. split; [exact Hok2|].
          apply ti_leaf; [exact (sl_empty _ _ _ _ L)|exact (sl_leaf_nil _ _ _ _ L)].
    Qed.

    Theorem reachable_tinv x0 evs s : reachable C rng x0 evs s ->
      all_inst Good evs -> all_ok evs ->
      exists t, state_ok s t /\ tinv C Summ Leaf t (history evs).
    Proof.
      intros (ctr & rpos & Hrun) Hg Hao.
      eapply run_tinv; [done|apply fresh_ok|done|done|].
      apply ti_leaf; [exact (sl_empty _ _ _ _ L)|exact (sl_leaf_nil _ _ _ _ L)].
    Qed.
  End Summ.
End State.
