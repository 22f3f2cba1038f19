(** * Leaves stay leaves; climbing and splitting in cluster.py. *)
From stdpp Require Import base decidable list gmap strings.
From Verif Require Import Base Num TreeModel TreeFun TreeScore TreeRefine TreeSorts TreeInv
  SpecTree TreeState TreeLeaf Nominal Utils Query QueryLinks Cluster.
Set Default Proof Using "Type".
Open Scope list_scope.

Section Facts.
  Context {N : NumOps} (C : NodeClass N) (rng : nat -> num N).
  Notation S' := (nc_sum C).
  Notation I := (nc_inst C).
  Notation tree := (tree C).
  Notation st := (st C).

  Definition leaf_in (t : tree) (j : nat) : Prop := exists tb, sub C (T j tb []) t.

  Lemma leaf_in_kid id s (kids : list tree) k j : k ∈ kids -> leaf_in k j -> leaf_in (T id s kids) j.
  Proof. intros Hk (tb & H). exists tb. by eapply sub_kid. Qed.
  Lemma leaf_in_inv id s (kids : list tree) j : leaf_in (T id s kids) j ->
    kids = [] /\ j = id \/ exists k, k ∈ kids /\ leaf_in k j.
  Proof.
    intros (tb & H). apply sub_inv in H as [E|(k & Hk & H)].
    - injection E as -> -> <-. by left.
    - right. exists k. split; [done|]. by exists tb.
  Qed.

  (** ** Leaves stay, and what cobweb returns is one, also if calls before
      raised; for any node class. *)
  Lemma fnew_child_leaves mv id s (kids : list tree) i a j : leaf_in (T id s kids) j -> kids <> [] ->
    leaf_in (fo_tree (fnew_child C mv id s kids i a)) j.
  Proof.
    intros H Hne. unfold fnew_child. destruct (nc_inc C (nc_empty C) i) as [s2 [e|]]; [done|]. cbn [fo_tree].
    apply leaf_in_inv in H as [[-> _]|(k & Hk & H)]; [done|]. eapply leaf_in_kid; [|exact H]. apply elem_of_app. by left.
  Qed.
  Lemma fnew_child_res mv id s (kids : list tree) i a j :
    fo_res (fnew_child C mv id s kids i a) = Ok j -> leaf_in (fo_tree (fnew_child C mv id s kids i a)) j.
  Proof.
    unfold fnew_child. destruct (nc_inc C (nc_empty C) i) as [s2 [e|]]; [done|]. cbn [fo_tree fo_res]. intros [= <-].
    eapply leaf_in_kid; [apply elem_of_app; right; left|]. exists s2. apply sub_refl.
  Qed.

  Theorem fcob_leaves i fuel : forall x (t : tree) a,
    NoDup (ids t) -> (forall j, j ∈ ids t -> j <= am_ctr a) ->
    let o := fcob C rng fuel x t i a in
    (forall j, leaf_in t j -> leaf_in (fo_tree o) j) /\ (forall j, fo_res o = Ok j -> leaf_in (fo_tree o) j).
  Proof.
    induction fuel as [|fuel IH]; intros x t a Hnd Hb; [done|].
    destruct t as [id s kids]. cbn [fcob].
    destruct kids as [|k0 ks0].
    - destruct (nc_exact C s i) as [ex|e]; [|done].
      assert (Hone : forall (s' : S') j, leaf_in (T id s []) j -> leaf_in (T id s' []) j).
      { intros s' j [[_ ->]|(k & Hk & _)]%leaf_in_inv; [exists s'; apply sub_refl|by apply elem_of_nil in Hk]. }
      destruct (ex || (nc_count C s =? 0)%nat).
      { destruct (nc_inc C s i) as [s' e']. cbn [fo_tree fo_res]. split; [apply Hone|].
        destruct e'; [done|]. intros j [= <-]. exists s'. apply sub_refl. }
      unfold ffringe. destruct (nc_add C (nc_empty C) s) as [s0 [e|]]; [done|].
      destruct (nc_inc C s0 i) as [s1 [e|]].
      + cbn [fo_tree fo_res]. split; [|done]. intros j Hj. eapply leaf_in_kid; [left|exact Hj].
      + split; [|apply fnew_child_res]. intros j Hj. apply fnew_child_leaves; [|done]. eapply leaf_in_kid; [left|exact Hj].
    - set (kids := k0 :: ks0) in *.
      assert (Hne0 : kids <> []) by done. clearbody kids.
      destruct kids as [|k0' ks0']; [done|].
      set (kids := k0' :: ks0') in *.
      assert (Hstop : forall s' e mv a1, let o := FOut (T id s' kids) mv (Err e) a1 in
        (forall j, leaf_in (T id s kids) j -> leaf_in (fo_tree o) j) /\ (forall j, fo_res o = Ok j -> leaf_in (fo_tree o) j)).
      { intros s' e mv a1. cbn [fo_tree fo_res]. split; [|done]. intros j [[? _]|(k & Hk & H)]%leaf_in_inv; [done|].
        by eapply leaf_in_kid. }
      destruct (two_best_children C rng x s (tables kids) i a) as [[[[cu b1] b2]|e] a1] eqn:E2; [|apply Hstop].
      pose proof (proj1 (NoDup_kids _ _ _ _) Hnd) as [_ Hndk].
      destruct (two_best_kids _ _ _ _ _ _ _ _ _ _ _ (NoDup_tids _ _ Hndk) E2)
        as (Ha1 & k1 & Hk1 & Hb2).
      rewrite Hk1.
      set (o2 := match b2 with
                 | Some b0 => match kfind b0 kids with Some k2 => Some (Some k2) | None => None end
                 | None => Some None end).
      assert (Ho2 : exists ok2, o2 = Some ok2 /\
        match ok2 with
        | None => True
        | Some k2 => exists b0, b2 = Some b0 /\ kfind b0 kids = Some k2 /\ tid k2 = b0 /\ b1 <> b0
        end).
      { unfold o2. destruct b2 as [b0|]; [|by exists None].
        destruct Hb2 as [Hne [k2 Hk2]]. rewrite Hk2. exists (Some k2). split; [done|].
        exists b0. split; [done|]. split; [done|].
        apply kfind_split in Hk2 as (? & ? & ? & ? & ?). done. }
      destruct Ho2 as (ok2 & -> & Hok2).
      match goal with |- context [get_best_operation ?c ?r ?x ?s ?k ?i ?p ?q ?bk ?cu ?l ?a] =>
        pose proof (best_op_mono c r x s k i p q bk cu l a) as Hm;
        destruct (get_best_operation c r x s k i p q bk cu l a) as [[[u o]|e] a2] eqn:E3 end; [|apply Hstop].
      apply best_op_applicable in E3 as (_ & Happm & Happs).
      destruct Hm as [Ha2 _]. simpl in Ha2.
      assert (Hb' : forall j, j ∈ ids (T id s kids) -> j <= am_ctr a2).
      { intros j Hj. specialize (Hb j Hj). lia. }
      pose proof (kremove_perm _ _ _ _ Hk1) as Hp1.
      assert (Hk1in : k1 ∈ kids).
      { rewrite Hp1 at 1. left. }
      assert (Hk1nd : NoDup (ids k1)).
      { pose proof Hk1 as (l1 & l2 & E & _)%kfind_split.
        rewrite E in Hndk. by apply NoDup_kid in Hndk as [? _]. }
      assert (Hsplitk : forall j, leaf_in (T id s kids) j -> leaf_in k1 j \/ exists k, k ∈ kremove b1 kids /\ leaf_in k j).
      { intros j [[? _]|(k & Hk & H)]%leaf_in_inv; [done|]. rewrite Hp1 in Hk. apply elem_of_cons in Hk as [->|Hk]; [by left|]. right. eauto. }
      destruct o.
      + destruct (nc_inc C s i) as [s' [e|]]; [apply Hstop|].
        destruct (IH x k1 a2 Hk1nd) as [Hs Hr].
        { intros j Hj. apply Hb'. by eapply ids_kid. }
        cbn [fo_tree fo_moved fo_res].
        pose proof (kupdate_perm C (fo_moved (fcob C rng fuel x k1 i a2)) _ _ _
                      (fo_tree (fcob C rng fuel x k1 i a2)) Hk1) as Hq.
        split.
        * intros j [Hj|(k & Hk & Hj)]%Hsplitk.
          -- eapply leaf_in_kid; [rewrite Hq; left|by apply Hs].
          -- eapply leaf_in_kid; [rewrite Hq; right; exact Hk|done].
        * intros j Hj. eapply leaf_in_kid; [rewrite Hq; left|by apply Hr].
      + destruct (nc_inc C s i) as [s' [e|]]; [apply Hstop|]. split; [|apply fnew_child_res].
        intros j [[? _]|(k & Hk & H)]%leaf_in_inv; [done|]. apply fnew_child_leaves; [|done]. by eapply leaf_in_kid.
      + destruct ok2 as [k2|]; [|apply Hstop].
        destruct Hok2 as (b0 & -> & Hk2 & Ht2 & Hne). destruct (nc_inc C s i) as [s' [e|]]; [apply Hstop|].
        destruct (fmerged C k1 k2) as [sm|e]; [|apply Hstop].
        destruct (merge_ids C id s s kids b1 b0 k1 k2 (am_ctr a2) Hnd Hb' Hk1 Hk2 Hne)
          as (Hk2' & _ & _).
        pose proof (kremove_perm _ _ _ _ Hk2') as Hp2.
        simpl am_ctr. rewrite Ht2.
        destruct (merge_ids C id s sm kids b1 b0 k1 k2 (am_ctr a2) Hnd Hb' Hk1 Hk2 Hne)
          as (_ & Hperm & Hkm).
        set (m := S (am_ctr a2)) in *. cbv zeta.
        set (kids' := kremove b0 (kremove b1 kids) ++ [T m sm [k1; k2]]) in *.
        assert (Hndm : NoDup (ids (T m sm [k1; k2]))).
        { assert (Hnd' : NoDup (concat (map ids kids'))).
          { rewrite Hperm. apply NoDup_cons. split; [|done]. intros Hin.
            assert (m <= am_ctr a2); [|unfold m in *; lia]. apply Hb'. by right. }
          pose proof (kfind_split _ _ _ _ Hkm) as (l1 & l2 & E & _).
          rewrite E in Hnd'. by apply NoDup_kid in Hnd' as [? _]. }
        assert (Hbm : forall j, j ∈ ids (T m sm [k1; k2]) -> j <= am_ctr (anext a2)).
        { intros j Hj. assert (Hj' : j ∈ concat (map ids kids')).
          { apply elem_of_ids_kids. eexists. split; [|exact Hj].
            unfold kids'. apply elem_of_app. right. left. }
          rewrite Hperm in Hj'. apply elem_of_cons in Hj' as [->|Hj']; [done|].
          assert (j <= am_ctr a2) by (apply Hb'; by right). simpl. lia. }
        destruct (IH x (T m sm [k1; k2]) (anext a2)) as [Hs Hr]; [done|done|].
        cbn [fo_tree fo_moved fo_res].
        assert (Hq : Permutation
          (kupdate (fo_moved (fcob C rng fuel x (T m sm [k1; k2]) i (anext a2))) m
             (fo_tree (fcob C rng fuel x (T m sm [k1; k2]) i (anext a2))) kids')
          (fo_tree (fcob C rng fuel x (T m sm [k1; k2]) i (anext a2))
             :: kremove b0 (kremove b1 kids))).
        { rewrite (kupdate_perm C _ _ _ _ _ Hkm). f_equiv.
          pose proof (kremove_perm _ _ _ _ Hkm) as Hq. unfold kids' in Hq at 1.
          rewrite <- Permutation_cons_append in Hq.
          by apply Permutation_cons_inv in Hq. }
        split.
        * intros j [Hj|(k & Hk & Hj)]%Hsplitk.
          -- eapply leaf_in_kid; [rewrite Hq; left|]. apply Hs. eapply leaf_in_kid; [left|done].
          -- rewrite Hp2 in Hk. apply elem_of_cons in Hk as [->|Hk].
             ++ eapply leaf_in_kid; [rewrite Hq; left|]. apply Hs. eapply leaf_in_kid; [right; left|done].
             ++ eapply leaf_in_kid; [rewrite Hq; right; exact Hk|done].
        * intros j Hj. eapply leaf_in_kid; [rewrite Hq; left|by apply Hr].
      + set (kids1 := kremove b1 kids ++ tkids k1) in *.
        assert (Hsub : forall j, j ∈ concat (map ids kids1) -> j ∈ concat (map ids kids)).
        { intros j. rewrite (concat_ids_perm _ _ _ Hp1). unfold kids1.
          rewrite concat_ids_app. destruct k1 as [i1 s1 ks1]. simpl.
          rewrite !elem_of_cons, !elem_of_app. tauto. }
        destruct (IH x (T id s kids1) a2) as [Hs Hr].
        * apply NoDup_kids in Hnd as [Hn1 Hn2]. apply NoDup_kids. split.
          { intros Hin. by apply Hn1, Hsub. }
          rewrite (concat_ids_perm _ _ _ Hp1) in Hn2. unfold kids1. clearbody kids.
          rewrite concat_ids_app. destruct k1 as [i1 s1 ks1]. simpl in Hn2 |- *.
          apply NoDup_cons in Hn2 as [_ Hn2].
          by rewrite (Permutation_app_comm (concat (map ids (kremove b1 kids)))).
        * intros j Hj. apply Hb'. apply elem_of_cons in Hj as [->|Hj]; [left|].
          right. by apply Hsub.
        * split; [|done]. intros j [Hj|(k & Hk & Hj)]%Hsplitk; apply Hs.
          -- destruct k1 as [i1 s1 ks1]. apply leaf_in_inv in Hj as [[-> _]|(k & Hk & Hj)].
             { exfalso. by destruct (Happs eq_refl). }
             eapply leaf_in_kid; [|exact Hj]. unfold kids1. apply elem_of_app. by right.
          -- eapply leaf_in_kid; [|exact Hj]. unfold kids1. apply elem_of_app. by left.
  Qed.

  (** ** Sorting a list of instances *)
  Lemma sort_in_ok mod_ i s t r s' : state_ok C s t -> sort_in C rng mod_ i s = (r, s') ->
    exists t', state_ok C s' t' /\ (forall j, leaf_in t j -> leaf_in t' j) /\ (forall j, r = Ok j -> leaf_in t' j) /\
      (mod_ = false -> t' = t).
  Proof.
    intros Hok E. destruct mod_; simpl in E.
    - destruct (cobweb_runs C rng s t i Hok) as (s2 & E2 & Hok2 & _). rewrite E in E2. injection E2 as -> <-.
      eexists. split; [exact Hok2|].
      destruct (fcob_leaves i (cob_fuel C s) (nc_pre C (st_ctx s) i) t (st_amb s) (so_nodup _ _ _ Hok) (so_bound _ _ _ Hok)) as [H1 H2].
      done.
    - destruct (categorize_state C rng s t i r s' Hok E) as (-> & Hok' & _). exists t. split; [done|]. split; [done|].
      split; [|done]. intros j Hj. apply fcat_leaf in Hj as (sj & Hj). exists sj.
      clear -Hj. induction Hj as [|id s0 kids k j sj Hk Hl IH]; [apply sub_refl|]. by eapply sub_kid.
  Qed.
  Lemma sorted_ok mod_ instances : forall s t r s', state_ok C s t -> mmapM C (sort_in C rng mod_) instances s = (r, s') ->
    exists t', state_ok C s' t' /\ (forall j, leaf_in t j -> leaf_in t' j) /\ (mod_ = false -> t' = t) /\
      forall temp, r = Ok temp -> length temp = length instances /\ Forall (leaf_in t') temp.
  Proof.
    induction instances as [|i l IH]; intros s t r s' Hok E; simpl in E.
    { injection E as <- <-. exists t. split; [done|]. split; [done|]. split; [done|]. intros temp [= <-]. done. }
    unfold mbind in E. destruct (sort_in C rng mod_ i s) as [r1 s1] eqn:E1.
    destruct (sort_in_ok _ _ _ _ _ _ Hok E1) as (t1 & Hok1 & L1 & R1 & M1).
    destruct r1 as [j|e]; [|injection E as <- <-; exists t1; done].
    destruct (mmapM C (sort_in C rng mod_) l s1) as [r2 s2] eqn:E2.
    destruct (IH _ _ _ _ Hok1 E2) as (t2 & Hok2 & L2 & M2 & R2). exists t2.
    assert (s' = s2) as -> by (destruct r2; by injection E). split; [done|]. split; [auto|].
    split; [intros Hm; by rewrite (M2 Hm), (M1 Hm)|].
    intros temp ->. destruct r2 as [ys|e]; [|done]. injection E as <-. destruct (R2 ys eq_refl) as [Hl Hf].
    simpl. split; [by rewrite Hl|]. constructor; [|done]. by apply L2, R1.
  Qed.

  (** ** Climbing to the concepts below the root *)
  (** What the loop over [temp_clusters] finds for a leaf [j] of [t]. *)
  Inductive assigned (t : tree) (j : nat) : nat * option nat -> Prop :=
  | as_root : tid t = j -> tkids t = [] -> assigned t j (j, None)
  | as_leaf k : k ∈ tkids t -> tid k = j -> tkids k = [] -> assigned t j (j, None)
  | as_in k k' : k ∈ tkids t -> k' ∈ tkids k -> leaf_in k' j -> assigned t j (tid k, Some (tid k')).

  Lemma mtop_spec (s : st) t k u n : state_ok C s t -> k ∈ tkids t -> subd C k u n ->
    forall ch fuel, n < fuel -> exists c', mtop C fuel (tid u) ch s = (Ok (tid k, c'), s) /\
      (n = 0 -> c' = ch) /\ (0 < n -> exists k', c' = Some (tid k') /\ k' ∈ tkids k /\ sub C u k').
  Proof.
    intros Hok Hk Hu. induction Hu as [|v w n Hv IH Hw]; intros ch fuel Hf; (destruct fuel as [|fuel]; [lia|]); cbn [mtop].
    - destruct (sub_parent C s t t k Hok (sub_refl _ _) Hk) as (nd & Hn & Hp).
      rewrite (mbind_ok C _ _ _ _ _ (mget_ok C _ s nd Hn)), Hp.
      destruct (root_parent C s t Hok) as (nr & Hnr & Hpr). rewrite (so_root _ _ _ Hok) in Hnr.
      rewrite (mbind_ok C _ _ _ _ _ (mget_ok C _ s nr Hnr)), Hpr. exists ch. split; [done|]. split; [done|lia].
    - assert (Hvt : sub C v t) by (eapply sub_trans; [by eapply subd_sub|]; eapply sub_kid_of; [apply sub_refl|done]).
      destruct (sub_parent C s t v w Hok Hvt Hw) as (nd & Hn & Hp).
      rewrite (mbind_ok C _ _ _ _ _ (mget_ok C _ s nd Hn)), Hp.
      assert (Hpv : exists nv q, st_heap s !! tid v = Some nv /\ nd_parent nv = Some q).
      { inversion Hv as [|v' ? n' Hv' Hw']; subst.
        - destruct (sub_parent C s t t v Hok (sub_refl _ _) Hk) as (nv & ? & ?). eauto.
        - assert (Hvt' : sub C v' t) by (eapply sub_trans; [by eapply subd_sub|]; eapply sub_kid_of; [apply sub_refl|done]).
          destruct (sub_parent C s t v' v Hok Hvt' Hw') as (nv & ? & ?). eauto. }
      destruct Hpv as (nv & q & Hnv & Hq). rewrite (mbind_ok C _ _ _ _ _ (mget_ok C _ s nv Hnv)), Hq.
      destruct (IH (Some (tid w)) fuel) as (c' & E & H0 & H1); [lia|]. exists c'. split; [done|]. split; [lia|].
      intros _. destruct (Nat.eq_dec n 0) as [->|Hn0].
      + exists w. split; [by apply H0|]. inversion Hv; subst. split; [done|]. apply sub_refl.
      + destruct H1 as (k' & -> & Hk' & Hs); [lia|]. exists k'. split; [done|]. split; [done|]. eapply sub_trans; [|exact Hs].
        destruct v. eapply sub_kid; [done|]. apply sub_refl.
  Qed.

  Lemma top_spec (s : st) t j : state_ok C s t -> leaf_in t j ->
    exists a, mbind C (mheap_size C) (fun k => mtop C (S k) j None) s = (Ok a, s) /\ assigned t j a.
  Proof.
    intros Hok Hj. unfold mbind at 1, mheap_size.
    destruct t as [id sm kids]. pose proof Hj as [[-> ->]|(k & Hk & tb & Hs)]%leaf_in_inv.
    - exists (id, None). cbn [mtop]. destruct (root_parent C s _ Hok) as (nr & Hnr & Hpr). rewrite (so_root _ _ _ Hok) in Hnr.
      rewrite (mbind_ok C _ _ _ _ _ (mget_ok C _ s nr Hnr)), Hpr. split; [done|]. by apply as_root.
    - destruct (sub_subd C _ _ Hs) as (n & Hn).
      destruct (mtop_spec s _ k _ n Hok Hk Hn None (S (size (st_heap s)))) as (c' & E & H0 & H1).
      { pose proof (subd_size _ _ _ _ Hn). pose proof (kid_size C k id sm kids Hk).
        pose proof (tsize_heap C _ _ _ (so_rep _ _ _ Hok) (so_nodup _ _ _ Hok)). lia. }
      exists (tid k, c'). split; [exact E|]. destruct (Nat.eq_dec n 0) as [->|Hn0].
      + rewrite H0 by done. inversion Hn; subst. eapply as_leaf; [exact Hk|done|done].
      + destruct H1 as (k' & -> & Hk' & Hs'); [lia|]. eapply as_in; [exact Hk|done|]. by exists tb.
  Qed.
  Lemma assign_spec (s : st) t temp : state_ok C s t -> Forall (leaf_in t) temp ->
    exists asg, assign C temp s = (Ok asg, s) /\ Forall2 (assigned t) temp asg.
  Proof.
    intros Hok. unfold assign. induction 1 as [|j l Hj Hl IH]; [by exists []|]. cbn [mmapM].
    destruct (top_spec s t j Hok Hj) as (a & Ea & Ha). destruct IH as (asg & E & HF).
    exists (a :: asg). split; [|by constructor]. rewrite (mbind_ok C _ _ _ _ _ Ea), (mbind_ok C _ _ _ _ _ E). done.
  Qed.

  (** ** Splitting a concept below the root *)
  Definition split_tree (t : tree) (k : tree) : tree :=
    T (tid t) (tsum t) (kremove (tid k) (tkids t) ++ tkids k).

  Lemma kid_found (t k : tree) : NoDup (ids t) -> k ∈ tkids t -> kfind (tid k) (tkids t) = Some k.
  Proof.
    destruct t as [id sm kids]. intros Hnd Hk. apply NoDup_kids in Hnd as [_ Hnd]. cbn [tkids] in *.
    destruct (kfind (tid k) kids) as [k'|] eqn:E.
    - apply kfind_split in E as (l1 & l2 & -> & Ht & _). f_equal.
      eapply (kids_disjoint C _ k' k (tid k) Hnd); [apply elem_of_app; right; left|done|rewrite <- Ht; apply tid_in_ids|apply tid_in_ids].
    - exfalso. apply kfind_None_notin in E. apply E. apply elem_of_list_fmap. eauto.
  Qed.

  Lemma split_spec (s : st) t k : state_ok C s t -> k ∈ tkids t ->
    exists s', mbind C (mroot C) (fun rt => msplit C rt (tid k)) s = (Ok tt, s') /\
      state_ok C s' (split_tree t k) /\ st_amb s' = st_amb s /\ st_ctx s' = st_ctx s.
  Proof.
    intros Hok Hk. pose proof (kid_found t k (so_nodup _ _ _ Hok) Hk) as Hf. destruct t as [id sm kids]. cbn [tkids] in *.
    destruct s as [h r a x]. destruct Hok as [Hr Hrt Hnd Hb]. cbn [st_heap st_root st_amb] in *. subst r.
    destruct (msplit_refines C h id a x None id sm kids (tid k) k Hr Hnd Hf) as (h' & E & _ & Hr').
    unfold mbind, mroot. cbn [st_root tid]. exists (St h' id a x). split; [exact E|]. split; [|done].
    pose proof (kremove_perm _ _ _ _ Hf) as Hp.
    assert (Hsub : forall j, j ∈ concat (map ids (kremove (tid k) kids ++ tkids k)) -> j ∈ concat (map ids kids)).
    { intros j. rewrite (concat_ids_perm _ _ _ Hp). rewrite concat_ids_app. destruct k as [i1 s1 ks1]. simpl.
      rewrite !elem_of_cons, !elem_of_app. clear rng. tauto. }
    unfold split_tree. cbn [tid tsum tkids]. split; cbn [st_heap st_root st_amb]; [done|done| |].
    - apply NoDup_kids in Hnd as [Hn1 Hn2]. apply NoDup_kids. split.
      { intros Hin. by apply Hn1, Hsub. }
      rewrite (concat_ids_perm _ _ _ Hp) in Hn2. rewrite concat_ids_app. destruct k as [i1 s1 ks1]. simpl in Hn2 |- *.
      apply NoDup_cons in Hn2 as [_ Hn2]. by rewrite (Permutation_app_comm (concat (map ids (kremove i1 kids)))).
    - intros j Hj. apply Hb. apply elem_of_cons in Hj as [->|Hj]; [left|]. right. by apply Hsub.
  Qed.

  Lemma split_kids t k k' : NoDup (ids t) -> k ∈ tkids t ->
    k' ∈ tkids (split_tree t k) <-> (k' ∈ tkids t /\ k' <> k) \/ k' ∈ tkids k.
  Proof.
    intros Hnd Hk. pose proof (kid_found t k Hnd Hk) as Hf. pose proof (kremove_perm _ _ _ _ Hf) as Hp.
    unfold split_tree. cbn [tkids]. rewrite elem_of_app. destruct t as [id sm kids]. cbn [tkids] in *.
    assert (Hn : k ∉ kremove (tid k) kids).
    { apply NoDup_kids in Hnd as [_ Hnd]. apply NoDup_tids in Hnd. rewrite Hp in Hnd. simpl in Hnd.
      apply NoDup_cons in Hnd as [Hnd _]. intros Hin. apply Hnd. apply elem_of_list_fmap. eauto. }
    split.
    - intros [Hi|Hi]; [left|by right]. split; [rewrite Hp; by right|]. by intros ->.
    - intros [[Hi Hne]|Hi]; [left|by right]. rewrite Hp in Hi. by apply elem_of_cons in Hi as [?|Hi].
  Qed.

  Lemma assigned_det t j a a' : NoDup (ids t) -> assigned t j a -> assigned t j a' -> a = a'.
  Proof.
    intros Hnd H1 H2. destruct t as [id sm kids]. apply NoDup_kids in Hnd as [Hn0 Hnd].
    assert (Hin : forall k, leaf_in k j -> j ∈ ids k). { intros k (tb & Hs). exact (sub_tid C _ _ Hs). }
    assert (Hkid : forall k k', k' ∈ tkids k -> leaf_in k' j -> j ∈ ids k).
    { intros [i0 s0 ks0] k' Hk' Hl. eapply ids_kid; [exact Hk'|by apply Hin]. }
    assert (Hself : forall k : tree, tid k = j -> j ∈ ids k). { intros k <-. apply tid_in_ids. }
    destruct H1 as [H11 H12|k1 Hk1 H11 H12|k1 k1' Hk1 H11 H12], H2 as [H21 H22|k2 Hk2 H21 H22|k2 k2' Hk2 H21 H22];
      cbn [tid tkids] in *; try done.
    - subst kids. by apply elem_of_nil in Hk2.
    - assert (k1 = k2) as -> by (eapply kids_disjoint; [exact Hnd|exact Hk1|exact Hk2|by apply Hself|by eapply Hkid]).
      rewrite H12 in H21. by apply elem_of_nil in H21.
    - rewrite H22 in Hk1. by apply elem_of_nil in Hk1.
    - assert (k1 = k2) as -> by (eapply kids_disjoint; [exact Hnd|exact Hk1|exact Hk2|by eapply Hkid|by apply Hself]).
      rewrite H22 in H11. by apply elem_of_nil in H11.
    - assert (k1 = k2) as -> by (eapply kids_disjoint; [exact Hnd|exact Hk1|exact Hk2|by eapply Hkid|by eapply Hkid]).
      apply (NoDup_in_kid C _ _ Hnd) in Hk1. destruct k2 as [i2 s2 ks2]. apply NoDup_kids in Hk1 as [_ Hnd2]. cbn [tkids] in *.
      assert (k1' = k2') as -> by (eapply kids_disjoint; [exact Hnd2|exact H11|exact H21|by apply Hin|by apply Hin]). done.
  Qed.

  (** What a split does to the assignment. *)
  Lemma split_assigned t k j a : NoDup (ids t) -> k ∈ tkids t -> tkids k <> [] -> assigned t j a ->
    (fst a <> tid k -> exists c, assigned (split_tree t k) j (fst a, c)) /\
    (fst a = tid k -> exists k', k' ∈ tkids k /\ snd a = Some (tid k') /\ leaf_in k' j /\
       exists c, assigned (split_tree t k) j (tid k', c)).
  Proof.
    intros Hnd Hk Hne Ha.
    assert (Huniq : forall k0, k0 ∈ tkids t -> tid k0 = tid k -> k0 = k).
    { intros k0 Hk0 E. pose proof (kid_found t k0 Hnd Hk0) as E0. rewrite E, (kid_found t k Hnd Hk) in E0. by injection E0. }
    assert (Hbelow : forall k', k' ∈ tkids (split_tree t k) -> leaf_in k' j -> exists c, assigned (split_tree t k) j (tid k', c)).
    { intros k' Hk' Hl. destruct k' as [i' s' ks']. apply leaf_in_inv in Hl as [[-> ->]|(k'' & Hk'' & Hl)].
      - exists None. cbn [tid]. by eapply as_leaf.
      - exists (Some (tid k'')). by eapply (as_in _ _ (T i' s' ks')). }
    destruct Ha as [H1 H2|k1 Hk1 H1 H2|k1 k1' Hk1 H1 H2]; cbn [fst snd].
    - rewrite H2 in Hk. by apply elem_of_nil in Hk.
    - split.
      + intros Hj. exists None. eapply as_leaf; [|exact H1|done]. apply split_kids; [done|done|]. left. split; [done|]. intros ->. done.
      + intros Hj. rewrite <- H1 in Hj. apply Huniq in Hj as ->; [|done]. done.
    - split.
      + intros Hj. exists (Some (tid k1')). eapply as_in; [|exact H1|done]. apply split_kids; [done|done|]. left.
        split; [done|]. by intros ->.
      + intros Hj. apply Huniq in Hj as ->; [|done]. exists k1'. split; [done|]. split; [done|]. split; [done|].
        apply Hbelow; [|done]. apply split_kids; [done|done|]. by right.
  Qed.
  Lemma split_leaf t k j : NoDup (ids t) -> k ∈ tkids t -> tkids k <> [] -> leaf_in t j -> leaf_in (split_tree t k) j.
  Proof.
    intros Hnd Hk Hne Hj.
    assert (H : exists k', k' ∈ tkids (split_tree t k) /\ leaf_in k' j).
    { destruct t as [id sm kids]. apply leaf_in_inv in Hj as [[-> _]|(k1 & Hk1 & Hj)]; [by apply elem_of_nil in Hk|].
      cbn [tkids] in *. setoid_rewrite (split_kids (T id sm kids) k); [|done|done]. cbn [tkids].
      assert (Hd : k1 = k \/ k1 <> k).
      { destruct (decide (tid k1 = tid k)) as [E|E]; [left|right; congruence].
        pose proof (kid_found (T id sm kids) k1 Hnd Hk1) as E0. rewrite E, (kid_found (T id sm kids) k Hnd Hk) in E0. by injection E0. }
      destruct Hd as [->|Hn]; [|eauto 6]. destruct k as [i1 s1 ks1]. apply leaf_in_inv in Hj as [[-> _]|(k2 & Hk2 & Hj)]; [done|eauto 6]. }
    destruct H as (k' & Hk' & Hl). unfold split_tree in *. by eapply leaf_in_kid.
  Qed.
End Facts.
