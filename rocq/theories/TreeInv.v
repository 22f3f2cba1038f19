(** * Invariants of the loop, by induction on [sorts]. *)
From stdpp Require Import base decidable list gmap strings.
From Verif Require Import Base Num TreeModel TreeFun TreeScore TreeRefine TreeSorts.

Section Inv.
  Context {N : NumOps} (C : NodeClass N).
  Notation S' := (nc_sum C).
  Notation I := (nc_inst C).
  Notation tree := (tree C).
  Notation sorts := (sorts C).

  (** ** Subtrees *)
  Inductive sub (u : tree) : tree -> Prop :=
  | sub_refl : sub u u
  | sub_kid id s kids k : k ∈ kids -> sub u k -> sub u (T id s kids).

  Lemma sub_inv u id s kids :
    sub u (T id s kids) -> u = T id s kids \/ exists k, k ∈ kids /\ sub u k.
  Proof. inversion 1; subst; eauto. Qed.

  Lemma sub_trans u v w : sub u v -> sub v w -> sub u w.
  Proof. intros H1 H2. induction H2; [done|]. by eapply sub_kid. Qed.

  Lemma sub_ids u t j : sub u t -> j ∈ ids u -> j ∈ ids t.
  Proof. induction 1; [done|]. intros Hj. eapply ids_kid; eauto. Qed.

  Lemma sub_tid u t : sub u t -> tid u ∈ ids t.
  Proof. intros H. eapply sub_ids; [done|]. apply tid_in_ids. Qed.

  Lemma ids_sub t j : j ∈ ids t -> exists u, sub u t /\ tid u = j.
  Proof.
    induction t as [id s kids IH] using (tree_ind' C). intros Hj.
    apply elem_of_cons in Hj as [->|Hj].
    { eexists. split; [apply sub_refl|done]. }
    apply elem_of_ids_kids in Hj as (k & Hk & Hj).
    rewrite Forall_forall in IH. destruct (IH k Hk Hj) as (u & Hu & Ht).
    exists u. split; [|done]. by eapply sub_kid.
  Qed.

  Lemma kids_disjoint (kids : list tree) k1 k2 j :
    NoDup (concat (map ids kids)) -> k1 ∈ kids -> k2 ∈ kids ->
    j ∈ ids k1 -> j ∈ ids k2 -> k1 = k2.
  Proof.
    intros Hnd H1 H2 Hj1 Hj2.
    apply elem_of_list_split in H1 as (l1 & l2 & ->).
    apply NoDup_kid in Hnd as (_ & Hd & _). destruct (Hd j Hj1) as [Ha Hb].
    apply elem_of_app in H2 as [H2|H2].
    - exfalso. apply Ha, elem_of_ids_kids. eauto.
    - apply elem_of_cons in H2 as [->|H2]; [done|].
      exfalso. apply Hb, elem_of_ids_kids. eauto.
  Qed.

  Lemma NoDup_in_kid (kids : list tree) k :
    NoDup (concat (map ids kids)) -> k ∈ kids -> NoDup (ids k).
  Proof.
    intros Hnd (l1 & l2 & ->)%elem_of_list_split. by apply NoDup_kid in Hnd as [? _].
  Qed.

  (** With distinct ids a subtree is determined by its root id. *)
  Lemma sub_unique t : forall u v, NoDup (ids t) -> sub u t -> sub v t -> tid u = tid v -> u = v.
  Proof.
    induction t as [id s kids IH] using (tree_ind' C). intros u v Hnd Hu Hv E.
    apply NoDup_kids in Hnd as [Hni Hnd].
    apply sub_inv in Hu as [->|(k1 & Hk1 & Hu)]; apply sub_inv in Hv as [->|(k2 & Hk2 & Hv)].
    - done.
    - exfalso. apply Hni, elem_of_ids_kids. exists k2. split; [done|].
      simpl in E. rewrite E. by apply sub_tid.
    - exfalso. apply Hni, elem_of_ids_kids. exists k1. split; [done|].
      simpl in E. rewrite <- E. by apply sub_tid.
    - assert (k1 = k2) as ->.
      { eapply kids_disjoint; eauto; [by apply sub_tid|]. rewrite E. by apply sub_tid. }
      rewrite Forall_forall in IH. eapply IH; eauto. by eapply NoDup_in_kid.
  Qed.

  (** ** Ids *)
  Lemma concat_ids_perm_cons (kids : list tree) k rest :
    Permutation kids (k :: rest) ->
    Permutation (concat (map ids kids)) (ids k ++ concat (map ids rest)).
  Proof. intros H. by rewrite (concat_ids_perm _ _ _ H). Qed.

  Lemma sorts_ids i c t t' mv r :
    sorts i c t t' mv r -> NoDup (ids t) -> (forall j, j ∈ ids t -> j <= c) ->
    NoDup (ids t') /\ (forall j, j ∈ ids t' -> j ∈ ids t \/ c < j) /\
    (mv = false -> tid t' = tid t) /\ (mv = true -> tkids t = [] /\ c < tid t') /\
    (forall j, r = Ok j -> j ∈ ids t').
  Proof.
    induction 1 as [c t e|c id s s' b|c id s s0 s1 s2 m n ? ? ? ? ? Hcm Hmn
      |c c' id s s' kids k rest t' mv r kids' Hinc Hp Hc Hs IH Hp'
      |c id s s' s2 kids n Hne Hinc Hinc2 Hn
      |c m s0 sm id s s' kids k1 k2 rest t' mv r kids' Hinc Hp Hne Ha Hb0 Hm Hs IH Hp'
      |c c' id s kids k rest kids1 t' mv r Hp Hne Hp1 Hc Hs IH]; intros Hnd Hb.
    - repeat split; auto; done.
    - repeat split; auto; try done. intros j [= <-]. left.
    - assert (id <= c) by (apply Hb; left). simpl.
      split; [|split; [|split; [|split]]].
      + repeat apply NoDup_cons_2; rewrite ?elem_of_cons, ?elem_of_nil.
        * lia.
        * lia.
        * tauto.
        * apply NoDup_nil_2.
      + intros j. rewrite !elem_of_cons, elem_of_nil.
        intros [->|[->|[->|[]]]]; [lia|by do 2 left|lia].
      + done.
      + intros _. split; [done|lia].
      + intros j [= <-]. do 2 right. left.
    - apply NoDup_kids in Hnd as [Hni Hnd].
      pose proof (concat_ids_perm_cons _ _ _ Hp) as Hq.
      pose proof (concat_ids_perm_cons _ _ _ Hp') as Hq'.
      rewrite Hq in Hni, Hnd. rewrite not_elem_of_app in Hni. destruct Hni as [Hni1 Hni2].
      apply NoDup_app in Hnd as (Hnd1 & Hd & Hnd2).
      destruct IH as (I1 & I2 & I3 & _ & I4); [done| |].
      { intros j Hj. etrans; [apply Hb|done]. right. rewrite Hq. apply elem_of_app. by left. }
      assert (id <= c) by (apply Hb; left).
      split; [|split; [|split; [done|split; [done|]]]].
      + apply NoDup_kids. rewrite Hq'. split.
        * rewrite not_elem_of_app. split; [|done]. intros Hin.
          destruct (I2 _ Hin); [done|lia].
        * apply NoDup_app. split; [done|]. split; [|done]. intros j Hj Hj'.
          destruct (I2 _ Hj) as [Hk|Hk]; [by eapply Hd|].
          assert (j <= c); [|lia]. apply Hb. right. rewrite Hq. apply elem_of_app. by right.
      + intros j Hj. apply elem_of_cons in Hj as [->|Hj]; [left; left|].
        rewrite Hq' in Hj. apply elem_of_app in Hj as [Hj|Hj].
        * destruct (I2 _ Hj) as [Hk|Hk]; [|right; lia]. left. right. rewrite Hq.
          apply elem_of_app. by left.
        * left. right. rewrite Hq. apply elem_of_app. by right.
      + intros j Hj. right. rewrite Hq'. apply elem_of_app. left. auto.
    - assert (Hfresh : n ∉ ids (T id s kids)).
      { intros Hin. specialize (Hb _ Hin). lia. }
      split; [|split; [|split; [done|split; [done|]]]].
      + change (NoDup (id :: concat (map ids (kids ++ [T n s2 []])))).
        rewrite concat_ids_app. simpl.
        change (NoDup (ids (T id s kids) ++ [n])).
        apply NoDup_app. split; [done|]. split; [|apply NoDup_singleton].
        intros j Hj ->%elem_of_list_singleton. done.
      + intros j Hj. change (j ∈ id :: concat (map ids (kids ++ [T n s2 []]))) in Hj.
        rewrite concat_ids_app in Hj. simpl in Hj.
        change (j ∈ ids (T id s kids) ++ [n]) in Hj.
        apply elem_of_app in Hj as [Hj|Hj]; [by left|].
        apply elem_of_list_singleton in Hj as ->. by right.
      + intros j [= <-]. change (n ∈ id :: concat (map ids (kids ++ [T n s2 []]))).
        right. rewrite concat_ids_app. simpl. apply elem_of_app. right. left.
    - apply NoDup_kids in Hnd as [Hni Hnd].
      assert (Hq : Permutation (concat (map ids kids))
                     (ids k1 ++ ids k2 ++ concat (map ids rest))).
      { by rewrite (concat_ids_perm _ _ _ Hp). }
      pose proof (concat_ids_perm_cons _ _ _ Hp') as Hq'.
      rewrite Hq in Hni, Hnd. rewrite (assoc_L (++)) in Hnd.
      rewrite !not_elem_of_app in Hni. destruct Hni as (Hni1 & Hni2 & Hni3).
      apply NoDup_app in Hnd as (Hnd1 & Hd & Hnd2).
      assert (Hb' : forall j, j ∈ ids k1 ++ ids k2 ++ concat (map ids rest) -> j <= c).
      { intros j Hj. apply Hb. right. by rewrite Hq. }
      assert (Hmids : ids (T m sm [k1; k2]) = m :: ids k1 ++ ids k2).
      { simpl. by rewrite app_nil_r. }
      rewrite Hmids in IH.
      destruct IH as (I1 & I2 & I3 & _ & I4).
      { apply NoDup_cons. split; [|done]. intros Hin. assert (m <= c); [|lia].
        apply Hb'. rewrite (assoc_L (++)). apply elem_of_app. by left. }
      { intros j Hj. apply elem_of_cons in Hj as [->|Hj]; [done|].
        assert (j <= c); [|lia]. apply Hb'. rewrite (assoc_L (++)). apply elem_of_app. by left. }
      assert (id <= c) by (apply Hb; left).
      assert (I2' : forall j, j ∈ ids t' -> j ∈ ids k1 ++ ids k2 \/ c < j).
      { intros j Hj. destruct (I2 _ Hj) as [Hk|Hk]; [|right; lia].
        apply elem_of_cons in Hk as [->|Hk]; [by right|by left]. }
      split; [|split; [|split; [done|split; [done|]]]].
      + apply NoDup_kids. rewrite Hq'. split.
        * rewrite not_elem_of_app. split; [|done]. intros Hin.
          destruct (I2' _ Hin) as [Hk|]; [|lia].
          apply elem_of_app in Hk as [?|?]; done.
        * apply NoDup_app. split; [done|]. split; [|done]. intros j Hj Hj'.
          destruct (I2' _ Hj) as [Hk|Hk]; [by eapply Hd|].
          assert (j <= c); [|lia]. apply Hb'. rewrite !elem_of_app. auto.
      + intros j Hj. apply elem_of_cons in Hj as [->|Hj]; [left; left|].
        rewrite Hq' in Hj. apply elem_of_app in Hj as [Hj|Hj].
        * destruct (I2' _ Hj) as [Hk|Hk]; [|right; lia]. left. right. rewrite Hq.
          rewrite (assoc_L (++)). apply elem_of_app. by left.
        * left. right. rewrite Hq. rewrite !elem_of_app. auto.
      + intros j Hj. right. rewrite Hq'. apply elem_of_app. left. auto.
    - assert (Hsub : forall j, j ∈ concat (map ids kids1) -> j ∈ concat (map ids kids)).
      { intros j. rewrite (concat_ids_perm _ _ _ Hp), (concat_ids_perm _ _ _ Hp1).
        rewrite concat_ids_app. destruct k as [i1 s1 ks1]. simpl.
        rewrite !elem_of_cons, !elem_of_app. tauto. }
      destruct IH as (I1 & I2 & I3 & I5 & I4).
      { apply NoDup_kids in Hnd as [Hn1 Hn2]. apply NoDup_kids. split.
        { intros Hin. by apply Hn1, Hsub. }
        rewrite (concat_ids_perm _ _ _ Hp) in Hn2. rewrite (concat_ids_perm _ _ _ Hp1).
        rewrite concat_ids_app. destruct k as [i1 s1 ks1]. simpl in Hn2 |- *.
        apply NoDup_cons in Hn2 as [_ Hn2].
        by rewrite (Permutation_app_comm (concat (map ids rest))). }
      { intros j Hj. etrans; [apply Hb|done]. apply elem_of_cons in Hj as [->|Hj]; [left|].
        right. by apply Hsub. }
      split; [done|]. split; [|split; [done|split; [|done]]].
      + intros j Hj. destruct (I2 _ Hj) as [Hk|Hk]; [|right; lia]. left.
        apply elem_of_cons in Hk as [->|Hk]; [left|]. right. by apply Hsub.
      + intros Hmv. destruct (I5 Hmv) as [Hk _]. simpl in Hk. subst kids1.
        apply Permutation_nil in Hp1. apply app_eq_nil in Hp1 as [_ ?]. done.
  Qed.

  (** ** C09: only the path to the returned leaf changes. *)
  Theorem sorts_path i c t t' mv j :
    sorts i c t t' mv (Ok j) -> NoDup (ids t) -> (forall j, j ∈ ids t -> j <= c) ->
    forall u', sub u' t' ->
      (j ∈ ids u' /\
       (c < tid u' \/ exists u, sub u t /\ tid u = tid u' /\
                                nc_inc C (tsum u) i = (tsum u', None))) \/
      (j ∉ ids u' /\ sub u' t).
  Proof.
    remember (Ok j) as r eqn:Er. intros H. revert Er.
    induction H as [c t e|c id s s' b Hex Hc Hinc|c id s s0 s1 s2 m n ? ? ? ? ? Hcm Hmn
      |c c' id s s' kids k rest t' mv r kids' Hinc Hp Hc Hs IH Hp'
      |c id s s' s2 kids n Hne Hinc Hinc2 Hn
      |c m s0 sm id s s' kids k1 k2 rest t' mv r kids' Hinc Hp Hne Ha Hb0 Hm Hs IH Hp'
      |c c' id s kids k rest kids1 t' mv r Hp Hne Hp1 Hc Hs IH]; intros Er Hnd Hb u' Hu'.
    - done.
    - injection Er as ->. apply sub_inv in Hu' as [->|(k & Hk & _)]; [|inversion Hk].
      left. split; [left|]. right. exists (T j s []). split; [apply sub_refl|done].
    - injection Er as ->. assert (id <= c) by (apply Hb; left).
      apply sub_inv in Hu' as [->|(k & Hk & Hu')].
      { left. split; [do 2 right; left|]. left. done. }
      apply elem_of_cons in Hk as [->|Hk].
      { apply sub_inv in Hu' as [->|(k & Hk & _)]; [|inversion Hk].
        right. split; [|apply sub_refl]. simpl. rewrite elem_of_list_singleton. lia. }
      apply elem_of_list_singleton in Hk as ->.
      apply sub_inv in Hu' as [->|(k & Hk & _)]; [|inversion Hk].
      left. split; [left|]. left. simpl. lia.
    - assert (Hbk : forall j0, j0 ∈ ids k -> j0 <= c').
      { intros j0 Hj0. etrans; [apply Hb|done]. eapply ids_kid; [|done]. rewrite Hp. left. }
      pose proof (proj1 (NoDup_kids _ _ _ _) Hnd) as [Hni Hndk].
      assert (Hndk1 : NoDup (ids k)).
      { eapply NoDup_in_kid; [exact Hndk|]. rewrite Hp. left. }
      destruct (sorts_ids _ _ _ _ _ _ Hs Hndk1 Hbk) as (_ & I2 & _ & _ & I4).
      specialize (I4 _ Er).
      apply sub_inv in Hu' as [->|(k' & Hk' & Hu')].
      { left. split.
        - right. apply elem_of_ids_kids. exists t'. split; [|done]. rewrite Hp'. left.
        - right. exists (T id s kids). split; [apply sub_refl|done]. }
      rewrite Hp' in Hk'. apply elem_of_cons in Hk' as [->|Hk'].
      + destruct (IH Er Hndk1 Hbk u' Hu') as [[Hj [Hn|(u & Hu & Ht & Hi)]]|[Hj Hu]].
        * left. split; [done|]. left. lia.
        * left. split; [done|]. right. exists u. split; [|done].
          eapply sub_kid; [|done]. rewrite Hp. left.
        * right. split; [done|]. eapply sub_kid; [|done]. rewrite Hp. left.
      + right. split.
        * intros Hj. pose proof (sub_ids _ _ _ Hu' Hj) as Hjk'.
          destruct (I2 _ I4) as [Hjk|Hjc].
          -- pose proof (concat_ids_perm_cons _ _ _ Hp) as Hq. rewrite Hq in Hndk.
             apply NoDup_app in Hndk as (_ & Hd & _). apply (Hd _ Hjk).
             apply elem_of_ids_kids. eauto.
          -- assert (j <= c); [|lia]. apply Hb. eapply ids_kid; [|done]. rewrite Hp. by right.
        * eapply sub_kid; [|done]. rewrite Hp. by right.
    - injection Er as ->.
      assert (Hjni : j ∉ ids (T id s kids)).
      { intros Hin. specialize (Hb _ Hin). lia. }
      apply sub_inv in Hu' as [->|(k' & Hk' & Hu')].
      { left. split.
        - change (j ∈ id :: concat (map ids (kids ++ [T j s2 []]))).
          right. rewrite concat_ids_app. simpl. apply elem_of_app. right. left.
        - right. exists (T id s kids). split; [apply sub_refl|done]. }
      apply elem_of_app in Hk' as [Hk'|Hk'].
      + right. split.
        * intros Hj. apply Hjni. eapply ids_kid; [done|]. by eapply sub_ids.
        * by eapply sub_kid.
      + apply elem_of_list_singleton in Hk' as ->.
        apply sub_inv in Hu' as [->|(k & Hk & _)]; [|inversion Hk].
        left. split; [left|]. by left.
    - assert (Hk1in : k1 ∈ kids) by (rewrite Hp; left).
      assert (Hk2in : k2 ∈ kids) by (rewrite Hp; right; left).
      assert (Hbk : forall j0, j0 ∈ ids (T m sm [k1; k2]) -> j0 <= m).
      { intros j0 Hj0. simpl in Hj0. rewrite app_nil_r in Hj0.
        rewrite elem_of_cons, elem_of_app in Hj0.
        destruct Hj0 as [->|[Hj0|Hj0]]; [done| |];
          (etrans; [apply Hb; eapply ids_kid; [|exact Hj0]; done|lia]). }
      pose proof (proj1 (NoDup_kids _ _ _ _) Hnd) as [Hni Hndk].
      assert (Hq : Permutation (concat (map ids kids))
                     ((ids k1 ++ ids k2) ++ concat (map ids rest))).
      { rewrite <- (assoc_L (++)). by rewrite (concat_ids_perm _ _ _ Hp). }
      assert (Hndm : NoDup (ids (T m sm [k1; k2]))).
      { simpl. rewrite app_nil_r. apply NoDup_cons. rewrite Hq in Hndk.
        apply NoDup_app in Hndk as (? & _). split; [|done]. rewrite elem_of_app.
        intros [Hin|Hin]; (assert (m <= c); [apply Hb; eapply ids_kid; [|exact Hin]; done|lia]). }
      destruct (sorts_ids _ _ _ _ _ _ Hs Hndm Hbk) as (I1 & I2 & I3 & I5 & I4).
      specialize (I4 _ Er).
      apply sub_inv in Hu' as [->|(k' & Hk' & Hu')].
      { left. split.
        - right. apply elem_of_ids_kids. exists t'. split; [|done]. rewrite Hp'. left.
        - right. exists (T id s kids). split; [apply sub_refl|done]. }
      rewrite Hp' in Hk'. apply elem_of_cons in Hk' as [->|Hk'].
      + destruct (IH Er Hndm Hbk u' Hu') as [[Hj [Hn|(u & Hu & Ht & Hi)]]|[Hj Hu]].
        * left. split; [done|]. left. lia.
        * left. split; [done|].
          apply sub_inv in Hu as [->|(k & Hk & Hu)]; [left; simpl in Ht; lia|].
          right. exists u. split; [|done]. eapply sub_kid; [|done].
          apply elem_of_cons in Hk as [->|Hk]; [done|].
          by apply elem_of_list_singleton in Hk as ->.
        * right. split; [done|].
          apply sub_inv in Hu as [->|(k & Hk & Hu)].
          -- exfalso. assert (Ht : tid t' = m).
             { destruct mv; [|by apply I3]. by destruct (I5 eq_refl). }
             assert (T m sm [k1; k2] = t') as <-; [|done].
             eapply sub_unique; [exact I1|done|apply sub_refl|]. done.
          -- eapply sub_kid; [|done].
             apply elem_of_cons in Hk as [->|Hk]; [done|].
             by apply elem_of_list_singleton in Hk as ->.
      + right. assert (k' ∈ kids) by (rewrite Hp; do 2 right; done). split.
        * intros Hj. pose proof (sub_ids _ _ _ Hu' Hj) as Hjk'.
          assert (j <= c) by (apply Hb; by eapply ids_kid).
          destruct (I2 _ I4) as [Hjk|Hjc]; [|lia].
          simpl in Hjk. rewrite app_nil_r in Hjk.
          apply elem_of_cons in Hjk as [->|Hjk]; [lia|].
          rewrite Hq in Hndk.
          apply NoDup_app in Hndk as (_ & Hd & _). apply (Hd _ Hjk).
          apply elem_of_ids_kids. eauto.
        * by eapply sub_kid.
    - assert (Hsub : forall j, j ∈ concat (map ids kids1) -> j ∈ concat (map ids kids)).
      { intros j0. rewrite (concat_ids_perm _ _ _ Hp), (concat_ids_perm _ _ _ Hp1).
        rewrite concat_ids_app. destruct k as [i1 s1 ks1]. simpl.
        rewrite !elem_of_cons, !elem_of_app. tauto. }
      assert (Hnd1 : NoDup (ids (T id s kids1))).
      { apply NoDup_kids in Hnd as [Hn1 Hn2]. apply NoDup_kids. split.
        { intros Hin. by apply Hn1, Hsub. }
        rewrite (concat_ids_perm _ _ _ Hp) in Hn2. rewrite (concat_ids_perm _ _ _ Hp1).
        rewrite concat_ids_app. destruct k as [i1 s1 ks1]. simpl in Hn2 |- *.
        apply NoDup_cons in Hn2 as [_ Hn2].
        by rewrite (Permutation_app_comm (concat (map ids rest))). }
      assert (Hb1 : forall j0, j0 ∈ ids (T id s kids1) -> j0 <= c').
      { intros j0 Hj. etrans; [apply Hb|done]. apply elem_of_cons in Hj as [->|Hj]; [left|].
        right. by apply Hsub. }
      assert (Hlift : forall u, sub u (T id s kids1) -> u = T id s kids1 \/ sub u (T id s kids)).
      { intros u [->|(k' & Hk' & Hu)]%sub_inv; [by left|]. right.
        rewrite Hp1 in Hk'. apply elem_of_app in Hk' as [Hk'|Hk'].
        - eapply sub_kid; [|done]. rewrite Hp. by right.
        - eapply sub_kid; [rewrite Hp; left|]. destruct k. by eapply sub_kid. }
      destruct (sorts_ids _ _ _ _ _ _ Hs Hnd1 Hb1) as (I1 & I2 & I3 & I5 & I4).
      specialize (I4 _ Er).
      destruct (IH Er Hnd1 Hb1 u' Hu') as [[Hj [Hn|(u & Hu & Ht & Hi)]]|[Hj Hu]].
      + left. split; [done|]. left. lia.
      + left. split; [done|]. right. destruct (Hlift u Hu) as [->|Hu2].
        * exists (T id s kids). split; [apply sub_refl|done].
        * exists u. done.
      + right. split; [done|]. destruct (Hlift u' Hu) as [->|Hu2]; [|done].
        exfalso. assert (Ht : tid t' = id).
        { destruct mv; [|by apply I3]. destruct (I5 eq_refl) as [Hk _]. simpl in Hk.
          subst kids1. apply Permutation_nil, app_eq_nil in Hp1 as [_ ?]. done. }
        assert (T id s kids1 = t') as <-; [|done].
        eapply sub_unique; [exact I1|done|apply sub_refl|]. done.
  Qed.

  (** Surviving and disappearing concepts: only split removes a concept, and
      it is never a leaf. *)
  Theorem sorts_survive i c t t' mv r :
    sorts i c t t' mv r ->
    forall u, sub u t -> tkids u <> [] \/ exists u', sub u' t' /\ tid u' = tid u.
  Proof.
    induction 1 as [c t e|c id s s' b Hex Hc Hinc|c id s s0 s1 s2 m n ? ? ? ? ? Hcm Hmn
      |c c' id s s' kids k rest t' mv r kids' Hinc Hp Hc Hs IH Hp'
      |c id s s' s2 kids n Hne Hinc Hinc2 Hn
      |c m s0 sm id s s' kids k1 k2 rest t' mv r kids' Hinc Hp Hne Ha Hb0 Hm Hs IH Hp'
      |c c' id s kids k rest kids1 t' mv r Hp Hne Hp1 Hc Hs IH]; intros u Hu.
    - right. eauto.
    - right. apply sub_inv in Hu as [->|(k & Hk & _)]; [|inversion Hk].
      eexists. split; [apply sub_refl|done].
    - right. apply sub_inv in Hu as [->|(k & Hk & _)]; [|inversion Hk].
      eexists. split; [eapply sub_kid; [left|apply sub_refl]|done].
    - apply sub_inv in Hu as [->|(k' & Hk & Hu)].
      { right. eexists. split; [apply sub_refl|done]. }
      rewrite Hp in Hk. apply elem_of_cons in Hk as [->|Hk].
      + destruct (IH u Hu) as [?|(u' & Hu' & Ht)]; [by left|]. right. exists u'.
        split; [|done]. eapply sub_kid; [|done]. rewrite Hp'. left.
      + right. exists u. split; [|done]. eapply sub_kid; [|done]. rewrite Hp'. by right.
    - apply sub_inv in Hu as [->|(k' & Hk & Hu)].
      { right. eexists. split; [apply sub_refl|done]. }
      right. exists u. split; [|done]. eapply sub_kid; [|done]. apply elem_of_app. by left.
    - apply sub_inv in Hu as [->|(k' & Hk & Hu)].
      { right. eexists. split; [apply sub_refl|done]. }
      rewrite Hp in Hk.
      assert (Hc : k' ∈ [k1; k2] \/ k' ∈ rest).
      { rewrite !elem_of_cons in Hk |- *. rewrite elem_of_nil. tauto. }
      destruct Hc as [Hk'|Hk'].
      + destruct (IH u) as [?|(u' & Hu' & Ht)]; [by eapply sub_kid|by left|].
        right. exists u'. split; [|done]. eapply sub_kid; [|done]. rewrite Hp'. left.
      + right. exists u. split; [|done]. eapply sub_kid; [|done]. rewrite Hp'. by right.
    - apply sub_inv in Hu as [->|(k' & Hk' & Hu)].
      { left. simpl. intros ->. by apply Permutation_nil in Hp. }
      rewrite Hp in Hk'. apply elem_of_cons in Hk' as [->|Hk'].
      + destruct k as [ik sk ks]. apply sub_inv in Hu as [->|(k' & Hk' & Hu)]; [by left|].
        apply IH. eapply sub_kid; [|done]. rewrite Hp1. apply elem_of_app. by right.
      + apply IH. eapply sub_kid; [|done]. rewrite Hp1. apply elem_of_app. by left.
  Qed.

  (** ** C07: leaves persist. *)
  Theorem sorts_leaves i c t t' mv r :
    sorts i c t t' mv r ->
    forall id s, sub (T id s []) t ->
      sub (T id s []) t' \/
      (r = Ok id /\ exists s' b, nc_inc C s i = (s', None) /\ sub (T id s' []) t' /\
                 nc_exact C s i = Ok b /\ (b = true \/ nc_count C s = 0)).
  Proof.
    induction 1 as [c t e|c id s s' b Hex Hc Hinc|c id s s0 s1 s2 m n ? ? ? ? ? Hcm Hmn
      |c c' id s s' kids k rest t' mv r kids' Hinc Hp Hc Hs IH Hp'
      |c id s s' s2 kids n Hne Hinc Hinc2 Hn
      |c m s0 sm id s s' kids k1 k2 rest t' mv r kids' Hinc Hp Hne Ha Hb0 Hm Hs IH Hp'
      |c c' id s kids k rest kids1 t' mv r Hp Hne Hp1 Hc Hs IH]; intros lid ls Hu.
    - by left.
    - apply sub_inv in Hu as [E|(k & Hk & _)]; [|inversion Hk].
      injection E as -> ->. right. split; [done|]. exists s', b.
      repeat split; try done. apply sub_refl.
    - apply sub_inv in Hu as [E|(k & Hk & _)]; [|inversion Hk]. injection E as -> ->.
      left. eapply sub_kid; [left|apply sub_refl].
    - apply sub_inv in Hu as [E|(k' & Hk & Hu)].
      { injection E as -> -> <-. by apply Permutation_nil in Hp. }
      rewrite Hp in Hk. apply elem_of_cons in Hk as [->|Hk].
      + destruct (IH _ _ Hu) as [Hl|(Hr & s2 & b & H1 & H2 & H3 & H4)].
        * left. eapply sub_kid; [|done]. rewrite Hp'. left.
        * right. split; [done|]. exists s2, b. repeat split; try done.
          eapply sub_kid; [|done]. rewrite Hp'. left.
      + left. eapply sub_kid; [|done]. rewrite Hp'. by right.
    - apply sub_inv in Hu as [E|(k' & Hk & Hu)].
      { injection E as -> -> <-. done. }
      left. eapply sub_kid; [|done]. apply elem_of_app. by left.
    - apply sub_inv in Hu as [E|(k' & Hk & Hu)].
      { injection E as -> -> <-. by apply Permutation_nil in Hp. }
      rewrite Hp in Hk.
      assert (Hc : k' ∈ [k1; k2] \/ k' ∈ rest).
      { rewrite !elem_of_cons in Hk |- *. rewrite elem_of_nil. tauto. }
      destruct Hc as [Hk'|Hk'].
      + destruct (IH lid ls) as [Hl|(Hr & s2 & b & H1 & H2 & H3 & H4)]; [by eapply sub_kid| |].
        * left. eapply sub_kid; [|done]. rewrite Hp'. left.
        * right. split; [done|]. exists s2, b. repeat split; try done.
          eapply sub_kid; [|done]. rewrite Hp'. left.
      + left. eapply sub_kid; [|done]. rewrite Hp'. by right.
    - apply sub_inv in Hu as [E|(k' & Hk' & Hu)].
      { injection E as -> -> <-. by apply Permutation_nil in Hp. }
      rewrite Hp in Hk'. apply elem_of_cons in Hk' as [->|Hk'].
      + destruct k as [ik sk ks]. apply sub_inv in Hu as [E|(k' & Hk' & Hu)].
        { by injection E as -> -> <-. }
        apply IH. eapply sub_kid; [|done]. rewrite Hp1. apply elem_of_app. by right.
      + apply IH. eapply sub_kid; [|done]. rewrite Hp1. apply elem_of_app. by left.
  Qed.

  (** ** Every concept with children has at least two. *)
  Inductive branchy : tree -> Prop :=
  | br_intro id s kids :
      (kids = [] \/ 2 <= length kids) -> Forall branchy kids -> branchy (T id s kids).

  Lemma branchy_inv id s kids :
    branchy (T id s kids) <-> (kids = [] \/ 2 <= length kids) /\ Forall branchy kids.
  Proof. split; [inversion 1; done|]. intros [? ?]. by constructor. Qed.

  Theorem sorts_branchy i c t t' mv r :
    sorts i c t t' mv r -> branchy t -> branchy t'.
  Proof.
    induction 1 as [c t e|c id s s' b Hex Hc Hinc|c id s s0 s1 s2 m n ? ? ? ? ? Hcm Hmn
      |c c' id s s' kids k rest t' mv r kids' Hinc Hp Hc Hs IH Hp'
      |c id s s' s2 kids n Hne Hinc Hinc2 Hn
      |c m s0 sm id s s' kids k1 k2 rest t' mv r kids' Hinc Hp Hne Ha Hb0 Hm Hs IH Hp'
      |c c' id s kids k rest kids1 t' mv r Hp Hne Hp1 Hc Hs IH]; intros Hbr.
    - done.
    - constructor; [by left|constructor].
    - constructor; [by right|]. repeat constructor; by left.
    - apply branchy_inv in Hbr as [Hl Hk]. rewrite Hp in Hk.
      apply Forall_cons in Hk as [Hk Hrest]. constructor.
      + right. apply Permutation_length in Hp, Hp'. simpl in *.
        destruct Hl as [->|Hl]; simpl in *; lia.
      + rewrite Hp'. apply Forall_cons. auto.
    - apply branchy_inv in Hbr as [Hl Hk]. constructor.
      + right. rewrite app_length. simpl. destruct Hl as [->|Hl]; [done|lia].
      + apply Forall_app. split; [done|]. apply Forall_singleton. constructor; [by left|constructor].
    - apply branchy_inv in Hbr as [Hl Hk]. rewrite Hp in Hk.
      apply Forall_cons in Hk as [Hk1 Hk]. apply Forall_cons in Hk as [Hk2 Hrest]. constructor.
      + right. apply Permutation_length in Hp'. rewrite Hp'. destruct rest; simpl; [done|lia].
      + rewrite Hp'. apply Forall_cons. split; [|done]. apply IH. constructor; [by right|].
        repeat constructor; done.
    - apply branchy_inv in Hbr as [Hl Hk]. apply IH. rewrite Hp in Hk.
      apply Forall_cons in Hk as [Hk Hrest]. destruct k as [ik sk ks].
      apply branchy_inv in Hk as [Hl' Hk]. simpl in *. constructor.
      + right. apply Permutation_length in Hp1. rewrite Hp1, app_length.
        destruct Hl' as [->|Hl']; [done|lia].
      + rewrite Hp1. apply Forall_app. done.
  Qed.

  (** ** Tables summarise instances. *)
  Section Summ.
    (** [Summ s l]: the table [s] summarises the instances [l];
        [Leaf l]: the instances [l] may share a leaf. *)
    Variable Summ : S' -> list I -> Prop.
    Variable Leaf : list I -> Prop.
    Variable Good : I -> Prop.

    Record summ_laws : Prop := {
      sl_perm : forall s l l', Summ s l -> Permutation l l' -> Summ s l';
      sl_empty : Summ (nc_empty C) [];
      sl_count : forall s l, Summ s l -> nc_count C s = length l;
      sl_inc : forall s l i, Summ s l -> Good i ->
        exists s', nc_inc C s i = (s', None) /\ Summ s' (i :: l);
      sl_add : forall s1 s2 l1 l2, Summ s1 l1 -> Summ s2 l2 ->
        exists s', nc_add C s1 s2 = (s', None) /\ Summ s' (l1 ++ l2);
      sl_leaf_perm : forall l l', Leaf l -> Permutation l l' -> Leaf l';
      sl_leaf_nil : Leaf [];
      sl_leaf_one : forall i, Good i -> Leaf [i];
      sl_leaf_exact : forall s l i, Summ s l -> Leaf l -> Good i ->
        nc_exact C s i = Ok true -> Leaf (i :: l);
    }.
    Hypothesis L : summ_laws.

    (** [tinv t l]: the leaves of [t] share out the instances [l], every table
        summarises the instances below it, every concept with children has at
        least two, and no child is empty. *)
    Inductive tinv : tree -> list I -> Prop :=
    | ti_leaf id s l : Summ s l -> Leaf l -> tinv (T id s []) l
    | ti_node id s kids ls l :
        2 <= length kids ->
        Forall2 tinv kids ls -> Forall (fun l => l <> []) ls ->
        Permutation l (concat ls) -> Summ s l ->
        tinv (T id s kids) l.

    Lemma tinv_summ t l : tinv t l -> Summ (tsum t) l.
    Proof. destruct 1; done. Qed.

    Lemma tinv_perm t l l' : tinv t l -> Permutation l l' -> tinv t l'.
    Proof.
      destruct 1 as [id s l Hs Hl|id s kids ls l H2 Hk Hne Hp Hs]; intros Hq.
      - constructor; [by eapply sl_perm|by eapply sl_leaf_perm].
      - eapply ti_node; [done|done|done| |by eapply sl_perm]. by rewrite <- Hq.
    Qed.

    (** A list of children, as a multiset. *)
    Definition kinv (kids : list tree) (l : list I) : Prop :=
      exists ls, Forall2 tinv kids ls /\ Forall (fun l => l <> []) ls /\ Permutation l (concat ls).

    Lemma Forall2_perm_l {X Y} (R : X -> Y -> Prop) l1 l2 k1 :
      Forall2 R l1 k1 -> Permutation l1 l2 ->
      exists k2, Forall2 R l2 k2 /\ Permutation k1 k2.
    Proof.
      intros HR Hp. revert k1 HR. induction Hp as [|x l1 l2 Hp IH|x y l|l1 l2 l3 H1 IH1 H2 IH2];
        intros k1 HR.
      - inversion HR; subst. by exists [].
      - apply Forall2_cons_inv_l in HR as (y & k & Hy & Hk & ->).
        destruct (IH _ Hk) as (k2 & Hk2 & Hpk). exists (y :: k2).
        split; [by constructor|by f_equiv].
      - apply Forall2_cons_inv_l in HR as (a & k & Ha & HR & ->).
        apply Forall2_cons_inv_l in HR as (b & k' & Hb & HR & ->).
        exists (b :: a :: k'). split; [repeat constructor; done|constructor].
      - destruct (IH1 _ HR) as (k2 & Hk2 & Hp2). destruct (IH2 _ Hk2) as (k3 & Hk3 & Hp3).
        exists k3. split; [done|by etrans].
    Qed.

    Lemma concat_perm {X} (l1 l2 : list (list X)) :
      Permutation l1 l2 -> Permutation (concat l1) (concat l2).
    Proof.
      induction 1; simpl; [done|by f_equiv| |by etrans].
      rewrite !(assoc_L (++)). f_equiv. apply Permutation_app_comm.
    Qed.

    Lemma kinv_perm kids kids' l l' :
      kinv kids l -> Permutation kids kids' -> Permutation l l' -> kinv kids' l'.
    Proof.
      intros (ls & H1 & H2 & H3) Hk Hl.
      destruct (Forall2_perm_l _ _ _ _ H1 Hk) as (ls' & H1' & Hp).
      exists ls'. split; [done|]. split; [by rewrite <- Hp|].
      rewrite <- Hl, H3. by apply concat_perm.
    Qed.

    Lemma kinv_cons k kids l :
      kinv (k :: kids) l <->
      exists l1 l2, tinv k l1 /\ l1 <> [] /\ kinv kids l2 /\ Permutation l (l1 ++ l2).
    Proof.
      split.
      - intros (ls & H1 & H2 & H3).
        apply Forall2_cons_inv_l in H1 as (l1 & ls' & Hk & Hks & ->).
        apply Forall_cons in H2 as [H2 H2']. exists l1, (concat ls').
        split; [done|]. split; [done|]. split; [by exists ls'|done].
      - intros (l1 & l2 & Hk & Hne & (ls & H1 & H2 & H3) & Hp).
        exists (l1 :: ls). split; [by constructor|]. split; [by constructor|].
        simpl. by rewrite Hp, H3.
    Qed.

    Lemma kinv_app k1 k2 l :
      kinv (k1 ++ k2) l <->
      exists l1 l2, kinv k1 l1 /\ kinv k2 l2 /\ Permutation l (l1 ++ l2).
    Proof.
      revert l. induction k1 as [|k k1 IH]; intros l; simpl.
      - split.
        + intros H. exists [], l. split; [by exists []|]. done.
        + intros (l1 & l2 & (ls & H1 & H2 & H3) & H4 & Hp).
          inversion H1; subst. simpl in H3. apply Permutation_nil_r in H3 as ->.
          simpl in Hp. eapply kinv_perm; [exact H4|done|done].
      - rewrite kinv_cons. split.
        + intros (l1 & l2 & Hk & Hne & H & Hp).
          apply IH in H as (l3 & l4 & H3 & H4 & Hp').
          exists (l1 ++ l3), l4. split.
          { apply kinv_cons. exists l1, l3. done. }
          split; [done|]. rewrite Hp, Hp'. by rewrite (assoc_L (++)).
        + intros (l1 & l2 & H1 & H2 & Hp).
          apply kinv_cons in H1 as (l3 & l4 & Hk & Hne & H4 & Hp').
          exists l3, (l4 ++ l2). split; [done|]. split; [done|]. split.
          { apply IH. eauto. }
          rewrite Hp, Hp'. by rewrite (assoc_L (++)).
    Qed.

    Lemma tinv_node_iff id s kids l :
      kids <> [] ->
      tinv (T id s kids) l <-> 2 <= length kids /\ kinv kids l /\ Summ s l.
    Proof.
      intros Hne. split.
      - inversion 1; subst; [done|]. split; [done|]. split; [|done]. by exists ls.
      - intros (H2 & (ls & H3 & H4 & H5) & Hs). by eapply ti_node.
    Qed.

    Theorem sorts_tinv i c t t' mv j l :
      sorts i c t t' mv (Ok j) -> Good i -> tinv t l -> tinv t' (i :: l).
    Proof.
      remember (Ok j) as r eqn:Er. intros H Hg. revert Er l.
      induction H as [c t e|c id s s' b Hex Hc Hinc
        |c id s s0 s1 s2 m n Hex Hc Ha Hinc Hinc2 Hcm Hmn
        |c c' id s s' kids k rest t' mv r kids' Hinc Hp Hc Hs IH Hp'
        |c id s s' s2 kids n Hne Hinc Hinc2 Hn
        |c m s0 sm id s s' kids k1 k2 rest t' mv r kids' Hinc Hp Hne Ha Hb0 Hm Hs IH Hp'
        |c c' id s kids k rest kids1 t' mv r Hp Hne Hp1 Hc Hs IH]; intros Er l Ht.
      - done.
      - inversion Ht; subst; [|simpl in *; lia].
        destruct (sl_inc L s l i) as (s3 & E & Hs'); [done|done|].
        rewrite Hinc in E. injection E as <-. constructor; [done|].
        destruct Hc as [->|Hc]; [by eapply sl_leaf_exact|].
        erewrite sl_count in Hc by done. apply nil_length_inv in Hc as ->.
        by apply sl_leaf_one.
      - inversion Ht; subst; [|simpl in *; lia].
        destruct (sl_add L (nc_empty C) s [] l) as (s3 & E & Hs0); [by apply sl_empty|done|].
        rewrite Ha in E. injection E as <-. simpl in Hs0.
        destruct (sl_inc L s0 l i) as (s3 & E & Hs1); [done|done|].
        rewrite Hinc in E. injection E as <-.
        destruct (sl_inc L (nc_empty C) [] i) as (s3 & E & Hs2); [by apply sl_empty|done|].
        rewrite Hinc2 in E. injection E as <-.
        apply (ti_node _ _ _ [l; [i]]); [done| | | |done].
        + repeat constructor; [done|done|done|by apply sl_leaf_one].
        + repeat constructor; [|done]. intros ->.
          match goal with Hz : Summ s [] |- _ => apply (sl_count L) in Hz; done end.
        + simpl. apply Permutation_cons_append.
      - assert (Hkne : kids <> []) by (intros ->; by apply Permutation_nil in Hp).
        apply tinv_node_iff in Ht as (H2 & Hk & Hsm); [|done].
        eapply kinv_perm in Hk; [|exact Hp|done].
        apply kinv_cons in Hk as (l1 & l2 & Hk1 & Hl1 & Hk2 & Hpl).
        specialize (IH Er l1 Hk1).
        assert (Hlen : length kids' = length kids).
        { rewrite (Permutation_length Hp), (Permutation_length Hp'). done. }
        apply tinv_node_iff.
        { intros ->. simpl in Hlen. destruct kids; done. }
        split; [lia|]. split.
        + eapply kinv_perm; [|symmetry; exact Hp'|symmetry; by rewrite Hpl].
          apply kinv_cons. exists (i :: l1), l2. done.
        + destruct (sl_inc L s l i) as (s3 & E & Hs'); [done|done|].
          rewrite Hinc in E. by injection E as <-.
      - apply tinv_node_iff in Ht as (H2 & Hk & Hsm); [|done].
        destruct (sl_inc L s l i) as (s3 & E & Hs'); [done|done|].
        rewrite Hinc in E. injection E as <-.
        destruct (sl_inc L (nc_empty C) [] i) as (s3 & E & Hs2); [by apply sl_empty|done|].
        rewrite Hinc2 in E. injection E as <-.
        apply tinv_node_iff; [by destruct kids|].
        split; [rewrite app_length; lia|]. split; [|done].
        apply kinv_app. exists l, [i]. split; [done|]. split.
        + apply kinv_cons. exists [i], []. split; [constructor; [done|by apply sl_leaf_one]|].
          split; [done|]. split; [by exists []|done].
        + apply Permutation_cons_append.
      - assert (Hkne : kids <> []) by (intros ->; by apply Permutation_nil in Hp).
        apply tinv_node_iff in Ht as (H2 & Hk & Hsm); [|done].
        eapply kinv_perm in Hk; [|exact Hp|done].
        apply kinv_cons in Hk as (l1 & l2' & Hk1 & Hl1 & Hk2 & Hpl).
        apply kinv_cons in Hk2 as (l2 & l3 & Hk2 & Hl2 & Hk3 & Hpl2).
        destruct (sl_add L (nc_empty C) (tsum k1) [] l1) as (s3 & E & Hs0);
          [by apply sl_empty|by apply tinv_summ|].
        rewrite Ha in E. injection E as <-. simpl in Hs0.
        destruct (sl_add L s0 (tsum k2) l1 l2) as (s3 & E & Hsm2);
          [done|by apply tinv_summ|].
        rewrite Hb0 in E. injection E as <-.
        assert (Hm2 : tinv (T m sm [k1; k2]) (l1 ++ l2)).
        { apply tinv_node_iff; [done|]. split; [done|]. split; [|done].
          exists [l1; l2]. split; [repeat constructor; done|].
          split; [repeat constructor; done|]. simpl. by rewrite app_nil_r. }
        specialize (IH Er _ Hm2).
        assert (Hlen : 2 <= length kids').
        { rewrite (Permutation_length Hp'). destruct rest; simpl; [done|lia]. }
        apply tinv_node_iff.
        { intros ->. simpl in Hlen. lia. }
        split; [lia|]. split.
        + eapply kinv_perm; [|symmetry; exact Hp'|symmetry; rewrite Hpl, Hpl2].
          2:{ rewrite (assoc_L (++)). reflexivity. }
          apply kinv_cons. exists (i :: l1 ++ l2), l3. done.
        + destruct (sl_inc L s l i) as (s3 & E & Hs'); [done|done|].
          rewrite Hinc in E. by injection E as <-.
      - assert (Hkne : kids <> []) by (intros ->; by apply Permutation_nil in Hp).
        apply tinv_node_iff in Ht as (H2 & Hk & Hsm); [|done].
        eapply kinv_perm in Hk; [|exact Hp|done].
        apply kinv_cons in Hk as (l1 & l2 & Hk1 & Hl1 & Hk2 & Hpl).
        destruct k as [ik sk ks]. simpl in *.
        apply tinv_node_iff in Hk1 as (Hlk & Hks & _); [|done].
        apply (IH Er). apply tinv_node_iff.
        { intros ->. apply Permutation_nil, app_eq_nil in Hp1 as [_ ?]. done. }
        split; [|split; [|done]].
        + rewrite (Permutation_length Hp1), app_length. lia.
        + eapply kinv_perm; [|symmetry; exact Hp1|reflexivity].
          apply kinv_app. exists l2, l1. split; [done|]. split; [done|].
          rewrite Hpl. apply Permutation_app_comm.
    Qed.

    (** The subtrees of a consistent tree are consistent. *)
    Lemma tinv_sub t l u : tinv t l -> sub u t ->
      exists lu, tinv u lu /\ (forall i, i ∈ lu -> i ∈ l) /\
                 (u = t \/ lu <> []).
    Proof.
      revert l. induction t as [id s kids IH] using (tree_ind' C). intros l Ht Hu.
      apply sub_inv in Hu as [->|(k & Hk & Hu)].
      { exists l. auto. }
      assert (Hne : kids <> []). { intros ->. inversion Hk. }
      apply tinv_node_iff in Ht as (H2 & (ls & H3 & H4 & H5) & Hs); [|done].
      apply elem_of_list_lookup in Hk as [n Hn].
      destruct (Forall2_lookup_l _ _ _ _ _ H3 Hn) as (lk & Hlk & Hkl).
      assert (Hkin : k ∈ kids) by (by eapply elem_of_list_lookup_2).
      rewrite Forall_forall in IH.
      destruct (IH k Hkin lk Hkl Hu) as (lu & Hlu & Hsub & Hor).
      exists lu. split; [done|]. split.
      - intros i Hi. rewrite H5. apply elem_of_list_In, in_concat. exists lk.
        rewrite <- !elem_of_list_In. split; [by eapply elem_of_list_lookup_2|auto].
      - right. destruct Hor as [->|?]; [|done].
        rewrite Forall_forall in H4.
        assert (lk <> []) by (eapply H4; by eapply elem_of_list_lookup_2).
        assert (Hc1 : nc_count C (tsum k) = length lk) by (by eapply sl_count, tinv_summ).
        assert (Hc2 : nc_count C (tsum k) = length lu) by (by eapply sl_count, tinv_summ).
        intros ->. destruct lk; [done|]. simpl in *. lia.
    Qed.

    (** The leaf returned holds the instance. *)
    Theorem sorts_returned i c t t' mv j l :
      sorts i c t t' mv (Ok j) -> Good i -> tinv t l ->
      exists sj lj, sub (T j sj []) t' /\ Summ sj (i :: lj) /\ Leaf (i :: lj).
    Proof.
      remember (Ok j) as r eqn:Er. intros H Hg. revert Er l.
      induction H as [c t e|c id s s' b Hex Hc Hinc
        |c id s s0 s1 s2 m n Hex Hc Ha Hinc Hinc2 Hcm Hmn
        |c c' id s s' kids k rest t' mv r kids' Hinc Hp Hc Hs IH Hp'
        |c id s s' s2 kids n Hne Hinc Hinc2 Hn
        |c m s0 sm id s s' kids k1 k2 rest t' mv r kids' Hinc Hp Hne Ha Hb0 Hm Hs IH Hp'
        |c c' id s kids k rest kids1 t' mv r Hp Hne Hp1 Hc Hs IH]; intros Er l Ht.
      - done.
      - injection Er as ->. pose proof (sorts_tinv i c (T j s []) (T j s' []) false j l) as Hx.
        apply Hx in Ht; [|by eapply so_match|done]. inversion Ht; subst; [|simpl in *; lia].
        exists s', l. split; [apply sub_refl|done].
      - injection Er as ->.
        destruct (sl_inc L (nc_empty C) [] i) as (s3 & E & Hs2); [by apply sl_empty|done|].
        rewrite Hinc2 in E. injection E as <-. exists s2, []. split; [|split; [done|by apply sl_leaf_one]].
        eapply sub_kid; [right; left|apply sub_refl].
      - assert (Hkne : kids <> []) by (intros ->; by apply Permutation_nil in Hp).
        apply tinv_node_iff in Ht as (H2 & Hk & Hsm); [|done].
        eapply kinv_perm in Hk; [|exact Hp|done].
        apply kinv_cons in Hk as (l1 & l2 & Hk1 & Hl1 & Hk2 & Hpl).
        destruct (IH Er l1 Hk1) as (sj & lj & H3 & H4 & H5).
        exists sj, lj. split; [|done]. eapply sub_kid; [|done]. rewrite Hp'. left.
      - injection Er as ->.
        destruct (sl_inc L (nc_empty C) [] i) as (s3 & E & Hs2); [by apply sl_empty|done|].
        rewrite Hinc2 in E. injection E as <-. exists s2, []. split; [|split; [done|by apply sl_leaf_one]].
        eapply sub_kid; [|apply sub_refl]. apply elem_of_app. right. left.
      - assert (Hkne : kids <> []) by (intros ->; by apply Permutation_nil in Hp).
        apply tinv_node_iff in Ht as (H2 & Hk & Hsm); [|done].
        eapply kinv_perm in Hk; [|exact Hp|done].
        apply kinv_cons in Hk as (l1 & l2' & Hk1 & Hl1 & Hk2 & Hpl).
        apply kinv_cons in Hk2 as (l2 & l3 & Hk2 & Hl2 & Hk3 & Hpl2).
        destruct (sl_add L (nc_empty C) (tsum k1) [] l1) as (s3 & E & Hs0);
          [by apply sl_empty|by apply tinv_summ|].
        rewrite Ha in E. injection E as <-. simpl in Hs0.
        destruct (sl_add L s0 (tsum k2) l1 l2) as (s3 & E & Hsm2);
          [done|by apply tinv_summ|].
        rewrite Hb0 in E. injection E as <-.
        assert (Hm2 : tinv (T m sm [k1; k2]) (l1 ++ l2)).
        { apply tinv_node_iff; [done|]. split; [done|]. split; [|done].
          exists [l1; l2]. split; [repeat constructor; done|].
          split; [repeat constructor; done|]. simpl. by rewrite app_nil_r. }
        destruct (IH Er _ Hm2) as (sj & lj & H3 & H4 & H5).
        exists sj, lj. split; [|done]. eapply sub_kid; [|done]. rewrite Hp'. left.
      - assert (Hkne : kids <> []) by (intros ->; by apply Permutation_nil in Hp).
        apply tinv_node_iff in Ht as (H2 & Hk & Hsm); [|done].
        eapply kinv_perm in Hk; [|exact Hp|done].
        apply kinv_cons in Hk as (l1 & l2 & Hk1 & Hl1 & Hk2 & Hpl).
        destruct k as [ik sk ks]. simpl in *.
        apply tinv_node_iff in Hk1 as (Hlk & Hks & _); [|done].
        apply (IH Er (l2 ++ l1)). apply tinv_node_iff.
        { intros ->. apply Permutation_nil, app_eq_nil in Hp1 as [_ ?]. done. }
        split; [|split].
        + rewrite (Permutation_length Hp1), app_length. lia.
        + eapply kinv_perm; [|symmetry; exact Hp1|reflexivity].
          apply kinv_app. exists l2, l1. done.
        + eapply sl_perm; [done|done|]. rewrite Hpl. apply Permutation_app_comm.
    Qed.
  End Summ.
End Inv.
