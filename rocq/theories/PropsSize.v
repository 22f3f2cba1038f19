(** C106: how big a tree can get.

    After [n] instances (since the last clear) a tree has at most [n] leaves and
    at most [2 * n - 1] concepts, and no concept lies deeper than [n - 1].  The
    bound holds for CobwebTree and Cobweb3Tree, and for every choice the scores
    and the random numbers could make. *)
From stdpp Require Import base decidable list gmap strings.
From Verif Require Import Base Num TreeModel TreeFun TreeScore TreeRefine TreeSorts TreeInv
  SpecTree TreeState Nominal NominalFacts NominalTree Utils Query QueryLinks
  PropsTree CV Cobweb3 C3Facts PropsC3.

Section Size.
  Context {N : NumOps} (C : NodeClass N).
  Notation tree := (tree C).
  Notation st := (st C).

  Fixpoint leaf_ids (t : tree) : list nat :=
    let 'T id _ kids := t in
    match kids with [] => [id] | _ => concat (map leaf_ids kids) end.

  Lemma leaf_ids_sub (t : tree) id :
    id ∈ leaf_ids t <-> exists u, sub C u t /\ tid u = id /\ tkids u = [].
  Proof.
    induction t as [i s kids IH] using (tree_ind' C). destruct kids as [|k0 ks].
    - simpl. rewrite elem_of_list_singleton. split.
      + intros ->. exists (T i s []). split; [apply sub_refl|done].
      + intros (u & Hu & <- & Hk). inversion Hu as [|? ? ? k Hin]; subst; [done|by apply elem_of_nil in Hin].
    - change (leaf_ids (T i s (k0 :: ks))) with (concat (map leaf_ids (k0 :: ks))).
      set (kids := k0 :: ks) in *. rewrite Forall_forall in IH. split.
      + intros Hj. apply elem_of_list_In, in_concat in Hj as (x & Hx & Hj).
        apply elem_of_list_In in Hx, Hj. apply elem_of_list_fmap in Hx as (k & -> & Hk).
        apply (IH k Hk) in Hj as (u & Hu & Hid & Hl). exists u. split; [by eapply sub_kid|done].
      + intros (u & Hu & Hid & Hl). inversion Hu as [|? ? ? k Hk Hs]; subst; [by destruct ks|].
        apply elem_of_list_In, in_concat. exists (leaf_ids k).
        split; apply elem_of_list_In; [by apply elem_of_list_fmap; eauto|]. apply IH; [done|]. eauto.
  Qed.

  Lemma leaf_ids_ids t : leaf_ids t ⊆+ ids t.
  Proof.
    induction t as [i s kids IH] using (tree_ind' C). destruct kids as [|k0 ks]; [simpl; reflexivity|].
    change (leaf_ids (T i s (k0 :: ks))) with (concat (map leaf_ids (k0 :: ks))).
    set (kids := k0 :: ks) in *. change (ids (T i s kids)) with (i :: concat (map ids kids)). apply submseteq_cons.
    induction IH as [|k l Hk IH IHl]; [done|]. simpl. by apply submseteq_app.
  Qed.

  Section Inv.
    Context (Summ : nc_sum C -> list (nc_inst C) -> Prop) (Leaf : list (nc_inst C) -> Prop).
    Notation tinv := (tinv C Summ Leaf).

    Lemma leaves_pos t : 1 <= length (leaf_ids t).
    Proof.
      induction t as [i s kids IH] using (tree_ind' C). destruct kids as [|k0 ks]; [simpl; lia|].
      change (leaf_ids (T i s (k0 :: ks))) with (leaf_ids k0 ++ concat (map leaf_ids ks)).
      rewrite app_length. apply Forall_cons in IH as [H _]. lia.
    Qed.

    Lemma leaves_le t : forall l, tinv t l -> l <> [] -> length (leaf_ids t) <= length l.
    Proof.
      induction t as [i s kids IH] using (tree_ind' C). intros l Ht Hl.
      inversion Ht as [? ? ? Hs Hle|? ? ? ls ? H2 HF Hne Hp Hs]; subst.
      - simpl. destruct l; [done|simpl; lia].
      - destruct kids as [|k0 ks]; [simpl in H2; lia|].
        change (leaf_ids (T i s (k0 :: ks))) with (concat (map leaf_ids (k0 :: ks))).
        rewrite (Permutation_length Hp). clear -IH HF Hne. revert HF IH Hne.
        generalize (k0 :: ks) as kids. intros kids HF.
        induction HF as [|k l kids ls Hk HF IHF]; intros IH Hne; [simpl; lia|].
        apply Forall_cons in IH as [Hk' IH]. apply Forall_cons in Hne as [Hl Hne].
        cbn [map concat]. rewrite !app_length. specialize (Hk' l Hk Hl). specialize (IHF IH Hne). lia.
    Qed.

    Lemma size_le t : forall l, tinv t l -> S (tsize t) <= 2 * length (leaf_ids t).
    Proof.
      induction t as [i s kids IH] using (tree_ind' C). intros l Ht.
      inversion Ht as [? ? ? Hs Hle|? ? ? ls ? H2 HF Hne Hp Hs]; subst; [simpl; lia|].
      destruct kids as [|k0 ks]; [simpl in H2; lia|].
      change (leaf_ids (T i s (k0 :: ks))) with (concat (map leaf_ids (k0 :: ks))).
      set (kids := k0 :: ks) in *.
      change (tsize (T i s kids)) with (S (sumn (map tsize kids))).
      assert (Hk : length kids + sumn (map tsize kids) <= 2 * length (concat (map leaf_ids kids))); [|lia].
      clear -IH HF. induction HF as [|k l kids ls Hk HF IHF]; [simpl; lia|].
      apply Forall_cons in IH as [Hk' IH]. cbn [map concat sumn length]. rewrite app_length.
      specialize (Hk' l Hk). specialize (IHF IH). lia.
    Qed.

    Lemma concat_two (f : tree -> list nat) (kids : list tree) k :
      (forall k, 1 <= length (f k)) -> k ∈ kids -> 2 <= length kids ->
      S (length (f k)) <= length (concat (map f kids)).
    Proof.
      intros Hf Hk H2. apply elem_of_list_split in Hk as (l1 & l2 & ->).
      rewrite map_app, concat_app, app_length. cbn [map concat]. rewrite app_length.
      rewrite app_length in H2. simpl in H2.
      assert (Hpos : forall l, 1 <= length l -> 1 <= length (concat (map f l))).
      { intros [|x l]; simpl; [lia|]. rewrite app_length. pose proof (Hf x). lia. }
      destruct (decide (1 <= length l1)) as [H1|H1]; [specialize (Hpos l1 H1); lia|].
      assert (Hl2 : 1 <= length l2) by lia. specialize (Hpos l2 Hl2). lia.
    Qed.

    Lemma depth_lt t u n : forall l, tinv t l -> subd C t u n ->
      n + length (leaf_ids u) <= length (leaf_ids t) /\ exists lu, tinv u lu.
    Proof.
      intros l Ht Hu. induction Hu as [|v k n Hv [IH [lv Hlv]] Hk]; [split; [lia|eauto]|].
      inversion Hlv as [? ? ? Hs Hle|? ? kids ls ? H2 HF Hne Hp Hs]; subst; [by apply elem_of_nil in Hk|].
      simpl in Hk. split.
      - destruct kids as [|k0 ks]; [simpl in H2; lia|].
        change (leaf_ids (T id s (k0 :: ks))) with (concat (map leaf_ids (k0 :: ks))) in IH.
        pose proof (concat_two leaf_ids (k0 :: ks) k leaves_pos Hk H2). lia.
      - clear -HF Hk. induction HF as [|k' l kids ls Hk' HF IHF]; [by apply elem_of_nil in Hk|].
        apply elem_of_cons in Hk as [->|Hk]; eauto.
    Qed.
  End Inv.

  (** What the bounds say of a state. *)
  Definition bounded (s : st) (n : nat) : Prop :=
    exists concepts leaves : list nat,
      NoDup concepts /\ (forall id, id ∈ concepts <-> in_tree s id) /\
      NoDup leaves /\ (forall id, id ∈ leaves <-> is_leaf s id) /\
      1 <= length leaves <= Nat.max 1 n /\
      length concepts <= 2 * length leaves - 1 /\
      num_concepts C (st_root s) s = (Ok (length concepts), s) /\
      forall id d, in_tree s id -> edges s id d (st_root s) -> d < length leaves.

  Theorem tree_bounded Summ Leaf (s : st) t l :
    state_ok C s t -> tinv C Summ Leaf t l -> bounded s (length l).
  Proof.
    intros Hok Ht. exists (ids t), (leaf_ids t).
    assert (Hnd : NoDup (ids t)) by apply Hok.
    split; [done|]. split; [intros id; symmetry; by apply in_tree_ids|].
    split.
    { pose proof (submseteq_Permutation _ _ (leaf_ids_ids t)) as [r Hr].
      rewrite Hr in Hnd. by apply NoDup_app in Hnd as [? _]. }
    split; [|split; [|split; [|split]]].
    - intros id. rewrite leaf_ids_sub. split.
      + intros (u & Hu & <- & Hk). split; [apply (in_tree_sub C s t _ Hok); eauto|].
        pose proof (sub_children C s t u Hok Hu) as Hc. by rewrite Hk in Hc.
      + intros [Hin Hc]. apply (in_tree_sub C s t _ Hok) in Hin as (u & Hu & <-). exists u.
        split; [done|]. split; [done|].
        pose proof (children_of_det _ _ _ _ _ Hc (sub_children C s t u Hok Hu)) as E.
        by destruct (tkids u).
    - split; [apply leaves_pos|]. destruct l as [|i l].
      + inversion Ht as [? ? ? Hs Hle|? ? kids ls ? H2 HF Hne Hp Hs]; subst; [simpl; lia|].
        apply Permutation_nil_l in Hp. destruct HF as [|k lk kids ls Hk HF]; [simpl in H2; lia|].
        apply Forall_cons in Hne as [Hne _]. simpl in Hp. by destruct lk.
      + pose proof (leaves_le Summ Leaf t (i :: l) Ht ltac:(done)). simpl in *. lia.
    - rewrite length_ids. pose proof (size_le Summ Leaf t l Ht). lia.
    - rewrite (so_root _ _ _ Hok). rewrite length_ids.
      unfold num_concepts, mheap_size. unfold mbind at 1.
      eapply mnum_sub; [done|apply sub_refl|].
      pose proof (tsize_heap C _ _ _ (so_rep _ _ _ Hok) Hnd). lia.
    - intros id d Hin Hd. apply (in_tree_sub C s t _ Hok) in Hin as (u & Hu & <-).
      destruct (sub_subd C _ _ Hu) as (n & Hn).
      destruct (depth_lt Summ Leaf t u n l Ht Hn) as [Hle _].
      destruct (depth_edges C s t (tid u) Hok) as (n' & _ & _ & Huniq).
      { apply (in_tree_sub C s t _ Hok). eauto. }
      destruct (mdepth_subd C s t u n Hok Hn) as [He _].
      rewrite (Huniq _ Hd), <- (Huniq _ He). pose proof (leaves_pos u). lia.
  Qed.
End Size.

(** ** C106, CobwebTree and Cobweb3Tree *)
Section Both.
  Context {N : NumOps} (rng : nat -> num N).

  Theorem C106_size evs s :
    reachable (CobwebClass N) rng tt evs s -> all_inst (C:=CobwebClass N) good evs -> all_ok evs ->
    bounded (CobwebClass N) s (length (history evs)).
  Proof.
    intros Hr Hg Hao.
    destruct (reachable_tinv (CobwebClass N) rng Hist LeafV good (hist_laws N) tt evs s Hr Hg Hao) as (t & Hok & Ht).
    exact (tree_bounded _ _ _ s t _ Hok Ht).
  Qed.

  Theorem C106_size3 sc inner evs s :
    reachable (Cobweb3Class N) rng (new_ctx sc inner) evs s ->
    all_inst (C:=Cobweb3Class N) (good3 (N:=N)) evs -> all_ok evs ->
    bounded (Cobweb3Class N) s (length (history evs)).
  Proof.
    intros Hr Hg Hao.
    destruct (reachable_tinv (Cobweb3Class N) rng _ _ _ (hist3_laws counts (fun _ _ => True) (counts_laws N))
      (new_ctx sc inner) evs s Hr Hg Hao) as (t & Hok & Ht).
    exact (tree_bounded _ _ _ s t _ Hok Ht).
  Qed.
End Both.

Print Assumptions C106_size.
Print Assumptions C106_size3.
