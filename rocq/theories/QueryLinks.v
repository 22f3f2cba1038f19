(** * depth, is_parent and num_concepts on well-formed trees. *)
From stdpp Require Import base decidable list gmap strings.
From Verif Require Import Base Num TreeModel TreeFun TreeScore TreeRefine TreeSorts TreeInv
  SpecTree TreeState Nominal Utils Query.

(** [n] parent links lead from [a] to [b]. *)
Inductive edges {N : NumOps} {C : NodeClass N} (s : st C) : nat -> nat -> nat -> Prop :=
| edges_nil a : edges s a 0 a
| edges_cons a p n b : parent_of s a (Some p) -> edges s p n b -> edges s a (S n) b.

Section Links.
  Context {N : NumOps} (C : NodeClass N).
  Notation tree := (tree C).
  Notation st := (st C).

  Lemma sub_parent (s : st) t v k : state_ok C s t -> sub C v t -> k ∈ tkids v ->
    parent_of s (tid k) (Some (tid v)).
  Proof.
    intros Hok Hv Hk. destruct (rep_sub _ _ _ _ _ (so_rep _ _ _ Hok) Hv) as (q & Hq & _).
    destruct v as [id sm kids]. inversion Hq as [? ? ? ? Hl HF]; subst.
    rewrite Forall_forall in HF. specialize (HF k Hk). apply rep_lookup in HF. by eexists.
  Qed.

  Lemma root_parent (s : st) t : state_ok C s t -> parent_of s (st_root s) None.
  Proof.
    intros Hok. rewrite (so_root _ _ _ Hok). pose proof (so_rep _ _ _ Hok) as Hr.
    apply rep_lookup in Hr. by eexists.
  Qed.

  (** Depth of a subtree. *)
  Inductive subd (t : tree) : tree -> nat -> Prop :=
  | subd_root : subd t t 0
  | subd_kid v k n : subd t v n -> k ∈ tkids v -> subd t k (S n).

  Lemma subd_sub t u n : subd t u n -> sub C u t.
  Proof. induction 1; [apply sub_refl|]. by eapply sub_kid_of. Qed.

  Lemma subd_up t k0 id s kids u n : t = T id s kids -> k0 ∈ kids -> subd k0 u n -> subd t u (S n).
  Proof. intros -> Hk. induction 1; [eapply subd_kid; [apply subd_root|done]|by eapply subd_kid]. Qed.

  Lemma sub_subd t u : sub C u t -> exists n, subd t u n.
  Proof.
    induction 1 as [|id s kids k Hk Hs [n IH]]; [eexists; apply subd_root|].
    exists (S n). by eapply subd_up.
  Qed.

  Lemma subd_size t u n : subd t u n -> n + tsize u <= tsize t.
  Proof.
    induction 1 as [|v k n Hv IH Hk]; [lia|].
    destruct v as [id s kids]. pose proof (kid_size C k id s kids Hk). lia.
  Qed.

  Lemma mdepth_subd (s : st) t u n : state_ok C s t -> subd t u n ->
    edges s (tid u) n (st_root s) /\ forall fuel, n < fuel -> mdepth C fuel (tid u) s = (Ok n, s).
  Proof.
    intros Hok Hu. induction Hu as [|v k n Hv [IH1 IH2] Hk].
    - rewrite (so_root _ _ _ Hok). split; [constructor|]. intros [|fuel] Hf; [lia|]. simpl.
      destruct (root_parent s t Hok) as (nd & Hn & Hp). rewrite (so_root _ _ _ Hok) in Hn.
      rewrite (mbind_ok C _ _ _ _ _ (mget_ok C _ s nd Hn)). by rewrite Hp.
    - destruct (sub_parent s t v k Hok (subd_sub _ _ _ Hv) Hk) as (nd & Hn & Hp).
      split.
      + eapply edges_cons; [|done]. by exists nd.
      + intros [|fuel] Hf; [lia|]. simpl.
        rewrite (mbind_ok C _ _ _ _ _ (mget_ok C _ s nd Hn)). rewrite Hp.
        erewrite mbind_ok; [|apply IH2; lia]. done.
  Qed.

  Lemma edges_det (s : st) a n m b : parent_of s b None -> edges s a n b -> edges s a m b -> n = m.
  Proof.
    intros Hb H. revert m. induction H as [a|a p n b Hp H IH]; intros m H2.
    - inversion H2 as [|? p ? ? Hp]; subst; [done|].
      pose proof (parent_of_det _ _ _ _ _ Hb Hp). done.
    - inversion H2 as [|? p' m' ? Hp' H2']; subst.
      + pose proof (parent_of_det _ _ _ _ _ Hb Hp). done.
      + pose proof (parent_of_det _ _ _ _ _ Hp Hp') as [= <-]. f_equal. by apply IH.
  Qed.

  Theorem depth_edges (s : st) t id : state_ok C s t -> in_tree s id ->
    exists n, depth C id s = (Ok n, s) /\ edges s id n (st_root s) /\
      forall m, edges s id m (st_root s) -> m = n.
  Proof.
    intros Hok Hin. destruct (proj1 (in_tree_sub C s t id Hok) Hin) as (u & Hu & <-).
    destruct (sub_subd _ _ Hu) as (n & Hn). exists n.
    destruct (mdepth_subd s t u n Hok Hn) as [He Hd]. split; [|split; [done|]].
    - unfold depth, mheap_size. unfold mbind at 1. apply Hd.
      pose proof (subd_size _ _ _ Hn). pose proof (tsize_pos C u).
      pose proof (tsize_heap C _ _ _ (so_rep _ _ _ Hok) (so_nodup _ _ _ Hok)). lia.
    - intros m Hm. symmetry. exact (edges_det s (tid u) n m (st_root s) (root_parent s t Hok) He Hm).
  Qed.

  Lemma desc_last (s : st) a b : desc s a b -> a = b \/ exists p, desc s a p /\ child_of s p b.
  Proof. destruct 1; eauto. Qed.

  Lemma mis_parent_subd (s : st) t u n a : state_ok C s t -> subd t u n -> in_tree s a ->
    forall fuel, n < fuel -> exists b, mis_parent C fuel a (tid u) s = (Ok b, s) /\
      (b = true <-> desc s a (tid u)).
  Proof.
    intros Hok Hu Ha. assert (Hpar : forall p c, in_tree s p -> child_of s p c -> parent_of s c (Some p)).
    { intros p c Hp (l & Hl & Hc). destruct (proj1 (in_tree_sub C s t p Hok) Hp) as (w & Hw & <-).
      pose proof (children_of_det _ _ _ _ _ Hl (sub_children _ _ _ _ Hok Hw)) as ->.
      apply elem_of_list_fmap in Hc as (k & -> & Hk). by eapply sub_parent. }
    induction Hu as [|v k n Hv IH Hk]; intros [|fuel] Hf; try lia; simpl.
    - case_decide as Hd.
      + exists true. split; [done|]. split; [|done]. intros _. rewrite Hd. apply desc_refl.
      + pose proof (root_parent s t Hok) as Hrp. rewrite (so_root _ _ _ Hok) in Hrp.
        pose proof Hrp as (nd & Hn & Hp).
        exists false. rewrite (mbind_ok C _ _ _ _ _ (mget_ok C _ s nd Hn)), Hp. split; [done|].
        split; [done|]. intros Hde. apply desc_last in Hde as [->|(p & Hap & Hc)]; [done|].
        assert (Hpin : in_tree s p) by (by eapply desc_trans).
        pose proof (parent_of_det _ _ _ _ _ Hrp (Hpar _ _ Hpin Hc)). done.
    - case_decide as Hd.
      + exists true. split; [done|]. split; [|done]. intros _. rewrite Hd. apply desc_refl.
      + pose proof (sub_parent s t v k Hok (subd_sub _ _ _ Hv) Hk) as Hkp.
        pose proof Hkp as (nd & Hn & Hp).
        destruct (IH fuel) as (b & E & Hb); [lia|]. exists b.
        rewrite (mbind_ok C _ _ _ _ _ (mget_ok C _ s nd Hn)), Hp. split; [done|]. rewrite Hb.
        split; intros Hde.
        * eapply desc_child; [done|]. exists (map tid (tkids v)).
          split; [by eapply sub_children, subd_sub|]. apply elem_of_list_fmap. eauto.
        * apply desc_last in Hde as [->|(p & Hap & Hc)]; [done|].
          assert (Hpin : in_tree s p) by (by eapply desc_trans).
          pose proof (parent_of_det _ _ _ _ _ Hkp (Hpar _ _ Hpin Hc)) as [= ->]. done.
  Qed.

  Theorem is_parent_desc (s : st) t a id : state_ok C s t -> in_tree s a -> in_tree s id ->
    exists b, is_parent C a id s = (Ok b, s) /\ (b = true <-> desc s a id).
  Proof.
    intros Hok Ha Hin. destruct (proj1 (in_tree_sub C s t id Hok) Hin) as (u & Hu & <-).
    destruct (sub_subd _ _ Hu) as (n & Hn).
    unfold is_parent, mheap_size. unfold mbind at 1. eapply mis_parent_subd; [done|done|done|].
    pose proof (subd_size _ _ _ Hn). pose proof (tsize_pos C u).
    pose proof (tsize_heap C _ _ _ (so_rep _ _ _ Hok) (so_nodup _ _ _ Hok)). lia.
  Qed.

  Lemma mnum_sub (s : st) t u : state_ok C s t -> sub C u t ->
    forall fuel, tsize u <= fuel -> mnum_concepts C fuel (tid u) s = (Ok (tsize u), s).
  Proof.
    intros Hok. induction u as [id sm kids IH] using (tree_ind' C). intros Hu [|fuel] Hf.
    { simpl in Hf. lia. }
    pose proof (sub_children _ _ _ _ Hok Hu) as (nd & Hn & Hc). cbn [mnum_concepts].
    simpl tid in *. rewrite (mbind_ok C _ _ _ _ _ (mget_ok C _ s nd Hn)). rewrite Hc. simpl tkids.
    match goal with |- mbind C (?f _) _ _ = _ => set (go := f) end.
    assert (Hgo : forall ks, (forall k, k ∈ ks -> k ∈ kids) -> go (map tid ks) s = (Ok (sumn (map tsize ks)), s)).
    { induction ks as [|k ks IHk]; intros Hks; [done|].
      change (go (map tid (k :: ks))) with
        (mbind C (mnum_concepts C fuel (tid k)) (fun x => mbind C (go (map tid ks)) (fun y => mret C (x + y)))).
      assert (Hk : k ∈ kids) by (apply Hks; left).
      rewrite Forall_forall in IH.
      assert (Ek : mnum_concepts C fuel (tid k) s = (Ok (tsize k), s)).
      { apply IH; [done| |].
        - eapply sub_trans; [|exact Hu]. eapply sub_kid; [done|apply sub_refl].
        - pose proof (kid_size C k id sm kids Hk). lia. }
      rewrite (mbind_ok C _ _ _ _ _ Ek). erewrite mbind_ok; [|apply IHk; intros; apply Hks; by right]. done. }
    erewrite mbind_ok; [|apply Hgo; auto]. done.
  Qed.

  Theorem num_concepts_count (s : st) t id : state_ok C s t -> in_tree s id ->
    exists l, NoDup l /\ (forall j, j ∈ l <-> desc s id j) /\ num_concepts C id s = (Ok (length l), s).
  Proof.
    intros Hok Hin. destruct (proj1 (in_tree_sub C s t id Hok) Hin) as (u & Hu & <-).
    exists (ids u). split; [|split].
    - destruct (sub_subd _ _ Hu) as (n & Hn). clear -Hok Hn.
      induction Hn as [|v k n Hv IH Hk]; [by apply so_nodup in Hok|].
      destruct v as [id sm kids]. apply NoDup_kids in IH as [_ IH].
      apply elem_of_list_split in Hk as (l1 & l2 & Hk). simpl in Hk. rewrite Hk in IH. by apply NoDup_kid in IH as [? _].
    - intros j. split.
      + intros Hj. assert (Hs : exists v, sub C v u /\ tid v = j); [|destruct Hs as (v & Hv & <-); by eapply sub_desc].
        clear -Hj. induction u as [id sm kids IH] using (tree_ind' C).
        simpl in Hj. apply elem_of_cons in Hj as [->|Hj]; [exists (T id sm kids); split; [apply sub_refl|done]|].
        apply elem_of_list_In, in_concat in Hj as (x & Hx & Hj). apply elem_of_list_In in Hx, Hj.
        apply elem_of_list_fmap in Hx as (k & -> & Hk). rewrite Forall_forall in IH.
        destruct (IH k Hk Hj) as (v & Hv & <-). exists v. split; [by eapply sub_kid|done].
      + intros Hde. destruct (desc_sub C s t u j Hok Hu Hde) as (v & Hv & <-). clear -Hv. induction Hv as [|id sm kids k Hk Hv IH].
        * destruct v. left.
        * simpl. right. apply elem_of_list_In, in_concat. exists (ids k).
          split; apply elem_of_list_In; [|done]. apply elem_of_list_fmap. eauto.
    - unfold num_concepts, mheap_size. unfold mbind at 1. rewrite length_ids. eapply mnum_sub; [done|done|].
      pose proof (sub_size C u t Hu).
      pose proof (tsize_heap C _ _ _ (so_rep _ _ _ Hok) (so_nodup _ _ _ Hok)). lia.
  Qed.
End Links.
