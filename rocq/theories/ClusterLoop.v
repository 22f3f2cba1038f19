(** * The loop of cluster_iter. *)
From stdpp Require Import base decidable list gmap strings.
From Verif Require Import Base Num TreeModel TreeFun TreeScore TreeRefine TreeSorts TreeInv
  SpecTree SpecCluster TreeState TreeLeaf Nominal Utils Query QueryLinks Cluster ClusterFacts.
Set Default Proof Using "Type".
Open Scope list_scope.

Section Loop.
  Context {N : NumOps} (C : NodeClass N) (rng : nat -> num N) (setord : list nat -> list nat)
    (heur : list nat -> list nat -> M C (num N)).
  Notation F := (num N).
  Notation tree := (tree C).
  Notation st := (st C).
  Hypothesis Hset : forall l x, x ∈ setord l <-> x ∈ l.
  Hypothesis Hread : reads_only C heur.

  (** A strict order without incomparable elements. *)
  Definition total_order (N' : NumOps) : Prop :=
    (forall a, nltb N' a a = false) /\
    (forall a b, nltb N' a b = true -> nltb N' b a = false) /\
    (forall a b c, nltb N' a b = false -> nltb N' b c = false -> nltb N' a c = false).

  Lemma sub_nodup (t u : tree) : NoDup (ids t) -> sub C u t -> NoDup (ids u).
  Proof. clear. intros Hnd. induction 1 as [|id s kids k Hk Hu IH]; [done|]. apply IH. apply NoDup_kids in Hnd as [_ Hnd]. by eapply NoDup_in_kid. Qed.

  Section From.
  Context (s0 : st) (t0 : tree) (temp : list nat).
  Hypothesis Hok0 : state_ok C s0 t0.
  Hypothesis Hleaf0 : Forall (leaf_in C t0) temp.

  Record inv (s : st) (t : tree) : Prop := {
    iv_ok : state_ok C s t;
    iv_from : split_from C s0 s;
    iv_leaf : Forall (leaf_in C t) temp;
    iv_kids : forall k, k ∈ tkids t -> sub C k t0;
    iv_root : tid t = tid t0;
    iv_none : tkids t = [] -> tkids t0 = [];
  }.

  Lemma inv_start : inv s0 t0.
  Proof using Hok0 Hleaf0.
    split; try done; [constructor|]. intros k Hk. eapply sub_kid_of; [apply sub_refl|done].
  Qed.

  Lemma inv_frame s t c l r s' : inv s t -> heur c l s = (r, s') -> inv s' t.
  Proof using Hread.
    intros [H1 H2 H3 H4 H5 H6] E. destruct (Hread _ _ _ _ _ E) as (E1 & E2 & E3 & E4).
    assert (s' = St (st_heap s) (st_root s) (st_amb s') (st_ctx s)) as ->. { destruct s'. simpl in *. by subst. }
    split; try done; [|by constructor]. by apply state_ok_amb.
  Qed.

  (** The labels of the clustering by the kids of [t]. *)
  Definition lab (t : tree) (j x : nat) : Prop := exists c, assigned C t j (x, c).

  Lemma assigned_labs t asg : Forall2 (assigned C t) temp asg -> Forall2 (lab t) temp (map fst asg).
  Proof.
    clear. induction 1 as [|j [x c] l asg Ha Hl IH]; simpl; constructor; [by exists c|done].
  Qed.

  Lemma lab_desc s t j x : inv s t -> lab t j x -> in_tree s0 x /\ desc s0 x j.
  Proof using Hok0.
    intros Hi (c & Ha).
    assert (G : forall k, sub C k t0 -> leaf_in C k j -> in_tree s0 (tid k) /\ desc s0 (tid k) j).
    { intros k Hk (tb & Hl). split; [|exact (sub_desc C s0 t0 k _ Hok0 Hk Hl)].
      apply (in_tree_ids C _ _ _ Hok0). by apply sub_tid. }
    inversion Ha as [H1 H2 E|k Hk H1 H2 E|k k' Hk Hk' Hl E]; subst.
    - split; [|constructor]. rewrite (iv_root _ _ Hi). apply (in_tree_ids C _ _ _ Hok0). apply tid_in_ids.
    - apply G; [by apply (iv_kids _ _ Hi)|]. destruct k as [i1 s1 ks]. simpl in H2. subst ks. exists s1. apply sub_refl.
    - apply G; [by apply (iv_kids _ _ Hi)|]. destruct k as [i1 s1 ks]. by eapply leaf_in_kid.
  Qed.

  Lemma lab_clustering s t l : inv s t -> Forall2 (lab t) temp l -> clustering s0 temp l.
  Proof using Hok0.
    intros Hi Hl. split.
    - eapply Forall2_impl; [exact Hl|]. intros j x Hx. by eapply lab_desc.
    - intros a b Ha Hb Hd.
      assert (G : forall x, x ∈ l -> tkids t = [] /\ x = tid t \/ exists k, k ∈ tkids t /\ tid k = x).
      { intros x Hx. apply elem_of_list_lookup in Hx as (i & Hx).
        destruct (Forall2_lookup_r _ _ _ _ _ Hl Hx) as (j & _ & c & H). inversion H; subst; eauto. }
      apply G in Ha as [[E1 Ea]|(k1 & Hk1 & Ea)]; apply G in Hb as [[E2 Eb]|(k2 & Hk2 & Eb)];
        try congruence; try (rewrite ?E1, ?E2 in *; by match goal with H : _ ∈ [] |- _ => apply elem_of_nil in H end).
      subst a b. pose proof (iv_kids _ _ Hi _ Hk1) as Hs1. pose proof (iv_kids _ _ Hi _ Hk2) as Hs2.
      apply (desc_sub C s0 t0 k1 (tid k2) Hok0 Hs1) in Hd as (u & Hu & Eu).
      assert (u = k2) as ->.
      { eapply (sub_unique C t0); [apply (so_nodup _ _ _ Hok0)|by eapply sub_trans|done|done]. }
      pose proof (so_nodup _ _ _ (iv_ok _ _ Hi)) as Hnd. destruct t as [id sm kids]. apply NoDup_kids in Hnd as [_ Hnd].
      f_equal. eapply (kids_disjoint C kids k1 k2 (tid k2) Hnd Hk1 Hk2); [by apply sub_tid|apply tid_in_ids].
  Qed.

  Lemma lab_top t l : inv s0 t0 -> t = t0 -> Forall2 (lab t) temp l -> top_clustering s0 temp l.
  Proof using Hok0.
    intros Hi -> Hl. eapply Forall2_impl; [exact Hl|]. intros j x Hx. split; [|by eapply lab_desc].
    destruct Hx as (c & Ha). rewrite (so_root _ _ _ Hok0).
    pose proof (sub_children C s0 t0 t0 Hok0 (sub_refl _ _)) as Hch.
    inversion Ha as [H1 H2 E|k Hk H1 H2 E|k k' Hk Hk' Hl' E]; subst.
    - right. split; [done|]. by rewrite H2 in Hch.
    - left. exists (map tid (tkids t0)). split; [done|]. apply elem_of_list_fmap. eauto.
    - left. exists (map tid (tkids t0)). split; [done|]. apply elem_of_list_fmap. eauto.
  Qed.

  (** ** Trying the splits *)
  Definition repl (x : nat) (asg : list (nat * option nat)) : list nat :=
    map (fun a => if decide (fst a = x) then default 0 (snd a) else fst a) asg.

  Lemma repl_ok t k asg js : state_ok C s0 t0 -> k ∈ tkids t -> NoDup (ids t) -> tkids k <> [] -> Forall2 (assigned C t) js asg ->
    mapM (fun a => if decide (fst a = tid k) then snd a else Some (fst a)) asg = Some (repl (tid k) asg) /\
    Forall2 (lab (split_tree C t k)) js (repl (tid k) asg).
  Proof.
    intros _ Hk Hnd Hne. induction 1 as [|j a js asg Ha Hl [IH1 IH2]]; [split; [done|constructor]|]. cbn [mapM repl map].
    destruct (split_assigned C t k j a Hnd Hk Hne Ha) as [G1 G2]. destruct (decide (fst a = tid k)) as [E|E].
    - destruct (G2 E) as (k' & Hk' & -> & _ & c & Hc). rewrite IH1. split; [done|].
      constructor; [by exists c|done].
    - rewrite IH1. split; [done|]. constructor; [|done]. destruct (G1 E) as (c & Hc). by exists c.
  Qed.
  Lemma repl_splits s t k asg : inv s t -> k ∈ tkids t -> tkids k <> [] -> tid k ∈ map fst asg -> Forall2 (assigned C t) temp asg ->
    splits_at s0 temp (tid k) (map fst asg) (repl (tid k) asg).
  Proof using Hok0.
    intros Hi Hk Hne Hin Hl. pose proof (so_nodup _ _ _ (iv_ok _ _ Hi)) as Hnd. unfold splits_at, repl. rewrite !map_length.
    split; [done|]. split; [done|]. split; [by eapply Forall2_length|].
    intros i a b j Ha Hb Hj. change ((fst <$> asg) !! i = Some a) in Ha.
    change (((fun a => if decide (fst a = tid k) then default 0 (snd a) else fst a) <$> asg) !! i = Some b) in Hb.
    rewrite list_lookup_fmap in Ha, Hb.
    destruct (Forall2_lookup_l _ _ _ _ _ Hl Hj) as (p & Hp & Hass). rewrite Hp in Ha, Hb. simpl in Ha, Hb.
    injection Ha as <-. injection Hb as <-.
    destruct (split_assigned C t k j p Hnd Hk Hne Hass) as [_ G2]. destruct (decide (fst p = tid k)) as [E|E]; [|by split].
    split; [intros _|done]. destruct (G2 E) as (k' & Hk' & -> & (tb & Hs) & _). simpl.
    pose proof (iv_kids _ _ Hi _ Hk) as Hs0. split.
    - exists (map tid (tkids k)). split; [by apply (sub_children C s0 t0)|]. apply elem_of_list_fmap. eauto.
    - apply (sub_desc C s0 t0 k' (T j tb []) Hok0); [by eapply sub_kid_of|done].
  Qed.

  Lemma inv_split s t k : inv s t -> k ∈ tkids t -> tkids k <> [] -> exists s4,
    mbind C (mroot C) (fun rt => msplit C rt (tid k)) s = (Ok tt, s4) /\ inv s4 (split_tree C t k).
  Proof.
    intros Hi Hk Hkne. destruct (split_spec C s t k (iv_ok _ _ Hi) Hk) as (s4 & E4 & Hok4 & A4 & _).
    exists s4. split; [done|]. pose proof (so_nodup _ _ _ (iv_ok _ _ Hi)) as Hnd.
    split; [done| | | | |].
    - eapply sf_split; [apply (iv_from _ _ Hi)| |exact E4]. rewrite (so_root _ _ _ (iv_ok _ _ Hi)).
      exists (map tid (tkids t)). split; [apply (sub_children C s t t (iv_ok _ _ Hi)), sub_refl|]. apply elem_of_list_fmap. eauto.
    - eapply Forall_impl; [apply (iv_leaf _ _ Hi)|]. intros j. by apply split_leaf.
    - intros k1 Hk1. apply (split_kids C t k k1 Hnd Hk) in Hk1 as [[Hk1 _]|Hk1]; [by apply (iv_kids _ _ Hi)|].
      eapply sub_kid_of; [by apply (iv_kids _ _ Hi)|done].
    - apply (iv_root _ _ Hi).
    - unfold split_tree. simpl. intros [_ E]%app_eq_nil. done.
  Qed.
  End From.

  (** The labels, before and after a split, are a clustering of the tree at hand. *)
  Lemma labs_here s0 t0 temp s t l : inv s0 t0 temp s t -> Forall2 (lab t) temp l -> clustering s temp l.
  Proof.
    intros Hi Hl. pose proof (inv_start s t temp (iv_ok _ _ _ _ _ Hi) (iv_leaf _ _ _ _ _ Hi)) as Hi'.
    exact (lab_clustering s t temp (iv_ok _ _ _ _ _ Hi) s t l Hi' Hl).
  Qed.
  Lemma repl_here s0 t0 temp s t k asg : inv s0 t0 temp s t -> k ∈ tkids t -> tkids k <> [] -> Forall2 (assigned C t) temp asg ->
    clustering s temp (repl (tid k) asg).
  Proof.
    intros Hi Hk Hne Hasg. pose proof (inv_start s t temp (iv_ok _ _ _ _ _ Hi) (iv_leaf _ _ _ _ _ Hi)) as Hi'.
    destruct (inv_split s t temp s t k Hi' Hk Hne) as (s4 & _ & Hi4).
    destruct (repl_ok s t t k asg temp (iv_ok _ _ _ _ _ Hi) Hk (so_nodup _ _ _ (iv_ok _ _ _ _ _ Hi)) Hne Hasg) as [_ Hl].
    exact (lab_clustering s t temp (iv_ok _ _ _ _ _ Hi) s4 _ _ Hi4 Hl).
  Qed.

  Section From2.
  Context (s0 : st) (t0 : tree) (temp : list nat).
  Hypothesis Hok0 : state_ok C s0 t0.
  Hypothesis Hleaf0 : Forall (leaf_in C t0) temp.
  Notation inv := (inv s0 t0 temp).

  (** The heuristic raised. *)
  Definition raised (e : exn) : Prop := exists l s1 s2, split_from C s0 s1 /\ clustering s1 temp l /\ heur l temp s1 = (Err e, s2).
  (** The heuristic gave [h] for [l]. *)
  Definition valued (l : list nat) (h : F) : Prop := exists s1 s2, split_from C s0 s1 /\ clustering s1 temp l /\ heur l temp s1 = (Ok h, s2).

  (** … when [l] labels every leaf with its concept directly below the root. *)
  Definition topped (l : list nat) (h : F) : Prop := exists s1 s2, split_from C s0 s1 /\ top_clustering s1 temp l /\ heur l temp s1 = (Ok h, s2).

  Lemma try_ok t asg : Forall2 (assigned C t) temp asg -> forall l s, inv s t -> (forall x, x ∈ l -> x ∈ map fst asg) ->
    let '(r, s') := mmapM C (try_split C heur asg temp) l s in
    inv s' t /\
    match r with
    | Err e => raised e
    | Ok cus =>
        (forall h x, (h, x) ∈ concat cus -> x ∈ l /\ (exists k, k ∈ tkids t /\ tid k = x /\ tkids k <> []) /\ valued (repl x asg) h) /\
        (forall k, k ∈ tkids t -> tid k ∈ l -> tkids k <> [] -> exists h, (h, tid k) ∈ concat cus)
    end.
  Proof using Hok0 Hread.
    intros Hasg. induction l as [|x l IH]; intros s Hi Hin; simpl.
    { split; [done|]. split; [intros h x Hx; by apply elem_of_nil in Hx|intros k _ Hx; by apply elem_of_nil in Hx]. }
    assert (Hx : tkids t = [] /\ x = tid t \/ exists k, k ∈ tkids t /\ tid k = x).
    { specialize (Hin x ltac:(left)). apply elem_of_list_lookup in Hin as (i & Hx).
      destruct (Forall2_lookup_r _ _ _ _ _ (assigned_labs _ _ _ Hasg) Hx) as (j & _ & c & H). inversion H; subst; eauto. }
    assert (Hu : exists u, sub C u t /\ tid u = x /\ (u = t /\ tkids t = [] \/ u ∈ tkids t)).
    { destruct Hx as [[E ->]|(k & Hk & E)]; [exists t; split; [apply sub_refl|]; auto|].
      exists k. split; [eapply sub_kid_of; [apply sub_refl|done]|]. auto. }
    destruct Hu as (u & Hsu & Eu & Hk). destruct (sub_children C s t u (iv_ok _ _ _ _ _ Hi) Hsu) as (nd & Hn & Hc). rewrite Eu in Hn.
    unfold TreeModel.mbind at 1, try_split at 1. rewrite (mbind_ok C _ _ _ _ _ (mget_ok C _ s nd Hn)), Hc.
    assert (Hlast : forall k, k ∈ tkids t -> tid k = x -> k = u).
    { intros k Hk1 Ek. eapply (sub_unique C t); [apply (so_nodup _ _ _ (iv_ok _ _ _ _ _ Hi))| |exact Hsu|congruence].
      eapply sub_kid_of; [apply sub_refl|done]. }
    destruct (tkids u) as [|u0 us] eqn:Eku.
    - simpl. specialize (IH s Hi (fun y Hy => Hin y (elem_of_list_further _ _ _ Hy))).
      unfold TreeModel.mbind. destruct (mmapM C (try_split C heur asg temp) l s) as [[cus|e] s'] eqn:E; simpl; [|exact IH].
      destruct IH as (Hi' & G1 & G2). split; [done|]. split.
      + intros h y Hy. destruct (G1 h y Hy) as (? & ? & ?). split; [by right|]. done.
      + intros k Hk1 [->%eq_sym|Hk2]%elem_of_cons Hk3; [|by apply G2]. apply Hlast in Hk1; [|done]. subst k. by rewrite Eku in Hk3.
    - cbn [map]. destruct Hk as [[-> Hk]|Hk]; [congruence|].
      assert (Hne : tkids u <> []) by (by rewrite Eku).
      pose proof (so_nodup _ _ _ (iv_ok _ _ _ _ _ Hi)) as Hnd.
      destruct (repl_ok s0 t0 t u asg temp Hok0 Hk Hnd Hne Hasg) as [Em _]. rewrite Eu in Em. rewrite Em.
      pose proof (repl_here s0 t0 temp s t u asg Hi Hk Hne Hasg) as Hhere. rewrite Eu in Hhere.
      unfold TreeModel.mbind at 1. destruct (heur (repl x asg) temp s) as [r s1] eqn:Eh.
      pose proof (inv_frame _ _ _ _ _ _ _ _ _ Hi Eh) as Hi1.
      destruct r as [h|e]; [|split; [done|]; exists (repl x asg), s, s1; split; [apply (iv_from _ _ _ _ _ Hi)|by split]].
      simpl. specialize (IH s1 Hi1 (fun y Hy => Hin y (elem_of_list_further _ _ _ Hy))).
      unfold TreeModel.mbind. destruct (mmapM C (try_split C heur asg temp) l s1) as [[cus|e] s'] eqn:E; simpl; [|exact IH].
      destruct IH as (Hi' & G1 & G2). split; [done|]. split.
      + intros h' y [[= -> ->]|Hy]%elem_of_cons.
        * split; [left|]. split; [eauto|]. exists s, s1. split; [apply (iv_from _ _ _ _ _ Hi)|by split].
        * destruct (G1 h' y Hy) as (? & ? & ?). split; [by right|]. done.
      + intros k Hk1 [Hk2|Hk2]%elem_of_cons Hk3; [exists h; rewrite Hk2; left|].
        destruct (G2 k Hk1 Hk2 Hk3) as (h' & Hh). exists h'. by right.
  Qed.

  (** ** The least candidate *)
  Lemma least_in (c : F * nat) l : least c l ∈ c :: l.
  Proof.
    clear. unfold least. revert c. induction l as [|y l IH]; intros c; simpl; [left|].
    destruct (nltb N (fst y) (fst c)).
    - right. apply IH.
    - specialize (IH c). apply elem_of_cons in IH as [->|IH]; [left|right; by right].
  Qed.
  Lemma least_least (c : F * nat) l : total_order N -> forall x, x ∈ c :: l -> nltb N (fst x) (fst (least c l)) = false.
  Proof.
    clear. intros (Hirr & Hasym & Htr). unfold least. revert c.
    induction l as [|y l IH]; intros c x Hx; simpl; [apply elem_of_list_singleton in Hx as ->; apply Hirr|].
    assert (Hc : nltb N (fst c) (fst (if nltb N (fst y) (fst c) then y else c)) = false).
    { destruct (nltb N (fst y) (fst c)) eqn:E; [by apply Hasym|apply Hirr]. }
    assert (Hy : nltb N (fst y) (fst (if nltb N (fst y) (fst c) then y else c)) = false).
    { destruct (nltb N (fst y) (fst c)) eqn:E; [apply Hirr|done]. }
    apply elem_of_cons in Hx as [->|Hx]; [eapply Htr; [exact Hc|]; apply IH; left|].
    apply elem_of_cons in Hx as [->|Hx]; [eapply Htr; [exact Hy|]; apply IH; left|]. apply IH. by right.
  Qed.

  (** ** One cluster can be split in one way only *)
  Lemma child_desc_unique x b b' j : in_tree s0 x -> child_of s0 x b -> child_of s0 x b' -> desc s0 b j -> desc s0 b' j -> b = b'.
  Proof using Hok0.
    intros Hx (l & Hl & Hb) (l' & Hl' & Hb') Hd Hd'. apply (in_tree_sub C _ _ _ Hok0) in Hx as (u & Hu & <-).
    pose proof (sub_children C s0 t0 u Hok0 Hu) as Hc.
    rewrite (children_of_det _ _ _ _ _ Hl Hc) in Hb. rewrite (children_of_det _ _ _ _ _ Hl' Hc) in Hb'.
    apply elem_of_list_fmap in Hb as (k & -> & Hk). apply elem_of_list_fmap in Hb' as (k' & -> & Hk').
    assert (Hs : sub C k t0) by (exact (sub_kid_of C k t0 u Hu Hk)). assert (Hs' : sub C k' t0) by (exact (sub_kid_of C k' t0 u Hu Hk')).
    apply (desc_sub C s0 t0 k j Hok0 Hs) in Hd as (v & Hv & Ev). apply (desc_sub C s0 t0 k' j Hok0 Hs') in Hd' as (v' & Hv' & Ev').
    pose proof (sub_nodup t0 u (so_nodup _ _ _ Hok0) Hu) as Hnd. destruct u as [id sm kids]. apply NoDup_kids in Hnd as [_ Hnd].
    f_equal. apply (kids_disjoint C kids k k' j Hnd Hk Hk'); [rewrite <- Ev|rewrite <- Ev']; by apply sub_tid.
  Qed.
  Lemma splits_det x l l1 l2 : clustering s0 temp l -> splits_at s0 temp x l l1 -> splits_at s0 temp x l l2 -> l1 = l2.
  Proof using Hok0.
    intros [Hcl _] (Hx & L1 & L & H1) (_ & L2 & _ & H2). apply list_eq. intros i.
    destruct (l !! i) as [a|] eqn:Ea.
    - assert (Hi : i < length l) by (by eapply lookup_lt_Some).
      destruct (l1 !! i) as [b1|] eqn:E1; [|apply lookup_ge_None in E1; lia].
      destruct (l2 !! i) as [b2|] eqn:E2; [|apply lookup_ge_None in E2; lia].
      destruct (temp !! i) as [j|] eqn:Ej; [|apply lookup_ge_None in Ej; lia].
      destruct (H1 i a b1 j Ea E1 Ej) as [P1 Q1]. destruct (H2 i a b2 j Ea E2 Ej) as [P2 Q2].
      destruct (decide (a = x)) as [E|E]; [|by rewrite Q1, Q2].
      destruct (P1 E) as [? ?]. destruct (P2 E) as [? ?].
      assert (Hin : in_tree s0 x). { apply elem_of_list_lookup in Hx as (i' & Hx). by destruct (Forall2_lookup_r _ _ _ _ _ Hcl Hx) as (? & _ & ? & _). }
      f_equal. by eapply (child_desc_unique x).
    - apply lookup_ge_None in Ea. rewrite !lookup_ge_None_2 by lia. done.
  Qed.

  (** ** The loop *)
  Record loop_spec (t : tree) (n : nat) (ys : list (list nat * F)) (r : res unit) : Prop := {
    lp_len : length ys <= n;
    lp_first : forall l h, ys !! 0 = Some (l, h) -> Forall2 (lab t) temp l;
    lp_all : forall l h, (l, h) ∈ ys -> clustering s0 temp l /\ topped l h;
    lp_next : forall i l h l' h', ys !! i = Some (l, h) -> ys !! (S i) = Some (l', h') ->
      exists x hx, splits_at s0 temp x l l' /\ valued l' hx /\
        (total_order N -> forall x2 l2, splits_at s0 temp x2 l l2 -> exists h2, valued l2 h2 /\ nltb N h2 hx = false);
    lp_end : r = Ok tt -> length ys < n -> exists h, last ys = Some (temp, h);
    lp_err : forall e, r = Err e -> raised e;
  }.

  Lemma lab_det s t j x y : inv s t -> lab t j x -> lab t j y -> x = y.
  Proof. intros Hi (c & Hc) (d & Hd). pose proof (assigned_det C t j _ _ (so_nodup _ _ _ (iv_ok _ _ _ _ _ Hi)) Hc Hd). congruence. Qed.

  Lemma loop_ok n : forall nth minsplit s t, (minsplit <= nth) -> inv s t -> temp <> [] ->
    let '(ys, r, s') := cl_loop C setord heur n nth minsplit temp s in
    loop_spec t n ys r /\ (0 < n -> r = Ok tt -> ys <> []).
  Proof using Hok0 Hread Hset.
    induction n as [|n IH]; intros nth minsplit s t Hm Hi Hne.
    { simpl. split; [|lia]. split; simpl; try done; try lia. intros l h Hx. by apply elem_of_nil in Hx. }
    cbn [cl_loop]. rewrite (proj2 (Nat.leb_le minsplit nth) Hm).
    destruct (assign_spec C s t temp (iv_ok _ _ _ _ _ Hi) (iv_leaf _ _ _ _ _ Hi)) as (asg & Ea & Hasg). rewrite Ea.
    pose proof (assigned_labs _ _ _ Hasg) as Hlabs. pose proof (lab_clustering _ _ _ Hok0 _ _ _ Hi Hlabs) as Hcl.
    pose proof (labs_here _ _ _ _ _ _ Hi Hlabs) as Hhere.
    unfold TreeModel.mbind at 1. destruct (heur (map fst asg) temp s) as [[h|e] s1] eqn:Eh.
    2: { simpl. split; [|done]. split; simpl; try done; try lia. 1: intros l h Hx; by apply elem_of_nil in Hx.
         intros e' [= <-]. exists (map fst asg), s, s1. split; [apply (iv_from _ _ _ _ _ Hi)|by split]. }
    cbn [mret]. pose proof (inv_frame _ _ _ _ _ _ _ _ _ Hi Eh) as Hi1.
    assert (Hv : topped (map fst asg) h).
    { exists s, s1. split; [apply (iv_from _ _ _ _ _ Hi)|]. split; [|done].
      eapply lab_top; [exact (iv_ok _ _ _ _ _ Hi)|exact (inv_start _ _ _ (iv_ok _ _ _ _ _ Hi) (iv_leaf _ _ _ _ _ Hi))|done|done]. }
    assert (Hone : forall r, (r = Ok tt -> n = 0 \/ map fst asg = temp) -> (forall e, r = Err e -> raised e) ->
      loop_spec t (S n) [(map fst asg, h)] r).
    { intros r Hr He. split; simpl; try done; try lia.
      - intros l h' [= <- <-]. done.
      - intros l h' [= -> ->]%elem_of_list_singleton. done.
      - intros Hr1 Hlt. destruct (Hr Hr1) as [->| ->]; [lia|]. eauto. }
    pose proof (try_ok t asg Hasg (setord (map fst asg)) s1 Hi1 (fun x Hx => proj1 (Hset _ _) Hx)) as Htry.
    destruct (mmapM C (try_split C heur asg temp) (setord (map fst asg)) s1) as [[cus|e] s3] eqn:Et.
    2: { split; [|done]. apply Hone; [done|]. intros e' [= <-]. apply Htry. }
    destruct Htry as (Hi3 & G1 & G2). destruct (concat cus) as [|c cl] eqn:Ecus.
    { split; [|done]. apply Hone; [|done]. intros _. right.
      assert (Hall : Forall2 (lab t) temp temp).
      { apply Forall_Forall2_diag. apply Forall_forall. intros j Hj.
        apply elem_of_list_lookup in Hj as (i & Hj). destruct (Forall2_lookup_l _ _ _ _ _ Hasg Hj) as (a & Ha & Hass).
        inversion Hass as [H1 H2 E|k Hk H1 H2 E|k k' Hk Hk' Hl E]; subst a; [by exists None|by exists None|].
        exfalso. destruct (G2 k Hk) as (h' & Hh); [|by intros Ek; rewrite Ek in Hk'; apply elem_of_nil in Hk'|by apply elem_of_nil in Hh].
        apply Hset. apply elem_of_list_fmap. exists (tid k, Some (tid k')). split; [done|]. by eapply elem_of_list_lookup_2. }
      clear -Hall Hlabs Hi. apply list_eq. intros i. destruct (temp !! i) as [j|] eqn:Ej.
      - destruct (Forall2_lookup_l _ _ _ _ _ Hlabs Ej) as (x & Hx & H1). destruct (Forall2_lookup_l _ _ _ _ _ Hall Ej) as (y & Hy & H2).
        rewrite Hx. rewrite Ej in Hy. injection Hy as <-. f_equal. by eapply lab_det.
      - apply lookup_ge_None in Ej. apply lookup_ge_None. pose proof (Forall2_length _ _ _ Hlabs). lia. }
    set (b := least c cl). assert (Hb : b ∈ c :: cl) by apply least_in.
    destruct b as [hb x] eqn:Eb. destruct (G1 hb x Hb) as (_ & (k & Hk & <- & Hkne) & Hvb). cbn [snd].
    destruct (inv_split _ _ _ s3 t k Hi3 Hk Hkne) as (s4 & E4 & Hi4). rewrite E4.
    assert (Hin : tid k ∈ map fst asg). { apply Hset. by eapply G1. }
    pose proof (so_nodup _ _ _ (iv_ok _ _ _ _ _ Hi)) as Hnd.
    specialize (IH (S nth) minsplit s4 (split_tree C t k) ltac:(lia) Hi4 Hne).
    destruct (cl_loop C setord heur n (S nth) minsplit temp s4) as [[ys r] s5] eqn:El. destruct IH as [[L1 L2 L3 L4 L5 L6] L7].
    split; [|done]. destruct (repl_ok s0 t0 t k asg temp Hok0 Hk Hnd Hkne Hasg) as [_ Hrepl].
    split.
    - simpl. lia.
    - simpl. intros l h' [= <- <-]. done.
    - simpl. intros l h' [[= -> ->]|Hl]%elem_of_cons; [done|by eapply L3].
    - intros [|i] l h1 l' h2; simpl; intros Hl Hl'.
      + injection Hl as <- <-. pose proof (L2 _ _ Hl') as Hl1.
        assert (l' = repl (tid k) asg) as ->.
        { clear -Hl1 Hrepl Hi4. apply list_eq. intros i. destruct (temp !! i) as [j|] eqn:Ej.
          - destruct (Forall2_lookup_l _ _ _ _ _ Hl1 Ej) as (x & Hx & H1). destruct (Forall2_lookup_l _ _ _ _ _ Hrepl Ej) as (y & Hy & H2).
            rewrite Hx, Hy. f_equal. by eapply lab_det.
          - apply lookup_ge_None in Ej. pose proof (Forall2_length _ _ _ Hl1). pose proof (Forall2_length _ _ _ Hrepl).
            rewrite !lookup_ge_None_2 by lia. done. }
        exists (tid k), hb. split; [exact (repl_splits s0 t0 temp Hok0 s t k asg Hi Hk Hkne Hin Hasg)|]. split; [done|]. intros Hord x2 l2 Hs2.
        assert (Hx2 : exists k2, k2 ∈ tkids t /\ tid k2 = x2 /\ tkids k2 <> []).
        { destruct Hs2 as (Hin2 & Hlen2 & Hlen3 & Hs2). apply elem_of_list_lookup in Hin2 as (i & Hin2).
          destruct (Forall2_lookup_r _ _ _ _ _ Hlabs Hin2) as (j & Hj & c2 & Hass).
          assert (Hi2 : i < length l2) by (rewrite Hlen2; by eapply lookup_lt_Some).
          destruct (lookup_lt_is_Some_2 _ _ Hi2) as (b2 & Hb2). destruct (Hs2 i x2 b2 j Hin2 Hb2 Hj) as [Hs3 _].
          destruct (Hs3 eq_refl) as [(ch & Hch & Hbin) _].
          inversion Hass as [H1 H2 E|k2 Hk2 H1 H2 E|k2 k' Hk2 Hk' Hl2 E]; subst.
          - exfalso. rewrite (iv_root _ _ _ _ _ Hi) in Hch.
            rewrite (children_of_det _ _ _ _ _ Hch (sub_children C s0 t0 t0 Hok0 (sub_refl _ _))) in Hbin.
            rewrite (iv_none _ _ _ _ _ Hi H2) in Hbin. by apply elem_of_nil in Hbin.
          - exfalso. rewrite (children_of_det _ _ _ _ _ Hch (sub_children C s0 t0 k2 Hok0 (iv_kids _ _ _ _ _ Hi _ Hk2))) in Hbin.
            rewrite H2 in Hbin. by apply elem_of_nil in Hbin.
          - exists k2. split; [done|]. split; [done|]. intros Ek. rewrite Ek in Hk'. by apply elem_of_nil in Hk'. }
        destruct Hx2 as (k2 & Hk2 & <- & Hk2ne).
        assert (Hin2 : tid k2 ∈ map fst asg) by apply Hs2.
        destruct (G2 k2 Hk2 (proj2 (Hset _ _) Hin2) Hk2ne) as (h2' & Hh2).
        exists h2'. split.
        * destruct (G1 _ _ Hh2) as (_ & _ & Hv2).
          by rewrite (splits_det (tid k2) _ _ _ Hcl Hs2 (repl_splits s0 t0 temp Hok0 _ _ _ _ Hi Hk2 Hk2ne Hin2 Hasg)).
        * pose proof (least_least c cl Hord _ Hh2) as Hle. fold b in Hle. by rewrite Eb in Hle.
      + by eapply L4.
    - intros Hr Hlen. simpl in Hlen. destruct (L5 Hr ltac:(lia)) as (h' & Hh'). exists h'.
      destruct ys as [|y ys]; [done|]. simpl in *. done.
    - exact L6.
  Qed.
  End From2.
End Loop.
