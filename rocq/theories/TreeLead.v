(** * What one pass of the loop does to a tree, with the choice of children.

    As [sorts] of TreeSorts.v, and in addition: the child an instance is sent
    to gains at least as much by it as every other child, and of two children
    that are merged the second gains at least as much as every child but the
    first (exact arithmetic).  [fcob_gsorts]: every run of the loop of
    cobweb.py:152-202 is of this kind. *)
From Coq Require Import Reals Lra.
From stdpp Require Import base decidable tactics gmap strings list.
From Verif Require Import Base Num TreeModel TreeFun TreeScore TreeRefine TreeSorts SortFacts ScoreR.

Section Lead.
  Context (C : NodeClass ROps) (rng : nat -> R).
  Notation S' := (nc_sum C).
  Notation I := (nc_inst C).
  Notation tree := (tree C).
  Notation tall := (tall C).
  Notation closed := (closed C).

  (** Given the instance, a concept with table [u] gains at least as much as
      one with table [v] (relative_cu_for_insert, cobweb.py:613-665). *)
  Definition better (x : nc_ctx C) (i : I) (u v : S') : Prop :=
    exists r r' : R, relative_cu_for_insert C x u i = Ok r /\ relative_cu_for_insert C x v i = Ok r' /\ (r' <= r)%R.

  Lemma two_best_lead x s (kids : list (nat * S')) i a cu b1 b2 a' :
    two_best_children C rng x s kids i a = (Ok (cu, b1, b2), a') -> NoDup (map fst kids) ->
    (forall tb c, (b1, tb) ∈ kids -> c ∈ kids -> better x i tb (snd c)) /\
    (forall b tb c, b2 = Some b -> (b, tb) ∈ kids -> c ∈ kids -> fst c <> b1 -> better x i tb (snd c)).
  Proof.
    intros E Hnd. apply two_best_keys in E as (l & rel & n & r & rest & k & Hl & Hkey & Es & Hb2 & _ & _).
    assert (Hk : forall c, c ∈ kids -> exists u n r, (u, n, r, fst c) ∈ l /\ relative_cu_for_insert C x (snd c) i = Ok u).
    { intros c Hc. apply elem_of_list_lookup in Hc as (j & Hj).
      destruct (Hkey j c Hj) as ([[[u n0] r0] id] & Hlj & (Hu & _ & _ & ->)).
      exists u, n0, r0. split; [by eapply elem_of_list_lookup_2|done]. }
    assert (Hinv : forall u n r b tb, (u, n, r, b) ∈ l -> (b, tb) ∈ kids -> relative_cu_for_insert C x tb i = Ok u).
    { intros u n0 r0 b tb Hin Hb. apply elem_of_list_lookup in Hin as (j & Hj).
      destruct (lookup_lt_is_Some_2 kids j) as [c Hc].
      { rewrite <- Hl. by eapply lookup_lt_Some. }
      destruct (Hkey j c Hc) as ([[[u' n'] r'] id'] & Hlj & (Hu & _ & _ & Hid)).
      pose proof (eq_trans (eq_sym Hj) Hlj) as Heq. injection Heq as -> -> -> ->.
      apply elem_of_list_lookup in Hb as (j' & Hj').
      assert (j' = j) as ->.
      { eapply NoDup_lookup; [exact Hnd| |]; rewrite list_lookup_fmap; [rewrite Hj'|rewrite Hc]; simpl; [done|by rewrite <- Hid]. }
      rewrite Hc in Hj'. injection Hj' as ->. done. }
    pose proof (sort_desc_perm ckey_lt l) as Hp. rewrite Es in Hp.
    split.
    - intros tb c Hb Hc. destruct (Hk c Hc) as (u & n' & r' & Hin & Hu).
      exists rel, u. split; [apply (Hinv rel n r b1); [rewrite <- Hp; left|done]|]. split; [done|].
      destruct (sort_desc_head ckey_lt ckey_trans ckey_total l _ _ Es) as [_ Hmax].
      destruct (Hmax _ Hin) as [Heq|Hge]; [injection Heq; intros; subst; lra|]. by apply ckey_ge in Hge as [Hge _].
    - intros b tb c Eb Hb Hc Hne. rewrite Hb2 in Eb.
      destruct rest as [|[[[u2 n2] r2] b2'] rest]; [done|]. injection Eb as ->.
      destruct (Hk c Hc) as (u & n' & r' & Hin & Hu).
      exists u2, u. split; [apply (Hinv u2 n2 r2 b); [rewrite <- Hp; right; left|done]|]. split; [done|].
      rewrite <- Hp in Hin. apply elem_of_cons in Hin as [Hin|Hin]; [congruence|].
      apply elem_of_cons in Hin as [Hin|Hin]; [injection Hin; intros; subst; lra|].
      pose proof (sort_desc_sorted ckey_lt ckey_trans ckey_total l) as Hsort. rewrite Es in Hsort.
      inversion Hsort as [|? ? Hsort' _]; subst. inversion Hsort' as [|? ? _ Hf]; subst.
      rewrite Forall_forall in Hf. by apply Hf, ckey_ge in Hin as [Hge _].
  Qed.

  Lemma two_best_lead_kids x s (kids : list tree) i a cu b1 b2 a' k1 :
    two_best_children C rng x s (tables kids) i a = (Ok (cu, b1, b2), a') ->
    NoDup (concat (map ids kids)) -> kfind b1 kids = Some k1 ->
    (forall k, k ∈ kids -> better x i (tsum k1) (tsum k)) /\
    (forall b k2, b2 = Some b -> b1 <> b -> kfind b kids = Some k2 ->
       forall k, k ∈ kremove b1 kids -> better x i (tsum k2) (tsum k)).
  Proof.
    intros E Hnd Hk1. pose proof (NoDup_tids _ _ Hnd) as Hnt.
    assert (Et : map fst (tables kids) = map tid kids).
    { unfold tables. rewrite map_map. done. }
    assert (Hfind : forall b k, kfind b kids = Some k -> (b, tsum k) ∈ tables kids).
    { intros b k Hk. apply kfind_split in Hk as (l1 & l2 & -> & <- & _). unfold tables.
      apply elem_of_list_fmap. exists k. split; [done|]. apply elem_of_app. right. left. }
    assert (Hin : forall k, k ∈ kids -> (tid k, tsum k) ∈ tables kids).
    { intros k Hk. unfold tables. apply elem_of_list_fmap. by exists k. }
    destruct (two_best_lead _ _ _ _ _ _ _ _ _ E) as [H1 H2]; [by rewrite Et|].
    split.
    - intros k Hk. exact (H1 _ _ (Hfind _ _ Hk1) (Hin k Hk)).
    - intros b k2 Eb Hne Hk2 k Hk. pose proof (kremove_perm _ _ _ _ Hk1) as Hp.
      assert (Hkk : k ∈ kids) by (rewrite Hp at 1; by apply elem_of_list_further).
      assert (Ht1 : tid k1 = b1) by (by apply kfind_split in Hk1 as (? & ? & _ & ? & _)).
      refine (H2 _ _ _ Eb (Hfind _ _ Hk2) (Hin k Hkk) _). simpl. intros Htk.
      rewrite Hp in Hnt at 1. simpl in Hnt. apply NoDup_cons in Hnt as [Hni _]. apply Hni.
      rewrite Ht1. apply elem_of_list_fmap. exists k. split; [by rewrite Htk|done].
  Qed.

  (** The relation. *)
  Inductive gsorts (x : nc_ctx C) (i : I) : nat -> tree -> tree -> bool -> res nat -> Prop :=
  | gs_stop c t e : gsorts x i c t t false (Err e)
  | gs_match c id s s' b :
      nc_exact C s i = Ok b -> b = true \/ nc_count C s = 0 ->
      nc_inc C s i = (s', None) ->
      gsorts x i c (T id s []) (T id s' []) false (Ok id)
  | gs_fringe c id s s0 s1 s2 m n :
      nc_exact C s i = Ok false -> nc_count C s <> 0 ->
      nc_add C (nc_empty C) s = (s0, None) ->
      nc_inc C s0 i = (s1, None) ->
      nc_inc C (nc_empty C) i = (s2, None) ->
      c < m -> m < n ->
      gsorts x i c (T id s []) (T m s1 [T id s []; T n s2 []]) true (Ok n)
  | gs_best c c' id s s' kids k rest t' mv r kids' :
      (forall k', k' ∈ rest -> better x i (tsum k) (tsum k')) ->
      nc_inc C s i = (s', None) ->
      Permutation kids (k :: rest) -> c <= c' ->
      gsorts x i c' k t' mv r ->
      Permutation kids' (t' :: rest) ->
      gsorts x i c (T id s kids) (T id s' kids') false r
  | gs_new c id s s' s2 kids n :
      kids <> [] ->
      nc_inc C s i = (s', None) ->
      nc_inc C (nc_empty C) i = (s2, None) ->
      c < n ->
      gsorts x i c (T id s kids) (T id s' (kids ++ [T n s2 []])) false (Ok n)
  | gs_merge c m s0 sm id s s' kids k1 k2 rest t' mv r kids' :
      better x i (tsum k1) (tsum k2) -> (forall k', k' ∈ rest -> better x i (tsum k2) (tsum k')) ->
      nc_inc C s i = (s', None) ->
      Permutation kids (k1 :: k2 :: rest) -> rest <> [] ->
      nc_add C (nc_empty C) (tsum k1) = (s0, None) ->
      nc_add C s0 (tsum k2) = (sm, None) ->
      c < m ->
      gsorts x i m (T m sm [k1; k2]) t' mv r ->
      Permutation kids' (t' :: rest) ->
      gsorts x i c (T id s kids) (T id s' kids') false r
  | gs_split c c' id s kids k rest kids1 t' mv r :
      Permutation kids (k :: rest) -> tkids k <> [] ->
      Permutation kids1 (rest ++ tkids k) -> c <= c' ->
      gsorts x i c' (T id s kids1) t' mv r ->
      gsorts x i c (T id s kids) t' mv r.

  Lemma gsorts_sorts x i c t t' mv r : gsorts x i c t t' mv r -> sorts C i c t t' mv r.
  Proof.
    induction 1; [apply so_stop|by eapply so_match|by eapply so_fringe|by eapply so_best|by apply so_new
      |by eapply so_merge|by eapply so_split].
  Qed.

  Theorem fcob_gsorts P i (HP : closed P i) fuel : forall x (t : tree) a,
    tall P t -> NoDup (ids t) -> (forall j, j ∈ ids t -> j <= am_ctr a) ->
    let o := fcob C rng fuel x t i a in
    gsorts x i (am_ctr a) t (fo_tree o) (fo_moved o) (fo_res o) /\ tall P (fo_tree o).
  Proof.
    induction fuel as [|fuel IH]; intros x t a Hall Hnd Hb.
    { split; [apply gs_stop|done]. }
    destruct t as [id s kids]. cbn [fcob].
    apply tall_inv in Hall as [HPs Hkids].
    destruct (cl_inc _ _ _ HP s HPs) as (s' & Hinc & HPs').
    destruct (cl_inc _ _ _ HP _ (cl_empty _ _ _ HP)) as (s2 & Hinc2 & HPs2).
    destruct kids as [|k0 ks0].
    - destruct (nc_exact C s i) as [ex|e] eqn:Eex.
      2:{ split; [apply gs_stop|by constructor]. }
      destruct (ex || (nc_count C s =? 0)%nat) eqn:Eor.
      { rewrite Hinc. simpl. split; [|by constructor]. eapply gs_match; [done| |done].
        apply orb_true_iff in Eor as [->|E]; [by left|]. right.
        by apply Nat.eqb_eq. }
      apply orb_false_iff in Eor as [-> E]. apply Nat.eqb_neq in E.
      unfold ffringe, fnew_child.
      destruct (cl_add _ _ _ HP _ _ (cl_empty _ _ _ HP) HPs) as (s0 & Hadd & HPs0).
      destruct (cl_inc _ _ _ HP s0 HPs0) as (s1 & Hinc1 & HPs1).
      rewrite Hadd, Hinc1, Hinc2. simpl. split.
      { eapply gs_fringe; eauto; simpl; lia. }
      constructor; [done|]. repeat constructor; done.
    - set (kids := k0 :: ks0) in *.
      assert (Hne0 : kids <> []) by done. clearbody kids.
      assert (Hstop : forall e a1 mv, mv = false ->
        gsorts x i (am_ctr a) (T id s kids)
          (fo_tree (FOut (T id s kids) mv (Err e) a1)) mv (Err e) /\
        tall P (fo_tree (FOut (T id s kids) mv (Err e) a1))).
      { intros e a1 mv ->. split; [apply gs_stop|by constructor]. }
      destruct kids as [|k0' ks0']; [done|].
      set (kids := k0' :: ks0') in *.
      destruct (two_best_children C rng x s (tables kids) i a) as [[[[cu b1] b2]|e] a1] eqn:E2.
      2:{ by apply Hstop. }
      pose proof (proj1 (NoDup_kids _ _ _ _) Hnd) as [_ Hndk].
      destruct (two_best_kids _ _ _ _ _ _ _ _ _ _ _ (NoDup_tids _ _ Hndk) E2)
        as (Ha1 & k1 & Hk1 & Hb2).
      destruct (two_best_lead_kids _ _ _ _ _ _ _ _ _ k1 E2 Hndk Hk1) as [Hlead1 Hlead2].
      rewrite Hk1.
      set (o2 := match b2 with
                 | Some b0 => match kfind b0 kids with Some k2 => Some (Some k2) | None => None end
                 | None => Some None end).
      assert (Ho2 : exists ok2, o2 = Some ok2 /\
        match ok2 with
        | None => True
        | Some k2 => exists b0, b2 = Some b0 /\ kfind b0 kids = Some k2 /\ tid k2 = b0 /\ b1 <> b0
        end).
      { unfold o2. destruct b2 as [b0|]; [|by exists None].
        destruct Hb2 as [Hne [k2 Hk2]]. rewrite Hk2. exists (Some k2). split; [done|].
        exists b0. split; [done|]. split; [done|].
        apply kfind_split in Hk2 as (? & ? & ? & ? & ?). done. }
      destruct Ho2 as (ok2 & -> & Hok2).
      match goal with |- context [get_best_operation ?c ?r ?x ?s ?k ?i ?p ?q ?bk ?cu ?l ?a] =>
        pose proof (best_op_mono c r x s k i p q bk cu l a) as Hm;
        destruct (get_best_operation c r x s k i p q bk cu l a) as [[[u o]|e] a2] eqn:E3 end.
      2:{ by apply Hstop. }
      apply best_op_applicable in E3 as (_ & Happm & Happs).
      destruct Hm as [Ha2 _]. simpl in Ha2.
      assert (Hb' : forall j, j ∈ ids (T id s kids) -> j <= am_ctr a2).
      { intros j Hj. specialize (Hb j Hj). lia. }
      pose proof (kremove_perm _ _ _ _ Hk1) as Hp1.
      assert (Hk1in : k1 ∈ kids).
      { rewrite Hp1 at 1. left. }
      assert (Hk1nd : NoDup (ids k1)).
      { pose proof Hk1 as (l1 & l2 & E & _)%kfind_split.
        rewrite E in Hndk. by apply NoDup_kid in Hndk as [? _]. }
      assert (Hk1P : tall P k1).
      { rewrite Forall_forall in Hkids. by apply Hkids. }
      assert (Hrest1 : Forall (tall P) (kremove b1 kids)).
      { rewrite Hp1 in Hkids at 1. by apply Forall_cons in Hkids as [_ ?]. }
      clear Hne0. destruct o.
      + rewrite Hinc.
        destruct (IH x k1 a2 Hk1P Hk1nd) as [Hs Hall].
        { intros j Hj. apply Hb'. by eapply ids_kid. }
        cbn [fo_tree fo_moved fo_res].
        pose proof (kupdate_perm C (fo_moved (fcob C rng fuel x k1 i a2)) _ _ _
                      (fo_tree (fcob C rng fuel x k1 i a2)) Hk1) as Hq.
        split.
        * eapply gs_best; [|exact Hinc|exact Hp1| |exact Hs|exact Hq]; [|lia].
          intros k' Hk'. apply Hlead1. rewrite Hp1. by right.
        * constructor; [done|]. rewrite Hq. apply Forall_cons. done.
      + rewrite Hinc. unfold fnew_child. rewrite Hinc2.
        cbn [fo_tree fo_moved fo_res am_ctr anext]. split.
        * apply (gs_new x i (am_ctr a) id s s' s2 kids (S (am_ctr a2))); [done|done|done|lia].
        * constructor; [done|]. apply Forall_app. split; [done|].
          apply Forall_singleton. by constructor.
      + destruct ok2 as [k2|]; [|by apply Hstop].
        destruct Hok2 as (b0 & -> & Hk2 & Ht2 & Hne). rewrite Hinc. unfold fmerged.
        destruct (merge_ids C id s s kids b1 b0 k1 k2 (am_ctr a2) Hnd Hb' Hk1 Hk2 Hne)
          as (Hk2' & _ & _).
        pose proof (kremove_perm _ _ _ _ Hk2') as Hp2.
        assert (Hk2P : tall P k2 /\ Forall (tall P) (kremove b0 (kremove b1 kids))).
        { rewrite Hp2 in Hrest1 at 1. by apply Forall_cons in Hrest1. }
        destruct Hk2P as [Hk2P Hrest2].
        assert (HP1 : P (tsum k1)) by (destruct k1; by apply tall_inv in Hk1P as [? _]).
        assert (HP2 : P (tsum k2)) by (destruct k2; by apply tall_inv in Hk2P as [? _]).
        destruct (cl_add _ _ _ HP _ _ (cl_empty _ _ _ HP) HP1) as (sa & Ha & HPa).
        destruct (cl_add _ _ _ HP _ _ HPa HP2) as (sm & Hb0 & HPm).
        rewrite Ha, Hb0. simpl am_ctr. rewrite Ht2.
        destruct (merge_ids C id s sm kids b1 b0 k1 k2 (am_ctr a2) Hnd Hb' Hk1 Hk2 Hne)
          as (_ & Hperm & Hkm).
        set (m := S (am_ctr a2)) in *. cbv zeta.
        set (kids' := kremove b0 (kremove b1 kids) ++ [T m sm [k1; k2]]) in *.
        assert (Hndm : NoDup (ids (T m sm [k1; k2]))).
        { assert (Hnd' : NoDup (concat (map ids kids'))).
          { rewrite Hperm. apply NoDup_cons. split; [|done]. intros Hin.
            assert (m <= am_ctr a2); [|unfold m in *; lia]. apply Hb'. by right. }
          pose proof (kfind_split _ _ _ _ Hkm) as (l1 & l2 & E & _).
          rewrite E in Hnd'. by apply NoDup_kid in Hnd' as [? _]. }
        assert (Hbm : forall j, j ∈ ids (T m sm [k1; k2]) -> j <= am_ctr (anext a2)).
        { intros j Hj. assert (Hj' : j ∈ concat (map ids kids')).
          { apply elem_of_ids_kids. eexists. split; [|exact Hj].
            unfold kids'. apply elem_of_app. right. left. }
          rewrite Hperm in Hj'. apply elem_of_cons in Hj' as [->|Hj']; [done|].
          assert (j <= am_ctr a2) by (apply Hb'; by right). simpl. lia. }
        destruct (IH x (T m sm [k1; k2]) (anext a2)) as [Hs Hall];
          [repeat constructor; done|done|done|].
        cbn [fo_tree fo_moved fo_res].
        assert (Hq : Permutation
          (kupdate (fo_moved (fcob C rng fuel x (T m sm [k1; k2]) i (anext a2))) m
             (fo_tree (fcob C rng fuel x (T m sm [k1; k2]) i (anext a2))) kids')
          (fo_tree (fcob C rng fuel x (T m sm [k1; k2]) i (anext a2))
             :: kremove b0 (kremove b1 kids))).
        { rewrite (kupdate_perm C _ _ _ _ _ Hkm). f_equiv.
          pose proof (kremove_perm _ _ _ _ Hkm) as Hq. unfold kids' in Hq at 1.
          rewrite <- Permutation_cons_append in Hq.
          by apply Permutation_cons_inv in Hq. }
        split.
        * eapply gs_merge; [| |exact Hinc| | |exact Ha|exact Hb0| |exact Hs|exact Hq].
          -- apply Hlead1. apply kfind_split in Hk2 as (q1 & q2 & Eq & _). rewrite Eq. apply elem_of_app. right. left.
          -- intros k' Hk'. apply (Hlead2 b0 k2 eq_refl Hne Hk2). rewrite Hp2. by right.
          -- rewrite Hp1 at 1. f_equiv. exact Hp2.
          -- intros Hnil. rewrite Hnil in Hp2. apply Permutation_length in Hp1, Hp2.
             destruct (Happm eq_refl) as [Hlen _]. unfold tables in Hlen.
             rewrite map_length in Hlen. simpl in *. lia.
          -- simpl; lia.
        * constructor; [done|]. rewrite Hq. apply Forall_cons. done.
      + set (kids1 := kremove b1 kids ++ tkids k1) in *.
        assert (Hsub : forall j, j ∈ concat (map ids kids1) -> j ∈ concat (map ids kids)).
        { intros j. rewrite (concat_ids_perm _ _ _ Hp1). unfold kids1.
          rewrite concat_ids_app. destruct k1 as [i1 s1 ks1]. simpl.
          rewrite !elem_of_cons, !elem_of_app. tauto. }
        destruct (IH x (T id s kids1) a2) as [Hs Hall].
        * constructor; [done|]. apply Forall_app. split; [done|].
          destruct k1. by apply tall_inv in Hk1P as [_ ?].
        * apply NoDup_kids in Hnd as [Hn1 Hn2]. apply NoDup_kids. split.
          { intros Hin. by apply Hn1, Hsub. }
          rewrite (concat_ids_perm _ _ _ Hp1) in Hn2. unfold kids1. clearbody kids.
          rewrite concat_ids_app. destruct k1 as [i1 s1 ks1]. simpl in Hn2 |- *.
          apply NoDup_cons in Hn2 as [_ Hn2].
          by rewrite (Permutation_app_comm (concat (map ids (kremove b1 kids)))).
        * intros j Hj. apply Hb'. apply elem_of_cons in Hj as [->|Hj]; [left|].
          right. by apply Hsub.
        * split; [|done]. eapply gs_split; [exact Hp1| |done| |exact Hs]; [|lia].
          intros Hnil. rewrite Hnil in Happs. by apply Happs.
  Qed.


  (** ** Categorizing *)
  (** From [t] the instance can only reach leaves whose table is in [Q], when
      at every concept it goes to a child that gains most. *)
  Inductive leads (x : nc_ctx C) (i : I) (Q : S' -> Prop) : tree -> Prop :=
  | ld_leaf id s : Q s -> leads x i Q (T id s [])
  | ld_node id s kids : kids <> [] ->
      (forall k, k ∈ kids -> (forall k', k' ∈ kids -> better x i (tsum k) (tsum k')) -> leads x i Q k) ->
      leads x i Q (T id s kids).

  Lemma fcat_leads x i Q fuel : forall t a j, leads x i Q t -> NoDup (ids t) ->
    fst (fcat C rng fuel x t i a) = Ok j -> exists sj, leaf_of C t j sj /\ Q sj.
  Proof.
    induction fuel as [|fuel IH]; intros t a j Hl Hnd; [done|].
    destruct t as [id s kids]. cbn [fcat]. destruct kids as [|k0 ks0].
    { intros [= <-]. exists s. split; [constructor|]. by inversion Hl. }
    set (kids := k0 :: ks0) in *.
    destruct (two_best_children C rng x s (tables kids) i a) as [[[[cu b1] b2]|e] a1] eqn:E2; [|done].
    destruct (kfind b1 kids) as [k1|] eqn:Hk1; [|done]. intros Ej.
    pose proof (proj1 (NoDup_kids _ _ _ _) Hnd) as [_ Hndk].
    destruct (two_best_lead_kids _ _ _ _ _ _ _ _ _ k1 E2 Hndk Hk1) as [Hlead1 _].
    assert (Hin : k1 ∈ kids) by (rewrite (kremove_perm _ _ _ _ Hk1) at 1; left).
    destruct (IH k1 a1 j) as (sj & Hlf & HQ); [| |done|].
    - inversion Hl as [|? ? ? Hne Hk]; subst. by apply Hk.
    - pose proof Hk1 as (l1 & l2 & E & _)%kfind_split. rewrite E in Hndk. by apply NoDup_kid in Hndk as [? _].
    - exists sj. split; [|done]. by eapply leaf_below.
  Qed.
End Lead.
