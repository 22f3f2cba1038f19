(** * When sorting an instance cannot raise.

    A condition on tables under which every score is defined; then, if no two
    random draws coincide, ifit and categorize return. *)
From stdpp Require Import base decidable list gmap strings.
From Verif Require Import Base Num TreeModel TreeFun TreeScore TreeRefine TreeSorts TreeInv SpecTree TreeState.

Lemma abind_eq {X Y} (m : A X) (f : X -> A Y) a v a1 :
  m a = (Ok v, a1) -> abind m f a = f v a1.
Proof. unfold abind. by intros ->. Qed.

Section Total.
  Context {N : NumOps} (C : NodeClass N) (rng : nat -> num N).
  Notation S' := (nc_sum C).
  Notation I := (nc_inst C).
  Notation tree := (tree C).

  (** Numbers: 1, 2, 3, ... are not 0; random() never repeats. *)
  Hypothesis Hnz : forall n, neqb N (nofnat N (S n)) (nofnat N 0) = false.
  Hypothesis Hrng : forall j k, j <> k -> neqb N (rng j) (rng k) = false.

  (** Tables for which every score with [i] is defined. *)
  Record scorable (V : S' -> Prop) (x : nc_ctx C) (i : I) : Prop := {
    sc_count : forall s, V s -> 0 < nc_count C s;
    sc_ecg : forall s, V s -> exists e, nc_ecg C x s = Ok e;
    sc_new : exists s', nc_inc C (nc_empty C) i = (s', None) /\ V s';
    sc_inc : forall s, V s -> exists s', nc_inc C s i = (s', None) /\ V s';
    sc_copy : forall s, V s -> exists s', nc_add C (nc_empty C) s = (s', None) /\ V s';
    sc_add : forall s1 s2, V s1 -> V s2 -> exists s', nc_add C s1 s2 = (s', None) /\ V s';
    sc_exact : forall s, V s \/ s = nc_empty C -> exists b, nc_exact C s i = Ok b;
    sc_zero : nc_count C (nc_empty C) = 0;
  }.

  Context (V : S' -> Prop) (x : nc_ctx C) (i : I).
  Hypothesis Sc : scorable V x i.

  Lemma pydiv_pos a n : 0 < n -> exists q, pydiv N a (nofnat N n) = Ok q.
  Proof. intros Hn. destruct n; [lia|]. unfold pydiv. rewrite Hnz. eauto. Qed.

  Lemma tinc_total s : V s -> exists s', tinc C s i = Ok s' /\ V s'.
  Proof. intros Hs. destruct (sc_inc _ _ _ Sc s Hs) as (s' & E & Hs'). unfold tinc. rewrite E. eauto. Qed.
  Lemma tnew_total : exists s', tinc C (nc_empty C) i = Ok s' /\ V s'.
  Proof. destruct (sc_new _ _ _ Sc) as (s' & E & Hs'). unfold tinc. rewrite E. eauto. Qed.
  Lemma tcopy_total s : V s -> exists s', tcopy C s = Ok s' /\ V s'.
  Proof. intros Hs. destruct (sc_copy _ _ _ Sc s Hs) as (s' & E & Hs'). unfold tcopy, tadd. rewrite E. eauto. Qed.
  Lemma tadd_total s1 s2 : V s1 -> V s2 -> exists s', tadd C s1 s2 = Ok s' /\ V s'.
  Proof. intros H1 H2. destruct (sc_add _ _ _ Sc s1 s2 H1 H2) as (s' & E & Hs'). unfold tadd. rewrite E. eauto. Qed.

  Lemma fold_total (kids : list S') d : 0 < d -> Forall V kids -> forall acc, exists r,
    rfold (fun acc k =>
             rbind (pydiv N (nofnat N (nc_count C k)) (nofnat N d)) (fun p =>
             rbind (nc_ecg C x k) (fun e => Ok (nadd N acc (nmul N p e))))) acc kids = Ok r.
  Proof.
    intros Hd. induction kids as [|k kids IH]; intros HF acc; simpl; [eauto|].
    apply Forall_cons in HF as [Hk HF].
    destruct (pydiv_pos (nofnat N (nc_count C k)) d Hd) as (p & ->).
    destruct (sc_ecg _ _ _ Sc k Hk) as (e & ->). cbn [rbind]. by apply IH.
  Qed.

  Lemma cu_total s kids : V s -> Forall V kids -> exists u, category_utility C x s kids = Ok u.
  Proof.
    intros Hs HF. unfold category_utility. destruct kids as [|k ks]; [eauto|].
    set (kids := k :: ks) in *.
    destruct (fold_total kids (nc_count C s) (sc_count _ _ _ Sc s Hs) HF (nofnat N 0)) as (r & ->).
    destruct (sc_ecg _ _ _ Sc s Hs) as (e & ->). cbn [rbind]. apply pydiv_pos. simpl. lia.
  Qed.

  Lemma rel_total s : V s -> exists u, relative_cu_for_insert C x s i = Ok u.
  Proof.
    intros Hs. unfold relative_cu_for_insert.
    destruct (tcopy_total s Hs) as (t & -> & Ht). cbn [rbind].
    destruct (tinc_total t Ht) as (t' & -> & Ht'). cbn [rbind].
    destruct (sc_ecg _ _ _ Sc _ Ht') as (e & ->). destruct (sc_ecg _ _ _ Sc _ Hs) as (e2 & ->).
    cbn [rbind]. eauto.
  Qed.

  Lemma const_total s kids : V s -> Forall V kids -> kids <> [] ->
    exists u, compute_relative_CU_const C x s kids i = Ok u.
  Proof.
    intros Hs HF Hne. unfold compute_relative_CU_const.
    destruct (tcopy_total s Hs) as (t & -> & Ht). cbn [rbind].
    destruct (tinc_total t Ht) as (t' & -> & Ht'). cbn [rbind].
    destruct (sc_ecg _ _ _ Sc _ Ht') as (e & ->). cbn [rbind].
    destruct (fold_total kids (nc_count C s + 1) ltac:(lia) HF (nofnat N 0)) as (r & ->).
    cbn [rbind]. apply pydiv_pos. destruct kids; simpl; [done|lia].
  Qed.

  Lemma mapM_total {X} (f : X -> res S') l : (forall c, c ∈ l -> exists s', f c = Ok s' /\ V s') ->
    exists l', rmapM f l = Ok l' /\ Forall V l'.
  Proof.
    induction l as [|c l IH]; intros Hf; simpl; [eauto|].
    destruct (Hf c) as (s' & -> & Hs'); [left|]. cbn [rbind].
    destruct IH as (l' & -> & Hl'); [intros c' Hc'; apply Hf; by right|]. cbn [rbind]. eauto.
  Qed.

  Lemma new_total s kids : V s -> Forall V kids -> exists u, cu_for_new_child C x s kids i = Ok u.
  Proof.
    intros Hs HF. unfold cu_for_new_child. destruct (tcopy_total s Hs) as (t & -> & Ht). cbn [rbind].
    destruct (mapM_total (tcopy C) kids) as (l' & -> & Hl').
    { intros c Hc. apply tcopy_total. rewrite Forall_forall in HF. by apply HF. }
    cbn [rbind]. destruct (tinc_total t Ht) as (t' & -> & Ht'). cbn [rbind].
    destruct tnew_total as (n & -> & Hn). cbn [rbind].
    apply cu_total; [done|]. apply Forall_app. split; [done|]. by apply Forall_singleton.
  Qed.

  Lemma merge_total s (kids : list (nat * S')) b1 b2 : V s -> Forall (fun c => V (snd c)) kids ->
    V (snd b1) -> V (snd b2) -> exists u, cu_for_merge C x s kids b1 b2 i = Ok u.
  Proof.
    intros Hs HF H1 H2. unfold cu_for_merge. destruct (tcopy_total s Hs) as (t & -> & Ht). cbn [rbind].
    destruct (tinc_total t Ht) as (t' & -> & Ht'). cbn [rbind].
    destruct (tcopy_total _ H1) as (m & Em & Hm). unfold tcopy in Em. rewrite Em. cbn [rbind].
    destruct (tadd_total m (snd b2) Hm H2) as (m2 & -> & Hm2). cbn [rbind].
    destruct (tinc_total m2 Hm2) as (m3 & -> & Hm3). cbn [rbind].
    match goal with |- context [rmapM ?f ?l] => destruct (mapM_total f l) as (l' & -> & Hl') end.
    { intros c Hc. apply tcopy_total. apply elem_of_filterb in Hc as [Hc _].
      rewrite Forall_forall in HF. by apply HF. }
    cbn [rbind]. apply cu_total; [done|]. by apply Forall_cons.
  Qed.

  Lemma split_total s (kids : list (nat * S')) b bk : V s -> Forall (fun c => V (snd c)) kids ->
    Forall (fun c => V (snd c)) bk -> exists u, cu_for_split C x s kids b bk = Ok u.
  Proof.
    intros Hs HF HB. unfold cu_for_split. destruct (tcopy_total s Hs) as (t & -> & Ht). cbn [rbind].
    match goal with |- context [rmapM ?f ?l] => destruct (mapM_total f l) as (l' & -> & Hl') end.
    { intros c Hc. apply tcopy_total. apply elem_of_filterb in Hc as [Hc _].
      apply elem_of_app in Hc as [Hc|Hc]; [rewrite Forall_forall in HF; by apply HF|].
      rewrite Forall_forall in HB. by apply HB. }
    cbn [rbind]. by apply cu_total.
  Qed.

  (** The keys of different children carry different draws. *)
  Lemma scores_total (kids : list (nat * S')) : Forall (fun c => V (snd c)) kids -> forall a,
    exists l a', amapM (fun c =>
             abind (atemps 1) (fun _ =>
             abind (alift (relative_cu_for_insert C x (snd c) i)) (fun u =>
             abind (arandom rng) (fun r =>
             aret (u, nc_count C (snd c), r, fst c))))) kids a = (Ok l, a') /\
      length l = length kids /\ am_rpos a' = am_rpos a + length kids /\
      forall n k, l !! n = Some k -> let '(_, _, r, _) := k in r = rng (am_rpos a + n).
  Proof.
    induction kids as [|c kids IH]; intros HF a.
    { exists [], a. split; [done|]. split; [done|]. split; [simpl; lia|]. intros n k Hn. done. }
    apply Forall_cons in HF as [Hc HF]. destruct (rel_total _ Hc) as (u & Eu).
    set (a1 := Amb (am_ctr a + 1) (S (am_rpos a))).
    destruct (IH HF a1) as (l & a' & E & Hlen & Hr & Hl).
    exists ((u, nc_count C (snd c), rng (am_rpos a), fst c) :: l), a'. split; [|split; [|split]].
    - cbn [amapM]. erewrite abind_eq.
      2:{ erewrite abind_eq; [|reflexivity]. erewrite abind_eq; [|unfold alift; by rewrite Eu].
          erewrite abind_eq; [|reflexivity]. reflexivity. }
      cbn [am_ctr am_rpos]. fold a1. erewrite abind_eq; [|exact E]. done.
    - simpl. by rewrite Hlen.
    - rewrite Hr. unfold a1. simpl. lia.
    - intros [|n] k Hn; simpl in Hn.
      + injection Hn as <-. f_equal. lia.
      + specialize (Hl n k Hn). destruct k as [[[? ?] r] ?]. rewrite Hl. unfold a1. simpl. f_equal. lia.
  Qed.

  Lemma no_tie (l : list (ckey (N:=N))) p : (forall n k, l !! n = Some k -> let '(_, _, r, _) := k in r = rng (p + n)) ->
    has_tie l = false.
  Proof.
    revert p. induction l as [|k l IH]; intros p Hl; [done|]. simpl. apply orb_false_iff. split.
    - destruct (existsb (ckey_tied k) l) eqn:E; [|done]. exfalso.
      apply existsb_exists in E as (k' & Hin & Ht). apply elem_of_list_In, elem_of_list_lookup in Hin as (n & Hn).
      pose proof (Hl 0 k eq_refl) as H0. pose proof (Hl (S n) k' Hn) as H1.
      destruct k as [[[? ?] r] ?], k' as [[[? ?] r'] ?]. simpl in Ht. subst r r'.
      rewrite Hrng in Ht by lia. rewrite andb_false_r in Ht. done.
    - apply (IH (S p)). intros n k' Hn. specialize (Hl (S n) k' Hn).
      destruct k' as [[[? ?] r] ?]. rewrite Hl. f_equal. lia.
  Qed.

  Lemma two_best_total s (kids : list (nat * S')) a : V s -> Forall (fun c => V (snd c)) kids ->
    kids <> [] -> exists r a', two_best_children C rng x s kids i a = (Ok r, a').
  Proof.
    intros Hs HF Hne. unfold two_best_children. destruct kids as [|c0 ks]; [done|].
    set (kids := c0 :: ks) in *.
    destruct (scores_total kids HF a) as (l & a' & E & Hlen & _ & Hl).
    erewrite abind_eq; [|exact E]. rewrite (no_tie l _ Hl).
    erewrite abind_eq; [|reflexivity]. erewrite abind_eq; [|reflexivity].
    destruct (const_total s (map snd kids) Hs) as (k & Ek); [by apply Forall_fmap|done|].
    erewrite abind_eq; [|unfold alift; by rewrite Ek].
    pose proof (sort_desc_perm ckey_lt l) as Hp.
    destruct (sort_desc ckey_lt l) as [|[[[rel n1] r1] b1] rest] eqn:Es.
    { apply Permutation_nil in Hp. subst l. done. }
    destruct (pydiv_pos rel (nc_count C s + 1)) as (q & Eq); [lia|].
    erewrite abind_eq; [|unfold alift; by rewrite Eq].
    destruct (pydiv_pos q (length kids)) as (q2 & Eq2); [simpl; lia|].
    erewrite abind_eq; [|unfold alift; by rewrite Eq2]. unfold aret. eauto.
  Qed.

  Lemma best_op_total s (kids : list (nat * S')) b1 b2 bk cu a :
    V s -> Forall (fun c => V (snd c)) kids -> V (snd b1) ->
    (forall b, b2 = Some b -> V (snd b)) -> Forall (fun c => V (snd c)) bk ->
    exists r a', get_best_operation C rng x s kids i b1 b2 bk cu all_ops a = (Ok r, a').
  Proof.
    intros Hs HF H1 H2 HB. unfold get_best_operation, all_ops.
    rewrite decide_True by set_solver.
    erewrite abind_eq; [|reflexivity]. rewrite decide_True by set_solver.
    destruct (new_total s (map snd kids) Hs) as (u & Eu); [by apply Forall_fmap|].
    erewrite abind_eq.
    2:{ erewrite abind_eq; [|reflexivity]. erewrite abind_eq; [|unfold alift; by rewrite Eu].
        erewrite abind_eq; [|reflexivity]. reflexivity. }
    match goal with |- context [abind (match b2 with Some b => @?f b | None => ?n end) ?g ?a1] =>
      assert (H3 : exists o3 a3, (match b2 with Some b => f b | None => n end) a1 = (Ok o3, a3)) end.
    { destruct b2 as [b|]; cbv beta; [|eauto].
      destruct (decide (OpMerge ∈ [OpBest; OpNew; OpMerge; OpSplit] /\ 2 < length kids)); [|eauto].
      destruct (merge_total s kids b1 b Hs HF H1 (H2 b eq_refl)) as (um & Em).
      erewrite abind_eq; [|reflexivity]. erewrite abind_eq; [|unfold alift; by rewrite Em].
      erewrite abind_eq; [|reflexivity]. unfold aret. eauto. }
    destruct H3 as (o3 & a3 & E3). erewrite abind_eq; [|exact E3].
    match goal with |- context [abind ?m ?g a3] => assert (H4 : exists o4 a4, m a3 = (Ok o4, a4)) end.
    { destruct (decide (OpSplit ∈ [OpBest; OpNew; OpMerge; OpSplit] /\ 0 < length bk)); [|eauto].
      destruct (split_total s kids (fst b1) bk Hs HF HB) as (us & Es).
      erewrite abind_eq; [|reflexivity]. erewrite abind_eq; [|unfold alift; by rewrite Es].
      erewrite abind_eq; [|reflexivity]. unfold aret. eauto. }
    destruct H4 as (o4 & a4 & E4). erewrite abind_eq; [|exact E4].
    match goal with |- context [sort_desc ?lt ?l] => pose proof (sort_desc_perm lt l) as Hp;
      destruct (sort_desc lt l) as [|[[u0 r0] o0] rest] end.
    { apply Permutation_nil in Hp. done. }
    unfold aret. eauto.
  Qed.

  Lemma tables_V (kids : list tree) : Forall (tall C V) kids -> Forall (fun c => V (snd c)) (tables kids).
  Proof.
    intros HF. unfold tables. apply Forall_fmap. eapply Forall_impl; [exact HF|].
    intros k Hk. destruct k. simpl. by inversion Hk.
  Qed.

  (** Either a concept tree of scorable tables or the new, empty root. *)
  Definition ready (t : tree) : Prop := tall C V t \/ exists id, t = T id (nc_empty C) [].

  Theorem fcob_total fuel : forall (t : tree) a,
    ready t -> NoDup (ids t) -> (forall j, j ∈ ids t -> j <= am_ctr a) -> tsize t <= fuel ->
    (exists j, fo_res (fcob C rng fuel x t i a) = Ok j) /\ tall C V (fo_tree (fcob C rng fuel x t i a)).
  Proof.
    induction fuel as [|fuel IH]; intros t a Hre Hnd Hb Hsz.
    { pose proof (tsize_pos C t). lia. }
    destruct t as [id s kids]. cbn [fcob].
    destruct (sc_new _ _ _ Sc) as (s2 & Hinc0 & HV2).
    destruct Hre as [Hall|(id' & Heq)].
    2:{ injection Heq as -> -> ->. destruct (sc_exact _ _ _ Sc (nc_empty C)) as (b & ->); [by right|].
        rewrite (sc_zero _ _ _ Sc), orb_true_r, Hinc0. simpl. split; [eauto|]. by constructor. }
    apply tall_inv in Hall as [Hs Hkids].
    destruct (sc_inc _ _ _ Sc s Hs) as (s' & Hinc & HVs').
    destruct kids as [|k0 ks0].
    - destruct (sc_exact _ _ _ Sc s) as (b & ->); [by left|].
      destruct (b || (nc_count C s =? 0)%nat).
      { rewrite Hinc. simpl. split; [eauto|]. by constructor. }
      unfold ffringe, fnew_child. destruct (sc_copy _ _ _ Sc s Hs) as (s0 & -> & HV0).
      destruct (sc_inc _ _ _ Sc s0 HV0) as (s1 & -> & HV1). rewrite Hinc0. simpl. split; [eauto|].
      constructor; [done|]. repeat constructor; done.
    - set (kids := k0 :: ks0) in *.
      destruct (two_best_total s (tables kids) a Hs (tables_V _ Hkids)) as ([[cu b1] b2] & a1 & E2); [done|].
      rewrite E2.
      pose proof (proj1 (NoDup_kids _ _ _ _) Hnd) as [_ Hndk].
      destruct (two_best_kids _ _ _ _ _ _ _ _ _ _ _ (NoDup_tids _ _ Hndk) E2)
        as (Ha1 & k1 & Hk1 & Hb2).
      rewrite Hk1.
      set (o2 := match b2 with
                 | Some b0 => match kfind b0 kids with Some k2 => Some (Some k2) | None => None end
                 | None => Some None end).
      assert (Hin1 : forall b k, kfind b kids = Some k -> k ∈ kids).
      { intros b k Hk. pose proof (kremove_perm _ _ _ _ Hk) as Hp. rewrite Hp at 1. left. }
      assert (Hsum : forall k, k ∈ kids -> tall C V k /\ V (tsum k)).
      { intros k Hk. rewrite Forall_forall in Hkids. specialize (Hkids k Hk). split; [done|].
        destruct k. by apply tall_inv in Hkids as [? _]. }
      assert (Ho2 : exists ok2, o2 = Some ok2 /\
        match ok2 with
        | None => True
        | Some k2 => exists b0, b2 = Some b0 /\ kfind b0 kids = Some k2 /\ tid k2 = b0 /\ b1 <> b0
        end).
      { unfold o2. destruct b2 as [b0|]; [|by exists None].
        destruct Hb2 as [Hne [k2 Hk2]]. rewrite Hk2. exists (Some k2). split; [done|].
        exists b0. split; [done|]. split; [done|].
        apply kfind_split in Hk2 as (? & ? & ? & ? & ?). done. }
      destruct Ho2 as (ok2 & -> & Hok2).
      assert (Hk1V : tall C V k1 /\ V (tsum k1)) by (apply Hsum; by eapply Hin1).
      destruct Hk1V as [Hk1a Hk1V].
      assert (Hkk : Forall (tall C V) (tkids k1)).
      { destruct k1. by apply tall_inv in Hk1a as [_ ?]. }
      destruct (best_op_total s (tables kids) (b1, tsum k1)
        (match ok2 with None => None | Some k2 => Some (tid k2, tsum k2) end)
        (tables (tkids k1)) cu a1 Hs (tables_V _ Hkids) Hk1V) as ([u o] & a2 & E3).
      { intros b Hbb. destruct ok2 as [k2|]; [|done]. injection Hbb as <-. simpl.
        destruct Hok2 as (b0 & _ & Hk2 & _). apply Hsum. by eapply Hin1. }
      { by apply tables_V. }
      pose proof (best_op_mono C rng x s (tables kids) i (b1, tsum k1)
        (match ok2 with None => None | Some k2 => Some (tid k2, tsum k2) end)
        (tables (tkids k1)) cu all_ops a1) as Hm.
      rewrite E3 in Hm |- *. destruct Hm as [Ha2 _]. simpl in Ha2.
      apply best_op_applicable in E3 as (_ & Happm & Happs).
      assert (Hb' : forall j, j ∈ ids (T id s kids) -> j <= am_ctr a2).
      { intros j Hj. specialize (Hb j Hj). lia. }
      pose proof (kremove_perm _ _ _ _ Hk1) as Hp1.
      assert (Hk1in : k1 ∈ kids) by (by eapply Hin1).
      assert (Hk1nd : NoDup (ids k1)).
      { pose proof Hk1 as (l1 & l2 & E & _)%kfind_split.
        rewrite E in Hndk. by apply NoDup_kid in Hndk as [? _]. }
      assert (Hrest1 : Forall (tall C V) (kremove b1 kids)).
      { rewrite Hp1 in Hkids at 1. by apply Forall_cons in Hkids as [_ ?]. }
      clearbody kids.
      assert (Hsz1 : S (tsize k1 + sumn (map tsize (kremove b1 kids))) <= S fuel).
      { change (S (sumn (map tsize kids)) <= S fuel) in Hsz.
        rewrite (tsize_perm C _ _ Hp1) in Hsz. simpl in Hsz. lia. }
      destruct o.
      + rewrite Hinc. simpl fo_res. simpl fo_tree.
        destruct (IH k1 a2 (or_introl Hk1a) Hk1nd) as [Hr Ht]; [|lia|].
        { intros j Hj. apply Hb'. by eapply ids_kid. }
        split; [done|]. constructor; [done|].
        rewrite (kupdate_perm C _ _ _ _ _ Hk1). by apply Forall_cons.
      + rewrite Hinc. unfold fnew_child. rewrite Hinc0. simpl. split; [eauto|].
        constructor; [done|]. apply Forall_app. split; [done|]. apply Forall_singleton. by constructor.
      + destruct ok2 as [k2|].
        2:{ exfalso. destruct (Happm eq_refl) as [_ ?]. done. }
        destruct Hok2 as (b0 & -> & Hk2 & Ht2 & Hne).
        rewrite Hinc. unfold fmerged.
        destruct (Hsum k2) as [Hk2a Hk2V]; [by eapply Hin1|].
        destruct (sc_copy _ _ _ Sc _ Hk1V) as (sa & -> & HVa).
        destruct (sc_add _ _ _ Sc sa (tsum k2) HVa Hk2V) as (sm & -> & HVm).
        simpl am_ctr. rewrite Ht2.
        destruct (merge_ids C id s sm kids b1 b0 k1 k2 (am_ctr a2) Hnd Hb' Hk1 Hk2 Hne)
          as (Hk2' & Hperm & Hkm).
        set (m := S (am_ctr a2)) in *. cbv zeta.
        set (kids' := kremove b0 (kremove b1 kids) ++ [T m sm [k1; k2]]) in *.
        pose proof (kremove_perm _ _ _ _ Hk2') as Hp2.
        simpl fo_res. simpl fo_tree.
        destruct (IH (T m sm [k1; k2]) (anext a2)) as [Hr Ht].
        * left. constructor; [done|]. repeat constructor; done.
        * assert (Hnd' : NoDup (concat (map ids kids'))).
          { rewrite Hperm. apply NoDup_cons. split; [|done]. intros Hin.
            assert (m <= am_ctr a2); [|unfold m in *; lia]. apply Hb'. by right. }
          pose proof (kfind_split _ _ _ _ Hkm) as (l1 & l2 & E & _).
          rewrite E in Hnd'. by apply NoDup_kid in Hnd' as [? _].
        * intros j Hj. assert (Hj' : j ∈ concat (map ids kids')).
          { apply elem_of_ids_kids. eexists. split; [|exact Hj].
            unfold kids'. apply elem_of_app. right. left. }
          rewrite Hperm in Hj'. apply elem_of_cons in Hj' as [->|Hj']; [done|].
          assert (j <= am_ctr a2) by (apply Hb'; by right). simpl. lia.
        * rewrite (tsize_perm C _ _ Hp2) in Hsz1. simpl in Hsz1 |- *.
          assert (0 < sumn (map tsize (kremove b0 (kremove b1 kids)))); [|lia].
          destruct (Happm eq_refl) as [Hlen _]. unfold tables in Hlen.
          rewrite map_length in Hlen. apply Permutation_length in Hp1, Hp2.
          simpl in Hp1, Hp2.
          destruct (kremove b0 (kremove b1 kids)) as [|k3 l3]; simpl in *; [lia|].
          pose proof (tsize_pos C k3). lia.
        * split; [done|]. constructor; [done|].
          rewrite (kupdate_perm C _ _ _ _ _ Hkm). apply Forall_cons. split; [done|].
          assert (HF' : Forall (tall C V) kids').
          { unfold kids'. apply Forall_app. split.
            - rewrite Hp2 in Hrest1 at 1. by apply Forall_cons in Hrest1 as [_ ?].
            - apply Forall_singleton. constructor; [done|]. repeat constructor; done. }
          rewrite (kremove_perm _ _ _ _ Hkm) in HF' at 1. by apply Forall_cons in HF' as [_ ?].
      + set (kids1 := kremove b1 kids ++ tkids k1) in *.
        assert (Hsub : forall j, j ∈ concat (map ids kids1) -> j ∈ concat (map ids kids)).
        { intros j. rewrite (concat_ids_perm _ _ _ Hp1). unfold kids1.
          rewrite concat_ids_app. destruct k1 as [i1 s1 ks1]. simpl.
          rewrite !elem_of_cons, !elem_of_app. tauto. }
        apply IH.
        * left. constructor; [done|]. apply Forall_app. done.
        * apply NoDup_kids in Hnd as [Hn1 Hn2]. apply NoDup_kids. split.
          { intros Hin. by apply Hn1, Hsub. }
          rewrite (concat_ids_perm _ _ _ Hp1) in Hn2. unfold kids1.
          rewrite concat_ids_app. destruct k1 as [i1 s1 ks1]. simpl in Hn2 |- *.
          apply NoDup_cons in Hn2 as [_ Hn2].
          by rewrite (Permutation_app_comm (concat (map ids (kremove b1 kids)))).
        * intros j Hj. apply Hb'. apply elem_of_cons in Hj as [->|Hj]; [left|].
          right. by apply Hsub.
        * unfold kids1. simpl. rewrite map_app, sumn_app.
          destruct k1. simpl in *. lia.
  Qed.

  Theorem fcat_total fuel : forall (t : tree) a,
    ready t -> NoDup (ids t) -> tsize t <= fuel ->
    exists j, fst (fcat C rng fuel x t i a) = Ok j.
  Proof.
    induction fuel as [|fuel IH]; intros t a Hre Hnd Hsz.
    { pose proof (tsize_pos C t). lia. }
    destruct t as [id s kids]. cbn [fcat].
    destruct kids as [|k0 ks0]; [simpl; eauto|]. set (kids := k0 :: ks0) in *.
    destruct Hre as [Hall|(id' & Heq)]; [|done].
    apply tall_inv in Hall as [Hs Hkids].
    destruct (two_best_total s (tables kids) a Hs (tables_V _ Hkids)) as ([[cu b1] b2] & a1 & E2); [done|].
    rewrite E2.
    pose proof (proj1 (NoDup_kids _ _ _ _) Hnd) as [_ Hndk].
    destruct (two_best_kids _ _ _ _ _ _ _ _ _ _ _ (NoDup_tids _ _ Hndk) E2)
      as (Ha1 & k1 & Hk1 & Hb2).
    rewrite Hk1. apply IH.
    - left. rewrite Forall_forall in Hkids. apply Hkids.
      pose proof (kremove_perm _ _ _ _ Hk1) as Hp. rewrite Hp at 1. left.
    - pose proof Hk1 as (l1 & l2 & E & _)%kfind_split.
      rewrite E in Hndk. by apply NoDup_kid in Hndk as [? _].
    - clearbody kids. change (S (sumn (map tsize kids)) <= S fuel) in Hsz.
      rewrite (tsize_perm C _ _ (kremove_perm _ _ _ _ Hk1)) in Hsz. simpl in Hsz. lia.
  Qed.
End Total.

(** ** Runs *)
Section Runs.
  Context {N : NumOps} (C : NodeClass N) (rng : nat -> num N).
  Hypothesis Hnz : forall n, neqb N (nofnat N (S n)) (nofnat N 0) = false.
  Hypothesis Hrng : forall j k, j <> k -> neqb N (rng j) (rng k) = false.
  (** [V x] are the scorable tables in context [x], for contexts with [X];
      [nc_pre] keeps both. *)
  Context (X : nc_ctx C -> Prop) (V : nc_ctx C -> nc_sum C -> Prop) (Good : nc_inst C -> Prop).
  Hypothesis HX : forall x i, X x -> Good i -> X (nc_pre C x i).
  Hypothesis Sc : forall x i, X x -> Good i -> scorable C (V x) x i.
  Hypothesis Hpre : forall x i s, V x s -> V (nc_pre C x i) s.

  Lemma ready_pre x i t : ready C (V x) t -> ready C (V (nc_pre C x i)) t.
  Proof.
    intros [Hall|He]; [left|by right]. clear -Hall Hpre.
    induction t as [id s kids IH] using (tree_ind' C). apply tall_inv in Hall as [Hs HF].
    constructor; [by apply Hpre|]. rewrite Forall_forall in *. auto.
  Qed.

  (** No exception in the whole run. *)
  Definition no_exn (e : event C) : Prop :=
    match e with EFit _ (Err _) => False | ECat _ (Err _) => False | _ => True end.

  Theorem run_total x0 s evs s' t : run C rng x0 s evs s' -> all_inst Good evs ->
    state_ok C s t -> X x0 -> X (st_ctx s) -> ready C (V (st_ctx s)) t ->
    Forall no_exn evs /\ X (st_ctx s') /\ exists t', state_ok C s' t' /\ ready C (V (st_ctx s')) t'.
  Proof.
    intros Hrun Hg Hok Hx0 Hxs Hre. induction Hrun as [s|s evs s1 e s2 Hrun IH Hst].
    - split; [constructor|eauto].
    - apply Forall_app in Hg as [Hg Hge]. rewrite Forall_singleton in Hge.
      destruct (IH Hg Hok Hxs Hre) as (Hev & Hx1 & t1 & Hok1 & Hre1). clear IH.
      assert (Hfu : tsize t1 <= S (size (st_heap s1))).
      { pose proof (tsize_heap C _ _ _ (so_rep _ _ _ Hok1) (so_nodup _ _ _ Hok1)). lia. }
      destruct Hst as [s1 i r s2 E|s1 i r s2 E|s1 ctr rpos H1 H2|s1 s2 E].
      + destruct (cobweb_runs C rng s1 t1 i Hok1) as (s3 & E2 & Hok2 & Ha & Hx).
        rewrite E in E2. injection E2 as -> <-.
        destruct (fcob_total C rng Hnz Hrng (V (nc_pre C (st_ctx s1) i)) (nc_pre C (st_ctx s1) i) i
          (Sc _ i (HX _ _ Hx1 (Hge i eq_refl)) (Hge i eq_refl)) (cob_fuel C s1) t1 (st_amb s1) (ready_pre _ _ _ Hre1)
          (so_nodup _ _ _ Hok1) (so_bound _ _ _ Hok1) Hfu) as ((j & Hj) & Ht).
        split.
        * apply Forall_app. split; [done|]. apply Forall_singleton. unfold cob_out. by rewrite Hj.
        * split; [rewrite Hx; by apply HX, Hge|].
          eexists. split; [exact Hok2|]. left. rewrite Hx. exact Ht.
      + pose proof (categorize_runs C rng s1 t1 i Hok1) as E2. cbv zeta in E2. rewrite E in E2.
        destruct (fcat_total C rng Hnz Hrng (V (st_ctx s1)) (st_ctx s1) i
          (Sc _ i Hx1 (Hge i eq_refl)) (cob_fuel C s1) t1 (st_amb s1) Hre1
          (so_nodup _ _ _ Hok1) Hfu) as (j & Hj).
        apply pair_equal_spec in E2 as [-> ->].
        pose proof (fcat_mono C rng (cob_fuel C s1) (st_ctx s1) t1 i (st_amb s1)) as [Hm _].
        split.
        * apply Forall_app. split; [done|]. apply Forall_singleton. by rewrite Hj.
        * split; [done|]. exists t1. split; [by apply state_ok_amb|done].
      + split; [apply Forall_app; split; [done|by apply Forall_singleton]|].
        split; [done|]. exists t1. split; [by apply state_ok_amb|done].
      + destruct (clear_runs C x0 s1) as (s3 & E2 & Hok2 & Ha & Hx).
        rewrite E in E2. injection E2 as <-.
        split; [apply Forall_app; split; [done|by apply Forall_singleton]|].
        split; [by rewrite Hx|]. eexists. split; [exact Hok2|]. right. eauto.
  Qed.

  Theorem reachable_total x0 evs s : reachable C rng x0 evs s -> all_inst Good evs -> X x0 ->
    Forall no_exn evs /\ X (st_ctx s) /\ exists t, state_ok C s t /\ ready C (V (st_ctx s)) t.
  Proof.
    intros (ctr & rpos & Hrun) Hg Hx0. eapply run_total; [exact Hrun|done|apply fresh_ok|done|done|].
    right. eauto.
  Qed.

  Theorem next_total s t i : Good i -> X (st_ctx s) -> state_ok C s t -> ready C (V (st_ctx s)) t ->
    (exists j, fst (cobweb C rng i s) = Ok j) /\ (exists j, fst (cobweb_categorize C rng i s) = Ok j).
  Proof.
    intros Hi Hx Hok1 Hre1.
    assert (Hfu : tsize t <= S (size (st_heap s))).
    { pose proof (tsize_heap C _ _ _ (so_rep _ _ _ Hok1) (so_nodup _ _ _ Hok1)). lia. }
    split.
    - destruct (cobweb_runs C rng s t i Hok1) as (s3 & E2 & _). rewrite E2.
      destruct (fcob_total C rng Hnz Hrng (V (nc_pre C (st_ctx s) i)) (nc_pre C (st_ctx s) i) i
          (Sc _ i (HX _ _ Hx Hi) Hi) (cob_fuel C s) t (st_amb s) (ready_pre _ _ _ Hre1)
          (so_nodup _ _ _ Hok1) (so_bound _ _ _ Hok1) Hfu) as ((j & Hj) & _). eauto.
    - pose proof (categorize_runs C rng s t i Hok1) as E2. cbv zeta in E2. rewrite E2.
      apply (fcat_total C rng Hnz Hrng (V (st_ctx s)) (st_ctx s) i
          (Sc _ i Hx Hi) (cob_fuel C s) t (st_amb s) Hre1 (so_nodup _ _ _ Hok1) Hfu).
  Qed.
End Runs.
Global Arguments no_exn {N C}.
