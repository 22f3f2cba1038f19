(** * An instance is recognised right after it was fitted (C108); exact arithmetic. *)
From Coq Require Import Reals Lra Lia.
From stdpp Require Import base decidable tactics gmap strings list.
From Verif Require Import Base Num TreeModel TreeFun TreeScore TreeRefine TreeSorts TreeInv SpecTree TreeState TreeTotal
  RSum Nominal NominalFacts NominalTotal ScoreR NominalR TreeLead Recall PropsTree PropsTotal PropsCU PropsClimb TrestleSim.
Set Default Proof Using "Type".
Open Scope list_scope.

(** ** Specification *)
(** The same visible attributes, whatever their values. *)
Definition same_attrs (i j : inst) : Prop :=
  forall a, visible a = true -> a ∈ dkeys i <-> a ∈ dkeys j.
(** [k] is a leaf that holds only instances that look like [i]. *)
Definition holds_only (s : st RC) (k : nat) (i : inst) : Prop :=
  is_leaf s k /\ exists tb l, table_of s k tb /\ tabulates tb l /\ l <> [] /\ forall j, j ∈ l -> agree i j.
(** A call that neither fits nor clears. *)
Definition quiet (e : event RC) : Prop :=
  match e with ECat _ _ | EOther => True | _ => False end.

(** ** Trees *)
Section Rec.
  Set Default Proof Using "All".
  Context (i : inst) (attrs : list attr) (U : list (attr * nom)).
  Hypothesis HQ : NoDup attrs.
  Hypothesis HQv : forall a, a ∈ attrs -> visible a = true.
  Hypothesis HU : NoDup U.
  Hypothesis HUv : forall a v, (a, v) ∈ U -> visible a = true.
  Hypothesis Hi : fits attrs U i.
  Hypothesis Hg : good i.
  Hypothesis Hne : attrs <> [].
  Notation tinv := (tinv RC Hist LeafV).
  Notation kinv := (kinv RC Hist LeafV).
  Notation fit1 := (fits attrs U).
  Notation gap := (gap i U).
  Notation dist := (dist i U).
  Definition only (s : nsum) : Prop := exists l, Hist s l /\ forall j, j ∈ l -> same_visible i j.
  Notation leads := (leads RC tt i only).

  Lemma kinv_elem kids l k : kinv kids l -> k ∈ kids ->
    exists lk, tinv k lk /\ lk <> [] /\ forall j, j ∈ lk -> j ∈ l.
  Proof using Type.
    intros (ls & HF & Hn & Hp) Hk. apply elem_of_list_lookup in Hk as (n & Hk).
    destruct (Forall2_lookup_l _ _ _ _ _ HF Hk) as (lk & Hlk & Ht). exists lk. split; [done|].
    assert (Hin : lk ∈ ls) by (by eapply elem_of_list_lookup_2). split.
    - rewrite Forall_forall in Hn. by apply Hn.
    - intros j Hj. rewrite Hp, elem_of_list_In, in_concat. exists lk. by rewrite <- !elem_of_list_In.
  Qed.

  Lemma pure_leads t : forall l, tinv t l -> (forall j, j ∈ l -> same_visible i j) -> leads t.
  Proof using Type.
    induction t as [id s kids IH] using (tree_ind' RC). intros l Ht Hl. destruct kids as [|k0 ks].
    - apply ld_leaf. exists l. split; [exact (tinv_summ _ _ _ _ _ Ht)|done].
    - apply ld_node; [done|]. intros k Hk _. apply (tinv_node_iff RC Hist LeafV) in Ht as (_ & Hkv & _); [|done].
      destruct (kinv_elem _ _ _ Hkv Hk) as (lk & Htk & _ & Hsub). rewrite Forall_forall in IH.
      apply (IH k Hk lk Htk). auto.
  Qed.

  Lemma leads_star id s kids t' rest : Permutation kids (t' :: rest) -> leads t' ->
    (forall k, k ∈ rest -> leads k \/ ~ better RC tt i (tsum k) (tsum t')) -> leads (T id s kids).
  Proof.
    intros Hp Ht Hr. apply ld_node; [intros ->; by apply Permutation_nil in Hp|].
    intros k Hk Hb. rewrite Hp in Hk. apply elem_of_cons in Hk as [->|Hk]; [done|].
    destruct (Hr k Hk) as [?|Hn]; [done|]. exfalso. apply Hn, Hb. rewrite Hp. left.
  Qed.

  (** A child next to the one the instance went to. *)
  Lemma rest_leads k lk s' l' : tinv k lk -> lk <> [] -> (forall j, j ∈ lk -> fit1 j) ->
    Hist s' l' -> l' <> [] -> (forall j, j ∈ l' -> fit1 j) ->
    (0 < gap lk -> gap l' < gap lk)%R -> leads k \/ ~ better RC tt i (tsum k) s'.
  Proof.
    intros Ht Hl Hf Hs' Hl' Hf' Hlt.
    assert (Hnn : (0 <= gap lk)%R) by (by apply (gap_nonneg i attrs)).
    destruct (Req_dec (gap lk) 0) as [E|E].
    - left. apply (pure_leads k lk Ht). apply (dist_zero i attrs U); try done. by apply (gap_zero i attrs).
    - right. rewrite (better_gap i attrs U HQ HQv HU HUv Hi Hne (tsum k) lk s' l'); try done; [|exact (tinv_summ _ _ _ _ _ Ht)].
      assert (gap l' < gap lk)%R; [apply Hlt; lra|lra].
  Qed.

  Lemma dist_self : dist [i] = 0%R.
  Proof.
    rewrite (dist_cons i attrs U HQ HQv HU HUv Hi Hne). unfold Recall.dist. apply Rsum_zero. intros q _.
    unfold xdev. simpl. ring.
  Qed.

  Lemma fits_cons l : (forall j, j ∈ l -> fit1 j) -> forall j, j ∈ i :: l -> fit1 j.
  Proof. intros Hf j Hj. apply elem_of_cons in Hj as [->|Hj]; auto. Qed.

  Theorem gsorts_leads c t t' mv r : gsorts RC tt i c t t' mv r -> forall n l, r = Ok n -> tinv t l ->
    (forall j, j ∈ l -> fit1 j) -> leads t'.
  Proof.
    pose proof (hist_laws ROps) as L.
    induction 1 as [c t e|c id s s' b Hex Hc Hinc|c id s s0 s1 s2 m n ? Hcn ? ? Hinc2 Hcm Hmn
      |c c' id s s' kids k rest t' mv r kids' Hld Hinc Hp Hc Hs IH Hp'
      |c id s s' s2 kids n Hnk Hinc Hinc2 Hn
      |c m s0 sm id s s' kids k1 k2 rest t' mv r kids' Hld1 Hld2 Hinc Hp Hnr Ha Hb0 Hm Hs IH Hp'
      |c c' id s kids k rest kids1 t' mv r Hp Hnk Hp1 Hc Hs IH]; intros n0 l Er Ht Hf.
    - done.
    - pose proof (sorts_tinv RC Hist LeafV good L i c _ _ _ _ l (so_match RC i c id s s' b Hex Hc Hinc) Hg Ht) as Ht'.
      inversion Ht' as [? ? ? Hh Hlf|? ? ? ? ? H2]; subst; [|simpl in H2; lia].
      apply ld_leaf. exists (i :: l). split; [done|]. intros j Hj. apply Hlf; [left|done].
    - inversion Ht as [? ? ? Hh Hlf|? ? ? ? ? H2']; subst; [|simpl in H2'; lia].
      destruct (sl_inc _ _ _ _ L _ [] i (sl_empty _ _ _ _ L) Hg) as (s2' & E2 & Hh2). rewrite Hinc2 in E2. injection E2 as <-.
      assert (Hl : l <> []) by (intros ->; apply Hcn; apply Hh).
      apply (leads_star _ _ _ (T n s2 []) [T id s []]); [apply Permutation_swap| |].
      + apply ld_leaf. exists [i]. split; [done|]. intros j ->%elem_of_list_singleton. done.
      + intros k ->%elem_of_list_singleton. apply (rest_leads _ l s2 [i]); try done.
        * by apply fits_cons; intros j Hj; inversion Hj.
        * unfold Recall.gap at 2. rewrite dist_self. unfold Rdiv. rewrite Rmult_0_l. done.
    - assert (Hkn : kids <> []) by (intros ->; by apply Permutation_nil in Hp).
      apply (tinv_node_iff RC Hist LeafV) in Ht as (_ & Hkv & _); [|done].
      apply (kinv_perm RC Hist LeafV kids (k :: rest) l l) in Hkv; [|done|done].
      apply kinv_cons in Hkv as (lk & lr & Htk & Hlk & Hkr & Hpl).
      assert (Hfk : forall j, j ∈ lk -> fit1 j) by (intros j Hj; apply Hf; rewrite Hpl; apply elem_of_app; by left).
      assert (Hfr : forall j, j ∈ lr -> fit1 j) by (intros j Hj; apply Hf; rewrite Hpl; apply elem_of_app; by right).
      subst r. pose proof (sorts_tinv RC Hist LeafV good L i c' k t' mv n0 lk (gsorts_sorts _ _ _ _ _ _ _ _ Hs) Hg Htk) as Ht'.
      apply (leads_star _ _ _ t' rest Hp'); [exact (IH n0 lk eq_refl Htk Hfk)|].
      intros k' Hk'. destruct (kinv_elem _ _ _ Hkr Hk') as (l' & Htk' & Hl' & Hsub).
      assert (Hf' : forall j, j ∈ l' -> fit1 j) by auto.
      apply (rest_leads k' l' (tsum t') (i :: lk)); try done; [exact (tinv_summ _ _ _ _ _ Ht')|by apply fits_cons|].
      intros Hpos. assert (Hle : (gap lk <= gap l')%R).
      { apply (better_gap i attrs U HQ HQv HU HUv Hi Hne (tsum k) lk (tsum k') l'); try done;
          [exact (tinv_summ _ _ _ _ _ Htk)|exact (tinv_summ _ _ _ _ _ Htk')|by apply Hld]. }
      destruct (Req_dec (dist lk) 0) as [E|E].
      + unfold Recall.gap at 1. rewrite (dist_cons i attrs U HQ HQv HU HUv Hi Hne), E. unfold Rdiv. by rewrite Rmult_0_l.
      + eapply Rlt_le_trans; [|exact Hle]. by apply (gap_cons i attrs).
    - apply (tinv_node_iff RC Hist LeafV) in Ht as (_ & Hkv & _); [|done].
      destruct (sl_inc _ _ _ _ L _ [] i (sl_empty _ _ _ _ L) Hg) as (s2' & E2 & Hh2). rewrite Hinc2 in E2. injection E2 as <-.
      apply (leads_star _ _ _ (T n s2 []) kids); [symmetry; apply Permutation_cons_append| |].
      + apply ld_leaf. exists [i]. split; [done|]. intros j ->%elem_of_list_singleton. done.
      + intros k' Hk'. destruct (kinv_elem _ _ _ Hkv Hk') as (l' & Htk' & Hl' & Hsub).
        apply (rest_leads k' l' s2 [i]); try done; [auto|by apply fits_cons; intros j Hj; inversion Hj|].
        unfold Recall.gap at 2. rewrite dist_self. unfold Rdiv. rewrite Rmult_0_l. done.
    - assert (Hkn : kids <> []) by (intros ->; by apply Permutation_nil in Hp).
      apply (tinv_node_iff RC Hist LeafV) in Ht as (_ & Hkv & _); [|done].
      apply (kinv_perm RC Hist LeafV kids (k1 :: k2 :: rest) l l) in Hkv; [|done|done].
      apply kinv_cons in Hkv as (l1 & lr1 & Ht1 & Hl1 & Hkv & Hpl).
      apply kinv_cons in Hkv as (l2 & lr & Ht2 & Hl2 & Hkr & Hpl').
      assert (Hf1 : forall j, j ∈ l1 -> fit1 j) by (intros j Hj; apply Hf; rewrite Hpl; apply elem_of_app; by left).
      assert (Hfr1 : forall j, j ∈ lr1 -> fit1 j) by (intros j Hj; apply Hf; rewrite Hpl; apply elem_of_app; by right).
      assert (Hf2 : forall j, j ∈ l2 -> fit1 j) by (intros j Hj; apply Hfr1; rewrite Hpl'; apply elem_of_app; by left).
      assert (Hfr : forall j, j ∈ lr -> fit1 j) by (intros j Hj; apply Hfr1; rewrite Hpl'; apply elem_of_app; by right).
      pose proof (tinv_summ _ _ _ _ _ Ht1) as Hs1. pose proof (tinv_summ _ _ _ _ _ Ht2) as Hs2.
      destruct (sl_add _ _ _ _ L _ _ [] l1 (sl_empty _ _ _ _ L) Hs1) as (q0 & Eq0 & Hq0). rewrite Ha in Eq0. injection Eq0 as <-.
      destruct (sl_add _ _ _ _ L _ _ _ l2 Hq0 Hs2) as (q1 & Eq1 & Hq1). rewrite Hb0 in Eq1. injection Eq1 as <-.
      simpl in Hq1.
      assert (Htm : tinv (T m sm [k1; k2]) (l1 ++ l2)).
      { apply (tinv_node_iff RC Hist LeafV); [done|]. split; [simpl; lia|]. split; [|done].
        apply kinv_cons. exists l1, l2. split; [done|]. split; [done|]. split; [|done].
        apply kinv_cons. exists l2, []. split; [done|]. split; [done|]. split; [|by rewrite app_nil_r].
        exists []. done. }
      assert (Hf12 : forall j, j ∈ l1 ++ l2 -> fit1 j) by (intros j [Hj|Hj]%elem_of_app; auto).
      subst r. pose proof (sorts_tinv RC Hist LeafV good L i m _ t' mv n0 _ (gsorts_sorts _ _ _ _ _ _ _ _ Hs) Hg Htm) as Ht'.
      apply (leads_star _ _ _ t' rest Hp'); [exact (IH n0 _ eq_refl Htm Hf12)|].
      intros k' Hk'. destruct (kinv_elem _ _ _ Hkr Hk') as (l' & Htk' & Hl' & Hsub).
      assert (Hf' : forall j, j ∈ l' -> fit1 j) by auto.
      apply (rest_leads k' l' (tsum t') (i :: l1 ++ l2)); try done; [exact (tinv_summ _ _ _ _ _ Ht')|by apply fits_cons|].
      intros Hpos. assert (Hle2 : (gap l2 <= gap l')%R).
      { apply (better_gap i attrs U HQ HQv HU HUv Hi Hne (tsum k2) l2 (tsum k') l'); try done;
          [exact (tinv_summ _ _ _ _ _ Htk')|by apply Hld2]. }
      assert (Hle1 : (gap l1 <= gap l2)%R).
      { by apply (better_gap i attrs U HQ HQv HU HUv Hi Hne (tsum k1) l1 (tsum k2) l2). }
      apply (gap_merge i attrs U HQ HQv HU HUv Hi Hne); try done. lra.
    - assert (Hkn : kids <> []) by (intros ->; by apply Permutation_nil in Hp).
      apply (tinv_node_iff RC Hist LeafV) in Ht as (Hlen & Hkv & Hsm); [|done].
      apply (kinv_perm RC Hist LeafV kids (k :: rest) l l) in Hkv; [|done|done].
      apply kinv_cons in Hkv as (lk & lr & Htk & Hlk & Hkr & Hpl).
      destruct k as [ik sk ks]. simpl in Hnk, Hp1.
      apply (tinv_node_iff RC Hist LeafV) in Htk as (Hlen' & Hkv' & _); [|done].
      apply (IH n0 l Er); [|done]. apply (tinv_node_iff RC Hist LeafV).
      { intros ->. apply Permutation_nil, app_eq_nil in Hp1 as [_ ?]. done. }
      split; [|split; [|done]].
      + apply Permutation_length in Hp1. rewrite Hp1, app_length. lia.
      + apply (kinv_perm RC Hist LeafV (rest ++ ks) kids1 (lr ++ lk) l); [|done|].
        * apply kinv_app. exists lr, lk. done.
        * rewrite Hpl. apply Permutation_app_comm.
  Qed.
End Rec.

(** ** The theorem *)
Lemma quiet_run (rng : nat -> R) s evs s' t : run RC rng tt s evs s' -> Forall quiet evs -> state_ok RC s t ->
  state_ok RC s' t /\ st_heap s' = st_heap s /\ st_root s' = st_root s.
Proof.
  intros Hrun Hq Hok. induction Hrun as [s|s evs s1 e s2 Hrun IH Hst]; [done|].
  apply Forall_app in Hq as [Hq Hqe]. rewrite Forall_singleton in Hqe.
  destruct (IH Hq Hok) as (Hok1 & E1 & E2). destruct Hst as [s1 i r s2 E|s1 i r s2 E|s1 ctr rpos H1 H2|s1 s2 E]; try done.
  - pose proof (categorize_runs RC rng s1 t i Hok1) as Ec. simpl in Ec. rewrite E in Ec. injection Ec as -> ->.
    pose proof (fcat_mono RC rng (cob_fuel RC s1) (st_ctx s1) t i (st_amb s1)) as [Hm _].
    split; [by apply state_ok_amb|done].
  - split; [by apply state_ok_amb|done].
Qed.

Section Recognised.
  Context (rng : nat -> R).

  Theorem C108_just_fitted_recognised evs s i j s1 evs2 s2 k s3 :
    reachable RC rng tt evs s -> all_inst (C:=RC) good evs -> all_ok evs -> good i ->
    (forall m, m ∈ history evs -> same_attrs i m) ->
    cobweb RC rng i s = (Ok j, s1) ->
    run RC rng tt s1 evs2 s2 -> Forall quiet evs2 ->
    cobweb_categorize RC rng i s2 = (Ok k, s3) -> holds_only s2 k i.
  Proof.
    intros Hr Hgd Hao Hg Hsame Efit Hrun Hq Ecat. pose proof (hist_laws ROps) as L.
    destruct (reachable_tinv RC rng Hist LeafV good L tt evs s Hr Hgd Hao) as (t & Hok & Ht).
    destruct (cobweb_runs RC rng s t i Hok) as (s1' & E1 & Hok1 & _ & _). rewrite Efit in E1. injection E1 as Eres <-.
    destruct (fcob_gsorts RC rng (somesum RC Hist) i (summ_closed RC Hist LeafV good L i Hg) (cob_fuel RC s) (nc_pre RC (st_ctx s) i) t (st_amb s)
      (tinv_tall RC Hist LeafV t _ Ht) (so_nodup _ _ _ Hok) (so_bound _ _ _ Hok)) as [Hs _].
    unfold cob_out in *. set (o := fcob RC rng (cob_fuel RC s) (nc_pre RC (st_ctx s) i) t i (st_amb s)) in *.
    destruct (nc_pre RC (st_ctx s) i). rewrite <- Eres in Hs.
    set (l := history evs) in *.
    assert (Ht1 : tinv RC Hist LeafV (fo_tree o) (i :: l)).
    { eapply sorts_tinv; [exact L|exact (gsorts_sorts _ _ _ _ _ _ _ _ Hs)|done|done]. }
    assert (Hld : leads RC tt i (only i) (fo_tree o)).
    { set (attrs := filter (fun a => visible a = true) (dkeys i)).
      set (U := remove_dups (filter (fun q : attr * nom => visible (fst q) = true) (concat (i :: l)))).
      assert (Hfit : forall m, m ∈ i :: l -> fits attrs U m).
      { intros m Hm. split.
        - intros a Ha. unfold attrs. rewrite elem_of_list_filter. apply elem_of_cons in Hm as [->|Hm]; [tauto|].
          rewrite (Hsame m Hm a Ha). tauto.
        - intros a v Ha Hv. unfold U. apply elem_of_remove_dups, elem_of_list_filter. split; [done|].
          rewrite elem_of_list_In, in_concat. exists m. rewrite <- !elem_of_list_In. split; [done|]. by apply dget_In. }
      destruct (decide (attrs = [])) as [En|En].
      - apply (pure_leads i (fo_tree o) (i :: l) Ht1). intros m Hm a Ha.
        assert (Hno : forall q, q ∈ i :: l -> dget a q = None).
        { intros q Hqm. destruct (dget a q) as [v|] eqn:Ev; [|done]. exfalso. apply dget_Some_key in Ev.
          apply (proj1 (Hfit q Hqm) a Ha) in Ev. rewrite En in Ev. inversion Ev. }
        rewrite (Hno i), (Hno m); [done|done|left].
      - apply (gsorts_leads i attrs U) with (c := am_ctr (st_amb s)) (t := t) (mv := fo_moved o) (r := Ok j) (n := j) (l := l); try done.
        + apply NoDup_filter. apply Hg.
        + intros a. unfold attrs. by rewrite elem_of_list_filter; intros [? _].
        + apply NoDup_remove_dups.
        + intros a v. unfold U. by rewrite elem_of_remove_dups, elem_of_list_filter; intros [? _].
        + apply Hfit. left.
        + intros m Hm. apply Hfit. by right. }
    destruct (quiet_run rng s1 evs2 s2 _ Hrun Hq Hok1) as (Hok2 & _).
    pose proof (categorize_runs RC rng s2 _ i Hok2) as Ec. cbv zeta in Ec. rewrite Ecat in Ec.
    remember (cob_fuel RC s2) as fu eqn:Efu. clear Efu. injection Ec as Ek _.
    destruct (st_ctx s2).
    destruct (fcat_leads RC rng tt i (only i) _ _ _ k Hld (so_nodup _ _ _ Hok2) (eq_sym Ek)) as (sj & Hlf & lj & Hhj & Haj).
    pose proof (leaf_sub RC _ _ _ Hlf) as Hsub. split.
    - split; [apply (in_tree_sub _ _ _ _ Hok2); by exists (T k sj [])|exact (sub_children _ _ _ _ Hok2 Hsub)].
    - exists sj, lj. split; [exact (sub_table _ _ _ _ Hok2 Hsub)|]. split; [by apply Hist_tabulates|]. split; [|done].
      destruct (tinv_sub RC Hist LeafV good L _ _ _ Ht1 Hsub) as (lu & Htu & _ & Hnl). apply tinv_summ in Htu. simpl in Htu.
      intros ->. destruct Hhj as [Hc _], Htu as [Hc' _]. rewrite Hc in Hc'. simpl in Hc'.
      destruct Hnl as [E|Hnl]; [|by destruct lu]. rewrite <- E in Ht1. apply tinv_summ in Ht1 as [Hc2 _]. simpl in Hc2. by rewrite Hc in Hc2.
  Qed.
End Recognised.

(** ** The hypotheses are met *)
(** A third instance is fitted to a tree with two leaves, another one is
    categorized, and then the third once more. *)
Lemma ex_C108 : exists evs s i j s1 evs2 s2 k s3 l,
  reachable RC ex_draws tt evs s /\ all_inst (C:=RC) good evs /\ all_ok evs /\ good i /\
  (forall m, m ∈ history evs -> same_attrs i m) /\
  children_of s (st_root s) l /\ length l = 2%nat /\ (forall m, m ∈ history evs -> ~ agree i m) /\
  cobweb RC ex_draws i s = (Ok j, s1) /\ run RC ex_draws tt s1 evs2 s2 /\ Forall quiet evs2 /\ evs2 <> [] /\
  cobweb_categorize RC ex_draws i s2 = (Ok k, s3).
Proof.
  pose proof (exec_reachable RC ex_draws tt
    [@CFit _ RC [(AStr "a", NStr "x")]; @CFit _ RC [(AStr "a", NStr "y")]] 0 0) as Hr.
  match type of Hr with reachable _ _ _ ?evs ?s =>
    assert (Hev : evs = [@EFit _ RC [(AStr "a", NStr "x")] (Ok 1%nat); @EFit _ RC [(AStr "a", NStr "y")] (Ok 3%nat)])
      by (vm_compute; reflexivity);
    assert (Hroot : st_root s = 2%nat) by (vm_compute; reflexivity);
    assert (Hch : option_map nd_children (st_heap s !! 2%nat) = Some [1; 3]%nat)
      by (vm_compute; reflexivity);
    rewrite Hev in Hr; clear Hev; revert Hr Hroot Hch; generalize s
  end.
  intros s Hr Hroot Hch.
  set (evs := [@EFit _ RC [(AStr "a", NStr "x")] (Ok 1%nat); @EFit _ RC [(AStr "a", NStr "y")] (Ok 3%nat)]) in *.
  set (i := [(AStr "a", NStr "z")] : inst). set (i2 := [(AStr "a", NStr "x")] : inst).
  assert (Hv : forall v, has_visible [(AStr "a", v)]).
  { intros v. exists (AStr "a"). split; [done|]. left. }
  assert (Hgd : forall v, good [(AStr "a", v)]).
  { intros v. split; [apply NoDup_singleton|apply Forall_singleton; done]. }
  assert (Hev1 : all_inst (C:=RC) has_visible evs).
  { apply Forall_cons_2; [intros q ->; apply Hv|]. apply Forall_cons_2; [intros q ->; apply Hv|apply Forall_nil_2]. }
  destruct (C20_fitting_never_raises (N:=ROps) ex_draws counting_R ex_draws_distinct _ s Hr Hev1) as [_ Hn].
  destruct (Hn i (Hv _)) as [[j Hj] _].
  destruct (cobweb RC ex_draws i s) as [r s1] eqn:E1. simpl in Hj. subst r.
  assert (Hr1 : reachable RC ex_draws tt (evs ++ [@EFit _ RC i (Ok j)]) s1).
  { destruct Hr as (c & p & Hr). exists c, p. eapply run_snoc; [exact Hr|]. by apply step_fit. }
  assert (Hev2 : all_inst (C:=RC) has_visible (evs ++ [@EFit _ RC i (Ok j)])).
  { apply Forall_app. split; [done|]. apply Forall_singleton. intros q ->. apply Hv. }
  destruct (C20_fitting_never_raises (N:=ROps) ex_draws counting_R ex_draws_distinct _ s1 Hr1 Hev2) as [_ Hn1].
  destruct (Hn1 i2 (Hv _)) as [_ [k2 Hk2]].
  destruct (cobweb_categorize RC ex_draws i2 s1) as [r2 s2] eqn:E2. simpl in Hk2. subst r2.
  assert (Hrun : run RC ex_draws tt s1 [@ECat _ RC i2 (Ok k2)] s2).
  { apply (run_snoc _ _ _ _ [] s1); [constructor|]. by apply step_cat. }
  assert (Hr2 : reachable RC ex_draws tt ((evs ++ [@EFit _ RC i (Ok j)]) ++ [@ECat _ RC i2 (Ok k2)]) s2).
  { destruct Hr1 as (c & p & Hr1). exists c, p. eapply run_snoc; [exact Hr1|]. by apply step_cat. }
  destruct (C20_fitting_never_raises (N:=ROps) ex_draws counting_R ex_draws_distinct _ s2 Hr2) as [_ Hn2].
  { apply Forall_app. split; [done|]. apply Forall_singleton. intros q ->. apply Hv. }
  destruct (Hn2 i (Hv _)) as [_ [k Hk]].
  destruct (cobweb_categorize RC ex_draws i s2) as [r3 s3] eqn:E3. simpl in Hk. subst r3.
  assert (Hh : forall m, m ∈ history evs -> exists v, m = [(AStr "a", v)] /\ v <> NStr "z").
  { intros m Hm. change (history evs) with ([[(AStr "a", NStr "x")]; [(AStr "a", NStr "y")]] : list inst) in Hm.
    rewrite !elem_of_cons, elem_of_nil in Hm. destruct Hm as [->|[->|[]]]; by eexists. }
  exists evs, s, i, j, s1, [@ECat _ RC i2 (Ok k2)], s2, k, s3, [1; 3]%nat.
  split; [done|]. split.
  { apply Forall_cons_2; [intros q ->; apply Hgd|]. apply Forall_cons_2; [intros q ->; apply Hgd|apply Forall_nil_2]. }
  split; [apply Forall_cons_2; [done|]; apply Forall_cons_2; [done|apply Forall_nil_2]|]. split; [apply Hgd|].
  split. { intros m Hm. destruct (Hh m Hm) as (v & -> & _). done. }
  split. { rewrite Hroot. destruct (st_heap s !! 2%nat) as [n|] eqn:E; [|done]. injection Hch as Hch. by exists n. }
  split; [done|]. split.
  { intros m Hm Ha. destruct (Hh m Hm) as (v & -> & Hvz). specialize (Ha (AStr "a") eq_refl).
    unfold i in Ha. simpl in Ha. apply Hvz. by injection Ha. }
  split; [done|]. split; [done|]. split; [by apply Forall_singleton|]. done.
Qed.
Print Assumptions C108_just_fitted_recognised.
