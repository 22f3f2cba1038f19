(** * What infer_missing of TrestleTree keeps of the instance (C78), for any
    arithmetic. *)
From stdpp Require Import base decidable list gmap strings sets.
From Coq Require Import Ascii String ZArith.
From Verif Require Import Base Num TreeModel TreeFun TreeScore TreeRefine TreeSorts TreeInv SpecTree TreeState
  TreeTotal TreeLeaf TreeGen Nominal NominalFacts Utils CV Cobweb3 C3Facts C3Scales C3Nominal C3Query C3Tree Query QueryFacts Query3 PropsC3 PropsQ3I
  PyVal Preproc Preproc2 StructMap StructFacts PropsStruct PreStd PreFlat PreSub PreObj PathLook TKeys TObjKeys Trestle SpecTrestle
  TreeKeep TrestleFacts TrestleFresh TrestleRaise TrestleVals TrestleTotal TrestleSim TrestleKeep PropsTrestle PropsTrestleI PropsTrestleU.
Set Default Proof Using "Type".
Open Scope list_scope.

Lemma no_has_comp_rename f k : tkey k -> (forall u, u ∈ avars k -> is_var (f u) = true) ->
  is_has_comp k = None -> is_has_comp (arename f k) = None.
Proof.
  intros Ht Hf Hk. destruct Ht as [s Hs|l Hl Hh HF|a u Ha Hn Hu|p q _ _].
  - cbn [arename]. by destruct (is_var s).
  - destruct l as [|x [|y [|z [|? ?]]]]; try done. cbn [arename map]. cbn [is_has_comp] in *.
    apply Forall_cons in HF as [(s & ->) _]. cbn [arename]. destruct (is_var s) eqn:Es.
    + rewrite decide_False; [done|]. intros [= E]. assert (Hv : is_var (f s) = true) by (apply Hf; simpl; rewrite Es; left).
      rewrite E in Hv. discriminate Hv.
    + by destruct (decide (AStr s = AStr "has-component")).
  - rewrite arename_ckey by done. unfold ckey. by destruct (hidden (AStr a)).
  - by cbn in Hk.
Qed.

Lemma pipe_un1_at {I S} (cls : nat -> pproc I S) (h : gmap nat S) i o x : h !! o = Some x -> pipe_un1 cls h i o = pp_un (cls o) i x.
Proof. unfold pipe_un1. by intros ->. Qed.

Section Keep.
  Context {N : NumOps} (rng : nat -> num N).
  Notation F := (num N).
  Notation C := (Cobweb3Class N).
  Notation X := (val3 N).
  Context (ncmp : nom -> nom -> option bool) (normal : F -> F -> A F).
  Context (pystr : attr -> string) (setord : list attr -> list attr) (rlimit : nat).
  Hypothesis Hnormal : forall m sd, amono (normal m sd).
  Hypothesis setord_spec : forall l x, x ∈ setord l <-> x ∈ l.
  Notation treachable := (treachable rng ncmp normal pystr setord rlimit).
  Notation tstep := (tstep rng ncmp normal pystr setord rlimit).
  Notation t_prepare := (t_prepare (N:=N) pystr setord rlimit).
  Notation t_ready := (t_ready (N:=N) pystr setord rlimit).
  Notation t_infer := (t_infer rng ncmp normal pystr setord rlimit).
  Notation t_cat := (t_cat rng pystr setord rlimit).
  Notation stages := (stages (N:=N) pystr setord rlimit).
  Variable sc : option F.
  Variable inner : bool.
  Notation x0 := (@new_ctx N sc inner).

  (** ** The stages before the structure mapper *)
  Lemma before_given x base orc (d f2 : inst X) c h c' : t_obj d ->
    pipe_tr (stages x base orc) [0; 1; 2] d new_objs c = (Ok f2, h, c') ->
    exists rev g, given c d rev c' f2 g /\ h !! 0 = Some (Some rev) /\ h !! 1 = Some None /\ h !! 2 = Some None.
  Proof using setord_spec.
    intros Hd E. simpl in E.
    destruct (ns_transform pystr setord c d) as [[[d1 rev]|e] c1] eqn:E1; [|done]. simpl in E.
    destruct (flatten d1) as [f|e] eqn:Ef; [|done]. simpl in E.
    destruct (sub_transform vtrue f) as [f2'|e] eqn:Es; [|done]. simpl in E. injection E as <- <- <-.
    destruct (given_stages pystr setord setord_spec vtrue I c d d1 rev c1 f f2' Hd E1 Ef Es) as (g & Hg).
    exists rev, g. split; [done|]. by repeat split.
  Qed.

  (** The mapping that is used, and its undoing. *)
  Lemma prepare_given q d (s : tst N) d1 h s1 nd : t_obj d -> oracle_ok (to_orc q) ->
    st_heap (t_tree s) !! st_root (t_tree s) = Some nd ->
    t_prepare q d s = (Ok d1, h, s1) ->
    exists rev g f2 m, given (t_sym s) d rev (t_sym s1) f2 g /\
      map_ok (kvars (dkeys f2)) (kvars (dkeys (n3_av (nd_sum nd)))) m /\
      (m = [] \/ (forall v, kvars (dkeys f2) v -> ~ kvars (dkeys (n3_av (nd_sum nd))) v) /\ (forall v, kvars (dkeys f2) v -> AStr v ∈ dkeys m)) /\
      d1 = rename_flat m f2 /\
      h !! 0 = Some (Some rev) /\ h !! 1 = Some None /\ h !! 2 = Some None /\ h !! 3 = Some (Some (reverse_mapping m)).
  Proof using setord_spec.
    intros Hd Ho Hn E. pose proof (t_obj_pwf d Hd) as Hw. unfold Trestle.t_prepare in E. rewrite Hn in E.
    destruct (pipe_tr (stages (st_ctx (t_tree s)) (nd_sum nd) (to_orc q)) [0; 1; 2] d new_objs (t_sym s)) as [[r3 h3] c3] eqn:E3.
    rewrite (stages_split pystr setord rlimit setord_spec _ _ _ _ _ _ _ _ Hw E3) in E.
    destruct r3 as [f2|e]; [|done].
    destruct (before_given _ _ _ _ _ _ _ _ Hd E3) as (rev & g & Hg & H0 & H1 & H2).
    unfold sm_transform in E. destruct (flat_match _ _ _ _ _) as [m|] eqn:Em; [|done]. cbn [rbind] in E.
    injection E as <- <- <-. apply flat_match_ok in Em as (Hm & Hdisj & _); [|done].
    exists rev, g, f2, m. split; [exact Hg|]. split; [done|]. split; [done|]. split; [done|]. split; [|split; [|split]].
    - rewrite lookup_insert_ne by done. exact H0.
    - rewrite lookup_insert_ne by done. exact H1.
    - rewrite lookup_insert_ne by done. exact H2.
    - apply lookup_insert.
  Qed.

  (** ** The attributes that concepts have *)
  (** Objects were fitted; with [flat], none with a component inside a
      component. *)
  Definition t_objs (flat : bool) (e : tevent N) : Prop :=
    match e with TFit d _ _ _ => t_obj d /\ (flat = true -> nested d = []) | _ => True end.
  Definition okey (flat : bool) (a : attr) : Prop := tkey a /\ (flat = true -> is_has_comp a = None).

  Lemma given_tkeys flat c d rev c1 (f2 : inst X) g m bkeys : given c d rev c1 f2 g ->
    map_ok (kvars (dkeys f2)) (kvars bkeys) m ->
    (m = [] \/ (forall v, kvars (dkeys f2) v -> ~ kvars bkeys v) /\ (forall v, kvars (dkeys f2) v -> AStr v ∈ dkeys m)) ->
    (flat = true -> nested d = []) ->
    forall a, a ∈ dkeys (rename_flat m f2) -> okey flat a.
  Proof.
    intros Hgv Hm Hdisj Hfl a Ha. destruct (mapped_ok _ _ _ _ _ _ Hgv bkeys m Hm Hdisj) as [Er _].
    rewrite Er in Ha. unfold dkeys in Ha. rewrite map_map in Ha. cbn [fst] in Ha. apply elem_of_list_fmap in Ha as ([k v] & -> & Hk). cbn [fst].
    pose proof (gv_keys _ _ _ _ _ _ Hgv) as HF. rewrite Forall_forall in HF. destruct (HF _ Hk) as (Ht & _). cbn [fst] in Ht.
    assert (Hvar : forall u, u ∈ avars k -> is_var (fm m u) = true).
    { intros u Hu. eapply (fm_target _ _ m Hm (kvars_var _) (kvars_var _) Hdisj). exists k. split; [|done].
      apply elem_of_list_fmap. by exists (k, v). }
    split; [by apply tkey_rename|]. intros ->. specialize (Hfl eq_refl). apply no_has_comp_rename; [done|done|].
    destruct (is_has_comp k) as [[w u]|] eqn:Eh; [|done]. exfalso.
    apply (gv_flat _ _ _ _ _ _ Hgv Hfl w u). apply elem_of_list_fmap. exists (k, v). split; [|done]. cbn [fst].
    clear -Eh. destruct k as [|l|]; try done. destruct l as [|x [|y [|z [|? ?]]]]; try done. cbn [is_has_comp] in Eh.
    destruct (decide (x = AStr "has-component")) as [->|]; [|done]. by injection Eh as -> ->.
  Qed.

  Lemma ready_okeys flat q d (s s1 : tst N) j t : t_obj d -> (flat = true -> nested d = []) -> oracle_ok (to_orc q) ->
    state_ok C (t_tree s) t -> t_ready q d s = (Ok j, s1) -> forall a, a ∈ dkeys j -> okey flat a.
  Proof using setord_spec.
    intros Hd Hfl Ho Hok E. unfold Trestle.t_ready in E.
    destruct (t_prepare q d s) as [[r1 h1] s1'] eqn:Ep. destruct r1 as [d4|e]; [|done].
    destruct (t_sane d4); [|done]. injection E as E <-. rewrite (hashed_keys _ _ E).
    pose proof (sub_table C _ _ t Hok ltac:(constructor)) as (n & Hn & En). rewrite <- (so_root _ _ _ Hok) in Hn.
    destruct (prepare_given _ _ _ _ _ _ _ Hd Ho Hn Ep) as (rev & g & f2 & m & Hgv & Hm & Hdisj & -> & _).
    by eapply given_tkeys.
  Qed.

  Definition okeys_ok (flat : bool) (s : tst N) : Prop := exists t, state_ok C (t_tree s) t /\ tall C (tabK (okey flat)) t.
  Lemma tstep_okeys flat s e s' : okeys_ok flat s -> t_objs flat e -> tstep x0 s e s' -> okeys_ok flat s'.
  Proof using Hnormal setord_spec.
    intros (t & Hok & Ht) He Hs.
    assert (Hgrown : forall s2, grown (t_tree s) (t_tree s2) -> okeys_ok flat s2).
    { intros s2 Hg. exists t. split; [by eapply grown_ok|done]. }
    destruct Hs as [s d q j r s' Hw Ho Ej E|s d q r s' Hw Ho E|s d f b q r s' Hw Ho E|s ctr rpos Hc Hp|s].
    - destruct He as [Hd Hfl]. unfold t_fit in E. destruct (t_ready q d s) as [r1 s1] eqn:Er.
      pose proof (ready_grown _ _ _ _ _ _ _ _ Er) as Hg. specialize (Hgrown _ Hg).
      destruct r1 as [j'|e]; [|by injection E as <- <-].
      pose proof (ready_okeys flat _ _ _ _ _ _ Hd Hfl Ho Hok Er) as Hkj. unfold on_tree in E.
      destruct (cobweb C rng j' (t_tree s1)) as [r2 s2] eqn:E2. injection E as <- <-.
      destruct Hgrown as (t1 & Hok1 & Ht1).
      apply (cobweb_keep C rng (tabK (okey flat)) j' (tabK_kept _ _ Hkj) _ t1) in E2 as (t2 & Hok2 & Ht2); [|done|done].
      by exists t2.
    - unfold Trestle.t_cat in E. destruct (t_ready q d s) as [r1 s1] eqn:Er.
      pose proof (ready_grown _ _ _ _ _ _ _ _ Er) as Hg.
      destruct r1 as [j'|e]; [|injection E as <- <-; by apply Hgrown].
      unfold on_tree in E. destruct (cobweb_categorize C rng j' (t_tree s1)) as [r2 s2] eqn:E2. injection E as <- <-.
      apply Hgrown. simpl. eapply grown_trans; [exact Hg|]. eapply categorize_grown; [|exact E2]. by eapply grown_ok.
    - destruct (infer_grown rng ncmp normal pystr setord rlimit Hnormal _ _ _ _ _ _ _ _ Hok E) as (Hg & _). by apply Hgrown.
    - apply Hgrown. by repeat split.
    - destruct (clear_runs C x0 (t_tree s)) as (s2 & E2 & Hok2 & _). unfold t_clear.
      exists (T (S (am_ctr (st_amb (t_tree s)))) (nc_empty C) []). cbn [t_tree t_sym]. rewrite E2. split; [exact Hok2|].
      constructor; [|constructor]. intros a Ha. by apply elem_of_nil in Ha.
  Qed.
  Lemma treachable_okeys flat evs s : treachable x0 evs s -> Forall (t_objs flat) evs -> okeys_ok flat s.
  Proof using Hnormal setord_spec.
    intros (ctr & rpos & H) HF. remember (t_new ctr rpos x0) as s0 eqn:E0.
    induction H as [s|s evs s1 e s2 H IH Hs].
    - subst. eexists. split; [apply fresh_ok|]. constructor; [|constructor]. intros a Ha. by apply elem_of_nil in Ha.
    - apply Forall_app in HF as [HF He]. apply Forall_cons in He as [He _]. eapply tstep_okeys; [by apply IH|done|done].
  Qed.

  Lemma hashed_all (d : inst X) j : hashed d = Ok j -> Forall (fun e => scalar (snd e) <> None) d.
  Proof.
    unfold hashed. revert j. induction d as [|[a v] d IH]; intros j E; [constructor|]. cbn [rmapM fst snd] in E.
    destruct (scalar v) as [x|] eqn:Ex; [|done]. cbn [rbind] in E. destruct (rmapM _ d) as [j'|] eqn:Ed; [|done].
    apply Forall_cons_2; [cbn [snd]; by rewrite Ex|exact (IH _ eq_refl)].
  Qed.

  (** ** The whole of infer_missing *)
  Lemma infer_kept flat evs s q d f b d' s' :
    treachable x0 evs s -> Forall t_clean evs -> Forall (t_objs flat) evs ->
    t_obj d -> oracle_ok (to_orc q) -> (forall n, 0 < n <= t_sym s -> gensym_name n ∉ pvars (PD d)) ->
    t_infer q d f b s = (Ok d', s') ->
    exists (d1 : inst X) h s1 c tb (d2 : inst X),
      t_prepare q d s = (Ok d1, h, s1) /\ table_of (t_tree s) c tb /\ (t_sane d1 = true -> Forall (fun e => scalar (snd e) <> None) d1 -> fst (t_cat q d s) = Ok c) /\
      (forall a, a ∈ dkeys d2 -> a ∈ dkeys d1 \/ knows tb a /\ okey flat a) /\
      (forall s v, ([AStr s], v) ∈ ileaves d -> plook [AStr s] (PD d') = Some v) /\
      (forall p u a v, (p ++ [AStr u; AStr a], v) ∈ ileaves d -> exists q, plook (q ++ [AStr u; AStr a]) (PD d') = Some v) /\
      ((forall w o, has_comp w o ∈ dkeys d2 -> component (dkeys d1) o -> has_comp w o ∈ dkeys d1) ->
       forall p v, (p, v) ∈ ileaves d -> plook p (PD d') = Some v).
  Proof using Hnormal setord_spec.
    intros Hr Hcl Hob Hd Ho Hfr E.
    destruct (C78_infer_adds_to_mapped rng ncmp normal pystr setord rlimit Hnormal setord_spec sc inner _ _ _ _ _ _ _ _ Hr Hcl E) as [_ H].
    destruct (H d' eq_refl) as (d1 & h & s1 & c & tb & d2 & Ep & Hleaf & Htb & Hcat & K1 & K2 & _ & K4 & Hun). clear H.
    exists d1, h, s1, c, tb, d2. split; [done|]. split; [done|]. split; [done|].
    destruct (treachable_okeys flat _ _ Hr Hob) as (t & Hok & Ht).
    pose proof (sub_table C _ _ t Hok ltac:(constructor)) as (nd & Hn & En). rewrite <- (so_root _ _ _ Hok) in Hn.
    assert (Hroot : in_tree (t_tree s) (st_root (t_tree s))) by (apply (in_tree_ids _ _ _ _ Hok); rewrite (so_root _ _ _ Hok); by destruct t; left).
    assert (Hrt : table_of (t_tree s) (st_root (t_tree s)) (nd_sum nd)) by (by exists nd).
    pose proof (names_apart rng ncmp normal pystr setord rlimit Hnormal setord_spec sc inner evs s _ _ Hr Hroot Hrt) as Hbk.
    destruct Hleaf as [Hin _].
    pose proof (names_apart rng ncmp normal pystr setord rlimit Hnormal setord_spec sc inner evs s _ _ Hr Hin Htb) as HQ.
    assert (HK : tabK (okey flat) tb).
    { apply (in_tree_sub _ _ _ _ Hok) in Hin as (u & Hu & <-).
      rewrite (table_of_det _ _ _ _ _ Htb (sub_table _ _ _ _ Hok Hu)). exact (tall_sub C _ _ _ Ht Hu). }
    assert (Hseen : forall a w, PropsQ3I.seen normal tb f a w -> knows tb a /\ a ∈ dkeys (n3_av tb)).
    { intros a w Hs. assert (Hk : knows tb a).
      { destruct w as [w|y]; cbn [PropsQ3I.seen] in Hs; [left; by exists w|]. destruct Hs as (cv & Hcv & _). right. by rewrite Hcv. }
      split; [done|]. apply knows_key in Hk. destruct (dget a (n3_av tb)) eqn:Eg; [|done]. by eapply dget_Some_key. }
    destruct (prepare_given _ _ _ _ _ _ _ Hd Ho Hn Ep) as (rev & g & f2 & m & Hgv & Hm & Hdisj & -> & H0 & H1 & H2 & H3).
    pose proof (mapped_ok _ _ _ _ _ _ Hgv _ m Hm Hdisj) as [Er Hw1].
    assert (Hext : forall a v, dget a (rename_flat m f2) = None -> dget a d2 = Some v -> tkey a /\ aQ (made 0 (t_sym s)) a /\ plainv v).
    { intros a v Ha Hv. destruct (K2 a v Ha Hv) as (w & -> & _ & Hs). apply Hseen in Hs as [_ Hs].
      split; [by apply HK|]. split; [by apply HQ|]. unfold of_scalar. destruct w as [w|]; [destruct w|]; done. }
    assert (Hfresh : forall u, u ∈ pvars (PD d) -> ~ made 0 (t_sym s) u).
    { intros u Hu (n & -> & Hnn). by apply (Hfr n). }
    unfold pipe_un in Hun. change (List.rev stage_list) with [3; 2; 1; 0] in Hun. cbn [rfold] in Hun.
    rewrite (pipe_un1_at _ _ _ _ _ H3) in Hun. cbn [Trestle.stages map_proc pp_un sm_undo rbind] in Hun.
    destruct (d3_ok _ _ _ _ _ _ Hgv _ m Hm Hdisj d2 (K4 Hw1) K1 Hext) as [Ed3 Hw3]. rewrite Ed3 in Hun.
    rewrite (pipe_un1_at _ _ _ _ _ H2) in Hun. cbn [Trestle.stages sub_proc pp_un] in Hun.
    destruct (sub_undo rlimit _) as [d4|] eqn:E4 in Hun; [|done]. cbn [rbind] in Hun. rewrite (pipe_un1_at _ _ _ _ _ H1) in Hun. cbn [Trestle.stages flat_proc pp_un] in Hun.
    destruct (structurize d4) as [d5|] eqn:E5; [|done]. cbn [rbind] in Hun. rewrite (pipe_un1_at _ _ _ _ _ H0) in Hun. cbn [Trestle.stages std_proc pp_un] in Hun.
    cbn [rbind] in Hun. injection Hun as <-.
    split; [|split; [|split]].
    - intros a Ha. destruct (dget a (rename_flat m f2)) as [v|] eqn:Eg; [left; by eapply dget_Some_key|right].
      destruct (dget_key_Some _ _ Ha) as [v Ev]. destruct (K2 a v Eg Ev) as (w & _ & _ & Hs). apply Hseen in Hs as [Hk Hs].
      split; [done|]. by apply HK.
    - exact (proj1 (undone_components _ _ _ _ _ _ Hgv _ m Hm Hdisj d2 (K4 Hw1) K1 Hext Hfresh rlimit d4 d5 E4 E5)).
    - exact (proj2 (undone_components _ _ _ _ _ _ Hgv _ m Hm Hdisj d2 (K4 Hw1) K1 Hext Hfresh rlimit d4 d5 E4 E5)).
    - exact (undone_all _ _ _ _ _ _ Hgv _ m Hm Hdisj d2 (K4 Hw1) K1 Hext Hfresh rlimit d4 d5 E4 E5).
  Qed.

  (** ** C78: what the instance says about its components and its own
      attributes survives infer_missing.  The user's names must not be names
      that the tree has generated (see [C78_infer_adds_refuted]). *)
  (** Each attribute of the instance itself is there, with its value; a
      component has the attributes it had, with their values - but may have
      been moved into another component. *)
  Theorem C78_components_kept evs s q d f b d' s' :
    treachable x0 evs s -> Forall t_clean evs -> Forall (t_objs false) evs ->
    t_obj d -> oracle_ok (to_orc q) -> (forall n, 0 < n <= t_sym s -> gensym_name n ∉ pvars (PD d)) ->
    t_infer q d f b s = (Ok d', s') ->
    (forall a v, plook [AStr a] (PD d) = Some v -> plainv v -> plook [AStr a] (PD d') = Some v) /\
    (forall p u a v, plook (p ++ [AStr u; AStr a]) (PD d) = Some v -> plainv v ->
       exists p', plook (p' ++ [AStr u; AStr a]) (PD d') = Some v).
  Proof using Hnormal setord_spec.
    intros Hr Hc Hob Hd Ho Hfr E.
    destruct (infer_kept false _ _ _ _ _ _ _ _ Hr Hc Hob Hd Ho Hfr E) as (d1 & h & s1 & c & tb & d2 & _ & _ & _ & _ & H1 & H2 & _).
    split.
    - intros a v Hl Hv. apply H1. by apply (plook_leaf _ (PD d)).
    - intros p u a v Hl Hv. apply (H2 p). by apply (plook_leaf _ (PD d)).
  Qed.

  (** If the concept knows of no other owner for a component of the instance,
      everything the instance says is there, where it was. *)
  Theorem C78_keeps_given evs s q d f b d' s' (d1 : inst X) h s1 c tb :
    treachable x0 evs s -> Forall t_clean evs -> Forall (t_objs false) evs ->
    t_obj d -> oracle_ok (to_orc q) -> (forall n, 0 < n <= t_sym s -> gensym_name n ∉ pvars (PD d)) ->
    t_prepare q d s = (Ok d1, h, s1) -> fst (t_cat q d s) = Ok c -> table_of (t_tree s) c tb ->
    (forall w o, knows tb (ATup [AStr "has-component"; w; o]) -> component (map fst d1) o ->
       ATup [AStr "has-component"; w; o] ∈ map fst d1) ->
    t_infer q d f b s = (Ok d', s') ->
    forall p v, plook p (PD d) = Some v -> plainv v -> plook p (PD d') = Some v.
  Proof using Hnormal setord_spec.
    intros Hr Hc Hob Hd Ho Hfr Ep Hcat Htb Hown E p v Hl Hv.
    destruct (infer_kept false _ _ _ _ _ _ _ _ Hr Hc Hob Hd Ho Hfr E) as (d1' & h' & s1' & c' & tb' & d2 & Ep' & Htb' & Hcat' & Hk & _ & _ & H).
    rewrite Ep in Ep'. injection Ep' as <- _ _. rewrite Hcat in Hcat'.
    assert (Hs : t_sane d1 = true /\ exists j, hashed d1 = Ok j).
    { unfold Trestle.t_cat, Trestle.t_ready in Hcat. rewrite Ep in Hcat. destruct (t_sane d1); [|done].
      destruct (hashed d1) as [j|]; [by eauto|done]. }
    destruct Hs as (Hs & j & Ej). specialize (Hcat' Hs (hashed_all _ _ Ej)). injection Hcat' as <-. rewrite (table_of_det _ _ _ _ _ Htb' Htb) in Hk.
    apply H; [|by apply (plook_leaf _ (PD d))]. intros w o Hin Ho'. destruct (Hk _ Hin) as [?|[Hkn _]]; [done|].
    by apply (Hown w o).
  Qed.

  (** A tree that was only given components without components in them. *)
  Theorem C78_keeps_given_flat evs s q d f b d' s' :
    treachable x0 evs s -> Forall t_clean evs -> Forall (t_objs true) evs ->
    t_obj d -> oracle_ok (to_orc q) -> (forall n, 0 < n <= t_sym s -> gensym_name n ∉ pvars (PD d)) ->
    t_infer q d f b s = (Ok d', s') ->
    forall p v, plook p (PD d) = Some v -> plainv v -> plook p (PD d') = Some v.
  Proof using Hnormal setord_spec.
    intros Hr Hc Hob Hd Ho Hfr E p v Hl Hv.
    destruct (infer_kept true _ _ _ _ _ _ _ _ Hr Hc Hob Hd Ho Hfr E) as (d1 & h & s1 & c & tb & d2 & _ & _ & _ & Hk & _ & _ & H).
    apply H; [|by apply (plook_leaf _ (PD d))]. intros w o Hin _. destruct (Hk _ Hin) as [?|[_ [_ Hf]]]; [done|].
    specialize (Hf eq_refl). cbn in Hf. discriminate Hf.
  Qed.
End Keep.
Print Assumptions C78_components_kept.
Print Assumptions C78_keeps_given.
Print Assumptions C78_keeps_given_flat.
