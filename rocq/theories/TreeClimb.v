(** * The sorting loop commits, at every concept, an operation with the best result.

    [climb] describes what ifit should do, on the objects of the tree and in
    terms of the category utility that results from an operation; it refers
    neither to the scoring functions nor to the way candidates are compared.
    [cobweb_climbs]: every run of the loop of cobweb.py:152-202 is one. *)
From Coq Require Import Reals Lra.
From stdpp Require Import base decidable tactics gmap strings list.
From Verif Require Import Base Num TreeModel TreeFun TreeScore TreeRefine TreeSorts TreeInv SpecTree
  TreeState SortFacts ScoreR ScoreHeap ScoreStep.

(** ** Specification *)
Section Spec.
  Context (C : NodeClass ROps) (i : nc_inst C).

  (** The same objects; temporaries were created and random numbers drawn. *)
  Definition later (s s' : st C) : Prop :=
    exists a, am_ctr (st_amb s) <= am_ctr a /\ s' = St (st_heap s) (st_root s) a (st_ctx s).

  (** Performing [o] at [cur] would give it category utility [u]. *)
  Definition outcome (s : st C) (cur b1 : nat) (b2 : option nat) (o : op) (u : R) : Prop :=
    exists s', perform C cur i b1 b2 o s = (Ok tt, s') /\ fst (mcategory_utility C cur s') = Ok u.

  (** [b] is a child of [cur] to which adding the instance is best; among the
      children other than those in [but]. *)
  Definition best_child (s : st C) (cur : nat) (but : list nat) (b : nat) : Prop :=
    child_of s cur b /\ b ∉ but /\ exists u, outcome s cur b None OpBest u /\
      forall c, child_of s cur c -> c ∉ but ->
        exists u', outcome s cur c None OpBest u' /\ (u' <= u)%R.

  (** [o] is open at [cur] and no open operation has a better result. *)
  Definition best_op (s : st C) (cur b1 : nat) (b2 : option nat) (o : op) : Prop :=
    open_op C s cur b1 o /\ exists u, outcome s cur b1 b2 o u /\
      forall o', open_op C s cur b1 o' -> exists u', outcome s cur b1 b2 o' u' /\ (u' <= u)%R.

  (** Sorting from [cur] in state [s] ends in leaf [j] and state [s']. *)
  Inductive climb : st C -> nat -> nat -> st C -> Prop :=
  | climb_match s cur tb s' :
      children_of s cur [] -> table_of s cur tb ->
      nc_count C tb = 0 \/ nc_exact C tb i = Ok true ->
      mincrement C cur i s = (Ok tt, s') ->
      climb s cur cur s'
  | climb_fringe s cur tb j s' :
      children_of s cur [] -> table_of s cur tb ->
      nc_count C tb <> 0 -> nc_exact C tb i = Ok false ->
      mfringe_split C cur i s = (Ok j, s') ->
      climb s cur j s'
  | climb_best s cur b1 b2 s1 s2 j s' :
      choice s cur b1 b2 OpBest s1 ->
      mincrement C cur i s1 = (Ok tt, s2) -> climb s2 b1 j s' ->
      climb s cur j s'
  | climb_new s cur b1 b2 s1 s2 j s' :
      choice s cur b1 b2 OpNew s1 ->
      mincrement C cur i s1 = (Ok tt, s2) -> mcreate_new_child C cur i s2 = (Ok j, s') ->
      climb s cur j s'
  | climb_merge s cur b1 b2 s1 s2 m s3 j s' :
      choice s cur b1 (Some b2) OpMerge s1 ->
      mincrement C cur i s1 = (Ok tt, s2) -> mmerge C cur b1 b2 s2 = (Ok m, s3) ->
      climb s3 m j s' ->
      climb s cur j s'
  | climb_split s cur b1 b2 s1 s2 j s' :
      choice s cur b1 b2 OpSplit s1 ->
      msplit C cur b1 s1 = (Ok tt, s2) -> climb s2 cur j s' ->
      climb s cur j s'
  (** The best child, the best of the other children (if any), and the best
      operation. *)
  with choice : st C -> nat -> nat -> option nat -> op -> st C -> Prop :=
  | choice_intro s cur b1 b2 o s1 :
      later s s1 ->
      best_child s cur [] b1 ->
      match b2 with
      | Some b2 => best_child s cur [b1] b2
      | None => children_of s cur [b1]
      end ->
      best_op s1 cur b1 b2 o ->
      choice s cur b1 b2 o s1.
End Spec.

Section Climb.
  Context (C : NodeClass ROps) (rng : nat -> R).
  Notation S' := (nc_sum C).
  Notation I := (nc_inst C).

  (** As [sub_local_view], for a subtree hanging below [p]. *)
  Lemma rep_view h r a x p (u : tree C) : rep C h p u -> node_view (St h r a x) (tid u) (tsum u) (kview C u).
  Proof.
    destruct u as [id tb kids]. intros [Hid Hk]%rep_inv. split; [by eexists|]. split.
    - rewrite kview_fst. by eexists.
    - apply Forall_forall. intros c Hc. apply elem_of_list_fmap in Hc as (k & -> & Hin). simpl.
      rewrite Forall_forall in Hk. specialize (Hk k Hin). apply rep_lookup in Hk. by eexists.
  Qed.

  Lemma rep_local_view (P : S' -> Prop) h r a x p (u : tree C) : (forall sm, P sm -> copies C sm) ->
    rep C h p u -> NoDup (ids u) -> (forall j, j ∈ ids u -> j <= am_ctr a) -> tall C P u ->
    local_view C (St h r a x) (tid u) (tsum u) (kview C u).
  Proof.
    intros HP Hr Hnd Hb Hall. destruct u as [id tb kids].
    pose proof (rep_inv _ _ _ _ _ _ Hr) as [_ Hk]. apply tall_inv in Hall as [Hp Hall].
    pose proof (proj1 (NoDup_kids _ _ _ _) Hnd) as [Hni Hndk].
    rewrite Forall_forall in Hk. rewrite Forall_forall in Hall.
    split.
    - by eapply rep_view.
    - split.
      + rewrite kview_fst. by apply NoDup_tids.
      + rewrite kview_fst. intros Hin. apply Hni. by apply tids_in_concat.
      + rewrite kview_fst. intros j [->|Hin]; apply Hb; [left|]. right. by apply tids_in_concat.
    - by apply HP.
    - apply Forall_forall. intros c Hc. apply elem_of_list_fmap in Hc as (k & -> & Hin). simpl.
      apply HP. specialize (Hall k Hin). destruct k. by apply tall_inv in Hall as [? _].
    - intros b tbb Hin. apply elem_of_list_fmap in Hin as (k & [= -> ->] & Hin).
      pose proof (Hk k Hin) as Hrk. pose proof (Hall k Hin) as Hak.
      exists (kview C k). split; [by eapply rep_view|].
      destruct k as [kid ksm kk]. apply tall_inv in Hak as [_ Hak]. split; [|split].
      + apply Forall_forall. intros c Hc. apply elem_of_list_fmap in Hc as (g & -> & Hg). simpl.
        apply HP. rewrite Forall_forall in Hak. specialize (Hak g Hg). destruct g. by apply tall_inv in Hak as [? _].
      + rewrite kview_fst. intros Hc. apply (NoDup_in_kid _ _ _ Hndk) in Hin.
        apply NoDup_kids in Hin as [Hin _]. apply Hin. by apply tids_in_concat.
      + rewrite kview_fst. intros Hc. apply Hni. apply elem_of_ids_kids. exists (T kid ksm kk).
        split; [done|]. right. by apply tids_in_concat.
  Qed.

  Lemma mincrement_amb id (i : I) h r a a' x :
    mincrement C id i (St h r a' x) =
    let '(v, s) := mincrement C id i (St h r a x) in (v, St (st_heap s) (st_root s) a' (st_ctx s)).
  Proof.
    unfold mincrement, mbind, mget, mput, mret, mraise. cbn [st_heap st_root st_amb st_ctx].
    destruct (h !! id) as [n|]; [|done]. destruct (nc_inc C (nd_sum n) i) as [s' [e|]]; done.
  Qed.

  Lemma mtables_amb l h r x : exists v, forall a, mtables C l (St h r a x) = (v, St h r a x).
  Proof.
    induction l as [|c l [v IH]]; [by exists (Ok [])|]. cbn [mtables].
    destruct (h !! c) as [n|] eqn:En.
    - destruct v as [v|e].
      + exists (Ok ((c, nd_sum n) :: v)). intros a.
        rewrite (mbind_ok C _ _ _ _ _ (mget_ok C c (St h r a x) n En)).
        by rewrite (mbind_ok C _ _ _ _ _ (IH a)).
      + exists (Err e). intros a.
        rewrite (mbind_ok C _ _ _ _ _ (mget_ok C c (St h r a x) n En)).
        by rewrite (mbind_err C _ _ _ _ _ (IH a)).
    - eexists. intros a. unfold mbind, mget. cbn [st_heap]. rewrite En. reflexivity.
  Qed.

  Lemma mcu_amb cur h r a a' x :
    fst (mcategory_utility C cur (St h r a' x)) = fst (mcategory_utility C cur (St h r a x)).
  Proof.
    unfold mcategory_utility, mbind, mget. cbn [st_heap]. destruct (h !! cur) as [n|]; [|done].
    destruct (mtables_amb (nd_children n) h r x) as [v Hv]. rewrite !Hv. by destruct v.
  Qed.

  Lemma outcome_amb (i : I) h r a a' x cur b u :
    outcome C i (St h r a x) cur b None OpBest u -> outcome C i (St h r a' x) cur b None OpBest u.
  Proof.
    intros (s' & E & Eu). unfold outcome, perform in *. unfold mbind in *.
    rewrite (mincrement_amb cur i h r a a' x).
    destruct (mincrement C cur i (St h r a x)) as [[[]|] [h1 r1 a1 x1]] eqn:E1; [|done].
    cbn [st_heap st_root st_ctx]. rewrite (mincrement_amb b i h1 r1 a1 a' x1).
    rewrite E. destruct s' as [h2 r2 a2 x2]. eexists. split; [reflexivity|].
    cbn [st_heap st_root st_ctx]. by rewrite (mcu_amb cur h2 r2 a2).
  Qed.

  Lemma best_child_amb (i : I) h r a a' x cur but b :
    best_child C i (St h r a x) cur but b -> best_child C i (St h r a' x) cur but b.
  Proof.
    intros (H1 & H2 & u & Hu & Hall). split; [done|]. split; [done|]. exists u.
    split; [by eapply outcome_amb|]. intros c Hc Hb. destruct (Hall c Hc Hb) as (u' & Hu' & Hle).
    exists u'. split; [by eapply outcome_amb|done].
  Qed.

  Section Run.
    Context (P : S' -> Prop) (i : I).
    Hypothesis HPc : forall sm, P sm -> copies C sm.
    Hypothesis HPi : closed C P i.
    Hypothesis Hi : counts C i.

    Lemma choice_made h r a x p (t : tree C) cu b1 b2 s1 u o s2 :
      rep C h p t -> NoDup (ids t) -> (forall j, j ∈ ids t -> j <= am_ctr a) -> tall C P t ->
      mtwo_best C rng (tid t) i (St h r a x) = (Ok (cu, b1, b2), s1) ->
      mbest_op C rng (tid t) i b1 b2 cu s1 = (Ok (u, o), s2) ->
      choice C i (St h r a x) (tid t) b1 b2 o s2.
    Proof.
      intros Hr Hnd Hb Hall E1 E2.
      pose proof (rep_local_view P h r a x p t HPc Hr Hnd Hb Hall) as Hl.
      set (s := St h r a x) in *.
      destruct (two_best_optimal C rng s (tid t) (tsum t) (kview C t) i Hl Hi cu b1 b2 s1 E1)
        as (Hb1 & Hb12 & Hb2 & Hbest).
      destruct (best_op_optimal C rng s (tid t) (tsum t) (kview C t) i Hl Hi cu b1 b2 s1 u o s2 E1 E2)
        as (Hop & (sp & Ep & Eu) & Hmax).
      destruct (bridge C rng s (tid t) (tsum t) (kview C t) i Hl Hi cu b1 b2 s1 E1)
        as (tb1 & bk & o2 & a1 & Es1 & Hbo & _).
      pose proof (lv_view _ _ _ _ _ Hl) as (_ & Hch & _).
      assert (Hchild : forall c, child_of s (tid t) c <-> c ∈ map fst (kview C t)).
      { intros c. split; [|by exists (map fst (kview C t))].
        intros (l & Hl' & Hc). by rewrite (children_of_det _ _ _ _ _ Hl' Hch) in Hc. }
      assert (Hlat : am_ctr a <= am_ctr a1 /\ (b2 = None -> length (kview C t) = 1)).
      { rewrite (mtwo_best_view C rng s _ _ _ i (lv_view _ _ _ _ _ Hl)) in E1. cbv zeta in E1.
        pose proof (two_best_mono C rng (st_ctx s) (tsum t) (kview C t) i (st_amb s)) as [Hm _].
        destruct (two_best_children _ _ _ _ _ _ _) as [r' a'] eqn:Eb. simpl in E1, Hm.
        injection E1 as -> Ea. rewrite Es1 in Ea. injection Ea as ->. split; [done|].
        destruct (two_best_spec _ _ _ _ _ _ _ _ _ _ _ Eb) as [_ Eb2]. intros ->. done. }
      destruct Hlat as [Hlat Hone].
      assert (Hs2 : later C s s2).
      { rewrite Hbo in E2. cbv zeta in E2.
        pose proof (best_op_mono C rng (st_ctx s) (tsum t) (kview C t) i (b1, tb1) o2 bk cu all_ops a1) as [Hm2 _].
        destruct (get_best_operation _ _ _ _ _ _ _ _ _ _ _ _) as [r' a'] eqn:Eb. simpl in E2, Hm2.
        injection E2 as _ <-. exists a'. split; [simpl; lia|done]. }
      constructor.
      - done.
      - split; [by apply Hchild|]. split; [apply not_elem_of_nil|].
        destruct (Hbest b1 Hb1) as (sb & ub & F1 & F2 & F3 & F4 & _). exists ub. split; [by exists sb|].
        intros c Hc _. apply Hchild in Hc. destruct (Hbest c Hc) as (sc & uc & G1 & G2 & G3 & _).
        exists uc. split; [by exists sc|]. by rewrite (F4 eq_refl).
      - destruct b2 as [b2|].
        + specialize (Hb2 b2 eq_refl). split; [by apply Hchild|].
          assert (Hne : b2 <> b1) by congruence. split; [by rewrite elem_of_list_singleton|].
          destruct (Hbest b2 Hb2) as (sb & ub & F1 & F2 & _). exists ub. split; [by exists sb|].
          intros c Hc Hcb. rewrite elem_of_list_singleton in Hcb. apply Hchild in Hc.
          destruct (Hbest c Hc) as (sc & uc & G1 & G2 & G3 & G4 & G5).
          exists uc. split; [by exists sc|].
          destruct (G5 b2 eq_refl Hcb) as (sb' & ub' & K1 & K2 & K3).
          rewrite F1 in K1. injection K1 as <-. rewrite F2 in K2. by injection K2 as <-.
        + specialize (Hone eq_refl). destruct (kview C t) as [|[q tq] [|? ?]]; try done.
          simpl in Hb1. apply elem_of_list_singleton in Hb1 as ->. exact Hch.
      - destruct Hs2 as (a2 & _ & ->).
        assert (Hopen : forall o', open_op C (St (st_heap s) (st_root s) a2 (st_ctx s)) (tid t) b1 o' <->
          open_op C s (tid t) b1 o') by (intros []; done).
        split; [by apply Hopen|]. exists u. split; [by exists sp|].
        intros o' Ho'. apply Hopen in Ho'. destruct (Hmax o' Ho') as (s' & u' & F1 & F2 & F3).
        exists u'. split; [by exists s'|done].
    Qed.

    Lemma inc_rep h r a x p id tb (kids : list (tree C)) tt' s2 :
      rep C h p (T id tb kids) -> NoDup (ids (T id tb kids)) -> P tb ->
      mincrement C id i (St h r a x) = (Ok tt', s2) ->
      exists tb' h', P tb' /\ s2 = St h' r a x /\ rep C h' p (T id tb' kids).
    Proof.
      intros Hr Hnd Hp E. pose proof (rep_inv _ _ _ _ _ _ Hr) as [Hid _].
      rewrite (mincrement_spec C id i (St h r a x) _ Hid) in E. simpl in E.
      destruct (cl_inc _ _ _ HPi tb Hp) as (tb' & Ei & Hp'). rewrite Ei in E. simpl in E.
      injection E as _ <-. exists tb'. eexists. split; [done|]. split; [reflexivity|]. by apply rep_set_sum.
    Qed.

    Theorem mcobweb_climbs fuel : forall h r a x p (t : tree C) j s',
      rep C h p t -> NoDup (ids t) -> (forall k, k ∈ ids t -> k <= am_ctr a) -> tall C P t ->
      mcobweb C rng fuel (tid t) i (St h r a x) = (Ok j, s') ->
      climb C i (St h r a x) (tid t) j s'.
    Proof.
      induction fuel as [|fuel IH]; intros h r a x p t j s' Hr Hnd Hb Hall E; [done|].
      destruct t as [id tb kids]. pose proof (rep_inv _ _ _ _ _ _ Hr) as [Hid Hkids].
      cbn [tid mcobweb] in E |- *. erewrite mbind_ok in E by (apply mget_ok; exact Hid).
      cbn [nd_children nd_sum] in E.
      assert (Htab : table_of (St h r a x) id tb) by (by eexists).
      destruct kids as [|k0 ks0].
      { cbn [map] in E.
        assert (Hch : children_of (St h r a x) id []) by (by eexists).
        destruct (nc_exact C tb i) as [ex|e] eqn:Eex; [|by rewrite (mbind_err C _ _ _ e _ eq_refl) in E].
        rewrite (mbind_ok C _ _ _ ex _ eq_refl) in E.
        destruct (ex || (nc_count C tb =? 0)%nat) eqn:Eor.
        - destruct (mincrement C id i (St h r a x)) as [[[]|e] s2] eqn:Ei.
          + rewrite (mbind_ok C _ _ _ _ _ Ei) in E. injection E as <- <-.
            eapply climb_match; [done|done| |done].
            apply orb_true_iff in Eor as [->|Eor]; [by right|left; by apply Nat.eqb_eq].
          + by rewrite (mbind_err C _ _ _ _ _ Ei) in E.
        - apply orb_false_iff in Eor as [-> Eor]. apply Nat.eqb_neq in Eor.
          by eapply climb_fringe. }
      set (kids := k0 :: ks0) in *. change (map tid kids) with (tid k0 :: map tid ks0) in E. cbn iota in E.
      pose proof (proj1 (tall_inv _ _ _ _ _) Hall) as [Hp Hak].
      pose proof (mtwo_best_spec C rng h r a x p id tb kids i Hr) as Htb.
      destruct (two_best_children C rng x tb (tables kids) i a) as [[[[cu b1] b2]|e] a1] eqn:E2;
        simpl fst in Htb; simpl snd in Htb.
      2:{ by rewrite (mbind_err C _ _ _ _ _ Htb) in E. }
      rewrite (mbind_ok C _ _ _ _ _ Htb) in E. cbn beta iota in E.
      pose proof (proj1 (NoDup_kids _ _ _ _) Hnd) as [Hnik Hndk].
      destruct (two_best_kids _ _ _ _ _ _ _ _ _ _ _ (NoDup_tids _ _ Hndk) E2) as (Ha1 & k1 & Hk1 & Hb2).
      destruct (mbest_op C rng id i b1 b2 cu (St h r a1 x)) as [[[u o]|e] s2] eqn:Eo.
      2:{ by rewrite (mbind_err C _ _ _ _ _ Eo) in E. }
      rewrite (mbind_ok C _ _ _ _ _ Eo) in E. cbn [snd] in E.
      pose proof (choice_made h r a x p (T id tb kids) cu b1 b2 _ u o s2 Hr Hnd Hb Hall Htb Eo) as Hc.
      cbn [tid] in Hc.
      assert (Hlat : later C (St h r a x) s2) by (by inversion Hc).
      destruct Hlat as (a2 & Ha2 & ->). cbn [st_heap st_root st_ctx st_amb] in *.
      assert (Hb' : forall k, k ∈ ids (T id tb kids) -> k <= am_ctr a2).
      { intros k Hk. specialize (Hb k Hk). lia. }
      assert (Hk1in : k1 ∈ kids).
      { apply kfind_split in Hk1 as (l1 & l2 & El & _). rewrite El. apply elem_of_app. right. left. }
      assert (Ht1 : tid k1 = b1) by (by apply kfind_split in Hk1 as (? & ? & ? & ? & _)).
      assert (Hinc : forall X (f : unit -> M C X) v s3,
        mbind C (mincrement C id i) f (St h r a2 x) = (Ok v, s3) ->
        exists tb' h', P tb' /\ rep C h' p (T id tb' kids) /\
          mincrement C id i (St h r a2 x) = (Ok tt, St h' r a2 x) /\ f tt (St h' r a2 x) = (Ok v, s3)).
      { intros X f v s3 Ef. destruct (mincrement C id i (St h r a2 x)) as [[[]|e] s4] eqn:Ei.
        - rewrite (mbind_ok C _ _ _ _ _ Ei) in Ef.
          destruct (inc_rep h r a2 x p id tb kids tt s4 Hr Hnd Hp Ei) as (tb' & h' & Hp' & -> & Hr').
          exists tb', h'. done.
        - by rewrite (mbind_err C _ _ _ _ _ Ei) in Ef. }
      destruct o.
      - apply Hinc in E as (tb' & h' & Hp' & Hr' & Ei & E).
        eapply climb_best; [exact Hc|exact Ei|]. rewrite <- Ht1 in E |- *.
        eapply (IH h' r a2 x (Some id)); [| | | |exact E].
        + apply rep_inv in Hr' as [_ Hr']. rewrite Forall_forall in Hr'. by apply Hr'.
        + by eapply NoDup_in_kid.
        + intros k Hk. apply Hb'. by eapply ids_kid.
        + rewrite Forall_forall in Hak. by apply Hak.
      - apply Hinc in E as (tb' & h' & Hp' & Hr' & Ei & E). eapply climb_new; [exact Hc|exact Ei|exact E].
      - destruct b2 as [b2|]; [|done].
        destruct Hb2 as (Hne & k2 & Hk2).
        apply Hinc in E as (tb' & h' & Hp' & Hr' & Ei & E).
        assert (Hk2in : k2 ∈ kids).
        { apply kfind_split in Hk2 as (l1 & l2 & El & _). rewrite El. apply elem_of_app. right. left. }
        destruct (mmerge_refines C h' r a2 x p id tb' kids b1 b2 k1 k2 Hr' Hnd Hb' Hk1 Hk2 Hne)
          as (h2 & Hrun & _ & Hr2).
        destruct (fmerged C k1 k2) as [sm|e] eqn:Ef.
        2:{ by rewrite (mbind_err C _ _ _ _ _ Hrun) in E. }
        rewrite (mbind_ok C _ _ _ _ _ Hrun) in E.
        eapply climb_merge; [exact Hc|exact Ei|exact Hrun|].
        destruct (merge_ids C id tb sm kids b1 b2 k1 k2 (am_ctr a2) Hnd Hb' Hk1 Hk2 Hne)
          as (Hk2' & Hperm & Hkm).
        set (m := S (am_ctr a2)) in *.
        set (kids' := kremove b2 (kremove b1 kids) ++ [T m sm [k1; k2]]) in *.
        assert (Hnd' : NoDup (ids (T id tb' kids'))).
        { apply NoDup_kids. rewrite Hperm.
          split; [apply not_elem_of_cons; split; [|done]|].
          { specialize (Hb' id ltac:(left)). unfold m. lia. }
          apply NoDup_cons. split; [|done]. intros Hin.
          assert (m <= am_ctr a2); [|unfold m in *; lia]. apply Hb'. by right. }
        assert (Hbm : forall j, j ∈ ids (T id tb' kids') -> j <= m).
        { intros q Hq. apply elem_of_cons in Hq as [->|Hq].
          - specialize (Hb' id ltac:(left)). unfold m. lia.
          - rewrite Hperm in Hq. apply elem_of_cons in Hq as [->|Hq]; [done|].
            assert (q <= am_ctr a2) by (apply Hb'; by right). unfold m. lia. }
        assert (Hkin : T m sm [k1; k2] ∈ kids').
        { unfold kids'. apply elem_of_app. right. left. }
        apply (IH h2 r (anext a2) x (Some id) (T m sm [k1; k2])).
        + apply rep_inv in Hr2 as [_ Hr2]. rewrite Forall_forall in Hr2. by apply Hr2.
        + apply NoDup_kids in Hnd' as [_ Hnd']. by eapply NoDup_in_kid.
        + intros q Hq. apply Hbm. by eapply ids_kid.
        + apply tall_inv. rewrite Forall_forall in Hak. split.
          * unfold fmerged in Ef.
            assert (H1 : P (tsum k1)) by (specialize (Hak k1 Hk1in); destruct k1; by apply tall_inv in Hak as [? _]).
            assert (H2 : P (tsum k2)) by (specialize (Hak k2 Hk2in); destruct k2; by apply tall_inv in Hak as [? _]).
            destruct (cl_add _ _ _ HPi _ _ (cl_empty _ _ _ HPi) H1) as (q1 & Eq1 & Hq1). rewrite Eq1 in Ef.
            destruct (cl_add _ _ _ HPi _ _ Hq1 H2) as (q2 & Eq2 & Hq2). rewrite Eq2 in Ef. by injection Ef as <-.
          * repeat apply Forall_cons_2; [by apply Hak|by apply Hak|apply Forall_nil_2].
        + exact E.
      - destruct (msplit_refines C h r a2 x p id tb kids b1 k1 Hr Hnd Hk1) as (h2 & Hrun & _ & Hr2).
        rewrite (mbind_ok C _ _ _ _ _ Hrun) in E.
        eapply climb_split; [exact Hc|exact Hrun|].
        assert (Hsub : forall q, q ∈ concat (map ids (kremove b1 kids ++ tkids k1)) ->
                  q ∈ concat (map ids kids)).
        { intros q. rewrite (concat_ids_perm _ _ _ (kremove_perm _ _ _ _ Hk1)).
          rewrite concat_ids_app. destruct k1 as [i1 s1 ks1]. simpl.
          rewrite !elem_of_cons, !elem_of_app. tauto. }
        apply (IH h2 r a2 x p (T id tb (kremove b1 kids ++ tkids k1))).
        + done.
        + apply NoDup_kids. split.
          { intros Hin. by apply Hnik, Hsub. }
          rewrite (concat_ids_perm _ _ _ (kremove_perm _ _ _ _ Hk1)) in Hndk.
          clearbody kids. rewrite concat_ids_app. destruct k1 as [i1 s1 ks1]. simpl in Hndk |- *.
          apply NoDup_cons in Hndk as [_ Hndk].
          by rewrite (Permutation_app_comm (concat (map ids (kremove b1 kids)))).
        + intros q Hq. apply Hb'. apply elem_of_cons in Hq as [->|Hq]; [left|]. right. by apply Hsub.
        + apply tall_inv. split; [done|]. apply Forall_app. split.
          * rewrite (kremove_perm _ _ _ _ Hk1) in Hak. by apply Forall_cons in Hak as [_ Hak].
          * rewrite Forall_forall in Hak. specialize (Hak k1 Hk1in). destruct k1. by apply tall_inv in Hak as [_ ?].
        + exact E.
    Qed.

    Theorem cobweb_climbs s (t : tree C) j s' : state_ok C s t -> tall C P t ->
      cobweb C rng i s = (Ok j, s') ->
      climb C i (St (st_heap s) (st_root s) (st_amb s) (nc_pre C (st_ctx s) i)) (st_root s) j s'.
    Proof.
      intros [Hrep Hroot Hnd Hb] Hall E. destruct s as [h r a x]. simpl in *. subst r.
      unfold cobweb, mbind, mpre, mroot, mheap_size in E. cbv beta iota in E. cbn [st_heap st_root st_amb st_ctx] in E.
      by eapply mcobweb_climbs.
    Qed.

    (** _cobweb_categorize follows best children only. *)
    Theorem mcategorize_greedy fuel : forall h r a x p (t : tree C) j s',
      rep C h p t -> NoDup (ids t) -> (forall k, k ∈ ids t -> k <= am_ctr a) -> tall C P t ->
      mcategorize C rng fuel (tid t) i (St h r a x) = (Ok j, s') ->
      forall v k, sub C v t -> k ∈ tkids v -> j ∈ ids k ->
        best_child C i (St h r a x) (tid v) [] (tid k).
    Proof.
      induction fuel as [|fuel IH]; intros h r a x p t j s' Hr Hnd Hb Hall E v k Hv Hk Hj; [done|].
      destruct t as [id tb kids]. pose proof (rep_inv _ _ _ _ _ _ Hr) as [Hid Hkids].
      cbn [tid mcategorize] in E. erewrite mbind_ok in E by (apply mget_ok; exact Hid).
      cbn [nd_children nd_sum] in E.
      destruct kids as [|k0 ks0].
      { apply sub_inv in Hv as [->|(q & Hq & _)]; [inversion Hk|inversion Hq]. }
      set (kids := k0 :: ks0) in *. change (map tid kids) with (tid k0 :: map tid ks0) in E. cbn iota in E.
      pose proof (proj1 (tall_inv _ _ _ _ _) Hall) as [Hp Hak].
      pose proof (mtwo_best_spec C rng h r a x p id tb kids i Hr) as Htb.
      destruct (two_best_children C rng x tb (tables kids) i a) as [[[[cu b1] b2]|e] a1] eqn:E2;
        simpl fst in Htb; simpl snd in Htb.
      2:{ by rewrite (mbind_err C _ _ _ _ _ Htb) in E. }
      rewrite (mbind_ok C _ _ _ _ _ Htb) in E. cbn beta iota in E.
      pose proof (proj1 (NoDup_kids _ _ _ _) Hnd) as [Hnik Hndk].
      destruct (two_best_kids _ _ _ _ _ _ _ _ _ _ _ (NoDup_tids _ _ Hndk) E2) as (Ha1 & k1 & Hk1 & Hb2).
      assert (Hk1in : k1 ∈ kids).
      { apply kfind_split in Hk1 as (l1 & l2 & El & _). rewrite El. apply elem_of_app. right. left. }
      assert (Ht1 : tid k1 = b1) by (by apply kfind_split in Hk1 as (? & ? & ? & ? & _)).
      rewrite <- Ht1 in E.
      assert (Hrk1 : rep C h (Some id) k1) by (rewrite Forall_forall in Hkids; by apply Hkids).
      assert (Hndk1 : NoDup (ids k1)) by (by eapply NoDup_in_kid).
      (* the leaf is below k1 *)
      assert (Hj1 : j ∈ ids k1).
      { rewrite (mcategorize_refines C rng fuel h r a1 x (Some id) k1 i Hrk1 Hndk1) in E.
        injection E as E _. destruct (fcat_leaf C rng fuel x k1 i a1 j) as (sj & Hl).
        { by destruct (fcat C rng fuel x k1 i a1); simpl in *; subst. }
        clear -Hl. induction Hl as [|id' sm kids k j sj Hk Hl IH]; [left|]. by eapply ids_kid. }
      assert (Hb1' : forall q, q ∈ ids k1 -> q <= am_ctr a).
      { intros q Hq. apply Hb. by eapply ids_kid. }
      apply sub_inv in Hv as [->|(k' & Hk' & Hv)].
      - cbn [tkids tid] in Hk |- *.
        assert (k = k1) as -> by (by eapply kids_disjoint).
        pose proof (rep_local_view P h r a x p (T id tb kids) HPc Hr Hnd Hb Hall) as Hl.
        pose proof (two_best_optimal C rng _ _ _ _ i Hl Hi cu b1 b2 _ Htb) as (Hb1 & _ & _ & Hbest).
        cbn [tid] in Hbest. pose proof (lv_view _ _ _ _ _ Hl) as (_ & Hch & _). cbn [tid] in Hch.
        rewrite Ht1. split; [by exists (map fst (kview C (T id tb kids)))|]. split; [apply not_elem_of_nil|].
        destruct (Hbest b1 Hb1) as (sb & ub & F1 & F2 & F3 & F4 & _). exists ub. split; [by exists sb|].
        intros c (l & Hl' & Hc) _. rewrite (children_of_det _ _ _ _ _ Hl' Hch) in Hc.
        destruct (Hbest c Hc) as (sc & uc & G1 & G2 & G3 & _).
        exists uc. split; [by exists sc|]. by rewrite (F4 eq_refl).
      - assert (k' = k1) as ->.
        { eapply kids_disjoint; [exact Hndk|done|done| |exact Hj1]. eapply sub_ids; [exact Hv|].
          destruct v as [vi vs vk]. simpl in Hk. by eapply ids_kid. }
        apply (best_child_amb i h r a1 a x).
        eapply (IH h r a1 x (Some id) k1); [done|done| | |exact E|done|done|done].
        + intros q Hq. specialize (Hb1' q Hq). lia.
        + rewrite Forall_forall in Hak. by apply Hak.
    Qed.

    Theorem categorize_greedy s (t : tree C) j s' : state_ok C s t -> tall C P t ->
      cobweb_categorize C rng i s = (Ok j, s') ->
      forall p c, in_tree s p -> child_of s p c -> desc s c j -> best_child C i s p [] c.
    Proof.
      intros Hok Hall E p c Hp (l & Hl & Hc) Hd. pose proof Hok as [Hrep Hroot Hnd Hb].
      apply (in_tree_sub _ _ _ _ Hok) in Hp as (v & Hv & <-).
      rewrite (children_of_det _ _ _ _ _ Hl (sub_children _ _ _ _ Hok Hv)) in Hc.
      apply elem_of_list_fmap in Hc as (k & -> & Hk).
      assert (Hkt : sub C k t) by (by eapply sub_kid_of).
      destruct (desc_sub C s t k j Hok Hkt Hd) as (w & Hw & <-).
      destruct s as [h r a x]. simpl in *. subst r.
      unfold cobweb_categorize, mbind, mroot, mheap_size in E. cbv beta iota in E. cbn [st_heap st_root st_amb st_ctx] in E.
      eapply mcategorize_greedy; try done. by apply sub_tid.
    Qed.
  End Run.
End Climb.
