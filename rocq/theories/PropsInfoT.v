(** * cluster_iter with AIC, AICc and BIC (C86): it returns; what the
      documentation says about [k]. *)
From Coq Require Import Reals Lra.
From stdpp Require Import base decidable tactics gmap strings list.
From Verif Require Import Base Num TreeModel TreeFun TreeScore TreeRefine TreeSorts TreeInv
  SpecTree SpecCluster TreeState TreeTotal TreeLeaf RSum Nominal NominalFacts NominalTotal NominalTree NominalR Utils PropsUtils Query QueryR
  QueryFacts QueryPredict QueryLinks CV CVFacts C4Facts PropsCV Cobweb3 C3Facts C3Scales C3R C3Total C3Nominal C3Query
  PropsTree PropsTotal PropsQuery Query3 PropsC3 PropsC3R PropsC3E PropsQ3 PropsLL
  Cluster ClusterFacts ClusterLoop ClusterCU PropsCluster PropsClusterT ScoreHeap ScoreStep PropsCU Info PropsInfo.
Set Default Proof Using "Type".
Open Scope list_scope.

Section Generic.
  Context {N : NumOps} (C : NodeClass N) (rng : nat -> num N) (setord : list nat -> list nat)
    (heur : list nat -> list nat -> M C (num N)).
  Hypothesis Hset : forall l x, x ∈ setord l <-> x ∈ l.
  Hypothesis Hnz : forall n, neqb N (nofnat N (S n)) (nofnat N 0) = false.
  Hypothesis Hrng : forall j k, j <> k -> neqb N (rng j) (rng k) = false.
  Context (X : nc_ctx C -> Prop) (V : nc_ctx C -> nc_sum C -> Prop) (Good : nc_inst C -> Prop).
  Hypothesis HX : forall x i, X x -> Good i -> X (nc_pre C x i).
  Hypothesis Sc : forall x i, X x -> Good i -> scorable C (V x) x i.
  Hypothesis Hpre : forall x i s, V x s -> V (nc_pre C x i) s.

  Lemma sorted_reachable x0 mod_ is_ : forall evs s js s0, reachable C rng x0 evs s -> all_inst Good evs -> Forall Good is_ ->
    sorted_by C rng mod_ s is_ js s0 ->
    exists evs', reachable C rng x0 evs' s0 /\ all_inst Good evs' /\ (mod_ = true -> is_ <> [] \/ history evs <> [] -> history evs' <> []) /\
      (history evs <> [] -> history evs' <> []).
  Proof.
    induction is_ as [|i is_ IH]; intros evs s js s0 Hr Hg HF Hs; inversion Hs as [|? ? ? j js' s1 ? E Hs']; subst.
    { exists evs. split; [done|]. split; [done|]. by split; [intros _ [?|?]|]. }
    apply Forall_cons in HF as [Hi HF]. destruct Hr as (c & p & Hr).
    destruct (IH (evs ++ [if mod_ then @EFit N C i (Ok j) else @ECat N C i (Ok j)]) s1 js' s0) as (evs' & H1 & H2 & H3 & H4); [|  |done|done|].
    - exists c, p. eapply run_snoc; [exact Hr|]. destruct mod_; by constructor.
    - apply Forall_app. split; [done|]. apply Forall_singleton. by destruct mod_; intros k ->.
    - exists evs'. split; [done|]. split; [done|].
      assert (Hh : history (evs ++ [if mod_ then @EFit N C i (Ok j) else @ECat N C i (Ok j)]) = if mod_ then history evs ++ [i] else history evs).
      { unfold history. rewrite fold_left_app. by destruct mod_. }
      rewrite Hh in *. split.
      + intros -> _. apply H4. by destruct (history evs).
      + intros Hne. apply H4. destruct mod_; [by destruct (history evs)|done].
  Qed.

  (** If the heuristic never raises for a clustering of a tree that was fitted
      and split, cluster_iter does not raise. *)
  Theorem iter_total x0 evs s mod_ instances maxsplit : reads_only C heur ->
    (forall evs0 s0 s1 leaves l, reachable C rng x0 evs0 s0 -> all_inst Good evs0 -> all_ok evs0 -> history evs0 <> [] ->
      split_from C s0 s1 -> clustering s1 leaves l -> Forall (is_leaf s0) leaves -> leaves <> [] ->
      exists h s2, heur l leaves s1 = (Ok h, s2)) ->
    reachable C rng x0 evs s -> all_inst Good evs -> X x0 -> Forall Good instances -> instances <> [] -> 1 <= maxsplit ->
    (mod_ = true \/ history evs <> []) ->
    exists ys s', cluster_iter C rng setord heur 1 maxsplit mod_ instances s = (ys, Ok tt, s') /\ ys <> [].
  Proof using Hset Hnz Hrng HX Sc Hpre.
    intros Hread Hheur Hreach Hgood Hx0 HF Hne Hmax Hmod.
    destruct (reachable_total C rng Hnz Hrng X V Good HX Sc Hpre x0 evs s Hreach Hgood Hx0) as (_ & Hx & t & Hok & Hre).
    destruct (sorts_total C rng Hnz Hrng X V Good HX Sc Hpre mod_ instances s t HF Hx Hok Hre) as (js & s0 & E & _).
    apply (proj2 (sorted_by_mmap C rng mod_ instances s js s0)) in E.
    destruct (cluster_iter C rng setord heur 1 maxsplit mod_ instances s) as [[ys r] s'] eqn:Ec.
    destruct (C51_cluster_iter C rng setord heur x0 evs s mod_ instances js s0 maxsplit ys r s' Hreach Hset
      Hread Hne Hmax E Ec) as (_ & Hlf & _ & _ & _ & _ & _ & H1 & _ & H2).
    destruct r as [[]|e].
    - eexists _, s'. split; [reflexivity|]. by apply H1.
    - exfalso. destruct (H2 e eq_refl) as (l & s1 & s2 & Hs1 & Hcl & Eh).
      destruct (sorted_reachable x0 mod_ instances evs s js s0 Hreach Hgood HF E) as (evs' & G1 & G2 & G3 & G4).
      destruct (reachable_total C rng Hnz Hrng X V Good HX Sc Hpre x0 evs' s0 G1 G2 Hx0) as (Hn & _).
      destruct (Hheur evs' s0 s1 js l G1 G2) as (h & s3 & E3); try done; [| | |congruence].
      + eapply Forall_impl; [exact Hn|]. intros [? [?|?]|? ?| |]; done.
      + destruct Hmod as [->|Hm]; [apply G3; [done|by left]|by apply G4].
      + inversion E; subst; done.
  Qed.
End Generic.

Section Cobweb.
  Context (rng : nat -> num ROps) (setord : list nat -> list nat) (ord : nsum -> nsum -> list attr * (attr -> list (option nom))) (inf : R).
  Hypothesis Hd : distinct_draws rng.
  Hypothesis Hset : forall l x, x ∈ setord l <-> x ∈ l.
  Hypothesis Hord : forall tb tl, ll_order tb tl (fst (ord tb tl)) (snd (ord tb tl)).
  Notation ni := (CobwebInfo ROps ord).

  Theorem C86_cluster_iter_returns heur evs s mod_ instances maxsplit :
    heur = AIC RC ni setord \/ heur = AICc RC ni setord inf \/ heur = BIC RC ni setord ->
    reachable RC rng tt evs s -> all_inst (C:=RC) (fun i => good i /\ has_visible i) evs ->
    Forall (fun i => good i /\ has_visible i) instances -> instances <> [] -> 1 <= maxsplit -> (mod_ = true \/ history evs <> []) ->
    exists ys s', cluster_iter RC rng setord heur 1 maxsplit mod_ instances s = (ys, Ok tt, s') /\ ys <> [].
  Proof using Hd Hset Hord.
    intros Hh Hr Hg HF Hne Hm Hmod. destruct counting_R as [Hnz Hzz].
    apply (iter_total RC rng setord heur Hset Hnz Hd (fun _ => True) (fun _ => VN) (fun i => good i /\ has_visible i)
      (fun _ _ _ _ => Logic.I) (fun x i _ Hi => cobweb_scorable Hnz x i (proj2 Hi))
      (fun x i s Hs => Hs) tt evs s mod_ instances maxsplit); try done.
    - destruct Hh as [-> | [-> | ->]]; [apply AIC_reads|apply AICc_reads|apply BIC_reads].
    - intros evs0 s0 s1 leaves l G1 G2 G3 G4 G5 G6 G7 G8.
      assert (G2' : all_inst (C:=RC) good evs0).
      { unfold all_inst in *. eapply Forall_impl; [exact G2|]. intros e He i Hi. by destruct (He i Hi). }
      destruct (C86_criteria rng setord ord inf Hset Hord evs0 s0 s1 leaves l G1 G2' G3 G4 G5 G6 G7 G8)
        as (xs & ks & _ & _ & _ & E1 & E2 & E3).
      destruct Hh as [-> | [-> | ->]]; eexists _, _; [exact E1|exact E2|exact E3].
  Qed.
End Cobweb.

Section Cobweb3.
  Context (rng : nat -> num ROps) (sc : option R) (inner : bool) (setord : list nat -> list nat)
    (ord : nsum3 ROps -> nsum3 ROps -> list attr * (attr -> list (option nom))) (inf : R).
  Notation x0 := (@new_ctx ROps sc inner).
  Hypothesis Hd : distinct_draws rng.
  Hypothesis Hset : forall l x, x ∈ setord l <-> x ∈ l.
  Hypothesis Hord : forall tb tl, ll_order3 tb tl (fst (ord tb tl)) (snd (ord tb tl)).
  Notation ni := (Cobweb3Info ROps ord).

  Theorem C86_cluster_iter_returns3 heur evs s mod_ instances maxsplit :
    heur = AIC RC3' ni setord \/ heur = AICc RC3' ni setord inf \/ heur = BIC RC3' ni setord ->
    reachable RC3' rng x0 evs s -> all_inst (C:=RC3') (fits3 (N:=ROps)) evs ->
    Forall (fits3 (N:=ROps)) instances -> instances <> [] -> 1 <= maxsplit -> (mod_ = true \/ history evs <> []) ->
    exists ys s', cluster_iter RC3' rng setord heur 1 maxsplit mod_ instances s = (ys, Ok tt, s') /\ ys <> [].
  Proof using Hd Hset Hord.
    intros Hh Hr Hg HF Hne Hm Hmod. destruct counting_R as [Hnz Hzz].
    apply (iter_total RC3' rng setord heur Hset Hnz Hd scales_ok (fun _ => V3) fits3
      (fun x i Hx _ => scales_ok_update x i Hx) (fun x i Hx Hi => cobweb3_scorable x i Hx Hi)
      (fun x i s Hs => Hs) x0 evs s mod_ instances maxsplit); try done.
    - destruct Hh as [-> | [-> | ->]]; [apply AIC_reads|apply AICc_reads|apply BIC_reads].
    - intros evs0 s0 s1 leaves l G1 G2 G3 G4 G5 G6 G7 G8.
      assert (G2' : all_inst (C:=RC3') (good3 (N:=ROps)) evs0).
      { unfold all_inst in *. eapply Forall_impl; [exact G2|]. intros e He i Hi. by destruct (He i Hi). }
      destruct (C86_criteria3 rng sc inner setord ord inf Hset Hord evs0 s0 s1 leaves l G1 G2' G3 G4 G5 G6 G7 G8)
        as (xs & ks & _ & _ & _ & E1 & E2 & E3).
      destruct Hh as [-> | [-> | ->]]; eexists _, _; [exact E1|exact E2|exact E3].
  Qed.
End Cobweb3.

(** ** The documented [k] *)
(** An enumeration of the two sets. *)
Definition std_order (tb tl : nsum) : list attr * (attr -> list (option nom)) :=
  (remove_dups (List.filter visible (dkeys (ns_av tb) ++ dkeys (ns_av tl))),
   fun a => remove_dups (None :: map Some (vals_of tb a ++ vals_of tl a))).
Lemma std_order_ok tb tl : ll_order tb tl (fst (std_order tb tl)) (snd (std_order tb tl)).
Proof.
  split.
  - split; [apply NoDup_remove_dups|]. intros a. cbn [std_order fst]. rewrite elem_of_remove_dups, elem_of_list_In, List.filter_In.
    rewrite <- elem_of_list_In, elem_of_app. tauto.
  - intros a. split; [apply NoDup_remove_dups|]. intros v. cbn [std_order snd]. rewrite elem_of_remove_dups, elem_of_cons.
    rewrite elem_of_list_In, in_map_iff. split; (intros [?|(w & Hw & H)]; [by left|]); right; exists w.
    + split; [done|]. by apply elem_of_app, elem_of_list_In.
    + split; [done|]. by apply elem_of_list_In, elem_of_app.
Qed.
Definition std_order3 (tb tl : nsum3 ROps) : list attr * (attr -> list (option nom)) :=
  (remove_dups (List.filter visible (dkeys (n3_av tb) ++ dkeys (n3_av tl))),
   fun a => remove_dups (None :: map Some (vals_of3 tb a ++ vals_of3 tl a))).
Lemma std_order3_ok tb tl : ll_order3 tb tl (fst (std_order3 tb tl)) (snd (std_order3 tb tl)).
Proof.
  split.
  - split; [apply NoDup_remove_dups|]. intros a. cbn [std_order3 fst]. rewrite elem_of_remove_dups, elem_of_list_In, List.filter_In.
    rewrite <- elem_of_list_In, elem_of_app. tauto.
  - intros a. split; [apply NoDup_remove_dups|]. intros v. cbn [std_order3 snd]. rewrite elem_of_remove_dups, elem_of_cons.
    rewrite elem_of_list_In, in_map_iff. split; (intros [?|(w & Hw & H)]; [by left|]); right; exists w.
    + split; [done|]. by apply elem_of_app, elem_of_list_In.
    + split; [done|]. by apply elem_of_list_In, elem_of_app.
Qed.

(** "k is the total number of unique attribute value pairs in the tree root
    times the number of clusters" (cluster.py:204-206, 258-260, 306-308).  With
    two children that know one value each, and a root that knows two, AIC is 4:
    the documented [k] gives at least 8. *)
Theorem C86_documented_k_refuted : exists evs s leaves labels,
  reachable RC ex_draws tt evs s /\ all_inst (C:=RC) (fun i => good i /\ has_visible i) evs /\ all_ok evs /\
  clustering s leaves labels /\ Forall (is_leaf s) leaves /\ NoDup labels /\
  forall inst_root kr, counts s (st_root s) inst_root -> parameters inst_root kr ->
    kr = 2 /\ exists v, AIC RC (CobwebInfo ROps std_order) remove_dups labels leaves s = (Ok v, s) /\
      forall x, (x <= 0)%R -> v <> aic x (kr * length labels).
Proof.
  pose proof (exec_reachable RC ex_draws tt
    [@CFit _ RC [(AStr "a", NStr "x")]; @CFit _ RC [(AStr "a", NStr "x")]; @CFit _ RC [(AStr "a", NStr "y")]] 0 0) as Hr.
  match type of Hr with reachable _ _ _ ?evs ?s =>
    assert (Hev : evs = [@EFit _ RC [(AStr "a", NStr "x")] (Ok 1%nat); @EFit _ RC [(AStr "a", NStr "x")] (Ok 1%nat); @EFit _ RC [(AStr "a", NStr "y")] (Ok 3%nat)])
      by (vm_compute; reflexivity);
    assert (Hroot : st_root s = 2%nat) by (vm_compute; reflexivity);
    assert (Hch : map (fun j => option_map (fun n => (nd_children n, nd_sum n)) (st_heap s !! j)) [2; 1; 3] =
      [Some ([1; 3], NSum 3 [(AStr "a", [(NStr "x", 2); (NStr "y", 1)])]); Some ([], NSum 2 [(AStr "a", [(NStr "x", 2)])]); Some ([], NSum 1 [(AStr "a", [(NStr "y", 1)])])])
      by (vm_compute; reflexivity);
    rewrite Hev in Hr; clear Hev; revert Hr Hroot Hch; generalize s
  end.
  intros s Hr Hroot Hch.
  assert (Hv : forall v, good [(AStr "a", v)] /\ has_visible [(AStr "a", v)]).
  { intros v. split; [split; [apply NoDup_singleton|by repeat constructor]|]. exists (AStr "a"). split; [done|]. left. }
  match type of Hr with reachable _ _ _ ?evs _ => set (evs0 := evs) in * end.
  assert (Hgv : all_inst (C:=RC) (fun i => good i /\ has_visible i) evs0).
  { repeat (apply Forall_cons_2; [intros i ->; apply Hv|]). apply Forall_nil_2. }
  assert (Hg : all_inst (C:=RC) good evs0).
  { eapply Forall_impl; [exact Hgv|]. intros e He i Hi. by destruct (He i Hi). }
  assert (Hao : all_ok evs0) by (repeat (apply Forall_cons_2; [by eexists|]); apply Forall_nil_2).
  cbn [map] in Hch.
  destruct (st_heap s !! 2) as [n2|] eqn:E2; [|done]. destruct (st_heap s !! 1) as [n1|] eqn:E1; [|done].
  destruct (st_heap s !! 3) as [n3|] eqn:E3; [|done]. cbn [option_map] in Hch.
  injection Hch as C2 T2 C1 T1 C3 T3.
  assert (Hc : children_of s (st_root s) [1; 3]) by (rewrite Hroot; by exists n2).
  assert (Hk : forall c, c ∈ [1; 3] -> child_of s (st_root s) c) by (intros c Hc'; by exists [1; 3]).
  assert (Hin : forall c, c ∈ [1; 3] -> in_tree s c).
  { intros c Hc'. eapply (desc_child RC); [constructor|by apply Hk]. }
  assert (Hcl : clustering s [1; 3] [1; 3]).
  { split.
    - constructor; [split; [apply Hin; left|constructor]|]. constructor; [split; [apply Hin; right; left|constructor]|constructor].
    - intros a b Ha Hb Hd. apply desc_last in Hd as [->|(p & Hp & Hpb)]; [done|]. exfalso.
      pose proof (C04_proper_tree ex_draws _ s Hr) as Hh.
      assert (Hpin : in_tree s p) by (exact (desc_trans RC s _ _ _ (Hin a Ha) Hp)).
      pose proof (hi_parent _ _ Hh p b Hpin Hpb) as (m1 & Hm1 & F1).
      pose proof (hi_parent _ _ Hh (st_root s) b ltac:(constructor) (Hk b Hb)) as (m2 & Hm2 & F2).
      assert (p = st_root s) as -> by congruence.
      exact (hi_acyclic _ _ Hh (st_root s) a ltac:(constructor) (Hk a Ha) Hp). }
  assert (Hlf : Forall (is_leaf s) [1; 3]).
  { apply Forall_cons_2; [|apply Forall_cons_2; [|apply Forall_nil_2]]; (split; [apply Hin|]); [left|by exists n1|right; left|by exists n3]. }
  exists evs0, s, [1; 3], [1; 3]. split; [done|]. split; [done|]. split; [done|]. split; [done|]. split; [done|].
  split; [repeat (apply NoDup_cons; split; [set_solver|]); apply NoDup_nil_2|].
  intros lr kr (tb & (n & Hn & Etb) & Htab) (pairs & Hnd & Hp & Ek).
  rewrite Hroot in Hn. rewrite E2 in Hn. injection Hn as <-. rewrite T2 in Etb. subst tb. destruct Htab as [_ He].
  (* the pairs of a table *)
  assert (Hpp : forall a v, (a, v) ∈ pairs <-> (a, v) ∈ [(AStr "a", NStr "x"); (AStr "a", NStr "y")]).
  { intros a v. rewrite Hp, <- occ_pos, <- He. unfold entry. cbn [ns_av dget].
    destruct (decide (a = AStr "a")) as [->|Ha].
    - cbn [dget]. destruct (decide (v = NStr "x")) as [->|Hx]; [split; [left|cbn; split; [done|lia]]|].
      destruct (decide (v = NStr "y")) as [->|Hy]; [split; [right; left|cbn; split; [done|lia]]|].
      split; [intros [_ H]; cbn in H; lia|]. rewrite !elem_of_cons, elem_of_nil. intros [E|[E|E]]; [by injection E|by injection E|done].
    - split; [intros [_ H]; cbn in H; lia|]. rewrite !elem_of_cons, elem_of_nil. intros [E|[E|E]]; [by injection E|by injection E|done]. }
  assert (Hperm : Permutation pairs [(AStr "a", NStr "x"); (AStr "a", NStr "y")]).
  { apply NoDup_Permutation; [done| |intros [a v]; apply Hpp]. repeat (apply NoDup_cons; split; [set_solver|]). apply NoDup_nil_2. }
  assert (Hkr : kr = 2).
  { rewrite Ek. etransitivity; [apply sumn_perm, Permutation_map, Hperm|]. reflexivity. }
  split; [done|]. subst kr.
  destruct (C86_criteria ex_draws remove_dups std_order 0%R (fun l x => elem_of_remove_dups l x) std_order_ok evs0 s s [1; 3] [1; 3] Hr Hg Hao)
    as (xs & ks & Hxs & Hks & Hx & Ea & _); [done|constructor|done|done|done|].
  eexists. split; [exact Ea|].
  assert (Hxs0 : Rsum (fun x => x) xs = 0%R).
  { cbn [zip_with] in Hxs. apply Forall2_cons_inv_l in Hxs as (x1 & xs1 & Hx1 & Hxs & ->).
    apply Forall2_cons_inv_l in Hxs as (x2 & xs2 & Hx2 & Hxs & ->). apply Forall2_nil_inv_l in Hxs as ->.
    assert (Hone : forall c m v, st_heap s !! c = Some m -> nd_sum m = NSum v [(AStr "a", [(if decide (c = 1) then NStr "x" else NStr "y", v)])] -> 0 < v ->
      forall l i x, counts s c l -> leaf_like s c i -> i ∈ l -> loglik l i x -> x = 0%R).
    { clear. intros c m v Hm Hs Hv l i x (tb & (n & Hn & Etb) & Hc & He) _ Hi (attrs & _ & _ & ->).
      rewrite Hm in Hn. injection Hn as <-. rewrite Hs in Etb. subst tb. cbn [ns_count] in Hc.
      assert (Hz : forall a, ln (INR (length (filter (fun j => dget a j = dget a i) l)) / INR (length l)) = 0%R).
      { intros a. rewrite <- share_filter.
        assert (Hsh : share l a (dget a i) = length l); [|rewrite Hsh, <- ln_1; f_equal; apply Rinv_r; apply not_0_INR; lia].
        destruct (dget a i) as [w|] eqn:Ew; cbn [share].
        - assert (Hpos : (0 < occ l a w)%nat) by (apply occ_pos; eauto). rewrite <- He in Hpos |- *.
          unfold entry in *. cbn [ns_av] in *. cbn [dget] in *. destruct (decide (a = AStr "a")); cbn [dget] in *; [|cbn in Hpos; lia].
          destruct (decide (w = _)); cbn in *; lia.
        - assert (Hlk : forall l, (lacks l a <= length l)%nat /\ (lacks l a = length l \/ exists w, (0 < occ l a w)%nat)).
          { clear. induction l as [|j l [IH1 IH2]]; [split; [done|by left]|]. cbn [lacks occ length].
            destruct (dget a j) as [w|] eqn:Ew; (split; [lia|]).
            - right. exists w. rewrite decide_True by done. lia.
            - destruct IH2 as [->|(w & Hw)]; [left; lia|right; exists w; lia]. }
          destruct (Hlk l) as [_ [?|(w & Hw)]]; [done|]. exfalso.
          assert (Hall : occ l a w = length l).
          { rewrite <- He in Hw |- *. unfold entry in *. cbn [ns_av] in *. cbn [dget] in *.
            destruct (decide (a = AStr "a")); cbn [dget] in *; [|cbn in Hw; lia]. destruct (decide (w = _)); cbn in *; lia. }
          assert (Hlt : forall l, (occ l a w <= length l)%nat) by (clear; induction l; cbn; [lia|case_decide; lia]).
          clear -Hi Ew Hall Hlt. induction l as [|j l IH]; [inversion Hi|]. cbn [occ length] in Hall. specialize (Hlt l) as Hl1.
          apply elem_of_cons in Hi as [<-|Hi]; [rewrite decide_False in Hall by congruence; lia|].
          apply IH; [done|]. case_decide; lia. }
      clear -Hz. induction attrs as [|a attrs IH]; [done|]. cbn [Rsum]. rewrite Hz, IH. lra. }
    destruct Hx1 as (l1 & i1 & G1 & _ & G2 & G3 & G4). destruct Hx2 as (l2 & i2 & K1 & _ & K2 & K3 & K4).
    cbn [fst snd] in *. cbn [Rsum].
    rewrite (Hone 1 n1 2 E1 T1 ltac:(lia) l1 i1 x1 G1 G2 G3 G4), (Hone 3 n3 1 E3 T3 ltac:(lia) l2 i2 x2 K1 K2 K3 K4). lra. }
  assert (Hks0 : sumn ks = 2).
  { replace (remove_dups [1; 3]) with [1; 3] in Hks by (vm_compute; reflexivity).
    apply Forall2_cons_inv_l in Hks as (k1 & ks1 & Hk1 & Hks & ->).
    apply Forall2_cons_inv_l in Hks as (k2 & ks2 & Hk2 & Hks & ->). apply Forall2_nil_inv_l in Hks as ->.
    assert (Hone : forall c m v w, st_heap s !! c = Some m -> nd_sum m = NSum v [(AStr "a", [(NStr w, v)])] -> 0 < v -> NStr w <> cv_key ->
      forall l k, counts s c l -> parameters l k -> k = 1).
    { clear. intros c m v w Hm Hs Hv Hw l k (tb & (n & Hn & Etb) & Hc & He) (pairs & Hnd & Hp & ->).
      rewrite Hm in Hn. injection Hn as <-. rewrite Hs in Etb. subst tb.
      assert (Hperm : Permutation pairs [(AStr "a", NStr w)]).
      { apply NoDup_Permutation; [done|apply NoDup_singleton|]. intros [a u]. rewrite Hp, <- occ_pos, <- He. unfold entry. cbn [ns_av dget].
        rewrite elem_of_list_singleton. destruct (decide (a = AStr "a")) as [->|Ha]; cbn [dget].
        - destruct (decide (u = NStr w)) as [->|Hu]; cbn; [split; [done|split; [done|lia]]|split; [lia|congruence]].
        - cbn. split; [lia|congruence]. }
      etransitivity; [apply sumn_perm, Permutation_map, Hperm|]. cbn. by rewrite decide_False. }
    destruct Hk1 as (l1 & G1 & _ & G2). destruct Hk2 as (l2 & K1 & _ & K2). cbn [sumn].
    rewrite (Hone 1 n1 2 "x" E1 T1 ltac:(lia) ltac:(done) l1 k1 G1 G2), (Hone 3 n3 1 "y" E3 T3 ltac:(lia) ltac:(done) l2 k2 K1 K2). done. }
  rewrite Hxs0, Hks0. intros x Hx'. unfold aic. rewrite Hkr. cbn [length Nat.mul Nat.add]. intros Heq.
  assert (H : forall y : R, (2 * INR 2 - 2 * 0)%R = y -> y = (2 * INR 4 - 2 * x)%R -> False).
  { intros y H1 H2. simpl in H1, H2. lra. }
  exact (H _ Heq eq_refl).
Qed.

(** ** The hypotheses are met *)
(** Cobweb/3: five fits of instances with numbers and nominals, the leaf of the
    last in the cluster of the root. *)
Lemma ex_C86 : exists evs s leaf,
  reachable RC3' ex_draws (@new_ctx ROps (Some 0.5%R) true) evs s /\
  all_inst (C:=RC3') (good3 (N:=ROps)) evs /\ all_ok evs /\ length (history evs) = 5%nat /\
  split_from RC3' s s /\ clustering s [leaf] [st_root s] /\ Forall (is_leaf s) [leaf].
Proof.
  destruct ex_C74 as (evs & s & leaf & tb & tl & attrs & vals & H1 & H2 & H3 & H4 & H5 & H6 & H7 & _).
  exists evs, s, leaf. split; [done|]. split; [done|]. split; [done|]. split; [done|]. split; [constructor|]. split.
  - split; [apply Forall2_cons; split; [done|constructor]|].
    intros a b Ha Hb _. apply elem_of_list_singleton in Ha, Hb. congruence.
  - by apply Forall_singleton.
Qed.

(** A new tree, three instances. *)
Lemma ex_C86_returns : exists ys s',
  cluster_iter RC ex_draws remove_dups (AIC RC (CobwebInfo ROps std_order) remove_dups) 1 10 true
    [[(AStr "a", NAtom 1)]; [(AStr "a", NAtom 2)]; [(AStr "a", NAtom 1)]] (fresh RC 0 0 tt) = (ys, Ok tt, s') /\ ys <> [].
Proof.
  apply (C86_cluster_iter_returns ex_draws remove_dups std_order 0%R ex_draws_distinct (fun l x => elem_of_remove_dups l x) std_order_ok _ []).
  - by left.
  - exists 0, 0. constructor.
  - constructor.
  - repeat (apply Forall_cons_2; [split; [split; [apply NoDup_singleton|by repeat constructor]|exists (AStr "a"); split; [done|left]]|]). apply Forall_nil_2.
  - discriminate.
  - lia.
  - by left.
Qed.

Print Assumptions C86_criteria.
Print Assumptions C86_criteria3.
Print Assumptions C86_cluster_iter_returns.
Print Assumptions C86_cluster_iter_returns3.
Print Assumptions C86_documented_k_refuted.
