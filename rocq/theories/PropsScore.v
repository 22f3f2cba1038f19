(** * Category utility in CobwebTree, over exact arithmetic (C10-C14).

    [C] is CobwebTree with real numbers; [rng] is any source of random
    numbers; the states are those of any sequence of calls, as in
    [PropsTree.v].  [node_view s cur tb kids]: the concept [cur] has table [tb]
    and children [map fst kids] with tables [map snd kids].
    [mcategory_utility] is the method category_utility (cobweb.py:404-445) on
    the objects of the tree. *)
From Coq Require Import Reals Lra.
From stdpp Require Import base decidable tactics gmap strings list.
From Verif Require Import Base Num TreeModel TreeFun TreeScore TreeRefine TreeSorts TreeInv
  SpecTree TreeState TreeTotal TreeRel TreeSim SortFacts ScoreR ScoreHeap ScoreStep RSum
  Nominal NominalFacts NominalTotal NominalTree NominalR PropsTotal.

Notation RC := (CobwebClass ROps).

Section Props.
  Context (rng : nat -> R).

  Lemma reach_cwf evs s : reachable RC rng tt evs s ->
    exists t, state_ok RC s t /\ tall RC cwf t /\ branchy RC t.
  Proof.
    intros (ctr & rpos & Hrun).
    eapply (run_branchy RC rng cwf (fun _ => True)).
    - intros i _. apply cwf_closed.
    - apply cwf_empty.
    - exact Hrun.
    - apply fresh_ok.
    - unfold all_inst. by apply Forall_forall.
    - constructor; [apply cwf_empty|constructor].
    - constructor; [by left|constructor].
  Qed.

  Lemma tall_at P (t v : tree RC) : tall RC P t -> sub RC v t -> P (tsum v).
  Proof.
    intros Hall Hv. induction Hv as [|id' s' kids k Hk Hv IH].
    - destruct v. by inversion Hall.
    - apply IH. inversion Hall as [? ? ? _ HF]; subst. rewrite Forall_forall in HF. by apply HF.
  Qed.

  Lemma reach_local evs s cur : reachable RC rng tt evs s -> in_tree s cur ->
    exists tb kids, local_view RC s cur tb kids.
  Proof.
    intros Hr Hin. destruct (reach_cwf evs s Hr) as (t & Hok & Hall & _).
    destruct (proj1 (in_tree_sub RC s t cur Hok) Hin) as (v & Hu & <-).
    eexists _, _. eapply (sub_local_view RC cwf); [apply cwf_copies|done|done|done].
  Qed.

  Lemma view_det (s : st RC) cur tb tb' kids kids' :
    node_view s cur tb kids -> node_view s cur tb' kids' -> tb = tb' /\ kids = kids'.
  Proof.
    intros ((n & Hn & <-) & Hc & HF) ((n' & Hn' & <-) & Hc' & HF').
    rewrite Hn in Hn'. injection Hn' as <-. split; [done|].
    pose proof (children_of_det _ _ _ _ _ Hc Hc') as Heq. clear Hc Hc'. revert kids' HF' Heq.
    induction kids as [|[c t] kids IH]; intros [|[c' t'] kids'] HF' Heq; try done.
    simpl in Heq. injection Heq as -> Heq. apply Forall_cons in HF as [(n1 & Hn1 & Ht1) HF].
    apply Forall_cons in HF' as [(n2 & Hn2 & Ht2) HF']. simpl in *.
    f_equal; [|by apply IH]. rewrite Hn1 in Hn2. injection Hn2 as <-. by rewrite <- Ht1, Ht2.
  Qed.

  Lemma reach_view evs s cur tb kids : reachable RC rng tt evs s -> in_tree s cur ->
    node_view s cur tb kids -> local_view RC s cur tb kids.
  Proof.
    intros Hr Hin Hv. destruct (reach_local evs s cur Hr Hin) as (tb' & kids' & Hl).
    destruct (view_det s cur tb tb' kids kids' Hv (lv_view _ _ _ _ _ Hl)) as [-> ->]. done.
  Qed.

  (** ** C10 *)
  Theorem C10_relative_score evs s cur tb kids c tc i r k :
    reachable RC rng tt evs s -> in_tree s cur -> node_view s cur tb kids -> (c, tc) ∈ kids ->
    relative_cu_for_insert RC tt tc i = Ok r ->
    compute_relative_CU_const RC tt tb (map snd kids) i = Ok k ->
    cu_for_insert RC tt tb kids c i =
      Ok (r / (INR (length kids) * INR (ns_count tb + 1)) + k)%R.
  Proof.
    intros Hr Hin Hv Hc Er Ek. destruct (reach_view evs s cur tb kids Hr Hin Hv) as [_ Hl H1 H2 _].
    exact (insert_formula RC tt tb kids c tc i r k H1 H2 (cwf_counts i) (lo_nodup _ _ _ _ Hl) Hc Er Ek).
  Qed.

  Theorem C10_two_best evs s cur tb kids i cu b1 b2 s1 :
    reachable RC rng tt evs s -> in_tree s cur -> node_view s cur tb kids ->
    mtwo_best RC rng cur i s = (Ok (cu, b1, b2), s1) ->
    b1 ∈ map fst kids /\ cu_for_insert RC tt tb kids b1 i = Ok cu /\
    (forall c, c ∈ map fst kids ->
       exists u, cu_for_insert RC tt tb kids c i = Ok u /\ (u <= cu)%R) /\
    (b2 = None <-> length kids = 1%nat) /\
    (forall c2, b2 = Some c2 -> c2 ∈ map fst kids /\ c2 <> b1 /\
       exists u2, cu_for_insert RC tt tb kids c2 i = Ok u2 /\
         forall c u, c ∈ map fst kids -> c <> b1 -> cu_for_insert RC tt tb kids c i = Ok u -> (u <= u2)%R).
  Proof.
    intros Hr Hin Hv E. destruct (reach_view evs s cur tb kids Hr Hin Hv) as [_ Hl H1 H2 _].
    rewrite (mtwo_best_view RC rng s cur tb kids i Hv) in E. cbv zeta in E.
    destruct (two_best_children _ _ _ _ _ _ _) as [r a'] eqn:Eb. simpl in E. injection E as -> <-.
    destruct (st_ctx s).
    destruct (two_best_spec _ _ _ _ _ _ _ _ _ _ _ Eb) as (Hb1 & Hb2).
    destruct (two_best_max RC rng tt tb kids i _ _ _ _ _ H1 H2 (cwf_counts i) (lo_nodup _ _ _ _ Hl) Eb)
      as (Hcu & Hall & Hsec).
    split; [done|]. split; [done|]. split; [done|].
    destruct b2 as [b2|].
    - destruct Hb2 as [Hb2 Hne]. specialize (Hne (lo_nodup _ _ _ _ Hl)). split.
      + split; [done|]. intros Hlen. exfalso.
        destruct kids as [|[x tx] [|? ?]]; try done. simpl in Hb1, Hb2.
        apply elem_of_list_singleton in Hb1, Hb2. congruence.
      + intros c2 [= <-]. split; [done|]. split; [done|].
        destruct (Hall b2 Hb2) as (u2 & Hu2 & _). exists u2. split; [done|].
        intros c u Hc Hcb Hu. by eapply Hsec.
    - split; [|done]. done.
  Qed.

  (** The same, by effect: giving the instance to the chosen child yields the
      reported category utility, and no other child yields more. *)
  Theorem C10_two_best_effect evs s cur tb kids i cu b1 b2 s1 :
    reachable RC rng tt evs s -> in_tree s cur -> node_view s cur tb kids ->
    mtwo_best RC rng cur i s = (Ok (cu, b1, b2), s1) ->
    forall c, c ∈ map fst kids -> exists s' u,
      mbind RC (mincrement RC cur i) (fun _ => mincrement RC c i) s = (Ok tt, s') /\
      fst (mcategory_utility RC cur s') = Ok u /\ (u <= cu)%R /\ (c = b1 -> u = cu).
  Proof.
    intros Hr Hin Hv E c Hc. pose proof (reach_view evs s cur tb kids Hr Hin Hv) as Hl.
    destruct (two_best_optimal RC rng s cur tb kids i Hl (cwf_counts i) cu b1 b2 s1 E) as (_ & _ & _ & H).
    destruct (H c Hc) as (s' & u & E1 & E2 & E3 & E4 & _). exists s', u. done.
  Qed.

  (** ** C11 *)
  Theorem C11_best_operation evs s cur i cu b1 b2 s1 u o s2 :
    reachable RC rng tt evs s -> in_tree s cur ->
    mtwo_best RC rng cur i s = (Ok (cu, b1, b2), s1) ->
    mbest_op RC rng cur i b1 b2 cu s1 = (Ok (u, o), s2) ->
    open_op RC s cur b1 o /\
    (exists s', perform RC cur i b1 b2 o s2 = (Ok tt, s') /\ fst (mcategory_utility RC cur s') = Ok u) /\
    forall o', open_op RC s cur b1 o' -> exists s' u',
      perform RC cur i b1 b2 o' s2 = (Ok tt, s') /\
      fst (mcategory_utility RC cur s') = Ok u' /\ (u' <= u)%R.
  Proof.
    intros Hr Hin E E2. destruct (reach_local evs s cur Hr Hin) as (tb & kids & Hl).
    exact (best_op_optimal RC rng s cur tb kids i Hl (cwf_counts i) cu b1 b2 s1 u o s2 E E2).
  Qed.

  Theorem C11_largest_draw_wins evs s cur i cu b1 b2 s1 u o s2 ops k k' o' s' :
    reachable RC rng tt evs s -> in_tree s cur ->
    mtwo_best RC rng cur i s = (Ok (cu, b1, b2), s1) ->
    mbest_op RC rng cur i b1 b2 cu s1 = (Ok (u, o), s2) ->
    sublist ops [OpBest; OpNew; OpMerge; OpSplit] -> (forall q, q ∈ ops <-> open_op RC s cur b1 q) ->
    ops !! k = Some o -> ops !! k' = Some o' ->
    perform RC cur i b1 b2 o' s2 = (Ok tt, s') -> fst (mcategory_utility RC cur s') = Ok u ->
    (rng (am_rpos (st_amb s1) + k')%nat <= rng (am_rpos (st_amb s1) + k)%nat)%R /\
    (rng (am_rpos (st_amb s1) + k')%nat = rng (am_rpos (st_amb s1) + k)%nat -> name_le o' o).
  Proof.
    intros Hr Hin. destruct (reach_local evs s cur Hr Hin) as (tb & kids & Hl).
    exact (best_op_draws RC rng s cur tb kids i Hl (cwf_counts i) cu b1 b2 s1 u o s2 ops k k' o' s').
  Qed.

  Theorem C11_every_tied_operation_can_win evs s cur i cu b1 b2 s1 u o s2 o' s' :
    reachable RC rng tt evs s -> in_tree s cur ->
    mtwo_best RC rng cur i s = (Ok (cu, b1, b2), s1) ->
    mbest_op RC rng cur i b1 b2 cu s1 = (Ok (u, o), s2) ->
    open_op RC s cur b1 o' ->
    perform RC cur i b1 b2 o' s2 = (Ok tt, s') -> fst (mcategory_utility RC cur s') = Ok u ->
    exists rg, (forall n, 0 <= rg n < 1)%R /\ fst (mbest_op RC rg cur i b1 b2 cu s1) = Ok (u, o').
  Proof.
    intros Hr Hin. destruct (reach_local evs s cur Hr Hin) as (tb & kids & Hl).
    exact (best_op_any_tied RC rng s cur tb kids i Hl (cwf_counts i) cu b1 b2 s1 u o s2 o' s').
  Qed.

  (** ** C12: predicted and actual category utility. *)
  Theorem C12_insert evs s cur tb kids c i u :
    reachable RC rng tt evs s -> in_tree s cur -> node_view s cur tb kids -> c ∈ map fst kids ->
    cu_for_insert RC tt tb kids c i = Ok u ->
    exists s', mbind RC (mincrement RC cur i) (fun _ => mincrement RC c i) s = (Ok tt, s') /\
      fst (mcategory_utility RC cur s') = Ok u.
  Proof.
    intros Hr Hin Hv Hc E. destruct (reach_view evs s cur tb kids Hr Hin Hv) as [_ Hl H1 H2 _].
    apply elem_of_list_fmap in Hc as ([c' tc] & -> & Hc).
    assert (E' : cu_for_insert RC (st_ctx s) tb kids c' i = Ok u) by (by destruct (st_ctx s)).
    exact (insert_predicted RC s cur tb kids i Hv Hl H1 H2 c' tc u Hc E').
  Qed.

  Theorem C12_new_child evs s cur tb kids i u :
    reachable RC rng tt evs s -> in_tree s cur -> node_view s cur tb kids ->
    cu_for_new_child RC tt tb (map snd kids) i = Ok u ->
    exists id s', mbind RC (mincrement RC cur i) (fun _ => mcreate_new_child RC cur i) s = (Ok id, s') /\
      fst (mcategory_utility RC cur s') = Ok u.
  Proof.
    intros Hr Hin Hv E. destruct (reach_view evs s cur tb kids Hr Hin Hv) as [_ Hl H1 H2 _].
    assert (E' : cu_for_new_child RC (st_ctx s) tb (map snd kids) i = Ok u) by (by destruct (st_ctx s)).
    exact (new_predicted RC s cur tb kids i Hv Hl H1 H2 u E').
  Qed.

  Theorem C12_merge evs s cur tb kids c1 t1 c2 t2 i u :
    reachable RC rng tt evs s -> in_tree s cur -> node_view s cur tb kids ->
    (c1, t1) ∈ kids -> (c2, t2) ∈ kids -> c1 <> c2 ->
    cu_for_merge RC tt tb kids (c1, t1) (c2, t2) i = Ok u ->
    exists m s1 s', mbind RC (mincrement RC cur i) (fun _ => mmerge RC cur c1 c2) s = (Ok m, s1) /\
      mincrement RC m i s1 = (Ok tt, s') /\ fst (mcategory_utility RC cur s') = Ok u.
  Proof.
    intros Hr Hin Hv Hc1 Hc2 Hne E. destruct (reach_view evs s cur tb kids Hr Hin Hv) as [_ Hl H1 H2 _].
    assert (E' : cu_for_merge RC (st_ctx s) tb kids (c1, t1) (c2, t2) i = Ok u) by (by destruct (st_ctx s)).
    exact (merge_predicted RC s cur tb kids i Hv Hl H1 H2 c1 c2 t1 t2 u Hc1 Hc2 Hne E').
  Qed.

  Theorem C12_split evs s cur tb kids c tc ckids u :
    reachable RC rng tt evs s -> in_tree s cur -> node_view s cur tb kids ->
    (c, tc) ∈ kids -> node_view s c tc ckids ->
    cu_for_split RC tt tb kids c ckids = Ok u ->
    exists s', msplit RC cur c s = (Ok tt, s') /\ fst (mcategory_utility RC cur s') = Ok u.
  Proof.
    intros Hr Hin Hv Hc Hvc E. destruct (reach_view evs s cur tb kids Hr Hin Hv) as [_ Hl H1 H2 H3].
    destruct (H3 c tc Hc) as (ck & Hck & Hcp & Hc1 & Hc2).
    destruct (view_det s c tc tc ckids ck Hvc Hck) as [_ ->].
    assert (E' : cu_for_split RC (st_ctx s) tb kids c ck = Ok u) by (by destruct (st_ctx s)).
    exact (split_predicted RC s cur tb kids Hv Hl H1 H2 c tc ck u Hc Hck Hcp Hc1 Hc2 E').
  Qed.

  Theorem C12_fringe_split evs s cur (tb : nsum) i u :
    reachable RC rng tt evs s -> is_leaf s cur -> table_of s cur tb -> (0 < ns_count tb)%nat ->
    cu_for_fringe_split RC tt tb i = Ok u ->
    exists leaf p s', mfringe_split RC cur i s = (Ok leaf, s') /\ children_of s' p [cur; leaf] /\
      fst (mcategory_utility RC p s') = Ok u.
  Proof.
    intros Hr [Hin Hleaf] Ht Hpos E. destruct (reach_cwf evs s Hr) as (t & Hok & Hall & _).
    destruct (proj1 (in_tree_sub RC s t cur Hok) Hin) as (v & Hv & <-).
    pose proof (children_of_det _ _ _ _ _ Hleaf (sub_children _ _ _ _ Hok Hv)) as Hk.
    destruct v as [id tbv kv]. simpl in *. destruct kv; [|done].
    pose proof (sub_table _ _ _ _ Hok Hv) as (n & Hn & Hn2). destruct Ht as (n' & Hn' & Ht).
    simpl in Hn. rewrite Hn in Hn'. injection Hn' as <-. simpl in Hn2. rewrite Hn2 in Ht. subst tbv.
    destruct (leaf_fringe RC s t id tb Hok Hv) as [Hf1 Hf2].
    assert (Hcp : copies RC tb).
    { apply cwf_copies. exact (tall_at _ _ _ Hall Hv). }
    assert (E' : cu_for_fringe_split RC (st_ctx s) tb i = Ok u) by (by destruct (st_ctx s)).
    apply (fringe_predicted RC s id tb i u); try done. by exists n.
  Qed.

  (** ** C13 *)
  Definition shown (s : nsum) : Prop := exists l, Hist s l /\ Forall has_visible l.

  Lemma shown_empty : shown (NSum 0 []).
  Proof. exists []. split; [apply Hist_empty|constructor]. Qed.

  Lemma shown_closed i : good i /\ has_visible i -> closed RC shown i.
  Proof.
    intros [Hg Hv]. split.
    - apply shown_empty.
    - intros sm (l & Hl & HF). eexists. split; [reflexivity|]. exists (i :: l).
      split; [by apply Hist_inc|by constructor].
    - intros s1 s2 (l1 & H1 & F1) (l2 & H2 & F2). eexists. split; [reflexivity|]. exists (l1 ++ l2).
      split; [by apply Hist_add|by apply Forall_app].
  Qed.

  Lemma reach_shown evs s id tb : reachable RC rng tt evs s ->
    all_inst (C:=RC) (fun i => good i /\ has_visible i) evs -> in_tree s id -> table_of s id tb -> shown tb.
  Proof.
    intros (ctr & rpos & Hrun) Hg Hin Ht.
    destruct (run_branchy RC rng shown (fun i => good i /\ has_visible i)
      shown_closed shown_empty tt _ evs s _ Hrun (fresh_ok RC ctr rpos tt) Hg) as (t & Hok & Hall & _).
    { constructor; [apply shown_empty|constructor]. }
    { constructor; [by left|constructor]. }
    destruct (proj1 (in_tree_sub RC s t id Hok) Hin) as (v & Hv & <-).
    pose proof (sub_table _ _ _ _ Hok Hv) as (n & Hn & Hn2). destruct Ht as (n' & Hn' & <-).
    rewrite Hn in Hn'. injection Hn' as <-. rewrite Hn2.
    exact (tall_at _ _ _ Hall Hv).
  Qed.

  Theorem C13_guesses_probability evs s id (tb : nsum) :
    reachable RC rng tt evs s -> all_inst (C:=RC) (fun i => good i /\ has_visible i) evs ->
    in_tree s id -> table_of s id tb -> (0 < ns_count tb)%nat ->
    exists g, ns_ecg ROps tb = Ok g /\ (0 < g <= 1)%R /\
      (g = 1%R <-> forall a, visible a = true -> (exists v, 0 < entry tb a v)%nat ->
                    exists v, entry tb a v = ns_count tb).
  Proof.
    intros Hr Hg Hin Ht Hpos. destruct (reach_shown evs s id tb Hr Hg Hin Ht) as (l & Hh & Hv).
    assert (Hc : ns_count tb = length l) by apply Hh.
    assert (Hl : l <> []) by (destruct l; simpl in *; [lia|done]).
    destruct (ecg_bounds tb l Hh Hl) as (g & E & Hb & H1).
    { eapply vis_nonempty; [done|done|]. by apply Forall_forall. }
    exists g. split; [done|]. split; [done|]. rewrite H1. split; intros H a.
    - intros Ha (v & Hev). unfold entry in Hev. destruct (dget a (ns_av tb)) as [d|] eqn:Ed; [|lia].
      destruct (H a d Ha Ed) as (w & Hw). exists w. unfold entry. rewrite Ed, Hw. simpl.
      by rewrite decide_True.
    - intros d Ha Ed. destruct (Hist_dict tb l a d Hh Ed) as (Hwf & Hne & Hocc & _).
      destruct (H a Ha) as (v & Hev).
      { destruct d as [|[w c] d]; [done|]. exists w. unfold entry. rewrite Ed. simpl.
        rewrite decide_True by done. simpl. apply (Hocc w c). left. }
      exists v. unfold entry in Hev. rewrite Ed in Hev.
      destruct (dget v d) as [c|] eqn:Ev; simpl in Hev; [|lia]. subst c.
      pose proof (Hist_sum tb l a d Hh Ed) as Hs. pose proof (nhas_le l a) as Hle.
      apply dget_In, elem_of_list_split in Ev as (d1 & d2 & ->).
      rewrite map_app, sumn_app in Hs. simpl in Hs.
      assert (Hz : forall q, q ∈ d1 \/ q ∈ d2 -> False).
      { intros [w c] Hq. assert (Hc0 : (0 < c)%nat).
        { apply (Hocc w c). apply elem_of_app. destruct Hq; [by left|right; by right]. }
        assert (c <= sumn (map snd d1) + sumn (map snd d2))%nat; [|lia].
        destruct Hq as [Hq|Hq]; apply elem_of_list_split in Hq as (e1 & e2 & ->);
          rewrite map_app, sumn_app; simpl; lia. }
      destruct d1 as [|q d1]; [|exfalso; apply (Hz q); left; left].
      destruct d2 as [|q d2]; [done|exfalso; apply (Hz q); right; left].
  Qed.

  (** ** C14 *)
  Theorem C14_utility_nonnegative evs s p l :
    reachable RC rng tt evs s -> all_inst (C:=RC) (fun i => good i /\ has_visible i) evs -> all_ok evs ->
    in_tree s p -> children_of s p l -> l <> [] ->
    exists u, fst (mcategory_utility RC p s) = Ok u /\ (0 <= u < 1 / INR (length l))%R.
  Proof.
    intros Hr Hg Hao Hin Hch Hne.
    assert (Hgood : all_inst (C:=RC) good evs).
    { unfold all_inst in *. eapply Forall_impl; [exact Hg|]. intros e He i Hi. by destruct (He i Hi). }
    destruct (reachable_tinv RC rng Hist LeafV good (hist_laws ROps) tt evs s Hr Hgood Hao)
      as (t & Hok & Ht).
    assert (Hvis : forall i, i ∈ history evs -> has_visible i).
    { intros i Hi. assert (Hx : exists e, e ∈ evs /\ inst_of e i).
      { clear -Hi. unfold history in Hi.
        assert (Hgen : forall acc, i ∈ fold_left hist_step evs acc -> i ∈ acc \/ exists e, e ∈ evs /\ inst_of e i).
        { clear Hi. induction evs as [|e evs IH]; intros acc Ha; [by left|]. simpl in Ha.
          apply IH in Ha as [Ha|(e' & He' & Hi')].
          - destruct e; simpl in Ha.
            + apply elem_of_app in Ha as [Ha|Ha]; [by left|]. apply elem_of_list_singleton in Ha as ->.
              right. eexists. split; [left|done].
            + by left.
            + by left.
            + inversion Ha.
          - right. exists e'. split; [by right|done]. }
        apply Hgen in Hi as [Hi|Hi]; [inversion Hi|done]. }
      destruct Hx as (e & He & Hie). unfold all_inst in Hg. rewrite Forall_forall in Hg.
      by destruct (Hg e He i Hie). }
    destruct (proj1 (in_tree_sub RC s t p Hok) Hin) as (v & Hu & <-).
    destruct (tinv_sub RC Hist LeafV good (hist_laws ROps) t _ v Ht Hu) as (lu & Htu & Hsub & _).
    rewrite (children_of_det _ _ _ _ _ Hch (sub_children _ _ _ _ Hok Hu)) in *. clear l Hch.
    rewrite (view_cu RC s (tid v) (tsum v) (kview RC v) (sub_view RC s t v Hok Hu)). cbn [fst].
    destruct Htu as [id sm l Hs Hl|id sm kids ls l H2 HF Hnl Hp Hs]; [done|].
    destruct (partition_cu sm l (zip (map tsum kids) ls) Hs) as (u & E & Hb).
    - destruct kids as [|k kids]; [done|]. by inversion HF.
    - clear -HF Hnl. induction HF as [|k lk kids ls Hk HF IH]; [constructor|].
      apply Forall_cons in Hnl as [Hn Hnl]. simpl. constructor; [|by apply IH].
      split; [|done]. by apply tinv_summ in Hk.
    - rewrite Hp. apply Forall2_length in HF.
      assert (Hz : forall (A B : Type) (xs : list A) (ys : list B), length xs = length ys -> map snd (zip xs ys) = ys).
      { clear. induction xs as [|x xs IH]; intros [|y ys] Hl; try done. simpl in *. f_equal. apply IH. lia. }
      rewrite Hz; [done|]. by rewrite map_length.
    - intros i Hi. by apply Hvis, Hsub.
    - exists u. apply Forall2_length in HF.
      assert (Hz : forall (A B : Type) (xs : list A) (ys : list B), length xs = length ys -> map fst (zip xs ys) = xs /\ length (zip xs ys) = length xs).
      { clear. induction xs as [|x xs IH]; intros [|y ys] Hl; try done. simpl in *.
        destruct (IH ys) as [E1 E2]; [lia|]. by rewrite E1, E2. }
      destruct (Hz _ _ (map tsum kids) ls) as [Hz1 Hz2]; [by rewrite map_length|].
      assert (E' : category_utility RC tt sm (map tsum kids) = Ok u).
      { rewrite <- Hz1. exact E. }
      assert (Hlen : length (zip (map tsum kids) ls) = length kids).
      { exact (eq_trans Hz2 (map_length _ _)). }
      rewrite map_length. simpl tkids. split.
      + unfold kview. simpl tkids. rewrite map_map. simpl. destruct (st_ctx s). exact E'.
      + rewrite <- Hlen. exact Hb.
  Qed.
End Props.

(** ** The hypotheses can be met *)

(** With distinct draws and visible attributes, two_best_children and
    get_best_operation succeed at every inner concept of every tree. *)
Theorem C11_choice_is_made (rng : nat -> R) evs s cur l i :
  distinct_draws (N:=ROps) rng -> reachable RC rng tt evs s -> all_inst (C:=RC) has_visible evs ->
  in_tree s cur -> children_of s cur l -> l <> [] -> has_visible i ->
  exists cu b1 b2 s1 u o s2,
    mtwo_best RC rng cur i s = (Ok (cu, b1, b2), s1) /\
    mbest_op RC rng cur i b1 b2 cu s1 = (Ok (u, o), s2).
Proof.
  intros Hd Hr Hg Hin Hch Hne Hi. pose proof (ct_pos _ counting_R) as Hnz.
  destruct (reachable_total RC rng Hnz Hd (fun _ => True) (fun _ => VN) has_visible
      (fun _ _ _ _ => Logic.I) (fun x i _ Hi => cobweb_scorable Hnz x i Hi)
      (fun x i s Hs => Hs) tt evs s Hr Hg Logic.I) as (_ & _ & t & Hok & Hre).
  pose proof (cobweb_scorable (N:=ROps) Hnz (st_ctx s) i Hi) as Sc.
  destruct (proj1 (in_tree_sub RC s t cur Hok) Hin) as (v & Hv & <-).
  pose proof (children_of_det _ _ _ _ _ Hch (sub_children _ _ _ _ Hok Hv)) as ->.
  destruct Hre as [Hall|(id' & ->)].
  2:{ apply sub_inv in Hv as [->|(k & Hk & _)]; [done|inversion Hk]. }
  assert (HV : forall w, sub RC w t -> VN (tsum w)) by (intros w Hw; exact (tall_at VN t w Hall Hw)).
  assert (HK : forall w, sub RC w t -> Forall (fun c => VN (snd c)) (kview RC w)).
  { intros w Hw. apply Forall_forall. intros c Hc. apply elem_of_list_fmap in Hc as (k & -> & Hk).
    apply HV. by eapply sub_kid_of. }
  destruct (two_best_total RC rng Hnz Hd VN (st_ctx s) i Sc (tsum v) (kview RC v) (st_amb s)
    (HV v Hv) (HK v Hv)) as ([[cu b1] b2] & a1 & E1).
  { unfold kview. destruct (tkids v); [done|]. done. }
  pose proof (sub_view RC s t v Hok Hv) as Hview.
  set (s1 := St (st_heap s) (st_root s) a1 (st_ctx s)).
  destruct (two_best_spec _ _ _ _ _ _ _ _ _ _ _ E1) as (Hb1 & Hb2).
  rewrite (kview_fst RC v) in Hb1. apply elem_of_list_fmap in Hb1 as (k1 & -> & Hk1).
  assert (Hs1 : sub RC k1 t) by (by eapply sub_kid_of).
  assert (Ho2 : exists o2, b2 = option_map fst o2 /\ (forall b q, o2 = Some (b, q) -> table_of s1 b q /\ VN q)).
  { destruct b2 as [b2|]; [|by exists None]. destruct Hb2 as [Hb2 _]. rewrite (kview_fst RC v) in Hb2.
    apply elem_of_list_fmap in Hb2 as (k2 & -> & Hk2). exists (Some (tid k2, tsum k2)). split; [done|].
    assert (Hs2 : sub RC k2 t) by exact (sub_kid_of RC k2 t v Hv Hk2).
    intros b q [= <- <-]. split; [exact (sub_table _ _ _ _ Hok Hs2)|by apply HV]. }
  destruct Ho2 as (o2 & -> & Ho2).
  destruct (best_op_total RC rng Hnz Hd VN (st_ctx s) i Sc (tsum v) (kview RC v) (tid k1, tsum k1) o2
    (kview RC k1) cu a1 (HV v Hv) (HK v Hv) (HV k1 Hs1)) as ([u o] & a2 & E2).
  { intros [b q] Hb. by apply (Ho2 b q). }
  { by apply HK. }
  exists cu, (tid k1), (option_map fst o2), s1, u, o, (St (st_heap s) (st_root s) a2 (st_ctx s)).
  split.
  - rewrite (mtwo_best_view RC rng s _ _ _ i Hview). cbv zeta. by rewrite E1.
  - rewrite (mbest_op_view RC rng s1 _ _ _ i _ _ _ _ o2 cu (view_amb RC s _ _ _ a1 Hview)
      (view_amb RC s _ _ _ a1 (sub_view RC s t k1 Hok Hs1)) eq_refl).
    + cbv zeta. change (st_ctx s1) with (st_ctx s). change (st_amb s1) with a1. rewrite E2. reflexivity.
    + intros b q Hb. by apply (Ho2 b q).
Qed.

(** Fitting [a=x] and [a=y] gives a root with two children. *)
Lemma ex_inner_concept : exists evs s cur l,
  reachable RC ex_draws tt evs s /\ all_inst (C:=RC) (fun i => good i /\ has_visible i) evs /\
  all_ok evs /\ in_tree s cur /\ children_of s cur l /\ length l = 2%nat.
Proof.
  pose proof (exec_reachable RC ex_draws tt
    [@CFit _ RC [(AStr "a", NStr "x")]; @CFit _ RC [(AStr "a", NStr "y")]] 0 0) as Hr.
  match type of Hr with reachable _ _ _ ?evs ?s =>
    assert (Hev : evs = [@EFit _ RC [(AStr "a", NStr "x")] (Ok 1%nat); @EFit _ RC [(AStr "a", NStr "y")] (Ok 3%nat)])
      by (vm_compute; reflexivity);
    assert (Hroot : st_root s = 2%nat) by (vm_compute; reflexivity);
    assert (Hch : option_map nd_children (st_heap s !! 2%nat) = Some [1; 3]%nat)
      by (vm_compute; reflexivity);
    rewrite Hev in Hr; clear Hev; revert Hr Hroot Hch; generalize s
  end.
  intros s Hr Hroot Hch. eexists _, s, 2%nat, [1; 3]%nat. split; [exact Hr|]. split.
  { assert (Hg : forall v, good [(AStr "a", v)] /\ has_visible [(AStr "a", v)]).
    { intros v. split.
      - split; [by apply NoDup_singleton|]. by apply Forall_singleton.
      - exists (AStr "a"). split; [done|]. left. }
    apply Forall_cons_2; [intros i ->; apply Hg|].
    apply Forall_cons_2; [intros i ->; apply Hg|apply Forall_nil_2]. }
  split.
  { apply Forall_cons_2; [exact I|]. apply Forall_cons_2; [exact I|]. apply Forall_nil_2. }
  split; [|split].
  - unfold in_tree. rewrite Hroot. apply desc_refl.
  - destruct (st_heap s !! 2%nat) as [n|] eqn:E; [|done]. injection Hch as Hch. by exists n.
  - done.
Qed.

Print Assumptions C10_two_best.
Print Assumptions C11_best_operation.
Print Assumptions C12_merge.
Print Assumptions C14_utility_nonnegative.
