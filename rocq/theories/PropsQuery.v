(** * Questions asked of concepts and trees (C15-C18, C23, and the
    infer_missing part of C08 and C19). *)
From Coq Require Import Reals Lra.
From stdpp Require Import base decidable tactics gmap strings list.
From Verif Require Import Base Num TreeModel TreeFun TreeScore TreeRefine TreeSorts TreeInv
  SpecTree TreeState TreeTotal RSum Nominal NominalFacts NominalTree NominalR
  PropsTotal PropsTree Utils PropsUtils Query QueryLinks QueryR QueryFacts QueryPredict PropsScore.

(** ** For any arithmetic *)
Section Any.
  Context {N : NumOps} (rng : nat -> num N).
  Notation C := (CobwebClass N).

  (** *** C23.  [edges s a n b]: [n] parent links lead from [a] to [b]. *)
  Theorem C23_depth evs s id : reachable C rng tt evs s -> in_tree s id ->
    exists n, depth C id s = (Ok n, s) /\ edges s id n (st_root s) /\
      forall m, edges s id m (st_root s) -> m = n.
  Proof. intros Hr Hin. destruct (reachable_ok C rng tt evs s Hr) as (t & Hok). by eapply depth_edges. Qed.

  Theorem C23_is_parent evs s a b : reachable C rng tt evs s -> in_tree s a -> in_tree s b ->
    exists r, is_parent C a b s = (Ok r, s) /\ (r = true <-> desc s a b).
  Proof. intros Hr Ha Hb. destruct (reachable_ok C rng tt evs s Hr) as (t & Hok). by eapply is_parent_desc. Qed.

  Theorem C23_num_concepts evs s id : reachable C rng tt evs s -> in_tree s id ->
    exists l, NoDup l /\ (forall j, j ∈ l <-> desc s id j) /\ num_concepts C id s = (Ok (length l), s).
  Proof. intros Hr Hin. destruct (reachable_ok C rng tt evs s Hr) as (t & Hok). by eapply num_concepts_count. Qed.

  Context (ncmp : nom -> nom -> option bool).

  (** Tables of reachable trees summarise some instances, also after
      exceptions. *)
  Lemma reach_hist evs s id tb : reachable C rng tt evs s -> all_inst (C:=C) good evs ->
    in_tree s id -> table_of s id tb -> exists l, Hist tb l.
  Proof.
    intros (ctr & rpos & Hrun) Hg Hin Ht.
    destruct (run_branchy C rng (somesum C Hist) good (summ_closed C Hist LeafV good (hist_laws N))
      (ex_intro _ [] Hist_empty) tt _ evs s _ Hrun (fresh_ok C ctr rpos tt) Hg) as (t & Hok & Hall & _).
    { constructor; [exists []; apply Hist_empty|constructor]. }
    { constructor; [by left|constructor]. }
    destruct (proj1 (in_tree_sub C s t id Hok) Hin) as (v & Hv & <-).
    rewrite (table_of_det _ _ _ _ _ Ht (sub_table _ _ _ _ Hok Hv)).
    clear -Hall Hv. induction Hv as [|id' s' kids k Hk Hv IH].
    - destruct v. by inversion Hall.
    - apply IH. inversion Hall as [? ? ? _ HF]; subst. rewrite Forall_forall in HF. by apply HF.
  Qed.

  (** *** C17, C08.  infer_missing leaves objects, root and scales alone
      whether it returns or raises; the instance it returns extends the input
      by values its concept has seen. *)
  Theorem C17_infer_only_adds evs s (r : raw) f b x s' :
    reachable C rng tt evs s -> all_inst (C:=C) good evs ->
    infer_missing rng ncmp r f b s = (x, s') ->
    (st_heap s' = st_heap s /\ st_root s' = st_root s /\ st_ctx s' = st_ctx s) /\
    forall j : inst, x = Ok j ->
      (forall a v, dget a r = Some (PVal v) -> dget a j = Some v) /\
      exists c tb, is_leaf s c /\ table_of s c tb /\
        fst (categorize rng r s) = Ok c /\
        (forall a v, dget a r = None -> dget a j = Some v -> (0 < entry tb a v)%nat) /\
        (b = false -> forall a v, (0 < entry tb a v)%nat -> exists w, dget a j = Some w) /\
        (forall a, dget a j = None -> dget a r = None).
  Proof.
    intros Hr Hg E. unfold infer_missing in E. unfold categorize.
    destruct (sanity r) as [i|e] eqn:Es; [|by injection E as <- <-].
    unfold infer_checked, mbind at 1 in E.
    destruct (cobweb_categorize C rng i s) as [rc s1] eqn:Ec.
    destruct (C08_categorize_read_only rng evs s i rc s1 Hr Ec) as (Hh & Hro & Hleaf).
    assert (Hctx : st_ctx s1 = st_ctx s) by (by destruct (st_ctx s1), (st_ctx s)).
    destruct rc as [c|e]; [|by injection E as <- <-].
    specialize (Hleaf c eq_refl). pose proof Hleaf as [Hin (nd & Hnd & Hch)].
    unfold mbind, mget in E. rewrite Hh, Hnd in E.
    destruct (infer_loop_spec rng ncmp _ _ _ _ _ _ _ _ E) as (H1 & H2 & H3 & H4).
    split; [split; [congruence|split; congruence]|].
    intros j Hj. destruct (H4 j Hj) as (K1 & K2 & K3 & K4).
    assert (Hij : forall a, dget a r = None <-> dget a i = None).
    { intros a. rewrite (dget_None a r), (dget_None a i).
      destruct (sanity_ok r i Es) as [-> _]. unfold dkeys. by rewrite map_map. }
    assert (Ht : table_of s c (nd_sum nd)) by (by exists nd).
    destruct (reach_hist evs s c (nd_sum nd) Hr Hg Hin Ht) as (l & Hhist).
    split.
    { intros a v Ha. apply K1. by apply (sanity_dget r i a v Es). }
    exists c, (nd_sum nd). split; [done|]. split; [done|]. split; [done|]. split; [|split].
    - intros a v Ha Hv. apply Hij in Ha. destruct (K2 a v Ha Hv) as (_ & d & Hd & Hvd).
      destruct Hhist as (_ & [_ Hav] & _). destruct (Hav a d Hd) as (_ & _ & Hp).
      apply dget_key_Some in Hvd as (n & Hn). unfold entry. rewrite Hd, Hn. simpl. by eapply Hp.
    - intros Hb a v Hv. assert (Hk : a ∈ dkeys (ns_av (nd_sum nd))).
      { unfold entry in Hv. destruct (dget a (ns_av (nd_sum nd))) as [d|] eqn:Ed; [|lia].
        by apply dget_Some_key in Ed. }
      by apply (K3 Hb a Hk Hk).
    - intros a Ha. apply Hij. destruct (dget a i) as [v|] eqn:Ei; [|done]. apply K1 in Ei. congruence.
  Qed.

  Theorem C08_infer_read_only evs s (r : raw) f b x s' :
    reachable C rng tt evs s -> infer_missing rng ncmp r f b s = (x, s') ->
    st_heap s' = st_heap s /\ st_root s' = st_root s.
  Proof.
    intros Hr E. unfold infer_missing in E.
    destruct (sanity r) as [i|e] eqn:Es; [|by injection E as <- <-].
    unfold infer_checked, mbind at 1 in E.
    destruct (cobweb_categorize C rng i s) as [rc s1] eqn:Ec.
    destruct (C08_categorize_read_only rng evs s i rc s1 Hr Ec) as (Hh & Hro & Hleaf).
    destruct rc as [c|e]; [|by injection E as <- <-].
    unfold mbind, mget in E. destruct (st_heap s1 !! c) as [nd|]; [|by injection E as <- <-].
    destruct (infer_loop_spec rng ncmp _ _ _ _ _ _ _ _ E) as (H1 & H2 & _). split; congruence.
  Qed.

  (** *** C19 *)
  Theorem C19_infer_rejects (i : raw) a v f b s :
    (a, v) ∈ i ->
    a = AStr "" \/ a = ATup [] \/ (exists z, a = ANum z) \/ v = PNone \/ v = PUnhashable ->
    infer_missing rng ncmp i f b s = (Err ValueError, s).
  Proof.
    intros Hin Hbad. unfold infer_missing.
    rewrite sanity_rejects; [done|]. exists a, v. split; [done|].
    destruct Hbad as [->|[->|[[z ->]|[->| ->]]]]; auto.
  Qed.
End Any.

(** ** Over the reals *)
Section Real.
  Context (rng : nat -> R) (ncmp : nom -> nom -> option bool).

  (** The instances a concept of a reachable tree stands for. *)
  Lemma reach_insts evs s id tb :
    reachable RC rng tt evs s -> all_inst (C:=RC) good evs -> all_ok evs ->
    in_tree s id -> table_of s id tb ->
    exists l, Hist tb l /\ (forall i, i ∈ l -> i ∈ history evs) /\ (id = st_root s -> l = history evs).
  Proof.
    intros Hr Hg Hao Hin Ht.
    destruct (reachable_tinv RC rng Hist LeafV good (hist_laws ROps) tt evs s Hr Hg Hao) as (t & Hok & Hti).
    destruct (decide (id = st_root s)) as [->|Hne].
    - exists (history evs). split; [|done].
      pose proof (sub_table _ _ _ _ Hok (sub_refl RC t)) as Ht'. rewrite <- (so_root _ _ _ Hok) in Ht'.
      rewrite (table_of_det _ _ _ _ _ Ht Ht'). by apply tinv_summ in Hti.
    - destruct (proj1 (in_tree_sub RC s t id Hok) Hin) as (v & Hv & <-).
      destruct (tinv_sub RC Hist LeafV good (hist_laws ROps) t _ v Hti Hv) as (lu & Htu & Hsub & _).
      exists lu. rewrite (table_of_det _ _ _ _ _ Ht (sub_table _ _ _ _ Hok Hv)).
      split; [by apply tinv_summ in Htu|]. by split.
  Qed.

  (** *** C15.  The probability is the share of the concept's instances that
      have the value (None: that lack the attribute); at the root these are
      all the instances fitted. *)
  Theorem C15_probability_is_share evs s id tb :
    reachable RC rng tt evs s -> all_inst (C:=RC) good evs -> all_ok evs ->
    in_tree s id -> table_of s id tb -> (0 < ns_count tb)%nat ->
    exists l, length l = ns_count tb /\ (forall i, i ∈ l -> i ∈ history evs) /\
      (id = st_root s -> l = history evs) /\
      forall a v, exists p, probability (N:=ROps) tb a v = Ok p /\ (0 <= p <= 1)%R /\
        p = (INR (length (List.filter (fun i => bool_decide (dget a i = v)) l)) / INR (length l))%R.
  Proof.
    intros Hr Hg Hao Hin Ht Hc. destruct (reach_insts evs s id tb Hr Hg Hao Hin Ht) as (l & Hh & Hsub & Hroot).
    assert (Hl : l <> []) by (intros ->; destruct Hh as [Hh _]; simpl in Hh; lia).
    exists l. split; [symmetry; apply Hh|]. split; [done|]. split; [done|].
    intros a v. destruct (probability_bounds tb l Hh Hl a v) as (p & E & Hp). exists p.
    split; [done|]. split; [done|]. rewrite (probability_share tb l Hh Hl) in E. injection E as <-.
    do 2 f_equal. clear. induction l as [|i l IH]; [by destruct v|]. simpl.
    destruct v as [v|]; simpl in *.
    - rewrite IH. destruct (decide (dget a i = Some v)).
      + by rewrite bool_decide_true.
      + by rewrite bool_decide_false.
    - rewrite IH. destruct (dget a i); [by rewrite bool_decide_false|by rewrite bool_decide_true].
  Qed.

  Theorem C15_weights_are_distribution evs s id tb a :
    reachable RC rng tt evs s -> all_inst (C:=RC) good evs -> all_ok evs ->
    in_tree s id -> table_of s id tb -> (0 < ns_count tb)%nat ->
    exists ws, get_weighted_values (N:=ROps) tb a true = Ok ws /\
      NoDup (map fst ws) /\ Rsum snd ws = 1%R /\
      (forall v w, (v, w) ∈ ws -> (0 <= w)%R /\ probability (N:=ROps) tb a v = Ok w) /\
      (forall v p, probability (N:=ROps) tb a v = Ok p -> (0 < p)%R -> (v, p) ∈ ws).
  Proof.
    intros Hr Hg Hao Hin Ht Hc. destruct (reach_insts evs s id tb Hr Hg Hao Hin Ht) as (l & Hh & _).
    eapply weighted_distribution; [exact Hh|]. intros ->. destruct Hh as [Hh _]. simpl in Hh. lia.
  Qed.

  (** Without allow_none: the same list without the entry for None, when the
      concept knows the attribute. *)
  Theorem C15_weights_without_none evs s id tb a v0 :
    reachable RC rng tt evs s -> all_inst (C:=RC) good evs -> all_ok evs ->
    in_tree s id -> table_of s id tb -> (0 < entry tb a v0)%nat ->
    exists ws p, get_weighted_values (N:=ROps) tb a false = Ok ws /\
      get_weighted_values (N:=ROps) tb a true = Ok (ws ++ [(None, p)]) /\ ~ None ∈ map fst ws.
  Proof.
    intros Hr Hg Hao Hin Ht Hc. destruct (reach_insts evs s id tb Hr Hg Hao Hin Ht) as (l & Hh & _).
    assert (Hl : l <> []).
    { intros ->. destruct Hh as (_ & _ & He). rewrite He in Hc. simpl in Hc. lia. }
    unfold entry in Hc. destruct (dget a (ns_av tb)) as [d|] eqn:Hd; [|lia].
    eexists _, _. rewrite (weighted_known tb l Hh Hl a d false Hd), (weighted_known tb l Hh Hl a d true Hd).
    split; [done|]. rewrite app_nil_r. split; [done|]. intros Hn. unfold choices in Hn.
    apply elem_of_list_fmap in Hn as (q & Eq & Hq). apply elem_of_list_fmap in Hq as (u & -> & _). done.
  Qed.

  (** *** C16 *)
  Section Concept.
    Context (evs : list (event RC)) (s : st RC) (id : nat) (tb : nsum).
    Hypothesis Hr : reachable RC rng tt evs s.
    Hypothesis Hg : all_inst (C:=RC) good evs.
    Hypothesis Hao : all_ok evs.
    Hypothesis Hin : in_tree s id.
    Hypothesis Ht : table_of s id tb.
    Hypothesis Hc : (0 < ns_count tb)%nat.

    Lemma tb_hist : exists l, Hist tb l /\ l <> [].
    Proof.
      destruct (reach_insts evs s id tb Hr Hg Hao Hin Ht) as (l & Hh & _). exists l. split; [done|].
      intros ->. destruct Hh as [Hh _]. simpl in Hh. lia.
    Qed.

    (** Attributes no instance of the concept has are predicted to be missing. *)
    Theorem C16_unknown_attribute a f b am : (forall v, entry tb a v = 0%nat) -> likely f \/ sampling f ->
      fst (predict (N:=ROps) rng ncmp tb a f b am) = Ok None /\
      probability (N:=ROps) tb a None = Ok 1%R.
    Proof. destruct tb_hist as (l & Hh & Hl). exact (predict_unknown_attribute rng ncmp tb l Hh Hl a f b am). Qed.

    Theorem C16_most_likely a f b am v : likely f ->
      fst (predict (N:=ROps) rng ncmp tb a f b am) = Ok v ->
      exists p, probability (N:=ROps) tb a v = Ok p /\
        forall w q, (b = false -> (exists u, 0 < entry tb a u)%nat -> w <> None) ->
          probability (N:=ROps) tb a w = Ok q -> (q <= p)%R.
    Proof. destruct tb_hist as (l & Hh & Hl). exact (predict_most_likely rng ncmp tb l Hh Hl a f b am v). Qed.

    Theorem C16_sampled a f b am v : sampling f -> (forall n, 0 <= rng n < 1)%R ->
      fst (predict (N:=ROps) rng ncmp tb a f b am) = Ok v ->
      exists p, probability (N:=ROps) tb a v = Ok p /\ (0 < p)%R.
    Proof. destruct tb_hist as (l & Hh & Hl). exact (predict_sampled rng ncmp tb l Hh Hl a f b am v). Qed.

    (** How often: the draws that make predict return [v] form an interval
        whose length is the probability of [v]. *)
    Theorem C16_sampling_frequency a f am v p : sampling f ->
      (exists u, 0 < entry tb a u)%nat -> probability (N:=ROps) tb a v = Ok p -> (0 < p)%R ->
      exists lo, forall x, (0 <= x < 1)%R -> rng (am_rpos am) = x ->
        (fst (predict (N:=ROps) rng ncmp tb a f true am) = Ok v <-> (lo <= x < lo + p)%R).
    Proof. destruct tb_hist as (l & Hh & Hl). exact (predict_sampling_frequency rng ncmp tb l Hh Hl a f am v p). Qed.

    Theorem C16_never_none a f am v u : (0 < entry tb a u)%nat ->
      fst (predict (N:=ROps) rng ncmp tb a f false am) = Ok v -> v <> None.
    Proof. destruct tb_hist as (l & Hh & Hl). exact (predict_never_none rng ncmp tb l Hh Hl a f am v u). Qed.

    (** It returns: always when sampling; for the most likely value unless two
        draws coincide. *)
    Theorem C16_returns a f b am :
      sampling f /\ (forall n, 0 <= rng n < 1)%R \/ likely f /\ (forall j k, j <> k -> rng j <> rng k) ->
      exists v, fst (predict (N:=ROps) rng ncmp tb a f b am) = Ok v.
    Proof. destruct tb_hist as (l & Hh & Hl). exact (predict_returns rng ncmp tb l Hh Hl a f b am). Qed.
  End Concept.

  (** Other names for the choice function are rejected. *)
  Theorem C16_other_names (tb : nsum) a f b am : ~ likely f -> ~ sampling f ->
    predict (N:=ROps) rng ncmp tb a f b am = (Err OtherException, am).
  Proof.
    intros H1 H2. unfold predict, choose_fn. rewrite decide_False by done. by rewrite decide_False by done.
  Qed.

  (** *** C17: infer_missing returns. *)
  Lemma infer_loop_returns (tb : nsum) f b attrs :
    (forall a am, exists v, fst (predict (N:=ROps) rng ncmp tb a f b am) = Ok v) ->
    forall (i : inst) (s : st RC), exists j, fst (infer_loop RC (CobwebQuery (N:=ROps) rng ncmp) tb f b attrs i s) = Ok j.
  Proof.
    intros Hp. induction attrs as [|a attrs IH]; intros i s; simpl; [by eexists|].
    change (nq_has (CobwebQuery (N:=ROps) rng ncmp) i a) with (dmem a i). destruct (dmem a i); [apply IH|].
    unfold mbind, mamb.
    change (nq_predict (CobwebQuery (N:=ROps) rng ncmp) (st_ctx s) tb a f b) with (predict (N:=ROps) rng ncmp tb a f b).
    destruct (Hp a (st_amb s)) as (v & E). destruct (predict (N:=ROps) rng ncmp tb a f b (st_amb s)) as [r a'].
    simpl in E. subst r. apply IH.
  Qed.

  Theorem C17_infer_returns evs s (r : raw) f b :
    reachable RC rng tt evs s -> all_inst (C:=RC) (fun i => good i /\ has_visible i) evs ->
    history evs <> [] ->
    (forall j k, j <> k -> rng j <> rng k) -> (forall n, 0 <= rng n < 1)%R ->
    (forall a v, (a, v) ∈ r -> attr_ok a = true /\ exists w, v = PVal w) ->
    (exists a, visible a = true /\ a ∈ dkeys r) ->
    likely f \/ sampling f ->
    exists j, fst (infer_missing (N:=ROps) rng ncmp r f b s) = Ok j.
  Proof.
    intros Hr Hgv Hne Hdis Hrng Hok Hv Hf.
    assert (Hg : all_inst (C:=RC) good evs).
    { eapply Forall_impl; [exact Hgv|]. intros e He i Hi. by apply He. }
    assert (Hvis : all_inst (C:=RC) has_visible evs).
    { eapply Forall_impl; [exact Hgv|]. intros e He i Hi. by apply He. }
    assert (Hdd : distinct_draws (N:=ROps) rng).
    { intros j k Hjk. apply Reqb_false. by apply Hdis. }
    destruct (C20_fitting_never_raises (N:=ROps) rng counting_R Hdd evs s Hr Hvis) as [Hex _].
    assert (Hao : all_ok evs).
    { unfold all_ok. eapply Forall_impl; [exact Hex|]. intros [i [?|?]|i [?|?]| |] He; done. }
    destruct (C20_ifit_returns (N:=ROps) rng counting_R Hdd evs s r Hr Hvis Hok Hv) as [_ (c & Ec)].
    unfold categorize in Ec. unfold infer_missing.
    destruct (sanity r) as [i|e]; [|done].
    unfold infer_checked, mbind at 1.
    destruct (cobweb_categorize RC rng i s) as [rc s1] eqn:E1. simpl in Ec. subst rc.
    destruct (C08_categorize_read_only (N:=ROps) rng evs s i _ s1 Hr E1) as (Hh & Hro & Hleaf).
    destruct (Hleaf c eq_refl) as [Hin (nd & Hnd & Hch)].
    unfold mbind, mget. rewrite Hh, Hnd. apply infer_loop_returns. intros a am.
    assert (Ht : table_of s c (nd_sum nd)) by (by exists nd).
    apply (C16_returns evs s c (nd_sum nd) Hr Hg Hao Hin Ht).
    - destruct (reachable_tinv RC rng Hist LeafV good (hist_laws ROps) tt evs s Hr Hg Hao) as (t & Hok' & Hti).
      destruct (proj1 (in_tree_sub RC s t c Hok') Hin) as (v & Hv' & <-).
      destruct (tinv_sub RC Hist LeafV good (hist_laws ROps) t _ v Hti Hv') as (lu & Htu & _ & Hroot).
      rewrite (table_of_det _ _ _ _ _ Ht (sub_table _ _ _ _ Hok' Hv')).
      apply tinv_summ in Htu as Hs. assert (Hlu : lu <> []).
      { destruct Hroot as [->|?]; [|done]. intros ->. apply tinv_summ in Hti.
        destruct Hti as [Hc1 _], Hs as [Hc2 _]. rewrite Hc2 in Hc1. symmetry in Hc1.
        by apply nil_length_inv in Hc1. }
      destruct Hs as [-> _]. destruct lu; simpl; [done|lia].
    - destruct Hf; [right|left]; done.
  Qed.

  (** *** C18 *)
  Lemma rfold_le {X} (f : R -> X -> res R) (l : list X) :
    (forall b x, x ∈ l -> exists b', f b x = Ok b' /\ (b' <= b)%R) ->
    forall b, exists b', rfold f b l = Ok b' /\ (b' <= b)%R.
  Proof.
    induction l as [|x l IH]; intros Hf b; [exists b; split; [done|lra]|]. simpl.
    destruct (Hf b x) as (b1 & -> & H1); [left|]. simpl.
    destruct (IH (fun b y Hy => Hf b y (elem_of_list_further _ _ _ Hy)) b1) as (b2 & -> & H2).
    exists b2. split; [done|lra].
  Qed.

  Lemma log_likelihood_le tb lf l ll attrs vals : Hist tb l -> Hist lf ll -> ll <> [] ->
    (forall i, i ∈ ll -> i ∈ l) ->
    exists x, log_likelihood (N:=ROps) attrs vals tb lf = Ok x /\ (x <= 0)%R.
  Proof.
    intros Hh Hhl Hne Hsub.
    assert (Hl : l <> []).
    { destruct ll as [|i ll]; [done|]. intros ->. assert (Hi : i ∈ []) by (apply Hsub; left). inversion Hi. }
    unfold log_likelihood. change (nofnat ROps 0) with 0%R. apply rfold_le. intros b a _.
    apply rfold_le. clear b. intros b v _.
    destruct (probability_bounds lf ll Hhl Hne a v) as (op & Eop & Hop). rewrite Eop. cbn [rbind].
    change (nltb ROps 0%R op) with (Rltb 0 op).
    destruct (Rltb 0 op) eqn:Epos; [|exists b; split; [done|lra]]. apply Rltb_true in Epos.
    destruct (probability_bounds tb l Hh Hl a v) as (q & Eq & Hq). rewrite Eq. cbn [rbind].
    assert (Hqp : (0 < q)%R).
    { rewrite (probability_share lf ll Hhl Hne) in Eop. injection Eop as <-.
      rewrite (probability_share tb l Hh Hl) in Eq. injection Eq as <-.
      assert (Hsh : (0 < share ll a v)%nat).
      { destruct (share ll a v); [|lia]. simpl in Epos. unfold Rdiv in Epos. lra. }
      apply share_pos in Hsh as (i & Hi & Hiv).
      assert (Hsl : (0 < share l a v)%nat) by (apply share_pos; exists i; split; [by apply Hsub|done]).
      apply Rdiv_lt_0_compat; apply lt_0_INR; [done|]. destruct l; simpl; [done|lia]. }
    change (nmul ROps q op) with (q * op)%R.
    assert (Hp : (0 < q * op)%R) by (by apply Rmult_lt_0_compat).
    assert (Hp1 : (q * op <= 1)%R).
    { rewrite <- (Rmult_1_r 1). apply Rmult_le_compat; lra. }
    change (nltb ROps (q * op)%R 0%R) with (Rltb (q * op) 0).
    destruct (Rltb (q * op) 0) eqn:En; [apply Rltb_true in En; lra|].
    unfold pylog. change (nltb ROps (nofnat ROps 0) (q * op)%R) with (Rltb 0 (q * op)).
    destruct (Rltb 0 (q * op)) eqn:E0; [|apply Rltb_false in E0; lra]. cbn [rbind].
    eexists. split; [done|]. change (b + ln (q * op) <= b)%R.
    assert (ln (q * op) <= 0)%R; [|lra]. rewrite <- ln_1.
    destruct (Req_dec (q * op) 1) as [->|]; [lra|]. left. apply ln_increasing; lra.
  Qed.

  Theorem C18_log_likelihood evs s id leaf tb tl attrs vals :
    reachable RC rng tt evs s -> all_inst (C:=RC) good evs -> all_ok evs ->
    in_tree s id -> desc s id leaf -> is_leaf s leaf -> table_of s id tb -> table_of s leaf tl ->
    ll_order tb tl attrs vals ->
    exists x, log_likelihood (N:=ROps) attrs vals tb tl = Ok x /\ (x <= 0)%R.
  Proof.
    intros Hr Hg Hao Hin Hd Hlf Ht Htl Ho.
    destruct (reachable_tinv RC rng Hist LeafV good (hist_laws ROps) tt evs s Hr Hg Hao) as (t & Hok & Hti).
    destruct (proj1 (in_tree_sub RC s t id Hok) Hin) as (v & Hv & <-).
    destruct (desc_sub RC s t v leaf Hok Hv Hd) as (w & Hw & <-).
    destruct (tinv_sub RC Hist LeafV good (hist_laws ROps) t _ v Hti Hv) as (lv & Htv & _ & _).
    destruct (tinv_sub RC Hist LeafV good (hist_laws ROps) v lv w Htv Hw) as (lw & Htw & Hsub & _).
    assert (Hwt : sub RC w t) by (by eapply sub_trans).
    rewrite (table_of_det _ _ _ _ _ Ht (sub_table _ _ _ _ Hok Hv)) in *.
    rewrite (table_of_det _ _ _ _ _ Htl (sub_table _ _ _ _ Hok Hwt)) in *.
    apply tinv_summ in Htv as Hh. apply tinv_summ in Htw as Hhl.
    destruct (decide (lw = [])) as [->|Hne]; [|by eapply log_likelihood_le].
    (* an empty leaf: only the root of an empty tree *)
    assert (Hvw : v = w).
    { destruct (tinv_sub RC Hist LeafV good (hist_laws ROps) v lv w Htv Hw) as (lw' & Htw' & _ & [<-|Hne]); [done|].
      exfalso. apply tinv_summ in Htw'. destruct Htw' as [Hc1 _], Hhl as [Hc2 _]. rewrite Hc1 in Hc2.
      by apply nil_length_inv in Hc2. }
    subst v. destruct Ho as [[_ Hat] _].
    assert (attrs = []) as ->.
    { destruct attrs as [|a attrs]; [done|]. exfalso.
      destruct (proj1 (Hat a)) as [_ Hk]; [left|]. assert (Hk' : a ∈ dkeys (ns_av (tsum w))) by tauto.
      apply (Hist_key (tsum w) [] a Hhl) in Hk' as (i & Hi & _). inversion Hi. }
    exists 0%R. split; [done|lra].
  Qed.

  (** Orders in which Python can visit the two sets exist. *)
  Theorem C18_orders_exist (tb tl : nsum) : exists attrs vals, ll_order tb tl attrs vals.
  Proof.
    exists (remove_dups (List.filter visible (dkeys (ns_av tb) ++ dkeys (ns_av tl)))),
      (fun a => remove_dups (None :: map Some (vals_of tb a ++ vals_of tl a))).
    split.
    - split; [apply NoDup_remove_dups|]. intros a. rewrite elem_of_remove_dups, elem_of_list_In, filter_In.
      rewrite <- elem_of_list_In, elem_of_app. tauto.
    - intros a. split; [apply NoDup_remove_dups|]. intros v.
      rewrite elem_of_remove_dups, elem_of_cons, elem_of_list_fmap. split.
      + intros [->|(w & -> & Hw)]; [by left|right]. exists w. rewrite elem_of_app in Hw. done.
      + intros [->|(w & -> & Hw)]; [by left|right]. exists w. by rewrite elem_of_app.
  Qed.
End Real.

(** A concept below which there are two leaves, and instances that lack an
    attribute. *)
Lemma ex_query_concept : exists evs s id tb leaf tl,
  reachable RC ex_draws tt evs s /\ all_inst (C:=RC) (fun i => good i /\ has_visible i) evs /\ all_ok evs /\
  in_tree s id /\ table_of s id tb /\ desc s id leaf /\ id <> leaf /\ is_leaf s leaf /\ table_of s leaf tl /\
  (0 < ns_count tb)%nat /\ (0 < entry tb (AStr "b") (NStr "z"))%nat /\ (entry tb (AStr "b") (NStr "z") < ns_count tb)%nat.
Proof.
  pose proof (exec_reachable RC ex_draws tt
    [@CFit _ RC [(AStr "a", NStr "x"); (AStr "b", NStr "z")]; @CFit _ RC [(AStr "a", NStr "y")]] 0 0) as Hr.
  match type of Hr with reachable _ _ _ ?evs ?s =>
    assert (Hev : evs = [@EFit _ RC [(AStr "a", NStr "x"); (AStr "b", NStr "z")] (Ok 1%nat);
                         @EFit _ RC [(AStr "a", NStr "y")] (Ok 3%nat)])
      by (vm_compute; reflexivity);
    assert (Hroot : st_root s = 2%nat) by (vm_compute; reflexivity);
    assert (Hch : option_map nd_children (st_heap s !! 2%nat) = Some [1; 3]%nat) by (vm_compute; reflexivity);
    assert (Hc1 : option_map nd_children (st_heap s !! 1%nat) = Some []) by (vm_compute; reflexivity);
    assert (Hcnt : option_map (fun n : node RC => ns_count (nd_sum n)) (st_heap s !! 2%nat) = Some 2%nat) by (vm_compute; reflexivity);
    assert (Hent : option_map (fun n : node RC => entry (nd_sum n) (AStr "b") (NStr "z")) (st_heap s !! 2%nat) = Some 1%nat)
      by (vm_compute; reflexivity);
    rewrite Hev in Hr; clear Hev; revert Hr Hroot Hch Hc1 Hcnt Hent; generalize s
  end.
  intros s Hr Hroot Hch Hc1 Hcnt Hent.
  destruct (st_heap s !! 2%nat) as [n2|] eqn:E2; [|done].
  destruct (st_heap s !! 1%nat) as [n1|] eqn:E1; [|done].
  simpl in Hch, Hc1, Hcnt, Hent. injection Hch as Hch. injection Hc1 as Hc1. injection Hcnt as Hcnt. injection Hent as Hent.
  assert (Hd : desc s 2%nat 1%nat).
  { eapply desc_child; [apply desc_refl|]. exists [1; 3]%nat. split; [by exists n2|left]. }
  eexists _, s, 2%nat, (nd_sum n2), 1%nat, (nd_sum n1). split; [exact Hr|]. split.
  { apply Forall_cons_2; [|apply Forall_cons_2; [|apply Forall_nil_2]].
    - intros i ->. split; [split|].
      + apply (bool_decide_unpack _). vm_compute. done.
      + by repeat constructor.
      + exists (AStr "a"). split; [done|]. left.
    - intros i ->. split; [split|].
      + apply (bool_decide_unpack _). vm_compute. done.
      + by repeat constructor.
      + exists (AStr "a"). split; [done|]. left. }
  split. { apply Forall_cons_2; [done|]. apply Forall_cons_2; [done|apply Forall_nil_2]. }
  split. { rewrite <- Hroot. apply desc_refl. }
  split; [by exists n2|]. split; [done|]. split; [done|]. split.
  { split; [by rewrite <- Hroot in Hd|]. by exists n1. }
  split; [by exists n1|]. lia.
Qed.

Print Assumptions C17_infer_only_adds.
Print Assumptions C15_weights_are_distribution.
Print Assumptions C16_sampling_frequency.
Print Assumptions C18_log_likelihood.
