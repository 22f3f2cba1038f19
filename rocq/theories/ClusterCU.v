(** * The heuristic CU only reads the tree, and when it does not raise. *)
From stdpp Require Import base decidable list gmap strings.
From Verif Require Import Base Num TreeModel TreeFun TreeScore TreeRefine TreeSorts TreeInv
  SpecTree SpecCluster TreeState TreeTotal TreeLeaf Nominal Utils Query QueryLinks Cluster ClusterFacts ClusterLoop.
Set Default Proof Using "Type".
Open Scope list_scope.

Section Reads.
  Context {N : NumOps} (C : NodeClass N).
  Notation st := (st C).

  Definition frame (s s' : st) : Prop :=
    st_heap s' = st_heap s /\ st_root s' = st_root s /\ st_ctx s' = st_ctx s /\
    am_ctr (st_amb s) <= am_ctr (st_amb s').
  Definition reads {X} (m : M C X) : Prop := forall s r s', m s = (r, s') -> frame s s'.

  Lemma frame_refl s : frame s s.
  Proof. done. Qed.
  Lemma frame_trans a b c : frame a b -> frame b c -> frame a c.
  Proof. intros (H1 & H2 & H3 & H4) (G1 & G2 & G3 & G4). split; [congruence|]. split; [congruence|]. split; [congruence|lia]. Qed.

  Lemma reads_ret {X} (x : X) : reads (mret C x).
  Proof. intros s r s' [= <- <-]. apply frame_refl. Qed.
  Lemma reads_raise {X} e : reads (@mraise _ C X e).
  Proof. intros s r s' [= <- <-]. apply frame_refl. Qed.
  Lemma reads_lift {X} (x : res X) : reads (mlift C x).
  Proof. intros s r s' [= <- <-]. apply frame_refl. Qed.
  Lemma reads_get id : reads (mget C id).
  Proof. intros s r s'. unfold mget. destruct (st_heap s !! id); intros [= <- <-]; apply frame_refl. Qed.
  Lemma reads_size : reads (mheap_size C).
  Proof. intros s r s' [= <- <-]. apply frame_refl. Qed.
  Lemma reads_amb {X} (m : nc_ctx C -> A X) : (forall x, amono (m x)) -> reads (mamb C m).
  Proof.
    intros Hm s r s'. unfold mamb. specialize (Hm (st_ctx s) (st_amb s)).
    destruct (m (st_ctx s) (st_amb s)) as [r' a]. intros [= <- <-]. split; [done|]. split; [done|]. split; [done|]. apply Hm.
  Qed.
  Lemma reads_bind {X Y} (m : M C X) (f : X -> M C Y) : reads m -> (forall x, reads (f x)) -> reads (mbind C m f).
  Proof.
    intros Hm Hf s r s'. unfold mbind. destruct (m s) as [[x|e] s1] eqn:E; intros E'.
    - eapply frame_trans; [by eapply Hm|by eapply Hf].
    - injection E' as <- <-. by eapply Hm.
  Qed.
  Lemma reads_mapM {X Y} (f : X -> M C Y) l : (forall x, reads (f x)) -> reads (mmapM C f l).
  Proof.
    intros Hf. induction l as [|x l IH]; simpl; [apply reads_ret|].
    apply reads_bind; [done|]. intros y. apply reads_bind; [done|]. intros ys. apply reads_ret.
  Qed.
  Lemma reads_is_parent a b : reads (is_parent C a b).
  Proof.
    unfold is_parent. apply reads_bind; [apply reads_size|]. intros k. generalize (S k). clear k. intros fuel. revert b.
    induction fuel as [|fuel IH]; intros b; simpl; [apply reads_raise|].
    destruct (decide (b = a)); [apply reads_ret|]. apply reads_bind; [apply reads_get|]. intros nd.
    destruct (nd_parent nd); [apply IH|apply reads_ret].
  Qed.
  Lemma reads_collect c leaves : forall t, reads (collect C c leaves t).
  Proof.
    induction leaves as [|l leaves IH]; intros t; simpl; [apply reads_ret|].
    apply reads_bind; [apply reads_is_parent|]. intros [|]; [|apply IH].
    apply reads_bind; [apply reads_get|]. intros n. apply reads_bind; [apply reads_lift|]. intros t'. apply IH.
  Qed.
  Theorem CU_reads setord : reads_only C (CU C setord).
  Proof.
    intros cl leaves. change (reads (CU C setord cl leaves)). unfold CU. destruct cl as [|c cl]; [apply reads_raise|].
    apply reads_bind; [apply reads_amb; intros x; apply amono_temps|]. intros _.
    apply reads_bind.
    - apply reads_mapM. intros x. apply reads_bind; [apply reads_amb; intros y; apply amono_temps|]. intros _. apply reads_collect.
    - intros kids. apply reads_bind; [apply reads_lift|]. intros rt. apply reads_bind.
      + apply reads_amb. intros x. apply amono_lift.
      + intros u. apply reads_ret.
  Qed.

  (** Tables that all concepts satisfy are not changed by splits. *)
  Lemma split_from_tall (P : nc_sum C -> Prop) s0 t0 s : state_ok C s0 t0 -> tall C P t0 -> split_from C s0 s ->
    st_ctx s = st_ctx s0 /\ exists t, state_ok C s t /\ tall C P t.
  Proof.
    intros Hok Hall Hs. induction Hs as [|s a Hs (IHx & t & Ht & IH) Ha|s x s' Hs (IHx & t & Ht & IH) Hx E].
    - eauto.
    - split; [done|]. exists t. split; [|done]. by apply state_ok_amb.
    - destruct Hx as (l & Hl & Hx). rewrite (so_root _ _ _ Ht) in Hl.
      rewrite (children_of_det _ _ _ _ _ Hl (sub_children C s t t Ht (sub_refl _ _))) in Hx.
      apply elem_of_list_fmap in Hx as (k & -> & Hk).
      destruct (split_spec C s t k Ht Hk) as (s1 & E1 & Hok1 & _ & Ex). unfold mbind, mroot in E1. rewrite E1 in E. injection E as <-.
      split; [congruence|]. exists (split_tree C t k). split; [done|].
      destruct t as [id sm kids]. apply tall_inv in IH as [Hsm HF]. unfold split_tree. cbn [tid tsum tkids].
      constructor; [done|]. apply Forall_app. rewrite Forall_forall in HF. cbn [tkids] in Hk. split.
      + apply Forall_forall. intros k1 Hk1. apply HF.
        rewrite (kremove_perm _ _ _ _ (kid_found C (T id sm kids) k (so_nodup _ _ _ Ht) Hk)). by right.
      + specialize (HF k Hk). destruct k as [i1 s1' ks]. by apply tall_inv in HF as [_ HF].
  Qed.

  Section CUTotal.
    Hypothesis Hnz : forall n, neqb N (nofnat N (S n)) (nofnat N 0) = false.
    Context (V : nc_sum C -> Prop) (i : nc_inst C).

    Lemma collect_total s t c : state_ok C s t -> tall C V t -> scorable C V (st_ctx s) i -> in_tree s c ->
      forall leaves acc, Forall (in_tree s) leaves -> (V acc \/ acc = nc_empty C) ->
      exists t', collect C c leaves acc s = (Ok t', s) /\ (V t' \/ t' = nc_empty C) /\
        ((V acc \/ exists l, l ∈ leaves /\ desc s c l) -> V t').
    Proof.
      intros Hok Hall Hsc Hc leaves. induction leaves as [|l leaves IH]; intros acc HF Hacc; simpl.
      { exists acc. split; [done|]. split; [done|]. intros [?|(l & Hl & _)]; [done|by apply elem_of_nil in Hl]. }
      apply Forall_cons in HF as [Hl HF].
      destruct (is_parent_desc C s t c l Hok Hc Hl) as (b & Eb & Hb). rewrite (mbind_ok C _ _ _ _ _ Eb). destruct b.
      - destruct (proj1 (in_tree_sub C s t l Hok) Hl) as (u & Hu & Eu). rewrite <- Eu in *.
        destruct (sub_table C s t u Hok Hu) as (n & Hn & Etb). rewrite (mbind_ok C _ _ _ _ _ (mget_ok C _ s n Hn)), Etb.
        assert (HV : V (tsum u)). { exact (tall_sub C V t u Hall Hu). }
        assert (Hadd : exists acc', tadd C acc (tsum u) = Ok acc' /\ V acc').
        { destruct Hacc as [Ha| ->].
          - destruct (sc_add _ _ _ _ Hsc _ _ Ha HV) as (s' & E & Hs'). exists s'. unfold tadd. by rewrite E.
          - destruct (sc_copy _ _ _ _ Hsc _ HV) as (s' & E & Hs'). exists s'. unfold tadd. by rewrite E. }
        destruct Hadd as (acc' & Eacc & Hacc'). unfold mbind at 1, mlift at 1. rewrite Eacc.
        destruct (IH acc' HF (or_introl Hacc')) as (t' & E & H1 & H2). exists t'. split; [done|]. split; [done|].
        intros _. apply H2. by left.
      - destruct (IH acc HF Hacc) as (t' & E & H1 & H2). exists t'. split; [done|]. split; [done|].
        intros [Ha|(l' & Hl' & Hd)]; apply H2; [by left|]. apply elem_of_cons in Hl' as [->|Hl']; [by apply Hb in Hd|]. right. eauto.
    Qed.

    Theorem CU_total setord s t leaves l : (forall l x, x ∈ setord l <-> x ∈ l) ->
      state_ok C s t -> tall C V t -> scorable C V (st_ctx s) i -> clustering s leaves l -> l <> [] ->
      exists u s', CU C setord l leaves s = (Ok u, s').
    Proof using Hnz.
      intros Hset Hok Hall Hsc [Hcl _] Hne. unfold CU. destruct l as [|c0 l0] eqn:El; [done|]. rewrite <- El in *. clear c0 l0 El.
      assert (Hin : Forall (in_tree s) leaves).
      { apply Forall_forall. intros j Hj. apply elem_of_list_lookup in Hj as (k & Hj).
        destruct (Forall2_lookup_l _ _ _ _ _ Hcl Hj) as (x & _ & Hx & Hd). by eapply desc_trans. }
      assert (Hlab : forall c, c ∈ setord l -> in_tree s c /\ exists j, j ∈ leaves /\ desc s c j).
      { intros c Hc. apply (proj1 (Hset l c)) in Hc. apply elem_of_list_lookup in Hc as (k & Hc).
        destruct (Forall2_lookup_r _ _ _ _ _ Hcl Hc) as (j & Hj & Hx & Hd). split; [done|]. exists j. split; [by eapply elem_of_list_lookup_2|done]. }
      assert (Hne' : setord l <> []).
      { destruct l as [|c l]; [done|]. intros E. assert (Hc : c ∈ setord (c :: l)) by (apply Hset; left). rewrite E in Hc. by apply elem_of_nil in Hc. }
      unfold mbind at 1, mamb at 1, atemps at 1.
      assert (Hkids : forall cs s1, (forall c, c ∈ cs -> in_tree s c /\ exists j, j ∈ leaves /\ desc s c j) -> frame s s1 ->
        exists kids s2, mmapM C (fun c => mbind C (mamb C (fun _ => atemps 1)) (fun _ => collect C c leaves (nc_empty C))) cs s1 = (Ok kids, s2) /\
          frame s s2 /\ Forall V kids /\ length kids = length cs).
      { clear Hlab Hne'. intros cs. induction cs as [|c cs IH]; intros s1 Hcs Hf; simpl; [exists [], s1; split; [done|]; split; [exact Hf|]; split; [constructor|done]|].
        unfold mbind at 1. unfold mbind at 1, mamb at 1, atemps at 1.
        set (s1' := St (st_heap s1) (st_root s1) (Amb (am_ctr (st_amb s1) + 1) (am_rpos (st_amb s1))) (st_ctx s1)).
        assert (Hf' : frame s s1'). { destruct Hf as (F1 & F2 & F3 & F4). split; [done|]. split; [done|]. split; [done|]. simpl. lia. }
        assert (Es1 : s1' = St (st_heap s) (st_root s) (st_amb s1') (st_ctx s)).
        { destruct Hf as (F1 & F2 & F3 & F4). unfold s1'. simpl. by rewrite F1, F2, F3. }
        assert (Hok1 : state_ok C s1' t). { rewrite Es1. apply state_ok_amb; [done|apply Hf']. }
        assert (Hch : forall p q, child_of s p q <-> child_of s1' p q). { intros p q. rewrite Es1. done. }
        assert (Hdesc : forall a b, desc s a b -> desc s1' a b).
        { intros a b Hd. induction Hd as [|b c' Hd IHd Hc']; [constructor|]. eapply desc_child; [done|by apply Hch]. }
        assert (Hin1 : forall x, in_tree s x -> in_tree s1' x). { intros x Hx. unfold in_tree in *. destruct Hf' as (_ & -> & _). by apply Hdesc. }
        destruct (Hcs c ltac:(left)) as (Hc & j & Hj & Hd).
        destruct (collect_total s1' t c Hok1 Hall) with (leaves := leaves) (acc := nc_empty C) as (t' & Et & _ & HV); [by rewrite Es1|by apply Hin1| |by right|].
        { eapply Forall_impl; [exact Hin|]. done. }
        rewrite Et. destruct (IH s1' (fun c' Hc' => Hcs c' (elem_of_list_further _ _ _ Hc')) Hf') as (kids & s2 & E2 & Hf2 & HF & Hlen).
        exists (t' :: kids), s2. rewrite (mbind_ok C _ _ _ _ _ E2). split; [done|]. split; [done|]. split; [|simpl; by rewrite Hlen].
        constructor; [|done]. apply HV. right. eauto. }
      edestruct (Hkids (setord l)) as (kids & s2 & Ek & Hf2 & HV & Hlen); [exact Hlab| |].
      2: { unfold mbind at 1. rewrite Ek.
        assert (Hroot : forall kids acc, (V acc \/ acc = nc_empty C) -> Forall V kids -> (V acc \/ kids <> []) ->
          exists rt, rfold (tadd C) acc kids = Ok rt /\ V rt).
        { clear -Hsc. induction kids as [|k kids IH]; intros acc Ha HF Hn; simpl; [destruct Hn; [eauto|done]|].
          apply Forall_cons in HF as [Hk HF].
          assert (Hadd : exists acc', tadd C acc k = Ok acc' /\ V acc').
          { destruct Ha as [Ha| ->].
            - destruct (sc_add _ _ _ _ Hsc _ _ Ha Hk) as (s' & E & Hs'). exists s'. unfold tadd. by rewrite E.
            - destruct (sc_copy _ _ _ _ Hsc _ Hk) as (s' & E & Hs'). exists s'. unfold tadd. by rewrite E. }
          destruct Hadd as (acc' & -> & Hacc'). simpl. apply IH; [by left|done|by left]. }
        destruct (Hroot kids (nc_empty C)) as (rt & Er & Hrt); [by right|done|right; by destruct kids, (setord l)|].
        unfold mbind at 1, mlift at 1. rewrite Er. unfold mbind at 1, mamb at 1.
        destruct Hf2 as (F1 & F2 & F3 & F4). rewrite F3.
        destruct (cu_total C Hnz V (st_ctx s) i Hsc rt kids Hrt HV) as (u & Eu). unfold alift. rewrite Eu. eexists _, _. reflexivity. }
      split; [done|]. split; [done|]. split; [done|]. simpl. lia.
    Qed.
  End CUTotal.
End Reads.
