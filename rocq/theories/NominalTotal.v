(** * When sorting an instance into a CobwebTree can raise.

    A node without visible attributes has no expected_correct_guesses (division
    by the number of attributes, cobweb.py:402).  Such a node can only be a
    leaf of a tree of at most three nodes, so an exception never interrupts
    ifit half-way. *)
From stdpp Require Import base decidable list gmap strings.
From Verif Require Import Base Num TreeModel TreeFun TreeScore TreeRefine TreeSorts TreeInv
  SpecTree TreeState TreeTotal TreeRel TreeSim Nominal NominalFacts.

Lemma keys_avadd a v k av b : b ∈ dkeys (avadd a v k av) <-> b = a \/ b ∈ dkeys av.
Proof. unfold avadd. by rewrite elem_of_dkeys_dset. Qed.

Lemma keys_inc s i a : a ∈ dkeys (ns_av (ns_inc s i)) <-> a ∈ dkeys (ns_av s) \/ a ∈ dkeys i.
Proof.
  unfold ns_inc. simpl. generalize (ns_av s) as av.
  induction i as [|[b v] i IH]; intros av; simpl.
  - split; [by left|]. intros [?|H]; [done|inversion H].
  - rewrite IH, keys_avadd, elem_of_cons. tauto.
Qed.

Lemma keys_add s o a : a ∈ dkeys (ns_av (ns_add s o)) <-> a ∈ dkeys (ns_av s) \/ a ∈ dkeys (ns_av o).
Proof.
  unfold ns_add. simpl. generalize (ns_av s) as av. generalize (ns_av o) as oav.
  induction oav as [|[b d] oav IH]; intros av; simpl.
  - split; [by left|]. intros [?|H]; [done|inversion H].
  - rewrite IH. unfold avmerge1. simpl. rewrite elem_of_dkeys_dset, elem_of_cons. tauto.
Qed.

Lemma vis_keys s : vis s <> [] <-> exists a, visible a = true /\ a ∈ dkeys (ns_av s).
Proof.
  unfold vis. split.
  - intros Hne. destruct (dfilter visible (ns_av s)) as [|p l] eqn:E; [done|].
    assert (Hp : p ∈ dfilter visible (ns_av s)) by (rewrite E; left).
    apply elem_of_filterb in Hp as [Hp Hv]. exists (fst p). split; [done|].
    apply elem_of_list_fmap. eauto.
  - intros (a & Ha & Hk) E. apply elem_of_list_fmap in Hk as (p & -> & Hp).
    assert (Hin : p ∈ dfilter visible (ns_av s)) by (by apply elem_of_filterb).
    rewrite E in Hin. inversion Hin.
Qed.

(** A table that has been incremented and has a visible attribute. *)
Definition VN (s : nsum) : Prop := 0 < ns_count s /\ vis s <> [].

Lemma VN_inc s i : VN s -> VN (ns_inc s i).
Proof.
  intros [Hc Hv]. split; [simpl; lia|]. apply vis_keys in Hv as (a & Ha & Hk).
  apply vis_keys. exists a. rewrite keys_inc. auto.
Qed.
Lemma VN_new s i : has_visible i -> VN (ns_inc s i).
Proof.
  intros (a & Ha & Hk). split; [simpl; lia|].
  apply vis_keys. exists a. rewrite keys_inc. auto.
Qed.
Lemma VN_add s1 s2 : VN s1 \/ VN s2 -> VN (ns_add s1 s2).
Proof.
  intros Hor. split; [destruct Hor as [[H _]|[H _]]; simpl; lia|]. apply vis_keys.
  destruct Hor as [[_ (a & Ha & Hk)%vis_keys]|[_ (a & Ha & Hk)%vis_keys]];
    exists a; rewrite keys_add; auto.
Qed.

Section Total.
  Context {N : NumOps}.
  Notation C := (CobwebClass N).
  Hypothesis Hnz : forall n, neqb N (nofnat N (S n)) (nofnat N 0) = false.

  Lemma ecg_total s : VN s -> exists e, ns_ecg N s = Ok e.
  Proof.
    intros [Hc Hv]. unfold ns_ecg. fold (vis s).
    assert (Hd : forall (d : list (nom * nat)) acc, exists r,
      rfold (fun acc q => rbind (pydiv N (nofnat N (snd q)) (nofnat N (ns_count s)))
               (fun pr => Ok (nadd N acc (nmul N pr pr)))) acc d = Ok r).
    { induction d as [|q d IH]; intros acc; simpl; [eauto|].
      destruct (pydiv_pos Hnz (nofnat N (snd q)) (ns_count s) Hc) as (p & ->).
      cbn [rbind]. apply IH. }
    assert (Hl : forall (l : list (attr * list (nom * nat))) acc, exists r,
      rfold (fun acc p => rfold (fun acc q =>
        rbind (pydiv N (nofnat N (snd q)) (nofnat N (ns_count s)))
               (fun pr => Ok (nadd N acc (nmul N pr pr)))) acc (snd p)) acc l = Ok r).
    { induction l as [|p l IH]; intros acc; cbn [rfold]; [eauto|].
      destruct (Hd (snd p) acc) as (r & ->). cbn [rbind]. apply IH. }
    destruct (Hl (vis s) (nofnat N 0)) as (r & ->). cbn [rbind]. apply (pydiv_pos Hnz).
    destruct (vis s); [done|simpl; lia].
  Qed.

  Lemma cobweb_scorable x i : has_visible i -> scorable C VN x i.
  Proof.
    intros Hi. split; simpl.
    - by intros s [Hs _].
    - intros s Hs. by apply ecg_total.
    - eexists. split; [done|]. by apply VN_new.
    - intros s Hs. eexists. split; [done|]. by apply VN_inc.
    - intros s Hs. eexists. split; [done|]. apply VN_add. by right.
    - intros s1 s2 H1 H2. eexists. split; [done|]. apply VN_add. by left.
    - eauto.
    - done.
  Qed.
End Total.

(** ** Exceptions *)
Section Raise.
  Context {N : NumOps} (rng : nat -> num N).
  Notation C := (CobwebClass N).
  Hypothesis Hnz : forall n, neqb N (nofnat N (S n)) (nofnat N 0) = false.
  Hypothesis Hrng : forall j k, j <> k -> neqb N (rng j) (rng k) = false.
  Notation tree := (tree C).

  Definition isErr {X} (r : res X) : Prop := exists e, r = Err e.

  (** A score that needs a table without visible attributes raises, provided
      0 == 0. *)
  Hypothesis Hzz : neqb N (nofnat N 0) (nofnat N 0) = true.

  Lemma ecg_none s : vis s = [] -> ns_ecg N s = Err ZeroDivisionError.
  Proof. intros Hv. unfold ns_ecg. fold (vis s). rewrite Hv. simpl. unfold pydiv. by rewrite Hzz. Qed.

  Lemma rfold_err {A B} (f : B -> A -> res B) a l : a ∈ l -> (forall b, isErr (f b a)) ->
    forall b, isErr (rfold f b l).
  Proof.
    intros Hin Hf. induction l as [|a' l IH]; intros b; [inversion Hin|]. simpl.
    destruct (f b a') as [b'|e] eqn:E; [|eexists; done]. cbn [rbind].
    apply elem_of_cons in Hin as [->|Hin]; [|by apply IH].
    destruct (Hf b) as [e He]. congruence.
  Qed.

  Lemma cu_err (s k : nsum) kids : k ∈ kids -> vis k = [] -> isErr (category_utility C tt s kids).
  Proof.
    intros Hk Hv. unfold category_utility. destruct kids as [|k0 ks]; [inversion Hk|].
    match goal with |- context [rfold ?f ?b0 ?l] => assert (He : isErr (rfold f b0 l)) end.
    { apply (rfold_err _ k); [done|]. intros b. simpl. destruct (pydiv _ _ _); simpl; [|by eexists]. rewrite ecg_none by done. by eexists. }
    destruct He as [e He]. rewrite He. by eexists.
  Qed.

  Lemma new_err s kids i : ~ has_visible i -> isErr (cu_for_new_child C tt s kids i).
  Proof.
    intros Hi. unfold cu_for_new_child. destruct (tcopy C s) as [t|e]; [|by eexists]. cbn [rbind].
    destruct (rmapM _ kids) as [tk|e]; [|by eexists]. cbn [rbind].
    destruct (tinc C t i) as [t'|e]; [|by eexists]. cbn [rbind].
    destruct (tinc C (nc_empty C) i) as [t2|e] eqn:E; [|by eexists]. cbn [rbind].
    unfold tinc in E. simpl in E. injection E as <-.
    eapply cu_err; [apply elem_of_app; right; left|].
    destruct (vis (ns_inc (NSum 0 []) i)) as [|p l] eqn:Ev; [done|]. exfalso. apply Hi.
    assert (Hv : vis (ns_inc (NSum 0 []) i) <> []) by (rewrite Ev; done).
    apply vis_keys in Hv as (a & Ha & Hk). apply keys_inc in Hk as [Hk|Hk]; [inversion Hk|].
    by exists a.
  Qed.

  Lemma two_best_err s (kids : list (nat * nsum)) i a c : c ∈ kids -> vis (snd c) = [] ->
    isErr (fst (two_best_children C rng tt s kids i a)).
  Proof.
    intros Hc Hv. unfold two_best_children. destruct kids as [|c0 ks]; [inversion Hc|].
    set (kids := c0 :: ks) in *. clearbody kids.
    match goal with |- context [abind (amapM ?f kids)] => set (g := f) end.
    assert (Hm : forall a, isErr (fst (amapM g kids a))).
    { induction kids as [|c' kids IH]; intros b; [inversion Hc|]. cbn [amapM]. unfold abind.
      destruct (g c' b) as [[y|e] b'] eqn:Eg; [|by eexists].
      apply elem_of_cons in Hc as [<-|Hc].
      - exfalso.
        assert (He : isErr (relative_cu_for_insert C tt (snd c) i)).
        { unfold relative_cu_for_insert.
          destruct (tcopy C (snd c)); cbn [rbind]; [|by eexists].
          destruct (tinc C _ i); cbn [rbind]; [|by eexists].
          destruct (nc_ecg C tt _); cbn [rbind]; [|by eexists].
          simpl nc_ecg. rewrite ecg_none by done. by eexists. }
        destruct He as [e He]. unfold g, abind, atemps, alift in Eg.
        match type of Eg with context [relative_cu_for_insert ?a ?b ?c ?d] =>
          change (relative_cu_for_insert a b c d = Err e) in He end. rewrite He in Eg. done.
      - destruct (IH Hc b') as [e He]. destruct (amapM g kids b') as [r b2]. simpl in He. subst r.
        by eexists. }
    unfold abind at 1. destruct (Hm a) as [e He]. destruct (amapM g kids a) as [r b]. simpl in He.
    subst r. by eexists.
  Qed.

  Lemma best_op_err s (kids : list (nat * nsum)) i b1 b2 bk cu a : ~ has_visible i ->
    isErr (fst (get_best_operation C rng tt s kids i b1 b2 bk cu all_ops a)).
  Proof.
    intros Hi. unfold get_best_operation, all_ops.
    rewrite decide_True by set_solver. rewrite decide_True by set_solver.
    destruct (new_err s (map snd kids) i Hi) as [e He].
    unfold abind, arandom, aret, atemps, alift. cbv beta iota zeta.
    match goal with |- context [cu_for_new_child ?a ?b ?c ?d ?f] =>
      change (cu_for_new_child a b c d f = Err e) in He end.
    rewrite He. by eexists.
  Qed.

  (** The three shapes of a tree. *)
  Definition dead (t : tree) : Prop := exists k, k ∈ tkids t /\ vis (tsum k) = [].
  Definition shape (t : tree) : Prop := tkids t = [] \/ tall C VN t \/ dead t.

  Lemma has_visible_dec (i : inst) : has_visible i \/ ~ has_visible i.
  Proof.
    destruct (dfilter visible i) as [|p l] eqn:E.
    - right. intros (a & Ha & Hk). apply elem_of_list_fmap in Hk as (p & -> & Hp).
      assert (Hin : p ∈ dfilter visible i) by (by apply elem_of_filterb). rewrite E in Hin. inversion Hin.
    - left. assert (Hp : p ∈ dfilter visible i) by (rewrite E; left).
      apply elem_of_filterb in Hp as [Hp Hv]. exists (fst p). split; [done|]. apply elem_of_list_fmap. eauto.
  Qed.

  Theorem fcob_atomic fuel (t : tree) i a : shape t ->
    NoDup (ids t) -> (forall j, j ∈ ids t -> j <= am_ctr a) -> tsize t <= fuel ->
    shape (fo_tree (fcob C rng fuel tt t i a)) /\
    (isErr (fo_res (fcob C rng fuel tt t i a)) -> fo_tree (fcob C rng fuel tt t i a) = t).
  Proof.
    intros Hsh Hnd Hb Hsz. destruct fuel as [|fuel]; [pose proof (tsize_pos C t); lia|].
    destruct t as [id s kids]. destruct Hsh as [Hk|Hsh].
    { simpl in Hk. subst kids. cbn [fcob]. simpl.
      destruct (ns_exact s i || (ns_count s =? 0)%nat) eqn:Ex; simpl.
      { split; [by left|]. intros [e He]. done. }
      unfold ffringe, fnew_child. simpl. split; [|intros [e He]; done].
      apply orb_false_iff in Ex as [_ Hc]. apply Nat.eqb_neq in Hc.
      destruct (vis s) as [|p l] eqn:Ev.
      { right. right. eexists. split; [left|done]. }
      destruct (has_visible_dec i) as [Hi|Hi].
      - right. left.
        assert (Hs : VN s) by (split; [lia|by rewrite Ev]).
        constructor; [by apply VN_new|]. apply Forall_cons_2; [by constructor|].
        apply Forall_cons_2; [|apply Forall_nil_2]. constructor; [by apply VN_new|constructor].
      - right. right. eexists. split; [right; left|]. simpl.
        destruct (vis (ns_inc (NSum 0 []) i)) as [|q l'] eqn:Ev'; [done|]. exfalso. apply Hi.
        assert (Hv : vis (ns_inc (NSum 0 []) i) <> []) by (rewrite Ev'; done).
        apply vis_keys in Hv as (b & Hb' & Hkk). apply keys_inc in Hkk as [Hkk|Hkk]; [inversion Hkk|].
        by exists b. }
    destruct Hsh as [Hall|Hdead].
    - destruct (has_visible_dec i) as [Hi|Hi].
      + destruct (fcob_total C rng Hnz Hrng VN tt i (cobweb_scorable Hnz tt i Hi) (S fuel)
          (T id s kids) a (or_introl Hall) Hnd Hb Hsz) as ((j & Hj) & Ht).
        split; [right; by left|]. intros [e He]. congruence.
      + destruct kids as [|k0 ks].
        { cbn [fcob]. simpl.
          destruct (ns_exact s i || (ns_count s =? 0)%nat) eqn:Ex; simpl.
          { split; [by left|]. intros [e He]. done. }
          unfold ffringe, fnew_child. simpl. split; [|intros [e He]; done].
          right. right. eexists. split; [right; left|]. simpl.
          destruct (vis (ns_inc (NSum 0 []) i)) as [|q l'] eqn:Ev'; [done|]. exfalso. apply Hi.
          assert (Hv : vis (ns_inc (NSum 0 []) i) <> []) by (rewrite Ev'; done).
          apply vis_keys in Hv as (b & Hb' & Hkk). apply keys_inc in Hkk as [Hkk|Hkk]; [inversion Hkk|].
          by exists b. }
        cbn [fcob].
        destruct (two_best_children C rng tt s _ i a) as [[[[cu b1] b2]|e] a1]; [|split; [right; by left|done]].
        destruct (kfind b1 (k0 :: ks)) as [k1|]; [|split; [right; by left|done]].
        match goal with |- context [match ?o with Some _ => _ | None => FOut _ _ _ _ end] =>
          destruct o as [ok2|] end; [|split; [right; by left|done]].
        match goal with |- context [get_best_operation ?C0 ?r ?x0 ?s0 ?k ?i0 ?b ?o ?bk ?c ?al ?a0] =>
          destruct (best_op_err s0 k i b o bk c a0 Hi) as [e He];
          destruct (get_best_operation C0 r x0 s0 k i0 b o bk c al a0) as [r0 a2] end.
        simpl in He. subst r0. simpl. split; [right; by left|done].
    - destruct Hdead as (k & Hk & Hv). simpl in Hk. destruct kids as [|k0 ks]; [inversion Hk|].
      cbn [fcob].
      destruct (two_best_err s (tables (k0 :: ks)) i a (tid k, tsum k)) as [e He];
        [apply elem_of_list_fmap; eauto|done|].
      destruct (two_best_children _ _ _ _ _ _ _) as [r a1]. simpl in He. subst r.
      split; [|done]. right. right. by exists k.
  Qed.

  Theorem run_shape s evs s' t : run C rng tt s evs s' -> state_ok C s t -> shape t ->
    exists t', state_ok C s' t' /\ shape t'.
  Proof.
    intros Hrun Hok Hsh. induction Hrun as [s|s evs s1 e s2 Hrun IH Hst]; [eauto|].
    destruct (IH Hok) as (t1 & Hok1 & Hsh1).
    destruct Hst as [s1 i r s2 E|s1 i r s2 E|s1 ctr rpos H1 H2|s1 s2 E].
    - destruct (cobweb_runs C rng s1 t1 i Hok1) as (s3 & E2 & Hok2 & _).
      rewrite E in E2. injection E2 as _ <-. eexists. split; [exact Hok2|].
      unfold cob_out. destruct (st_ctx s1). apply fcob_atomic; [done|apply Hok1|apply Hok1|].
      pose proof (tsize_heap C _ _ _ (so_rep _ _ _ Hok1) (so_nodup _ _ _ Hok1)). unfold cob_fuel. lia.
    - pose proof (categorize_runs C rng s1 t1 i Hok1) as E2. cbv zeta in E2. rewrite E in E2.
      apply pair_equal_spec in E2 as [-> ->]. exists t1. split; [|done]. apply state_ok_amb; [done|].
      by pose proof (fcat_mono C rng (cob_fuel C s1) (st_ctx s1) t1 i (st_amb s1)) as [Hm _].
    - exists t1. split; [|done]. by apply state_ok_amb.
    - destruct (clear_runs C tt s1) as (s3 & E2 & Hok2 & _).
      rewrite E in E2. injection E2 as <-. eexists. split; [exact Hok2|]. by left.
  Qed.

  (** An ifit that raises leaves the tree as it was. *)
  Theorem raise_atomic evs s i e s' : reachable C rng tt evs s ->
    cobweb C rng i s = (Err e, s') -> same_view (C1:=C) (C2:=C) eq s s'.
  Proof.
    intros (ctr & rpos & Hrun) E.
    destruct (run_shape _ _ _ _ Hrun (fresh_ok C ctr rpos tt) (or_introl eq_refl)) as (t & Hok & Hsh).
    destruct (cobweb_runs C rng s t i Hok) as (s3 & E2 & Hok2 & _).
    rewrite E in E2. injection E2 as Er <-.
    eapply same_tree_view; [exact Hok|].
    enough (fo_tree (cob_out C rng s t i) = t) as <- by done.
    unfold cob_out in *. destruct (st_ctx s). apply fcob_atomic; [done|apply Hok|apply Hok| |by eexists].
    pose proof (tsize_heap C _ _ _ (so_rep _ _ _ Hok) (so_nodup _ _ _ Hok)). unfold cob_fuel. lia.
  Qed.
End Raise.
