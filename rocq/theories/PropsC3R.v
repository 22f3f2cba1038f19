(** * Properties of Cobweb3Tree in exact arithmetic. *)
From Coq Require Import Reals Lra.
From stdpp Require Import base decidable tactics gmap strings list.
From Verif Require Import Base Num TreeModel TreeFun TreeScore TreeRefine TreeSorts TreeInv
  SpecTree TreeState TreeTotal TreeRel TreeSim TreeLeaf TreeGen RSum Nominal NominalFacts
  PropsTotal CV CVFacts Cobweb3 C3Facts C3Scales C3R C3Tree C3Total Query3 PropsC3.
Local Notation sqrt := R_sqrt.sqrt.

(** The ContinuousValue holding exactly the numbers [xs]: their number, mean
    and sum of squared deviations from the mean. *)
Definition summary_of (xs : list R) : option (cval ROps) :=
  match xs with
  | [] => None
  | _ => let m := (Rsum (fun x => x) xs / INR (length xs))%R in
         Some (@CVal ROps (length xs) m (Rsum (fun x => (x - m) * (x - m))%R xs))
  end.

Lemma hist_summary tb l a : HistR tb l -> numeric_of tb a = summary_of (nums l a).
Proof.
  intros Hl. pose proof (hist_numeric summarises tb l a Hl) as H. unfold summary_of.
  destruct (nums l a); [done|]. destruct H as (c & -> & Hc). unfold summarises in Hc. by rewrite Hc.
Qed.

(** A visible attribute of [i] and the dict a leaf made of copies of [i] has
    for it. *)
Definition leaf_dict (v : val3 ROps) (n : nat) : list (nom * cell ROps) :=
  match v with
  | VNom v => [(v, Cnt n)]
  | VNum y => [(cv_key, CVc (@CVal ROps n y 0%R))]
  end.

Section Props.
  Context (rng : nat -> num ROps) (sc : option R) (inner : bool).
  Notation C := (Cobweb3Class ROps).
  Notation x0 := (@new_ctx ROps sc inner).
  Notation good := (good3 (N:=ROps)).

  Lemma reach_scales_ok evs s : reachable C rng x0 evs s -> scales_ok (st_ctx s).
  Proof.
    intros Hr. rewrite (reachable_ctx C rng x0 evs s Hr). apply (fold_scales_ok (history evs)), scales_ok_new.
  Qed.

  Lemma reach_hist evs s id tb : reachable C rng x0 evs s -> all_inst (C:=C) good evs ->
    in_tree s id -> table_of s id tb -> exists l, HistR tb l /\ forall i, i ∈ l -> i ∈ history evs.
  Proof.
    intros Hr Hg Hin Htb.
    destruct (reachable_from summarises eq summarises_laws rng x0 evs s Hr Hg) as (t & Hok & Hall).
    apply (in_tree_sub _ _ _ _ Hok) in Hin as (u & Hu & <-).
    rewrite (table_of_det _ _ _ _ _ Htb (sub_table _ _ _ _ Hok Hu)) in *.
    exact (tall_sub C (from summarises (history evs)) t u Hall Hu).
  Qed.

  (** ** C31 *)
  Theorem C31_root_summaries evs s :
    reachable C rng x0 evs s -> all_inst (C:=C) good evs -> all_ok evs ->
    exists tb, table_of s (st_root s) tb /\
      n3_count tb = length (history evs) /\
      (forall a v, count_of tb a v = occ3 (history evs) a v) /\
      (forall a, numeric_of tb a = summary_of (nums (history evs) a)).
  Proof.
    intros Hr Hg Hao.
    destruct (reachable_tinv C rng _ _ _ histR_laws x0 evs s Hr Hg Hao) as (t & Hok & Ht).
    exists (tsum t). rewrite (so_root _ _ _ Hok).
    split; [apply (sub_table _ _ _ _ Hok), sub_refl|].
    apply tinv_summ in Ht. split; [by destruct Ht|]. split.
    - intros a v. by eapply hist_count.
    - intros a. by apply hist_summary.
  Qed.

  Theorem C31_children_combine evs s p l :
    reachable C rng x0 evs s -> all_inst (C:=C) good evs -> all_ok evs ->
    in_tree s p -> children_of s p l -> l <> [] ->
    exists tb tbs, table_of s p tb /\ Forall2 (table_of s) l tbs /\
      n3_count tb = sumn (map n3_count tbs) /\
      (forall a v, count_of tb a v = sumn (map (fun c => count_of c a v) tbs)) /\
      forall a, exists xss : list (list R),
        Forall2 (fun c xs => numeric_of c a = summary_of xs) tbs xss /\
        numeric_of tb a = summary_of (concat xss).
  Proof.
    intros Hr Hg Hao Hin Hch Hne.
    destruct (reachable_tinv C rng _ _ _ histR_laws x0 evs s Hr Hg Hao) as (t & Hok & Ht).
    apply (in_tree_sub _ _ _ _ Hok) in Hin as (u & Hu & <-).
    destruct (tinv_sub C HistR LeafR good histR_laws t _ u Ht Hu) as (lu & Htu & _).
    rewrite (children_of_det _ _ _ _ _ Hch (sub_children _ _ _ _ Hok Hu)) in *. clear l Hch.
    destruct Htu as [id sm l Hs Hl|id sm kids ls l H2 HF _ Hp Hs]; [done|].
    exists sm, (map tsum kids).
    split; [exact (sub_table _ _ _ _ Hok Hu)|].
    split.
    { simpl. assert (Hk : forall k, k ∈ kids -> sub C k t).
      { intros k Hk. eapply sub_trans; [|exact Hu]. eapply sub_kid; [done|apply sub_refl]. }
      clear -Hk Hok. induction kids as [|k kids IH]; simpl; constructor.
      - apply (sub_table _ _ _ _ Hok). apply Hk. left.
      - apply IH. intros k' Hk'. apply Hk. by right. }
    split; [|split].
    - destruct Hs as (Hc & _). rewrite Hc. etransitivity; [apply (Permutation_length Hp)|]. clear -HF.
      induction HF as [|k lk kids ls Hk HF IH]; simpl; [done|].
      etransitivity; [apply app_length|]. f_equal; [|exact IH]. apply tinv_summ in Hk.
      symmetry. by destruct Hk.
    - intros a v. rewrite (hist_count summarises sm l a v Hs).
      etransitivity; [apply (occ3_perm _ _ a v Hp)|]. clear -HF.
      induction HF as [|k lk kids ls Hk HF IH]; simpl; [done|].
      etransitivity; [apply occ3_app|]. f_equal; [|exact IH]. apply tinv_summ in Hk.
      symmetry. by apply (hist_count summarises).
    - intros a. exists (map (fun l => nums l a) ls). split.
      + clear -HF. induction HF as [|k lk kids ls Hk HF IH]; simpl; constructor; [|done].
        apply tinv_summ in Hk. by apply hist_summary.
      + apply (Hist3_perm summarises eq summarises_laws sm l _ Hs) in Hp.
        rewrite (hist_summary sm _ a Hp). f_equal. clear.
        induction ls as [|l ls IH]; simpl; [done|]. transitivity (nums l a ++ nums (concat ls) a); [exact (nums_app (N:=ROps) l (concat ls) a)|].
        f_equal. exact IH.
  Qed.

  (** ** C35 *)
  (** The table of a leaf is that of copies of one instance, as far as visible
      attributes go.  Holds also after calls that raised. *)
  Theorem C35_leaves_pure evs s id tb :
    reachable C rng x0 evs s -> all_inst (C:=C) good evs ->
    is_leaf s id -> table_of s id tb ->
    forall a d, visible a = true -> dget a (n3_av tb) = Some d ->
      0 < n3_count tb /\ exists v, d = leaf_dict v (n3_count tb).
  Proof.
    intros Hr Hg Hl Htb a d Ha Hd.
    destruct (reachable_leaves C rng someR leafR good (some3_closed summarises eq summarises_laws)
      (some3_empty summarises) (leaf3_empty summarises eq) (leaf3_inc summarises eq summarises_laws)
      x0 evs s Hr Hg) as (t & Hok & _ & Hlo).
    apply (is_leaf_sub _ _ _ _ Hok) in Hl as (tb' & Hs).
    rewrite (table_of_det _ _ _ _ _ Htb (sub_table _ _ _ _ Hok Hs)) in *.
    destruct (leafR_single tb' a d (Hlo _ _ Hs) Ha Hd) as (v & -> & Hp). split; [done|].
    exists v. by destruct v.
  Qed.

  (** The instances behind a leaf: fitted instances that agree in every visible
      attribute. *)
  Theorem C35_leaf_instances evs s id tb :
    reachable C rng x0 evs s -> all_inst (C:=C) good evs -> all_ok evs ->
    is_leaf s id -> table_of s id tb ->
    exists l : list (inst3 ROps),
      (forall i, i ∈ l -> i ∈ history evs) /\ length l = n3_count tb /\
      (forall i j a, i ∈ l -> j ∈ l -> visible a = true -> dget a i = dget a j) /\
      (forall a v, count_of tb a v = occ3 l a v) /\
      (forall a, numeric_of tb a = summary_of (nums l a)).
  Proof.
    intros Hr Hg Hao Hl Htb.
    destruct (reachable_tinv C rng _ _ _ histR_laws x0 evs s Hr Hg Hao) as (t & Hok & Ht).
    apply (is_leaf_sub _ _ _ _ Hok) in Hl as (tb' & Hs).
    rewrite (table_of_det _ _ _ _ _ Htb (sub_table _ _ _ _ Hok Hs)) in *.
    destruct (tinv_sub C HistR LeafR good histR_laws t _ _ Ht Hs) as (lu & Htu & Hin & _).
    exists lu. split; [done|].
    assert (HH : HistR tb' lu /\ LeafR lu).
    { inversion Htu as [id' sm l Hsm Hlv|id' sm kids ls l H2 HF Hn Hp Hsm]; subst; [done|].
      exfalso. simpl in *. lia. }
    destruct HH as [HH Hv]. split; [symmetry; apply HH|]. split.
    - intros i j a Hi Hj Ha. specialize (Hv i j Hi Hj a Ha).
      destruct (dget a i) as [[v|y]|], (dget a j) as [[w|z]|]; simpl in Hv; try done; by subst.
    - split; [intros; by eapply hist_count|]. intros; by apply hist_summary.
  Qed.

  (** ** C65: what ifit returns, and that leaves stay. *)
  Theorem C65_returned_leaf evs s (i : inst3 ROps) j s' :
    reachable C rng x0 evs s -> all_inst (C:=C) good evs -> good i ->
    cobweb C rng i s = (Ok j, s') ->
    is_leaf s' j /\
    exists tb, table_of s' j tb /\ 0 < n3_count tb /\
      (forall a v, visible a = true -> dget a i = Some v ->
         dget a (n3_av tb) = Some (leaf_dict v (n3_count tb))) /\
      (forall a, visible a = true -> dget a i = None -> dget a (n3_av tb) = None).
  Proof.
    intros Hr Hg Hi E.
    destruct (returned_leaf C rng someR leafR good (some3_closed summarises eq summarises_laws)
      (some3_empty summarises) (leaf3_empty summarises eq) (leaf3_inc summarises eq summarises_laws)
      x0 evs s i j s' Hr Hg Hi E) as (Hl & tb0 & tb & Htb & Hinc & HP & HL & Hc).
    split; [done|]. exists tb. split; [done|].
    assert (Hlh : leafR tb).
    { eapply (leaf3_inc summarises eq summarises_laws); [exact Hi|exact Hinc|exact HP|exact HL|].
      destruct Hc as [?|(_ & _ & ?)]; auto. }
    destruct (leafR_inst tb0 tb i Hinc Hlh Hi HP) as (H1 & H2 & H3).
    split; [done|]. split; [|done]. intros a v Ha Hv. rewrite (H2 a v Ha Hv). by destruct v.
  Qed.

  (** The same leaf with more copies of its instance. *)
  Definition same_leaf (tb tb' : nsum3 ROps) : Prop :=
    n3_count tb <= n3_count tb' /\
    forall a, visible a = true ->
      match dget a (n3_av tb) with
      | None => dget a (n3_av tb') = None
      | Some d => exists v, d = leaf_dict v (n3_count tb) /\
          dget a (n3_av tb') = Some (leaf_dict v (n3_count tb'))
      end.

  Lemma same_leaf_trans a b c : same_leaf a b -> same_leaf b c -> same_leaf a c.
  Proof.
    intros [H1 H2] [H3 H4]. split; [lia|]. intros x Hx. specialize (H2 x Hx). specialize (H4 x Hx).
    destruct (dget x (n3_av a)) as [d|].
    - destruct H2 as (v & Hd & E). rewrite E in H4. destruct H4 as (w & E1 & E2). exists v. split; [done|].
      rewrite E2. f_equal. destruct v, w; simpl in *; congruence.
    - by rewrite H2 in H4.
  Qed.
  Lemma same_leaf_lists tb tb' l l' : HistR tb l -> HistR tb' l' -> LeafR l' -> l <> [] -> l ⊆ l' ->
    length l <= length l' -> same_leaf tb tb'.
  Proof.
    intros H1 H2 Hv Hne Hs Hlen. split.
    { destruct H1 as (-> & _), H2 as (-> & _). done. }
    intros a Ha. destruct l as [|i0 l0] eqn:El; [done|]. rewrite <- El in *.
    assert (Hi0 : i0 ∈ l) by (rewrite El; left).
    assert (Hne' : l' <> []) by (intros ->; specialize (Hs _ Hi0); inversion Hs).
    destruct (dget a i0) as [v|] eqn:E.
    - assert (Hall : forall i, i ∈ l' -> dget a i = Some v) by exact (leafR_agree l' a i0 v Hv Ha (Hs _ Hi0) E).
      rewrite (HistR_only tb l a v H1 Hne (fun i Hi => Hall i (Hs i Hi))).
      rewrite (HistR_only tb' l' a v H2 Hne' Hall).
      exists v. by destruct v.
    - assert (Hnone : forall i, i ∈ l' -> dget a i = None).
      { intros i Hi. destruct (dget a i) as [w|] eqn:Ei; [|done].
        rewrite (leafR_agree l' a i w Hv Ha Hi Ei i0 (Hs _ Hi0)) in E. done. }
      destruct (dget a (n3_av tb)) as [d|] eqn:Ed.
      { exfalso. apply dget_Some_key in Ed. apply (Hist3_key summarises tb l a H1) in Ed as (i & Hi & Hk).
        apply dget_key_Some in Hk as [w Hw]. rewrite (Hnone i (Hs i Hi)) in Hw. done. }
      apply dget_None. intros Ek. apply (Hist3_key summarises tb' l' a H2) in Ek as (i & Hi & Hk).
      apply dget_key_Some in Hk as [w Hw]. rewrite (Hnone i Hi) in Hw. done.
  Qed.

  Theorem C65_leaves_persist evs0 s evs s' id tb :
    reachable C rng x0 evs0 s -> run C rng x0 s evs s' ->
    all_inst (C:=C) good evs0 -> all_inst (C:=C) good evs ->
    Forall (fun e => e <> EClear) evs ->
    is_leaf s id -> table_of s id tb -> 0 < n3_count tb ->
    is_leaf s' id /\ exists tb', table_of s' id tb' /\ same_leaf tb tb'.
  Proof.
    intros Hr Hrun Hg0 Hg Hnc Hl Htb Hpos.
    destruct (reachable_leaves C rng someR leafR good (some3_closed summarises eq summarises_laws)
      (some3_empty summarises) (leaf3_empty summarises eq) (leaf3_inc summarises eq summarises_laws)
      x0 evs0 s Hr Hg0) as (t & Hok & Hall & Hlo).
    apply (is_leaf_sub _ _ _ _ Hok) in Hl as (tb1 & Hs).
    rewrite (table_of_det _ _ _ _ _ Htb (sub_table _ _ _ _ Hok Hs)) in *.
    pose (NE := fun s : nsum3 ROps => leafR s /\ 0 < n3_count s).
    assert (Hne : NE tb1) by (split; [exact (Hlo _ _ Hs)|done]).
    destruct (run_persist C rng someR good (some3_closed summarises eq summarises_laws)
      (fun a b => NE a -> same_leaf a b /\ NE b)) with
      (NE := NE) (x0 := x0) (s := s) (evs := evs) (s' := s') (t := t)
      (id := id) (tb := tb1) as (t' & tb' & Hok' & _ & Hs' & HR & _); try done.
    - intros a Ha. split; [|done]. destruct Ha as [(l & Hl & Hv) Hp].
      eapply same_leaf_lists; [exact Hl|exact Hl|exact Hv| |done|done].
      intros ->. destruct Hl as (Hc & _). simpl in Hc. lia.
    - intros a b c H1 H2 Ha. destruct (H1 Ha) as [H3 Hb]. destruct (H2 Hb) as [H4 Hc].
      split; [by eapply same_leaf_trans|done].
    - intros i a b Hgi HPa Ha E Hx.
      assert (Hb : NE b /\ same_leaf a b); [|split; [intros _; split; apply Hb|apply Hb]].
      destruct Ha as [(l & Hl & Hv) Hp]. destruct Hx as [Hx|Hx]; [|simpl in Hx; lia].
      destruct (Hist3_inc summarises eq summarises_laws a l i Hl Hgi) as (b' & E' & Hb).
      simpl in E. assert (b' = b) as -> by congruence.
      assert (Hvb : LeafR (i :: l)).
      { eapply (LeafV3_exact summarises eq summarises_laws); [exact Hl|exact Hv|exact Hgi|exact Hx]. }
      split.
      + split; [by exists (i :: l)|]. destruct Hb as (-> & _). simpl. lia.
      + eapply same_leaf_lists; [exact Hl|exact Hb|exact Hvb| |by intros k Hk; right|simpl; lia].
        intros ->. destruct Hl as (Hc & _). simpl in Hc. lia.
    - split; [apply (is_leaf_sub _ _ _ _ Hok'); eauto|].
      exists tb'. split; [exact (sub_table _ _ _ _ Hok' Hs')|]. apply HR, Hne.
  Qed.

  (** ** C32 *)
  Theorem C32_ecg_is_probability evs s id tb :
    reachable C rng x0 evs s -> all_inst (C:=C) good evs ->
    in_tree s id -> table_of s id tb -> (exists a, visible a = true /\ a ∈ dkeys (n3_av tb)) ->
    exists g : R, n3_ecg (st_ctx s) tb = Ok g /\ (0 < g <= 1)%R.
  Proof.
    intros Hr Hg Hin Htb (a & Ha & Hk).
    destruct (reach_hist evs s id tb Hr Hg Hin Htb) as (l & Hl & _).
    eapply ecg3_bounds; [by eapply reach_scales_ok|exact Hl| |].
    - intros ->. apply (Hist3_key summarises tb [] a Hl) in Hk as (i & Hi & _). inversion Hi.
    - apply (V3_vis tb). exists l. split; [done|].
      destruct (proj1 (Hist3_key summarises tb l a Hl) Hk) as (i & Hi & Hki). exists i. split; [done|]. by exists a.
  Qed.

  (** The score of any table that summarises instances, for any scales with
      non-negative sums of squares. *)
  Theorem C32_any_table (x : ctx3 ROps) (tb : nsum3 ROps) (l : list (inst3 ROps)) :
    (forall b c, dget b (x_scales x) = Some c -> (0 <= cv_msq c)%R) ->
    n3_count tb = length l ->
    dwf (n3_av tb) -> (forall a d, dget a (n3_av tb) = Some d -> dwf d /\ d <> []) ->
    (forall a v, count_of tb a v = occ3 l a v) -> (forall a, numeric_of tb a = summary_of (nums l a)) ->
    (forall a d v n, dget a (n3_av tb) = Some d -> dget v d = Some (Cnt n) -> 0 < n /\ v <> cv_key) ->
    (forall a d v c, dget a (n3_av tb) = Some d -> dget v d = Some (CVc c) -> v = cv_key) ->
    (exists i a, i ∈ l /\ visible a = true /\ a ∈ dkeys i) ->
    exists g : R, n3_ecg x tb = Ok g /\ (0 < g <= 1)%R.
  Proof.
    intros Hx Hc Hwf Hd Hcnt Hnum Hpos Hkey (i & a & Hi & Ha & Hk).
    assert (HH : HistR tb l).
    { split; [done|]. split; [done|]. split; [intros; by eapply Hd|]. intros b.
      assert (H0 : occ3 l b cv_key = 0).
      { rewrite <- Hcnt. unfold count_of. destruct (dget b (n3_av tb)) as [d|] eqn:E; [|done].
        destruct (dget cv_key d) as [[n|c]|] eqn:E2; [|done|done]. by destruct (Hpos _ _ _ _ E E2). }
      split; [|split; [done|split]].
      - destruct (dget b (n3_av tb)) eqn:E; simpl; [by eapply Hd|apply dwf_nil].
      - intros v Hv. rewrite <- Hcnt. unfold count_of. destruct (dget b (n3_av tb)) as [d|] eqn:E; simpl; [|done].
        destruct (dget v d) as [[n|c]|] eqn:E2; [|by destruct Hv; eapply Hkey|done].
        destruct (Hpos _ _ _ _ E E2) as [Hp _]. by rewrite decide_False by lia.
      - specialize (Hnum b). unfold numeric_of in Hnum. destruct (nums l b) as [|y ys].
        + destruct (dget b (n3_av tb)) as [d|] eqn:E; simpl; [|done].
          destruct (dget cv_key d) as [[n|c]|] eqn:E2; [|done|done].
          by destruct (Hpos _ _ _ _ E E2).
        + destruct (dget b (n3_av tb)) as [d|] eqn:E; simpl in *; [|done].
          destruct (dget cv_key d) as [[n|c]|] eqn:E2; [done| |done]. exists c. split; [done|]. by injection Hnum. }
    eapply ecg3_bounds; [done|exact HH| |].
    - intros ->. inversion Hi.
    - apply (V3_vis tb). exists l. split; [done|]. exists i. split; [done|]. by exists a.
  Qed.

  (** What a numeric attribute contributes: at most P(attr)^2. *)
  Theorem C32_numeric_share evs s id tb a c :
    reachable C rng x0 evs s -> all_inst (C:=C) good evs ->
    in_tree s id -> table_of s id tb -> numeric_of tb a = Some c ->
    exists g : R, ecg_value (st_ctx s) (n3_count tb) a (cv_key, CVc c) = Ok g /\
      (0 < g <= (INR (cv_num c) / INR (n3_count tb)) * (INR (cv_num c) / INR (n3_count tb)))%R.
  Proof.
    intros Hr Hg Hin Htb Hc.
    destruct (reach_hist evs s id tb Hr Hg Hin Htb) as (l & Hl & _).
    unfold numeric_of in Hc. destruct (dget a (n3_av tb)) as [d|] eqn:Ed; [|done].
    destruct (dget cv_key d) as [[n|c']|] eqn:Ec; [done| |done]. injection Hc as ->.
    apply dget_In in Ec.
    pose proof (HistR_weight_pos tb l a d _ Hl Ed Ec) as Hp.
    pose proof (HistR_weight tb l a d Hl Ed) as Hw.
    assert (Hle : (weight (CVc c) <= n3_count tb)%nat).
    { destruct Hl as (-> & _). etransitivity; [|exact Hw]. clear -Ec. induction d as [|q d IH]; [inversion Ec|].
      cbn [map sumn]. apply elem_of_cons in Ec as [<-|Ec]; [cbn [snd]; lia|]. specialize (IH Ec). lia. }
    simpl in Hp. exists (contrib (escale (st_ctx s) a) (n3_count tb) (CVc c)). split.
    - apply (ecg_value_ok (st_ctx s) (n3_count tb) a (cv_key, CVc c)); [by eapply reach_scales_ok|simpl in *; lia|].
      eapply HistR_fine; [exact Hl|exact Ed|exact Ec].
    - apply (contrib_range (escale (st_ctx s) a) (n3_count tb) (CVc c)). simpl in *. lia.
  Qed.

  (** ** C63: fitting never raises. *)
  Hypothesis Hd : distinct_draws rng.
  Theorem C63_fitting_never_raises evs s :
    reachable C rng x0 evs s -> all_inst (C:=C) (fits3 (N:=ROps)) evs ->
    Forall no_exn evs /\
    forall i, good i -> (exists a, visible a = true /\ a ∈ dkeys i) ->
      (exists j, fst (cobweb C rng i s) = Ok j) /\ (exists j, fst (cobweb_categorize C rng i s) = Ok j).
  Proof.
    intros Hr Hg. destruct counting_R as [Hnz Hzz].
    destruct (reachable_total C rng Hnz Hd scales_ok (fun _ => V3) fits3
      (fun x i Hx _ => scales_ok_update x i Hx) (fun x i Hx Hi => cobweb3_scorable x i Hx Hi)
      (fun x i s Hs => Hs) x0 evs s Hr Hg (scales_ok_new sc inner)) as (He & Hx & t & Hok & Hre).
    split; [done|]. intros i Hi Hv.
    exact (next_total C rng Hnz Hd scales_ok (fun _ => V3) fits3
      (fun x i Hx _ => scales_ok_update x i Hx) (fun x i Hx Hi => cobweb3_scorable x i Hx Hi)
      (fun x i s Hs => Hs) s t i (conj Hi Hv) Hx Hok Hre).
  Qed.
End Props.
