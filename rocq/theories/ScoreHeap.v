(** * Predicted category utility is the category utility after the operation.

    Works on the heap: an operation is really carried out with the code of
    [TreeModel.v] and category_utility is then evaluated on the changed
    objects. *)
From Coq Require Import Reals Lra.
From stdpp Require Import base decidable tactics gmap strings list.
From Verif Require Import Base Num TreeModel TreeFun TreeScore TreeRefine SpecTree SortFacts ScoreR.

Section Method.
  Context {N : NumOps} (C : NodeClass N).
  (** node.category_utility(), cobweb.py:404-445 *)
  Definition mcategory_utility (cur : nat) : M C (num N) :=
    mbind C (mget C cur) (fun n =>
    mbind C (mtables C (nd_children n)) (fun kids =>
    fun s => (category_utility C (st_ctx s) (nd_sum n) (map snd kids), s))).

  (** [cur] is an object with table [tb] whose children are the objects
      [map fst kids], with tables [map snd kids]. *)
  Definition node_view (s : st C) (cur : nat) (tb : nc_sum C) (kids : list (nat * nc_sum C)) : Prop :=
    table_of s cur tb /\ children_of s cur (map fst kids) /\
    Forall (fun c => table_of s (fst c) (snd c)) kids.

  Lemma mtables_view s kids : Forall (fun c => table_of (C:=C) s (fst c) (snd c)) kids ->
    mtables C (map fst kids) s = (Ok kids, s).
  Proof.
    induction kids as [|[c t] kids IH]; intros HF; simpl; [done|].
    apply Forall_cons in HF as [(n & Hn & Ht) HF]. simpl in *.
    rewrite (mbind_ok C _ _ _ _ _ (mget_ok C c s n Hn)).
    rewrite (mbind_ok C _ _ _ _ _ (IH HF)). unfold mret. by rewrite Ht.
  Qed.

  Lemma view_cu s cur tb kids : node_view s cur tb kids ->
    mcategory_utility cur s = (category_utility C (st_ctx s) tb (map snd kids), s).
  Proof.
    intros ((n & Hn & <-) & (n' & Hn' & Hc) & HF). rewrite Hn in Hn'. injection Hn' as <-.
    unfold mcategory_utility. rewrite (mbind_ok C _ _ _ _ _ (mget_ok C cur s n Hn)).
    rewrite Hc. by rewrite (mbind_ok C _ _ _ _ _ (mtables_view s kids HF)).
  Qed.

  (** [kids] are distinct objects different from [cur], and their ids were
      already handed out. *)
  Record local_ok (s : st C) (cur : nat) (kids : list (nat * nc_sum C)) : Prop := {
    lo_nodup : NoDup (map fst kids);
    lo_self : cur ∉ map fst kids;
    lo_bound : forall id, id = cur \/ id ∈ map fst kids -> id <= am_ctr (st_amb s);
  }.
End Method.
Global Arguments node_view {N C}. Global Arguments local_ok {N C}.

Section Predict.
  Context (C : NodeClass ROps).
  Notation S' := (nc_sum C).
  Notation I := (nc_inst C).
  Notation copies := (copies C).

  Lemma tinc_ok (s s' : S') (i : I) : tinc C s i = Ok s' -> nc_inc C s i = (s', None).
  Proof. unfold tinc. destruct (nc_inc C s i) as [? []]; [done|]. by intros [= ->]. Qed.
  Lemma tadd_ok (s s' o : S') : tadd C s o = Ok s' -> nc_add C s o = (s', None).
  Proof. unfold tadd. destruct (nc_add C s o) as [? []]; [done|]. by intros [= ->]. Qed.

  Lemma mincrement_ok (s : st C) id i tb tb' n :
    st_heap s !! id = Some n -> nd_sum n = tb -> tinc C tb i = Ok tb' ->
    mincrement C id i s =
      (Ok tt, St (<[id := with_sum C tb' n]> (st_heap s)) (st_root s) (st_amb s) (st_ctx s)).
  Proof.
    intros Hn Ht Hi. rewrite (mincrement_spec C id i s n Hn). rewrite Ht.
    apply tinc_ok in Hi. by rewrite Hi.
  Qed.

  Lemma mupdate_ok (s : st C) id o tb tbo tb' n no :
    st_heap s !! id = Some n -> nd_sum n = tb -> st_heap s !! o = Some no -> nd_sum no = tbo ->
    tadd C tb tbo = Ok tb' ->
    mupdate_from C id o s =
      (Ok tt, St (<[id := with_sum C tb' n]> (st_heap s)) (st_root s) (st_amb s) (st_ctx s)).
  Proof.
    intros Hn Ht Hno Hto Ha. rewrite (mupdate_from_spec C id o s n no Hn Hno). rewrite Ht, Hto.
    apply tadd_ok in Ha. by rewrite Ha.
  Qed.

  Lemma copies_map {A} (f : A -> S') l : Forall (fun c => copies (f c)) l ->
    rmapM (fun c => tcopy C (f c)) l = Ok (map f l).
  Proof.
    intros HF. apply rmapM_ok. induction HF; simpl; constructor; done.
  Qed.

  Section At.
    Context (s : st C) (cur : nat) (tb : S') (kids : list (nat * S')) (i : I).
    Hypothesis Hv : node_view s cur tb kids.
    Hypothesis Hl : local_ok s cur kids.
    Hypothesis Hcp : copies tb.
    Hypothesis Hck : Forall (fun c => copies (snd c)) kids.
    Notation x := (st_ctx s).

    Lemma kid_ne c t : (c, t) ∈ kids -> c <> cur.
    Proof. intros Hc ->. apply (lo_self _ _ _ _ Hl). apply elem_of_list_fmap. by exists (cur, t). Qed.
    Lemma fst_in c t : (c, t) ∈ kids -> c ∈ map fst kids.
    Proof. intros Hc. apply elem_of_list_fmap. by exists (c, t). Qed.
    Lemma kid_copies c t : (c, t) ∈ kids -> copies t.
    Proof. intros Hc. rewrite Forall_forall in Hck. exact (Hck _ Hc). Qed.
    Lemma kid_table c t : (c, t) ∈ kids -> table_of s c t.
    Proof. intros Hc. destruct Hv as (_ & _ & HF). rewrite Forall_forall in HF. exact (HF _ Hc). Qed.

    Lemma new_not_in id : am_ctr (st_amb s) < id -> id <> cur /\ id ∉ map fst kids.
    Proof.
      intros Hid. pose proof (lo_bound _ _ _ _ Hl id) as Hb. split.
      - intros ->. specialize (Hb (or_introl eq_refl)). lia.
      - intros Hin. specialize (Hb (or_intror Hin)). lia.
    Qed.

    (** Add to the best child: the concept and the child are incremented. *)
    Theorem insert_predicted b tbb u : (b, tbb) ∈ kids ->
      cu_for_insert C x tb kids b i = Ok u ->
      exists s', mbind C (mincrement C cur i) (fun _ => mincrement C b i) s = (Ok tt, s') /\
        fst (mcategory_utility C cur s') = Ok u.
    Proof.
      intros Hb E. destruct Hv as ((n & Hn & Htb) & (n' & Hn' & Hch) & HF).
      rewrite Hn in Hn'. injection Hn' as <-.
      pose proof (kid_copies _ _ Hb) as Hcb.
      unfold cu_for_insert in E. rewrite Hcp in E. simpl in E.
      destruct (tinc C tb i) as [t1|] eqn:Et1; simpl in E; [|done].
      assert (Hbi : exists tb1, tinc C tbb i = Ok tb1).
      { destruct (rmapM _ kids) as [l|] eqn:Er; [|done]. apply rmapM_ok in Er.
        pose proof Hb as Hb'. apply elem_of_list_lookup in Hb' as (j & Hj).
        destruct (Forall2_lookup_l _ _ _ _ _ Er Hj) as (t & _ & Ht).
        cbn [fst snd] in Ht. rewrite Hcb in Ht. cbn [rbind] in Ht.
        rewrite decide_True in Ht by done. eauto. }
      destruct Hbi as [tb1 Hbi].
      destruct (insert_map C kids b i tbb tb1 Hck (lo_nodup _ _ _ _ Hl) Hb Hbi)
        as (l1 & l2 & Hk & Em). rewrite Em in E. simpl in E.
      destruct (kid_table _ _ Hb) as (nb & Hnb & Htbb).
      pose proof (kid_ne _ _ Hb) as Hne.
      eexists. split.
      { rewrite (mbind_ok C _ _ _ _ _ (mincrement_ok s cur i tb t1 n Hn Htb Et1)).
        apply (mincrement_ok _ b i tbb tb1 nb); [|done|done]. simpl.
        by rewrite lookup_insert_ne. }
      erewrite view_cu.
      2:{ instantiate (1 := l1 ++ (b, tb1) :: l2). instantiate (1 := t1). split; [|split].
          - eexists. simpl. rewrite lookup_insert_ne by done. rewrite lookup_insert. done.
          - eexists. simpl. rewrite lookup_insert_ne by done. rewrite lookup_insert.
            split; [done|]. simpl. rewrite Hch, Hk, !map_app. done.
          - pose proof (lo_nodup _ _ _ _ Hl) as Hnd. pose proof (lo_self _ _ _ _ Hl) as Hsf.
            rewrite Hk, map_app in Hnd, Hsf. simpl in Hnd, Hsf.
            apply NoDup_app in Hnd as (_ & Hd1 & Hnd2). apply NoDup_cons in Hnd2 as [Hd2 _].
            rewrite not_elem_of_app, not_elem_of_cons in Hsf. destruct Hsf as (Hs1 & _ & Hs2).
            rewrite Hk in HF. apply Forall_app in HF as [HF1 HF2]. apply Forall_cons in HF2 as [_ HF2].
            assert (Hoth : forall l, b ∉ map fst l -> cur ∉ map fst l ->
              Forall (fun c => table_of s (fst c) (snd c)) l ->
              Forall (fun c : nat * S' => table_of (C:=C)
                (St (<[b:=with_sum C tb1 nb]> (<[cur:=with_sum C t1 n]> (st_heap s)))
                    (st_root s) (st_amb s) (st_ctx s)) (fst c) (snd c)) l).
            { intros l Hbl Hcl. rewrite !Forall_forall. intros Ho c Hc.
              destruct (Ho c Hc) as (nc & Hnc & Htc). exists nc. split; [|done]. simpl.
              assert (fst c ∈ map fst l) by (apply elem_of_list_fmap; eauto).
              rewrite !lookup_insert_ne; [done| |]; intros ->; done. }
            apply Forall_app. split; [|apply Forall_cons; split]; [apply Hoth|simpl|apply Hoth]; try done.
            + intros Hin. apply (Hd1 b Hin). left.
            + eexists. simpl. rewrite lookup_insert. done. }
      simpl. by rewrite map_app.
    Qed.

    (** A new child. *)
    Theorem new_predicted u :
      cu_for_new_child C x tb (map snd kids) i = Ok u ->
      exists id s', mbind C (mincrement C cur i) (fun _ => mcreate_new_child C cur i) s = (Ok id, s') /\
        fst (mcategory_utility C cur s') = Ok u.
    Proof.
      intros E. destruct Hv as ((n & Hn & Htb) & (n' & Hn' & Hch) & HF).
      rewrite Hn in Hn'. injection Hn' as <-.
      unfold cu_for_new_child in E. rewrite Hcp in E. cbn [rbind] in E.
      assert (Hm : rmapM (tcopy C) (map snd kids) = Ok (map snd kids)).
      { etransitivity; [apply (copies_map (fun t => t)); by apply Forall_fmap|]. by rewrite map_id. }
      rewrite Hm in E. cbn [rbind] in E.
      destruct (tinc C tb i) as [t1|] eqn:Et1; cbn [rbind] in E; [|done].
      destruct (tinc C (nc_empty C) i) as [e1|] eqn:Ee1; cbn [rbind] in E; [|done].
      set (new := S (am_ctr (st_amb s))).
      destruct (new_not_in new) as [Hnc Hnk]; [lia|].
      set (h1 := <[cur := with_sum C t1 n]> (st_heap s)).
      set (h2 := <[new := with_sum C e1 (Node (nc_empty C) (Some cur) [])]>
                   (<[new := Node (nc_empty C) (Some cur) []]> h1)).
      assert (H2c : h2 !! cur = Some (with_sum C t1 n)).
      { unfold h2, h1. rewrite !lookup_insert_ne by done. by rewrite lookup_insert. }
      eexists new, (St (<[cur := with_children C (nd_children n ++ [new]) (with_sum C t1 n)]> h2)
        (st_root s) (Amb new (am_rpos (st_amb s))) x).
      split.
      { rewrite (mbind_ok C _ _ _ _ _ (mincrement_ok s cur i tb t1 n Hn Htb Et1)).
        unfold mcreate_new_child, mbind at 1. cbn [mgensym st_amb]. fold new h1.
        unfold mbind at 1. cbn [mput st_heap st_root st_amb st_ctx].
        erewrite mbind_ok; [|eapply (mincrement_ok _ new i (nc_empty C) e1
          (Node (nc_empty C) (Some cur) [])); [simpl; by rewrite lookup_insert|done|done]].
        cbn [st_heap st_root st_amb st_ctx]. fold h2.
        erewrite mbind_ok; [|apply mget_ok; exact H2c]. done. }
      erewrite view_cu.
      2:{ instantiate (1 := kids ++ [(new, e1)]). instantiate (1 := t1). split; [|split].
          - eexists. simpl. rewrite lookup_insert. done.
          - eexists. simpl. rewrite lookup_insert. split; [done|]. simpl. by rewrite Hch, map_app.
          - apply Forall_app. split.
            + rewrite Forall_forall in *. intros c Hc. destruct (HF c Hc) as (nc & Hnc' & Htc).
              exists nc. split; [|done]. cbn [st_heap].
              assert (fst c ∈ map fst kids) by (apply elem_of_list_fmap; eauto).
              pose proof (lo_self _ _ _ _ Hl).
              unfold h2, h1. rewrite !lookup_insert_ne; [done| | | |]; intros ->; done.
            + apply Forall_singleton. eexists. cbn [st_heap fst snd]. unfold h2.
              rewrite lookup_insert_ne by done. rewrite lookup_insert. done. }
      cbn [st_ctx fst]. by rewrite map_app.
    Qed.

    Lemma remove1_filter b (l : list (nat * S')) : NoDup (map fst l) ->
      remove1 b (map fst l) = map fst (List.filter (fun c => negb (bool_decide (fst c = b))) l).
    Proof.
      induction l as [|[c t] l IH]; [done|]. cbn [map fst remove1 List.filter].
      intros [Hc Hnd]%NoDup_cons. destruct (decide (b = c)) as [->|Hne].
      - rewrite bool_decide_eq_true_2 by done. cbn [negb].
        clear IH Hnd. induction l as [|[c' t'] l IH]; [done|]. cbn [map fst List.filter] in *.
        rewrite not_elem_of_cons in Hc. destruct Hc as [Hne Hc].
        rewrite bool_decide_eq_false_2 by done. cbn [negb map fst]. f_equal. auto.
      - rewrite bool_decide_eq_false_2 by done. cbn [negb map fst]. f_equal. auto.
    Qed.

    Lemma filter_filter {A} (f g : A -> bool) l :
      List.filter g (List.filter f l) = List.filter (fun a => f a && g a) l.
    Proof.
      induction l as [|a l IH]; simpl; [done|]. destruct (f a); simpl; [|done].
      destruct (g a); by rewrite IH.
    Qed.

    Lemma nodup_filter (f : nat * S' -> bool) (l : list (nat * S')) :
      NoDup (map fst l) -> NoDup (map fst (List.filter f l)).
    Proof.
      induction l as [|c l IH]; simpl; [done|]. intros [Hc Hnd]%NoDup_cons.
      destruct (f c); simpl; [|auto]. apply NoDup_cons. split; [|auto].
      intros Hin. apply Hc. apply elem_of_list_fmap in Hin as (c' & -> & Hin).
      apply elem_of_filterb in Hin as [Hin _]. apply elem_of_list_fmap. eauto.
    Qed.

    (** Merge the two best children and add to the merged one. *)
    Theorem merge_predicted b1 b2 tb1 tb2 u : (b1, tb1) ∈ kids -> (b2, tb2) ∈ kids -> b1 <> b2 ->
      cu_for_merge C x tb kids (b1, tb1) (b2, tb2) i = Ok u ->
      exists m s1 s', mbind C (mincrement C cur i) (fun _ => mmerge C cur b1 b2) s = (Ok m, s1) /\
        mincrement C m i s1 = (Ok tt, s') /\
        fst (mcategory_utility C cur s') = Ok u.
    Proof.
      intros Hb1 Hb2 Hne12 E. destruct Hv as ((n & Hn & Htb) & (n' & Hn' & Hch) & HF).
      rewrite Hn in Hn'. injection Hn' as <-.
      pose proof (kid_copies _ _ Hb1) as Hcb1.
      unfold cu_for_merge in E. rewrite Hcp in E. cbn [rbind fst snd] in E.
      destruct (tinc C tb i) as [t1|] eqn:Et1; cbn [rbind] in E; [|done].
      change (tadd C (nc_empty C) tb1) with (tcopy C tb1) in E. rewrite Hcb1 in E. cbn [rbind] in E.
      destruct (tadd C tb1 tb2) as [m2|] eqn:Em2; cbn [rbind] in E; [|done].
      destruct (tinc C m2 i) as [m3|] eqn:Em3; cbn [rbind] in E; [|done].
      set (rest := List.filter (fun c => negb (bool_decide (fst c = b1)) &&
                                         negb (bool_decide (fst c = b2))) kids) in *.
      assert (Hrest : forall c, c ∈ rest -> c ∈ kids /\ fst c <> b1 /\ fst c <> b2).
      { intros c. unfold rest. rewrite elem_of_filterb, andb_true_iff, !negb_true_iff,
          !bool_decide_eq_false. done. }
      rewrite (copies_map snd rest) in E.
      2:{ rewrite Forall_forall in *. intros c Hc. apply Hrest in Hc as (Hc & _). by apply Hck. }
      cbn [rbind] in E.
      set (new := S (am_ctr (st_amb s))).
      destruct (new_not_in new) as [Hnc Hnk]; [lia|].
      assert (Hn1 : new <> b1) by (intros Heq; apply Hnk; rewrite Heq; by eapply fst_in).
      assert (Hn2 : new <> b2) by (intros Heq; apply Hnk; rewrite Heq; by eapply fst_in).
      destruct (kid_table _ _ Hb1) as (nb1 & Hnb1 & Ht1).
      destruct (kid_table _ _ Hb2) as (nb2 & Hnb2 & Ht2).
      pose proof (kid_ne _ _ Hb1) as Hne1. pose proof (kid_ne _ _ Hb2) as Hne2.
      set (h1 := <[cur := with_sum C t1 n]> (st_heap s)).
      set (e := Node (nc_empty C) (Some cur) [] : node C).
      set (h2 := <[new := e]> h1).
      set (h3 := <[new := with_sum C tb1 e]> h2).
      set (h4 := <[new := with_sum C m2 (with_sum C tb1 e)]> h3).
      set (h5 := <[b1 := with_parent C (Some new) nb1]> h4).
      set (h6 := <[b2 := with_parent C (Some new) nb2]> h5).
      set (nn := with_children C [b1; b2] (with_sum C m2 (with_sum C tb1 e))).
      set (h7 := <[new := nn]> h6).
      set (nc := with_children C (remove1 b2 (remove1 b1 (nd_children n)) ++ [new]) (with_sum C t1 n)).
      set (h8 := <[cur := nc]> h7).
      set (a' := Amb new (am_rpos (st_amb s))).
      exists new, (St h8 (st_root s) a' x), (St (<[new := with_sum C m3 nn]> h8) (st_root s) a' x).
      split; [|split].
      { rewrite (mbind_ok C _ _ _ _ _ (mincrement_ok s cur i tb t1 n Hn Htb Et1)).
        unfold mmerge, mbind at 1. cbn [mgensym st_amb]. fold new h1 a'.
        erewrite mbind_ok; [|reflexivity]. cbn [st_heap st_root st_amb st_ctx]. fold e h2.
        erewrite mbind_ok.
        2:{ apply (mupdate_ok _ new b1 (nc_empty C) tb1 tb1 e nb1); [..|done|exact Hcb1];
            [by simpl; unfold h2; rewrite lookup_insert|done|].
            simpl; unfold h2, h1. by rewrite !lookup_insert_ne. }
        cbn [st_heap st_root st_amb st_ctx]. fold h3.
        erewrite mbind_ok.
        2:{ apply (mupdate_ok _ new b2 tb1 tb2 m2 (with_sum C tb1 e) nb2); [..|done|exact Em2];
            [by simpl; unfold h3; rewrite lookup_insert|done|].
            simpl; unfold h3, h2, h1. by rewrite !lookup_insert_ne. }
        cbn [st_heap st_root st_amb st_ctx]. fold h4.
        erewrite mbind_ok; [|apply (mget_ok C b1 _ nb1); simpl; unfold h4, h3, h2, h1;
          by rewrite !lookup_insert_ne].
        erewrite mbind_ok; [|reflexivity]. cbn [st_heap st_root st_amb st_ctx]. fold h5.
        erewrite mbind_ok; [|apply (mget_ok C b2 _ nb2); simpl; unfold h5, h4, h3, h2, h1;
          by rewrite !lookup_insert_ne].
        erewrite mbind_ok; [|reflexivity]. cbn [st_heap st_root st_amb st_ctx]. fold h6.
        erewrite mbind_ok; [|apply (mget_ok C new _ (with_sum C m2 (with_sum C tb1 e)));
          simpl; unfold h6, h5, h4; rewrite !lookup_insert_ne by done; by rewrite lookup_insert].
        erewrite mbind_ok; [|reflexivity]. cbn [st_heap st_root st_amb st_ctx]. fold h7.
        erewrite mbind_ok; [|apply (mget_ok C cur _ (with_sum C t1 n));
          simpl; unfold h7, h6, h5, h4, h3, h2, h1; rewrite !lookup_insert_ne by done;
          by rewrite lookup_insert].
        done. }
      { apply (mincrement_ok (St h8 (st_root s) a' x) new i m2 m3 nn); [|done|done]. simpl. unfold h8. rewrite lookup_insert_ne by done.
        unfold h7. by rewrite lookup_insert. }
      erewrite view_cu.
      2:{ instantiate (1 := rest ++ [(new, m3)]). instantiate (1 := t1). split; [|split].
          - exists nc. simpl. rewrite lookup_insert_ne by done. unfold h8. rewrite lookup_insert. done.
          - exists nc. simpl. rewrite lookup_insert_ne by done. unfold h8. rewrite lookup_insert.
            split; [done|]. unfold nc. simpl. rewrite Hch, map_app. simpl. f_equal.
            rewrite remove1_filter by apply (lo_nodup _ _ _ _ Hl).
            rewrite remove1_filter by (apply nodup_filter, (lo_nodup _ _ _ _ Hl)).
            by rewrite filter_filter.
          - apply Forall_app. split.
            + rewrite Forall_forall in *. intros c Hc. apply Hrest in Hc as (Hc & Hc1 & Hc2).
              destruct (HF c Hc) as (ndc & Hnc' & Htc).
              exists ndc. split; [|done]. cbn [st_heap].
              assert (fst c ∈ map fst kids) by (apply elem_of_list_fmap; eauto).
              pose proof (lo_self _ _ _ _ Hl).
              assert (new <> fst c) by (intros Heq; by rewrite Heq in Hnk).
              assert (cur <> fst c) by (intros Heq; by subst cur).
              unfold h8, h7, h6, h5, h4, h3, h2, h1. rewrite !lookup_insert_ne; done.
            + apply Forall_singleton. eexists. cbn [st_heap fst snd].
              rewrite lookup_insert. done. }
      cbn [st_ctx fst]. eapply (cu_perm C x t1); [|exact E].
      rewrite map_app. simpl. apply Permutation_cons_append.
    Qed.

    (** Split the best child. *)
    Lemma mreparent_tables q l : forall h r a y,
      (forall c, c ∈ l -> exists n, (h : gmap nat (node C)) !! c = Some n) ->
      exists h', mreparent C q l (St h r a y) = (Ok tt, St h' r a y) /\
        forall id n, h !! id = Some n -> exists n', h' !! id = Some n' /\
          nd_sum n' = nd_sum n /\ nd_children n' = nd_children n.
    Proof.
      induction l as [|c l IH]; intros h r a y Hal; simpl.
      { exists h. split; [done|]. eauto. }
      destruct (Hal c) as [nc Hnc]; [left|].
      erewrite mbind_ok; [|apply (mget_ok C c _ nc); done].
      erewrite mbind_ok; [|reflexivity]. cbn [st_heap st_root st_amb st_ctx].
      destruct (IH (<[c := with_parent C (Some q) nc]> h) r a y) as (h' & E & Hh').
      { intros c' Hc'. destruct (decide (c = c')) as [->|Hne].
        - rewrite lookup_insert. eauto.
        - rewrite lookup_insert_ne by done. apply Hal. by right. }
      exists h'. split; [done|]. intros id n0 Hn0. destruct (decide (c = id)) as [->|Hne].
      - rewrite Hnc in Hn0. injection Hn0 as <-.
        destruct (Hh' id (with_parent C (Some q) nc)) as (n' & H1 & H2 & H3); [by rewrite lookup_insert|].
        exists n'. split; [done|]. by rewrite H2, H3.
      - apply Hh'. by rewrite lookup_insert_ne.
    Qed.

    Theorem split_predicted b tbb bkids u : (b, tbb) ∈ kids ->
      node_view s b tbb bkids -> Forall (fun c => copies (snd c)) bkids ->
      b ∉ map fst bkids ->  cur ∉ map fst bkids ->
      cu_for_split C x tb kids b bkids = Ok u ->
      exists s', msplit C cur b s = (Ok tt, s') /\ fst (mcategory_utility C cur s') = Ok u.
    Proof.
      intros Hb Hvb Hcb Hbb Hcurb E. destruct Hv as ((n & Hn & Htb) & (n' & Hn' & Hch) & HF).
      rewrite Hn in Hn'. injection Hn' as <-.
      destruct Hvb as ((nb & Hnb & Htbb) & (n' & Hn' & Hchb) & HFb).
      rewrite Hnb in Hn'. injection Hn' as <-.
      unfold cu_for_split in E. rewrite Hcp in E. cbn [rbind] in E.
      rewrite (copies_map snd) in E.
      2:{ rewrite Forall_forall in *. intros c Hc. apply elem_of_filterb in Hc as [Hc _].
          apply elem_of_app in Hc as [Hc|Hc]; [by apply Hck|by apply Hcb]. }
      cbn [rbind] in E. rewrite List.filter_app in E.
      assert (Hfb : List.filter (fun c : nat * S' => negb (bool_decide (fst c = b))) bkids = bkids).
      { clear -Hbb. induction bkids as [|c l IH]; [done|]. cbn [map fst List.filter] in *.
        rewrite not_elem_of_cons in Hbb. destruct Hbb as [H1 H2].
        rewrite bool_decide_eq_false_2 by done. cbn [negb]. f_equal. auto. }
      rewrite Hfb in E.
      pose proof (kid_ne _ _ Hb) as Hne.
      set (h1 := <[cur := with_children C (remove1 b (nd_children n)) n]> (st_heap s)).
      destruct (mreparent_tables cur (map fst bkids) h1 (st_root s) (st_amb s) x) as (h2 & E2 & Hh2).
      { intros c Hc. apply elem_of_list_fmap in Hc as (c' & -> & Hc).
        rewrite Forall_forall in HFb. destruct (HFb _ Hc) as (nc & Hnc & _). exists nc.
        unfold h1. rewrite lookup_insert_ne; [done|]. intros ->. apply Hcurb.
        apply elem_of_list_fmap. eauto. }
      destruct (Hh2 cur _ (lookup_insert _ _ _)) as (nc & Hnc & Hnc1 & Hnc2). simpl in Hnc1, Hnc2.
      eexists. split.
      { unfold msplit. erewrite mbind_ok; [|apply (mget_ok C cur s n Hn)].
        erewrite mbind_ok; [|reflexivity]. fold h1.
        erewrite mbind_ok; [|apply (mget_ok C b _ nb); simpl; unfold h1; by rewrite lookup_insert_ne].
        rewrite Hchb. erewrite mbind_ok; [|exact E2].
        erewrite mbind_ok; [|apply (mget_ok C cur _ nc); exact Hnc]. reflexivity. }
      erewrite view_cu.
      2:{ instantiate (1 := List.filter (fun c : nat * S' => negb (bool_decide (fst c = b))) kids ++ bkids).
          instantiate (1 := tb). split; [|split].
          - eexists. simpl. rewrite lookup_insert. split; [done|]. simpl. congruence.
          - eexists. simpl. rewrite lookup_insert. split; [done|]. simpl. rewrite Hnc2, Hch, map_app.
            f_equal. rewrite remove1_filter by apply (lo_nodup _ _ _ _ Hl). done.
          - assert (Hgen : forall c, table_of s (fst c) (snd c) -> fst c <> cur ->
              table_of (C:=C) (St (<[cur:=with_children C (nd_children nc ++ map fst bkids) nc]> h2)
                (st_root s) (st_amb s) x) (fst c) (snd c)).
            { intros c (ndc & Hc1 & Hc2) Hc3. destruct (Hh2 (fst c) ndc) as (n' & Hn1 & Hn2 & _).
              { unfold h1. by rewrite lookup_insert_ne. }
              exists n'. cbn [st_heap]. rewrite lookup_insert_ne by done. split; [done|congruence]. }
            apply Forall_app. split; rewrite Forall_forall in *.
            + intros c Hc. apply elem_of_filterb in Hc as [Hc _].
              apply Hgen; [by apply HF|]. intros Heq. apply (lo_self _ _ _ _ Hl). rewrite <- Heq.
              apply elem_of_list_fmap. eauto.
            + intros c Hc. apply Hgen; [by apply HFb|]. intros Heq. apply Hcurb. rewrite <- Heq.
              apply elem_of_list_fmap. eauto. }
      cbn [st_ctx fst]. exact E.
    Qed.
  End At.

  (** Fringe split: the new concept above the old leaf. *)
  Theorem fringe_predicted (s : st C) cur tb i u :
    table_of s cur tb -> copies tb -> (0 < nc_count C tb)%nat ->
    cur <= am_ctr (st_amb s) ->
    (forall p, parent_of s cur (Some p) ->
       p <> cur /\ p <= am_ctr (st_amb s) /\ exists np, st_heap s !! p = Some np) ->
    cu_for_fringe_split C (st_ctx s) tb i = Ok u ->
    exists leaf p s', mfringe_split C cur i s = (Ok leaf, s') /\ children_of s' p [cur; leaf] /\
      fst (mcategory_utility C p s') = Ok u.
  Proof.
    intros (n & Hn & Htb) Hcp Hpos Hfr Hpar E.
    unfold cu_for_fringe_split in E. rewrite Hcp in E. cbn [rbind] in E.
    rewrite decide_True in E by done. rewrite Hcp in E. cbn [rbind] in E.
    destruct (tinc C tb i) as [t1|] eqn:Et1; cbn [rbind] in E; [|done].
    destruct (tinc C (nc_empty C) i) as [e1|] eqn:Ee1; cbn [rbind] in E; [|done].
    set (new := S (am_ctr (st_amb s))). set (leaf := S new).
    assert (Hnc : new <> cur) by lia.
    assert (Hlc : leaf <> cur) by lia.
    assert (Hln : leaf <> new) by (unfold leaf; lia).
    set (e := Node (nc_empty C) (nd_parent n) [] : node C).
    set (h1 := <[new := e]> (st_heap s)).
    set (h2 := <[new := with_sum C tb e]> h1).
    set (h3 := <[cur := with_parent C (Some new) n]> h2).
    set (nn := with_children C [cur] (with_sum C tb e)).
    set (h4 := <[new := nn]> h3).
    set (a1 := Amb new (am_rpos (st_amb s))).
    (* the parent link or the root is redirected *)
    assert (Hlink : exists h5 r5,
      (match nd_parent n with
       | Some p => mbind C (mget C p) (fun np =>
           mput C p (with_children C (remove1 cur (nd_children np) ++ [new]) np))
       | None => mset_root C new
       end) (St h4 (st_root s) a1 (st_ctx s)) = (Ok tt, St h5 r5 a1 (st_ctx s)) /\
      h5 !! new = Some nn /\ h5 !! cur = Some (with_parent C (Some new) n)).
    { assert (H4n : h4 !! new = Some nn) by (unfold h4; by rewrite lookup_insert).
      assert (H4c : h4 !! cur = Some (with_parent C (Some new) n)).
      { unfold h4, h3. rewrite lookup_insert_ne by done. by rewrite lookup_insert. }
      destruct (nd_parent n) as [p|] eqn:Ep; [|eexists h4, new; done].
      destruct (Hpar p) as (Hpc & Hple & np & Hnp); [by exists n|].
      assert (Hnp' : new <> p) by lia.
      eexists _, (st_root s). split.
      { erewrite mbind_ok; [|apply (mget_ok C p _ np); simpl; unfold h4, h3, h2, h1;
          by rewrite !lookup_insert_ne]. reflexivity. }
      by rewrite !lookup_insert_ne. }
    destruct Hlink as (h5 & r5 & E5 & H5n & H5c).
    set (h6 := <[new := with_sum C t1 nn]> h5).
    set (el := Node (nc_empty C) (Some new) [] : node C).
    set (h7 := <[leaf := el]> h6).
    set (h8 := <[leaf := with_sum C e1 el]> h7).
    set (nf := with_children C [cur; leaf] (with_sum C t1 nn)).
    set (h9 := <[new := nf]> h8).
    assert (H9n : h9 !! new = Some nf) by (unfold h9; by rewrite lookup_insert).
    exists leaf, new, (St h9 r5 (Amb leaf (am_rpos (st_amb s))) (st_ctx s)). split; [|split].
    { unfold mfringe_split. unfold mbind at 1. cbn [mgensym st_amb]. fold new a1.
      erewrite mbind_ok; [|apply (mget_ok C cur _ n); exact Hn].
      erewrite mbind_ok; [|reflexivity]. cbn [st_heap st_root st_amb st_ctx]. fold e h1.
      erewrite mbind_ok.
      2:{ apply (mupdate_ok _ new cur (nc_empty C) tb tb e n); [..|done|exact Hcp];
          [by simpl; unfold h1; rewrite lookup_insert|done|].
          simpl; unfold h1. by rewrite !lookup_insert_ne. }
      cbn [st_heap st_root st_amb st_ctx]. fold h2.
      erewrite mbind_ok; [|reflexivity]. cbn [st_heap st_root st_amb st_ctx]. fold h3.
      erewrite mbind_ok; [|apply (mget_ok C new _ (with_sum C tb e)); simpl; unfold h3, h2;
        rewrite !lookup_insert_ne by done; by rewrite lookup_insert].
      erewrite mbind_ok; [|reflexivity]. cbn [st_heap st_root st_amb st_ctx]. fold nn h4.
      erewrite mbind_ok; [|exact E5].
      erewrite mbind_ok; [|apply (mincrement_ok _ new i tb t1 nn); [exact H5n|done|done]].
      cbn [st_heap st_root st_amb st_ctx]. fold h6.
      unfold mcreate_new_child, mbind at 1. cbn [mgensym st_amb am_ctr am_rpos a1]. fold leaf.
      erewrite mbind_ok; [|reflexivity]. cbn [st_heap st_root st_amb st_ctx]. fold el h7.
      erewrite mbind_ok; [|apply (mincrement_ok _ leaf i (nc_empty C) e1 el);
        [simpl; unfold h7; by rewrite lookup_insert|done|done]].
      cbn [st_heap st_root st_amb st_ctx]. fold h8.
      erewrite mbind_ok; [|apply (mget_ok C new _ (with_sum C t1 nn)); simpl; unfold h8, h7, h6;
        rewrite !lookup_insert_ne by done; by rewrite lookup_insert].
      done. }
    { exists nf. done. }
    erewrite view_cu.
    2:{ instantiate (1 := [(cur, tb); (leaf, e1)]). instantiate (1 := t1). split; [|split].
        - exists nf. done.
        - exists nf. done.
        - apply Forall_cons. split; [|apply Forall_singleton].
          + eexists. cbn [st_heap fst snd]. unfold h9, h8, h7, h6.
            rewrite !lookup_insert_ne by done. split; [exact H5c|done].
          + eexists. cbn [st_heap fst snd]. unfold h9. rewrite !lookup_insert_ne by done.
            unfold h8. rewrite lookup_insert. done. }
    cbn [st_ctx fst]. exact E.
  Qed.
End Predict.
