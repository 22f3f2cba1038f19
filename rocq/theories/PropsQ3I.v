(** * infer_missing of Cobweb3Tree (C73), for any arithmetic. *)
From stdpp Require Import base decidable tactics gmap strings list.
From Verif Require Import Base Num TreeModel TreeFun TreeScore TreeRefine TreeSorts TreeInv
  SpecTree TreeState TreeTotal TreeLeaf TreeGen Nominal NominalFacts Utils Query QueryFacts CV Cobweb3 C3Facts C3Scales
  C3Nominal C3Query Query3 PropsC3.

Section Any.
  Context {N : NumOps} (rng : nat -> num N) (ncmp : nom -> nom -> option bool)
          (normal : num N -> num N -> A (num N)).
  Context (sc : option (num N)) (inner : bool).
  Notation C := (Cobweb3Class N).
  Notation x0 := (new_ctx sc inner).
  Notation good := (good3 (N:=N)).
  Notation Q := (Cobweb3Query rng ncmp normal).

  (** The table has seen the value [v] for [a]; with [f] a number must be the
      mean of the numbers when the most likely value is asked for, and otherwise
      what random.normalvariate returns for their mean and unbiased standard
      deviation. *)
  Definition seen (tb : nsum3 N) (f : string) (a : attr) (v : val3 N) : Prop :=
    match v with
    | VNom v => 0 < count_of tb a v
    | VNum y => exists c, numeric_of tb a = Some c /\
       ((f = "most likely"%string \/ f = "m"%string) /\ y = cv_mean c \/
        (f = "sampled"%string \/ f = "s"%string) /\
        exists sd am, cv_unbiased_std c = Ok sd /\ fst (normal (cv_mean c) sd am) = Ok y)
    end.
  (** The table has some value for [a]. *)
  Definition knows (tb : nsum3 N) (a : attr) : Prop :=
    (exists v, 0 < count_of tb a v) \/ numeric_of tb a <> None.

  Lemma knows_key (tb : nsum3 N) a : knows tb a -> dget a (n3_av tb) <> None.
  Proof.
    unfold knows, count_of, numeric_of. destruct (dget a (n3_av tb)); [done|]. intros [(v & Hv)|?]; [lia|done].
  Qed.

  Lemma predict3_known (tb : nsum3 N) l a f b am r : Hist3 counts tb l ->
    fst (predict3 rng ncmp normal tb a f b am) = Ok r ->
    (forall v, r = Some v -> seen tb f a v) /\
    (b = false -> dget a (n3_av tb) <> None -> exists v, r = Some v).
  Proof.
    intros Hh E.
    destruct (choose_fn f) as [c|] eqn:Hf; [|unfold predict3 in E; by rewrite Hf in E].
    destruct (dget a (n3_av tb)) as [d|] eqn:Hd.
    - rewrite (predict_flat counts rng ncmp normal tb l a f b am c d Hh Hf Hd) in E.
      unfold abind in E.
      destruct (predict (N:=N) rng ncmp (flat_table tb) a f b am) as [[v|e] am'] eqn:Ep; [|done].
      assert (Ep' : fst (predict (N:=N) rng ncmp (flat_table tb) a f b am) = Ok v) by (by rewrite Ep).
      apply predict_known in Ep' as [Hv Hb]. rewrite dget_flat_table, Hd in Hv.
      destruct v as [v|]; cbn [unflat] in E.
      + clear Hb. destruct (Hv v eq_refl) as (d' & [= <-] & Hk). unfold flat_dict in Hk. rewrite dkeys_flat in Hk.
        apply dget_key_Some in Hk as (q & Hq).
        assert (Hcells := Hh). destruct Hcells as (_ & _ & _ & Hcells). specialize (Hcells a). rewrite Hd in Hcells.
        simpl in Hcells. destruct Hcells as (_ & H0 & Hn & Hx).
        destruct (decide (v = cv_key)) as [->|Hne].
        * rewrite Hq in E. destruct q as [n|cv]; [done|].
          assert (Hnum : numeric_of tb a = Some cv) by (unfold numeric_of; by rewrite Hd, Hq).
          destruct c.
          -- injection E as <-. split; [|by eauto]. intros v [= <-]. exists cv. split; [done|]. left. split; [|done].
             unfold choose_fn in Hf. repeat case_decide; naive_solver.
          -- unfold alift, abind in E. destruct (cv_unbiased_std cv) as [sd|e] eqn:Es; [|done].
             destruct (normal (cv_unbiased_mean cv) sd am') as [[y|e] am2] eqn:En; [|done]. injection E as <-.
             split; [|by eauto]. intros v [= <-]. exists cv. split; [done|]. right. split.
             ++ unfold choose_fn in Hf. repeat case_decide; naive_solver.
             ++ exists sd, am'. split; [done|]. unfold cv_unbiased_mean in En. by rewrite En.
        * injection E as <-. split; [|by eauto]. intros w [= <-]. simpl. unfold count_of. rewrite Hd, Hq.
          rewrite (Hn v Hne) in Hq. case_decide; [done|]. injection Hq as <-. lia.
      + injection E as <-. split; [done|]. intros Hbf _. exfalso.
        destruct (Hb Hbf) as (v & ?); [|done].
        change (a ∈ dkeys (map (fun p : attr * list (nom * cell N) => (fst p, flat_dict (snd p))) (n3_av tb))).
        rewrite dkeys_flat. by apply dget_Some_key in Hd.
    - rewrite (predict_absent rng ncmp normal tb a f b am c Hf Hd) in E. injection E as <-. done.
  Qed.

  Lemma infer_loop3_spec (tb : nsum3 N) l f b attrs : Hist3 counts tb l ->
    forall (i : inst3 N) (s : st C) r s',
    infer_loop C Q tb f b attrs i s = (r, s') ->
    st_heap s' = st_heap s /\ st_root s' = st_root s /\ st_ctx s' = st_ctx s /\
    forall j : inst3 N, r = Ok j ->
      (forall a v, dget a i = Some v -> dget a j = Some v) /\
      (forall a v, dget a i = None -> dget a j = Some v -> a ∈ attrs /\ seen tb f a v) /\
      (b = false -> forall a, a ∈ attrs -> dget a (n3_av tb) <> None -> exists v, dget a j = Some v).
  Proof.
    intros Hh. induction attrs as [|a attrs IH]; intros i s r s' E; simpl in E.
    - injection E as <- <-. split; [done|]. split; [done|]. split; [done|]. intros j [= <-].
      split; [done|]. split; [congruence|]. intros _ a Ha. inversion Ha.
    - change (nq_has Q i a) with (dmem a i) in E.
      destruct (dmem a i) eqn:Em.
      + destruct (IH _ _ _ _ E) as (H1 & H2 & H3 & H4). split; [done|]. split; [done|]. split; [done|].
        intros j Hj. destruct (H4 j Hj) as (K1 & K2 & K3). split; [done|]. split.
        { intros a' v Hn Hv. destruct (K2 a' v Hn Hv) as [Ha Hd]. split; [by right|done]. }
        intros Hb a' Ha' Hk. apply elem_of_cons in Ha' as [->|Ha']; [|by apply K3].
        unfold dmem in Em. destruct (dget a i) as [v|] eqn:Ei; [|done]. exists v. by apply K1.
      + unfold mbind, mamb in E.
        change (nq_predict Q (st_ctx s) tb a f b) with (predict3 rng ncmp normal tb a f b) in E.
        destruct (predict3 rng ncmp normal tb a f b (st_amb s)) as [[w|e] a'] eqn:Ep.
        * assert (Hp : fst (predict3 rng ncmp normal tb a f b (st_amb s)) = Ok w) by (by rewrite Ep).
          destruct (predict3_known tb l a f b _ w Hh Hp) as [Hv Hb].
          destruct (IH _ _ _ _ E) as (H1 & H2 & H3 & H4). split; [done|]. split; [done|]. split; [done|].
          assert (Ei : dget a i = None) by (unfold dmem in Em; by destruct (dget a i)).
          intros j Hj. destruct (H4 j Hj) as (K1 & K2 & K3).
          assert (Hpre : forall a' v, dget a' i = Some v -> dget a' (match w with Some v => dset a v i | None => i end) = Some v).
          { intros a1 v1 Hi1. destruct w as [w|]; [|done]. rewrite dget_dset_ne; [done|congruence]. }
          split; [|split].
          -- intros a1 v1 Hi1. apply K1. by apply Hpre.
          -- intros a1 v1 Hi1 Hj1. destruct w as [w|].
             ++ destruct (decide (a1 = a)) as [->|Hne].
                ** split; [left|]. assert (dget a j = Some w) by (apply K1; exact (dget_dset_eq a w i)).
                   assert (v1 = w) as -> by congruence. by apply Hv.
                ** destruct (K2 a1 v1) as [Ha Hd]; [exact (eq_trans (dget_dset_ne a1 a w i Hne) Hi1)|done|].
                   split; [by right|done].
             ++ destruct (K2 a1 v1 Hi1 Hj1) as [Ha Hd]. split; [by right|done].
          -- intros Hbf a1 Ha1 Hk. apply elem_of_cons in Ha1 as [->|Ha1]; [|by apply K3].
             destruct (Hb Hbf Hk) as (v & ->). exists v. apply K1. exact (dget_dset_eq a v i).
        * injection E as <- <-. done.
  Qed.

  Lemma sanity3_dget (r : raw3 N) j a v : sanity3 r = Ok j -> dget a r = Some (PVal3 v) <-> dget a j = Some v.
  Proof.
    intros H. destruct (sanity3_ok r j H) as [-> _]. clear H. induction j as [|[b w] j IH]; [done|]. simpl.
    case_decide; [|done]. split; congruence.
  Qed.

  (** ** C73.  infer_missing leaves objects, root and scales alone whether it
      returns or raises; the instance it returns extends the input by values
      its concept has seen. *)
  Theorem C73_infer_only_adds evs s (r : raw3 N) f b x s' :
    reachable C rng x0 evs s -> all_inst (C:=C) good evs ->
    infer_missing3 rng ncmp normal r f b s = (x, s') ->
    (st_heap s' = st_heap s /\ st_root s' = st_root s /\ st_ctx s' = st_ctx s) /\
    forall j : inst3 N, x = Ok j ->
      (forall a v, dget a r = Some (PVal3 v) -> dget a j = Some v) /\
      exists c tb, is_leaf s c /\ table_of s c tb /\
        fst (categorize3 rng r s) = Ok c /\
        (forall a v, dget a r = None -> dget a j = Some v -> seen tb f a v) /\
        (b = false -> forall a, knows tb a -> exists w, dget a j = Some w) /\
        (forall a, dget a j = None -> dget a r = None).
  Proof.
    intros Hr Hg E. unfold infer_missing3 in E. unfold categorize3.
    destruct (sanity3 r) as [i|e] eqn:Es; [|by injection E as <- <-].
    unfold infer_checked, mbind at 1 in E.
    destruct (cobweb_categorize C rng i s) as [rc s1] eqn:Ec.
    destruct (C62_categorize_read_only rng sc inner evs s i rc s1 Hr Ec) as (Hh & Hro & Hctx & Hleaf).
    destruct rc as [c|e]; [|by injection E as <- <-].
    specialize (Hleaf c eq_refl). pose proof Hleaf as [Hin (nd & Hnd & Hch)].
    unfold mbind, mget in E. rewrite Hh, Hnd in E.
    assert (Ht : table_of s c (nd_sum nd)) by (by exists nd).
    assert (Hhist : exists l, Hist3 counts (nd_sum nd) l).
    { destruct (reachable_from counts _ (counts_laws N) rng x0 evs s Hr Hg) as (t & Hok & Hall).
      apply (in_tree_sub _ _ _ _ Hok) in Hin as (u & Hu & <-).
      rewrite (table_of_det _ _ _ _ _ Ht (sub_table _ _ _ _ Hok Hu)) in *.
      destruct (tall_sub C (from counts (history evs)) t u Hall Hu) as (l & Hl & _). by exists l. }
    destruct Hhist as (l & Hl).
    destruct (infer_loop3_spec _ l _ _ _ Hl _ _ _ _ E) as (H1 & H2 & H3 & H4).
    split; [split; [congruence|split; congruence]|].
    intros j Hj. destruct (H4 j Hj) as (K1 & K2 & K3).
    assert (Hij : forall a, dget a r = None <-> dget a i = None).
    { intros a. rewrite (dget_None a r), (dget_None a i).
      destruct (sanity3_ok r i Es) as [-> _]. unfold dkeys. by rewrite map_map. }
    split.
    { intros a v Ha. apply K1. by apply (sanity3_dget r i a v Es). }
    exists c, (nd_sum nd). split; [done|]. split; [done|]. split; [done|]. split; [|split].
    - intros a v Ha Hv. apply Hij in Ha. by destruct (K2 a v Ha Hv) as (_ & ?).
    - intros Hb a Hk. apply knows_key in Hk. apply (K3 Hb a); [|done].
      change (a ∈ dkeys (n3_av (nd_sum nd))).
      destruct (dget a (n3_av (nd_sum nd))) eqn:Ed; [|done]. by apply dget_Some_key in Ed.
    - intros a Ha. apply Hij. destruct (dget a i) as [v|] eqn:Ei; [|done]. apply K1 in Ei. congruence.
  Qed.

  (** Instances with a forbidden attribute name or value are refused. *)
  Theorem C73_infer_rejects (i : raw3 N) a v f b s :
    (a, v) ∈ i ->
    a = AStr "" \/ a = ATup [] \/ (exists z, a = ANum z) \/ v = PNone3 \/ v = PUnhashable3 ->
    infer_missing3 rng ncmp normal i f b s = (Err ValueError, s).
  Proof.
    intros Hin Hbad. unfold infer_missing3.
    rewrite (sanity3_rejects i); [done|]. exists a, v. split; [done|].
    destruct Hbad as [->|[->|[(z & ->)|[->| ->]]]]; auto.
  Qed.
End Any.
Print Assumptions C73_infer_only_adds.
