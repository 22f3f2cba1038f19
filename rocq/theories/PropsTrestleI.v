(** * infer_missing of TrestleTree (C78), for any arithmetic. *)
From stdpp Require Import base decidable list gmap strings sets.
From Coq Require Import Ascii String ZArith.
From Verif Require Import Base Num TreeModel TreeFun TreeScore TreeRefine TreeSorts TreeInv SpecTree TreeState
  TreeTotal TreeLeaf TreeGen Nominal NominalFacts Utils CV Cobweb3 C3Facts C3Scales C3Nominal C3Query C3Tree Query QueryFacts Query3 PropsC3 PropsQ3I
  PyVal Preproc Preproc2 StructMap StructFacts PropsStruct PreStd Trestle SpecTrestle
  TreeKeep TrestleFacts TrestleFresh TrestleRaise TrestleVals TrestleTotal TrestleSim PropsTrestle.
Set Default Proof Using "Type".
Open Scope list_scope.

Section Props.
  Context {N : NumOps} (rng : nat -> num N).
  Notation F := (num N).
  Notation C := (Cobweb3Class N).
  Notation X := (val3 N).
  Context (ncmp : nom -> nom -> option bool) (normal : F -> F -> A F).
  Context (pystr : attr -> string) (setord : list attr -> list attr) (rlimit : nat).
  Hypothesis Hnormal : forall m sd, amono (normal m sd).
  Hypothesis setord_spec : forall l x, x ∈ setord l <-> x ∈ l.
  Notation treachable := (treachable rng ncmp normal pystr setord rlimit).
  Notation t_prepare := (t_prepare (N:=N) pystr setord rlimit).
  Notation t_infer := (t_infer rng ncmp normal pystr setord rlimit).
  Notation t_cat := (t_cat rng pystr setord rlimit).
  Variable sc : option F.
  Variable inner : bool.
  Notation x0 := (@new_ctx N sc inner).
  Notation seen := (PropsQ3I.seen normal).

  Lemma t_infer_loop_spec (tb : nsum3 N) l f b attrs : Hist3 counts tb l ->
    forall (d : inst X) (s : st C) r s',
    t_infer_loop rng ncmp normal tb f b attrs d s = (r, s') ->
    forall d2 : inst X, r = Ok d2 ->
      (forall a v, dget a d = Some v -> dget a d2 = Some v) /\
      (forall a v, dget a d = None -> dget a d2 = Some v ->
         a ∈ attrs /\ exists w, v = of_scalar w /\ w <> VNom NNone /\ seen tb f a w) /\
      (b = false -> forall a, a ∈ attrs -> dget a (n3_av tb) <> None ->
         (exists v, dget a d2 = Some v) \/ seen tb f a (VNom NNone)) /\
      (dwf d -> dwf d2).
  Proof.
    intros Hh. induction attrs as [|a attrs IH]; intros d s r s' E d2 Hd2; simpl in E.
    - injection E as <- <-. injection Hd2 as <-.
      split; [done|]. split; [congruence|]. split; [|done]. intros _ a Ha. by apply elem_of_nil in Ha.
    - destruct (dmem a d) eqn:Em.
      + destruct (IH _ _ _ _ E d2 Hd2) as (K1 & K2 & K3 & K4). split; [done|]. split.
        { intros a' v Hn Hv. destruct (K2 a' v Hn Hv) as [Ha Hd]. split; [by right|done]. }
        split; [|done]. intros Hb a' Ha' Hk. apply elem_of_cons in Ha' as [->|Ha']; [|by apply K3].
        unfold dmem in Em. destruct (dget a d) as [v|] eqn:Ei; [|done]. left. exists v. by apply K1.
      + unfold mbind, mamb in E.
        destruct (predict3 rng ncmp normal tb a f b (st_amb s)) as [[w|e] a'] eqn:Ep; [|by injection E as <- _].
        assert (Hp : fst (predict3 rng ncmp normal tb a f b (st_amb s)) = Ok w) by (by rewrite Ep).
        destruct (predict3_known rng ncmp normal tb l a f b _ w Hh Hp) as [Hv Hb].
        assert (Ei : dget a d = None) by (unfold dmem in Em; by destruct (dget a d)).
        destruct (IH _ _ _ _ E d2 Hd2) as (K1 & K2 & K3 & K4).
        split; [|split; [|split]].
        * intros a1 v1 Hi1. apply K1. destruct (some_val w) as [w'|]; [|done]. rewrite dget_dset_ne; [done|congruence].
        * intros a1 v1 Hi1 Hj1. destruct (some_val w) as [w'|] eqn:Ew.
          -- apply some_val_some in Ew as [-> Hnn]. destruct (decide (a1 = a)) as [->|Hne].
             ++ split; [left|]. assert (dget a d2 = Some (of_scalar w')) by (apply K1; exact (dget_dset_eq a (of_scalar w') d)).
                exists w'. split; [congruence|]. split; [done|by apply Hv].
             ++ destruct (K2 a1 v1) as [Ha Hd]; [exact (eq_trans (dget_dset_ne a1 a (of_scalar w') d Hne) Hi1)|done|].
                split; [by right|done].
          -- destruct (K2 a1 v1 Hi1 Hj1) as [Ha Hd]. split; [by right|done].
        * intros Hbf a1 Ha1 Hk. apply elem_of_cons in Ha1 as [->|Ha1]; [|by apply K3].
          destruct (Hb Hbf Hk) as (v & ->). destruct (some_val (Some v)) as [w'|] eqn:Ew.
          -- left. exists (of_scalar w'). apply K1. exact (dget_dset_eq a (of_scalar w') d).
          -- right. apply some_val_none in Ew as [Ew|Ew]; [done|]. injection Ew as ->. by apply Hv.
        * intros Hw. apply K4. destruct (some_val w) as [w'|]; [|done]. exact (dset_wf a (of_scalar w') d Hw).
  Qed.

  Lemma hashed_scalars (d : inst X) : Forall (fun e => scalar (snd e) <> None) d -> exists j, hashed d = Ok j.
  Proof.
    intros Hd. unfold hashed. apply rmapM_total. intros [a v] Hin. rewrite Forall_forall in Hd.
    specialize (Hd _ Hin). simpl in Hd |- *. destruct (scalar v); [eauto|done].
  Qed.
  Lemma find_leaf evs (s : st C) d r s' : reachable C rng x0 evs s -> t_find rng d s = (r, s') ->
    st_heap s' = st_heap s /\ forall c, r = Ok c -> is_leaf s c.
  Proof.
    intros Hr. unfold t_find. destruct (hashed d) as [j|e].
    - intros E. by destruct (C62_categorize_read_only rng sc inner _ _ j r s' Hr E) as (Hh & _ & _ & Hleaf).
    - destruct (reachable_ok C rng x0 evs s Hr) as (t & Hok).
      pose proof (sub_table C _ _ t Hok ltac:(constructor)) as (n & Hn & _). rewrite <- (so_root _ _ _ Hok) in Hn.
      unfold mbind, mroot, mget. rewrite Hn. destruct (nd_children n) eqn:Ech; intros [= <- <-]; (split; [done|]); [|done].
      intros c [= <-]. split; [|by exists n]. apply (in_tree_ids _ _ _ _ Hok). rewrite (so_root _ _ _ Hok). by destruct t; left.
  Qed.

  (** ** C78.  infer_missing leaves concepts, root and scales alone whether it
      returns or raises.  It only adds to the mapped instance [d1]: the mapped
      instance with values that the leaf it is sorted to has seen, [d2], is
      what the preprocessors are undone on.  Without [allow_none] every
      attribute of the leaf gets a value, unless one of its values is None. *)
  Theorem C78_infer_adds_to_mapped evs s q d f b x s' :
    treachable x0 evs s -> Forall t_clean evs ->
    t_infer q d f b s = (x, s') ->
    (st_heap (t_tree s') = st_heap (t_tree s) /\ st_root (t_tree s') = st_root (t_tree s) /\
     st_ctx (t_tree s') = st_ctx (t_tree s)) /\
    forall d', x = Ok d' ->
      exists d1 h s1 c tb d2,
        t_prepare q d s = (Ok d1, h, s1) /\
        is_leaf (t_tree s) c /\ table_of (t_tree s) c tb /\
        (t_sane d1 = true -> Forall (fun e => scalar (snd e) <> None) d1 -> fst (t_cat q d s) = Ok c) /\
        (forall a v, dget a d1 = Some v -> dget a d2 = Some v) /\
        (forall a v, dget a d1 = None -> dget a d2 = Some v -> exists w, v = of_scalar w /\ w <> VNom NNone /\ seen tb f a w) /\
        (b = false -> forall a, knows tb a -> (exists v, dget a d2 = Some v) \/ seen tb f a (VNom NNone)) /\
        (NoDup (map fst d1) -> NoDup (map fst d2)) /\
        pipe_un (stages pystr setord rlimit (st_ctx (t_tree s)) (NSum3 0 []) (to_orc q)) stage_list d2 h = Ok d'.
  Proof using Hnormal setord_spec.
    intros Hr Hc E.
    pose proof (treachable_calls rng ncmp normal pystr setord rlimit Hnormal _ _ _ Hr) as Hrc.
    assert (Hg : all_inst (C:=C) good3 (List.concat (map cobweb_calls evs))) by (apply all_inst_calls; by eapply treachable_good).
    destruct (reachable_from counts _ (counts_laws N) rng x0 _ _ Hrc Hg) as (t & Hok & Hall).
    destruct (infer_grown rng ncmp normal pystr setord rlimit Hnormal q d f b s t x s' Hok E) as ((G1 & G2 & G3 & _) & _).
    split; [done|]. intros d' ->. unfold Trestle.t_infer in E. unfold Trestle.t_cat, Trestle.t_ready.
    destruct (t_prepare q d s) as [[r1 h1] s1] eqn:E1.
    pose proof (prepare_grown pystr setord rlimit _ _ _ _ _ _ E1) as Hgr.
    destruct r1 as [d1|e]; [|done].
    assert (Hr1 : reachable C rng x0 (List.concat (map cobweb_calls evs) ++ [EOther]) (t_tree s1)).
    { destruct Hrc as (ctr & rpos & Hrc). exists ctr, rpos. eapply run_snoc; [exact Hrc|]. by eapply grown_other. }
    unfold on_tree, mbind, mget in E. cbn [fst snd] in E. unfold on_tree.
    destruct (t_find rng d1 (t_tree s1)) as [rc s2] eqn:Ec.
    destruct (find_leaf _ _ _ _ _ Hr1 Ec) as (Hh & Hleaf).
    destruct rc as [c|e]; [|done]. cbn [fst snd] in E.
    assert (Hl : is_leaf (t_tree s) c).
    { specialize (Hleaf c eq_refl) as [Hin (n & Hn & Hch)]. destruct (Hgr) as (E2 & _). split.
      - apply (in_tree_sub _ _ _ _ Hok). by apply (in_tree_sub _ _ _ _ (grown_ok _ _ _ Hgr Hok)).
      - exists n. by rewrite <- E2. }
    pose proof Hl as [Hin (nd & Hnd & Hch)].
    destruct Hgr as (E2 & _). rewrite Hh, E2, Hnd in E.
    assert (Ht : table_of (t_tree s) c (nd_sum nd)) by (by exists nd).
    assert (Hhist : exists l, Hist3 counts (nd_sum nd) l).
    { apply (in_tree_sub _ _ _ _ Hok) in Hin as (u & Hu & <-).
      rewrite (table_of_det _ _ _ _ _ Ht (sub_table _ _ _ _ Hok Hu)) in *.
      destruct (tall_sub C (from counts _) t u Hall Hu) as (l & Hl' & _). by exists l. }
    destruct Hhist as (l & Hl').
    destruct (t_infer_loop _ _ _ _ _ _ _ _ s2) as [r3 s3] eqn:E3. cbn [fst snd] in E.
    destruct r3 as [d2|e]; [|done]. injection E as E _.
    destruct (t_infer_loop_spec _ l _ _ _ Hl' _ _ _ _ E3 d2 eq_refl) as (K1 & K2 & K3 & K4).
    exists d1, h1, s1, c, (nd_sum nd), d2. split; [done|]. split; [done|]. split; [done|].
    split.
    { intros -> Hsc. destruct (hashed_scalars d1 Hsc) as [j Ej]. unfold t_find in Ec. rewrite Ej in Ec |- *. cbn [fst]. by rewrite Ec. } split; [done|]. split; [|split; [|split; [exact K4|done]]].
    - intros a v Ha Hv. by destruct (K2 a v Ha Hv) as [_ ?].
    - intros Hb a Hk. apply knows_key in Hk. apply (K3 Hb a); [|done].
      destruct (dget a (n3_av (nd_sum nd))) eqn:Ed; [|done]. by apply dget_Some_key in Ed.
  Qed.
End Props.
Print Assumptions C78_infer_adds_to_mapped.
