(** * C98: infer_missing of DummyTree. *)
From stdpp Require Import base decidable list gmap strings.
From Coq Require Import Ascii String ZArith.
From Verif Require Import Base Num TreeModel TreeInv Nominal Utils CV Cobweb3 C3Facts Query Query3 PropsC3 PropsQ3I PyVal Preproc Preproc2 PreTuple
  StructMap StructFacts Trestle SpecTree PropsTrestleI PropsTrestleK Dummy PropsDummy.
Set Default Proof Using "Type".
Open Scope list_scope.

(** Names that are not components. *)
Definition simple (a : attr) : Prop := exists s, a = AStr s /\ s <> ""%string /\ is_var s = false.

Section Plain.
  Context {N : NumOps} (rng : nat -> num N).
  Notation F := (num N).
  Notation X := (val3 N).
  Context (ncmp : nom -> nom -> option bool) (normal : F -> F -> A F).
  Context (pystr : attr -> string) (setord : list attr -> list attr) (rlimit : nat).

  (** An instance without components: attributes of the instance itself only. *)
  Definition flat_inst (d : inst X) : Prop :=
    NoDup (map fst d) /\ Forall (fun e => simple (fst e) /\ exists x, scalar (snd e) = Some x) d.

  Lemma pipe_tr_step {I S} (cls : nat -> pproc I S) o os i (h : gmap nat S) c x i' x' c' :
    h !! o = Some x -> pp_tr (cls o) i x c = (Ok i', x', c') -> pipe_tr cls (o :: os) i h c = pipe_tr cls os i' (<[o:=x']> h) c'.
  Proof. intros E1 E2. cbn [pipe_tr]. by rewrite E1, E2. Qed.

  Lemma flat_plain d : flat_inst d -> plain d.
  Proof.
    intros [H1 H2]. split; [done|]. eapply Forall_impl; [exact H2|]. intros e [(s & -> & _) ?]. split; [by exists s|done].
  Qed.
  Lemma flat_perm d d' : d ≡ₚ d' -> flat_inst d -> flat_inst d'.
  Proof. intros Hp [H1 H2]. split; [by rewrite <- Hp|by rewrite <- Hp]. Qed.

  Lemma insert_by_perm {B} (e : attr * B) l : insert_by pystr e l ≡ₚ e :: l.
  Proof.
    induction l as [|e' l IH]; [done|]. simpl. destruct (String.leb _ _); [done|]. rewrite IH. apply Permutation_swap.
  Qed.
  Lemma sort_by_perm {B} (l : list (attr * B)) : sort_by pystr l ≡ₚ l.
  Proof. induction l as [|e l IH]; [done|]. unfold sort_by in *. simpl. by rewrite insert_by_perm, IH. Qed.
  Lemma insert_by_map {B B'} (g : attr -> B -> B') (e : attr * B) l :
    insert_by pystr (fst e, g (fst e) (snd e)) (map (fun e => (fst e, g (fst e) (snd e))) l) =
    map (fun e => (fst e, g (fst e) (snd e))) (insert_by pystr e l).
  Proof. induction l as [|e' l IH]; [done|]. simpl. destruct (String.leb _ _); [done|]. simpl. by rewrite IH. Qed.
  Lemma sort_by_map {B B'} (g : attr -> B -> B') (l : list (attr * B)) :
    sort_by pystr (map (fun e => (fst e, g (fst e) (snd e))) l) = map (fun e => (fst e, g (fst e) (snd e))) (sort_by pystr l).
  Proof. induction l as [|e l IH]; [done|]. unfold sort_by in *. simpl. by rewrite IH, insert_by_map. Qed.

  Lemma std_scalar v x s : scalar v = Some x -> std_val (X:=X) pystr setord v s = (Ok v, s).
  Proof. by destruct v. Qed.
  Lemma std_entries_flat d : Forall (fun e => simple (fst e) /\ exists x, scalar (snd e) = Some x) d -> forall acc rels s,
    dwf (acc ++ d) ->
    std_entries (X:=X) setord (map (fun e => (fst e, std_val pystr setord (snd e))) d) (acc, rels) s = (Ok (acc ++ d, rels), s).
  Proof.
    induction 1 as [|[a v] d [(n & Ea & _ & Hv) (x & Hx)] _ IH]; intros acc rels s Hw; [by rewrite app_nil_r|].
    cbn [fst snd] in *. subst a. cbn [map std_entries fst snd]. unfold std_entry. cbn [fst snd std_name]. rewrite Hv.
    rewrite (std_scalar v x s Hx). assert (Hn : AStr n ∉ dkeys acc).
    { unfold dwf, dkeys in Hw. rewrite map_app in Hw. apply NoDup_app in Hw as (_ & Hd & _). intros Hin. apply (Hd _ Hin). left. }
    rewrite dset_fresh by done. rewrite IH; [by rewrite <- app_assoc|by rewrite <- app_assoc].
  Qed.
  Lemma ns_flat d c : flat_inst d -> exists d', d' ≡ₚ d /\ ns_transform pystr setord c d = (Ok (d', []), c).
  Proof.
    intros Hd. exists (sort_by pystr d). split; [apply sort_by_perm|].
    pose proof (flat_perm _ _ (symmetry (sort_by_perm d)) Hd) as [Hw Hf].
    unfold ns_transform, std_dict. rewrite (sort_by_map (fun _ v => std_val pystr setord v)).
    rewrite (std_entries_flat _ Hf); [|done]. done.
  Qed.
  Lemma comps_flat keys : Forall simple keys -> comp_names keys = Ok [].
  Proof.
    intros H. unfold comp_names. assert (E : rmapM attr_comps keys = Ok (map (fun _ => []) keys)).
    { induction H as [|a keys (s & -> & Hs & Hv) _ IH]; [done|]. cbn [rmapM].
      assert (Ea : attr_comps (AStr s) = Ok []) by (destruct s; [done|]; cbn [attr_comps]; by rewrite Hv).
      rewrite Ea. cbn [rbind]. by rewrite IH. }
    rewrite E. cbn [rbind]. f_equal. clear. induction keys; [done|]. exact IHkeys.
  Qed.
  Lemma rename_none (d : inst X) : dwf d -> Forall (fun e => simple (fst e)) d -> rename_flat [] d = d.
  Proof.
    intros Hw Hf. unfold rename_flat. cut (forall acc, dwf (acc ++ d) ->
      fold_left (fun acc e => dset (flat_name [] (fst e)) (snd e) acc) d acc = acc ++ d).
    { intros H. by apply (H []). }
    clear Hw. induction Hf as [|[a v] d (n & Ea & _) _ IH]; intros acc Hw; [by rewrite app_nil_r|].
    cbn [fst snd] in *. subst a. cbn [fold_left fst snd]. change (flat_name [] (AStr n)) with (AStr n). assert (Hn : AStr n ∉ dkeys acc).
    { unfold dwf, dkeys in Hw. rewrite map_app in Hw. apply NoDup_app in Hw as (_ & Hd & _). intros Hin. apply (Hd _ Hin). left. }
    rewrite dset_fresh by done. rewrite IH; [by rewrite <- app_assoc|by rewrite <- app_assoc].
  Qed.
  Lemma sub_undo_none (d : inst X) : 0 < rlimit -> dwf d -> Forall (fun e => simple (fst e)) d -> sub_undo rlimit d = Ok d.
  Proof.
    intros Hl Hw Hf. unfold sub_undo.
    assert (Em : so_mapping d = []).
    { unfold so_mapping. clear Hw. induction Hf as [|[a v] d (n & Ea & _) _ IH]; [done|]. cbn [fst] in Ea. by subst a. }
    assert (Ed : List.filter (fun e : attr * pv X => match is_has_comp (fst e) with Some _ => false | None => true end) d = d).
    { clear Hw Em. induction Hf as [|[a v] d (n & Ea & _) _ IH]; [done|]. cbn [fst] in Ea. subst a.
      cbn [List.filter fst is_has_comp]. by rewrite IH. }
    cbv zeta. rewrite Em, Ed. rewrite (mapkM_ok _ id).
    - f_equal. rewrite <- (map_id d) at 2. apply map_ext. by intros [a v].
    - apply Forall_forall. intros e He. rewrite Forall_forall in Hf.
      destruct (Hf _ He) as (n & -> & _). by destruct rlimit; [lia|].
    - exact Hw.
  Qed.
  Lemma structurize_none (d : inst X) : dwf d -> Forall (fun e => simple (fst e)) d -> structurize d = Ok d.
  Proof.
    intros Hw Hf. unfold structurize. match goal with |- rfold ?g _ _ = _ => cut (forall acc, dwf (acc ++ d) -> rfold g acc d = Ok (acc ++ d)) end.
    { intros H. by apply (H []). }
    clear Hw. induction Hf as [|[a v] d (n & Ea & _) _ IH]; intros acc Hw; [by rewrite app_nil_r|].
    cbn [fst snd] in *. subst a. cbn [rfold fst snd is_pair]. assert (Hn : AStr n ∉ dkeys acc).
    { unfold dwf, dkeys in Hw. rewrite map_app in Hw. apply NoDup_app in Hw as (_ & Hd & _). intros Hin. apply (Hd _ Hin). left. }
    cbn [rbind]. rewrite dset_fresh by done. rewrite IH; [by rewrite <- app_assoc|by rewrite <- app_assoc].
  Qed.
  Lemma ns_undo_none (d : inst X) : flat_inst d -> ns_undo [] d = d.
  Proof.
    intros [Hw Hf]. unfold ns_undo. cbn [undo_val].
    assert (E : map (fun e : attr * pv X => (undo_name [] (fst e) (snd e), undo_val [] (snd e))) d = d).
    { clear Hw. induction Hf as [|[a v] d [(n & Ea & _) (x & Hx)] _ IH]; [done|]. cbn [fst snd] in *. subst a. cbn [map fst snd].
      rewrite IH. by destruct v. }
    rewrite E. unfold dupd. cut (forall acc, dwf (acc ++ d) -> fold_left (fun acc e => dset (fst e) (snd e) acc) d acc = acc ++ d).
    { intros H. by apply (H []). }
    clear E Hf. clear Hw. induction d as [|[a v] d IH]; intros acc Hw; [by rewrite app_nil_r|]. cbn [fold_left fst snd].
    assert (Hn : a ∉ dkeys acc).
    { unfold dwf, dkeys in Hw. rewrite map_app in Hw. apply NoDup_app in Hw as (_ & Hd & _). intros Hin. apply (Hd _ Hin). left. }
    rewrite dset_fresh by done. rewrite IH; [by rewrite <- app_assoc|by rewrite <- app_assoc].
  Qed.

  (** The pipeline on such an instance, for a table of such instances. *)
  Lemma pipe_flat tb orc d c : flat_inst d -> Forall simple (dkeys (n3_av tb)) ->
    exists d' h, d' ≡ₚ d /\ pipe_tr (d_stages (N:=N) pystr setord rlimit tb orc) (d_stage_list true) d new_objs c = (Ok d', h, c) /\
      h !! 0 = Some (Some []) /\ h !! 1 <> None /\ h !! 2 <> None /\ h !! 3 = Some (Some []).
  Proof.
    intros Hd Ht. destruct (ns_flat d c Hd) as (d1 & Hp & E1). pose proof (flat_perm _ _ (symmetry Hp) Hd) as Hd1.
    assert (E2 : flatten d1 = Ok d1) by (by apply plain_flat, flat_plain).
    assert (E3 : sub_transform vtrue d1 = Ok d1) by (by apply plain_sub, flat_plain).
    assert (Hs1 : Forall (fun e => simple (fst e)) d1) by (destruct Hd1 as [_ H]; eapply Forall_impl; [exact H|]; by intros e [? _]).
    assert (E4 : sm_transform (d_mapping_cost tb d1) orc None (dkeys (n3_av tb)) d1 = Ok (d1, [])).
    { unfold sm_transform, flat_match. rewrite (comps_flat (dkeys d1)); [|by apply Forall_fmap].
      cbn [rbind]. rewrite (comps_flat _ Ht). cbn [rbind]. cbn. by rewrite (rename_none d1 (proj1 Hd1) Hs1). }
    do 2 eexists. split; [exact Hp|]. split.
    { unfold d_stage_list. erewrite pipe_tr_step; [|reflexivity|cbn [d_stages std_proc pp_tr]; rewrite E1; reflexivity].
      erewrite pipe_tr_step; [|rewrite lookup_insert_ne by done; reflexivity|cbn [d_stages flat_proc pp_tr]; rewrite E2; reflexivity].
      erewrite pipe_tr_step; [|rewrite !lookup_insert_ne by done; reflexivity|cbn [d_stages sub_proc pp_tr]; rewrite E3; reflexivity].
      erewrite pipe_tr_step; [|rewrite !lookup_insert_ne by done; reflexivity|cbn [d_stages d_map_proc pp_tr]; rewrite E4; reflexivity].
      cbn [pipe_tr]. reflexivity. }
    split; [by rewrite !lookup_insert_ne, lookup_insert by done|].
    split; [by rewrite !lookup_insert_ne, lookup_insert by done|].
    split; [by rewrite !lookup_insert_ne, lookup_insert by done|]. by rewrite lookup_insert.
  Qed.
  Lemma unpipe_flat orc d2 (h : gmap nat pstate) : 0 < rlimit -> flat_inst d2 ->
    h !! 0 = Some (Some []) -> h !! 1 <> None -> h !! 2 <> None -> h !! 3 = Some (Some []) ->
    pipe_un (d_stages (N:=N) pystr setord rlimit (NSum3 0 []) orc) (d_stage_list true) d2 h = Ok d2.
  Proof.
    intros Hl Hd H0 H1 H2 H3.
    assert (Hs : Forall (fun e => simple (fst e)) d2) by (destruct Hd as [_ H]; eapply Forall_impl; [exact H|]; by intros e [? _]).
    destruct (h !! 1) as [x1|] eqn:E1; [|done]. destruct (h !! 2) as [x2|] eqn:E2; [|done].
    unfold pipe_un. change (rev (d_stage_list true)) with [3; 2; 1; 0]. cbn [rfold].
    rewrite (pipe_un1_at _ _ _ _ _ H3). cbn [d_stages d_map_proc pp_un sm_undo]. rewrite (rename_none d2 (proj1 Hd) Hs). cbn [rbind].
    rewrite (pipe_un1_at _ _ _ _ _ E2). cbn [d_stages sub_proc pp_un]. rewrite (sub_undo_none d2 Hl (proj1 Hd) Hs). cbn [rbind].
    rewrite (pipe_un1_at _ _ _ _ _ E1). cbn [d_stages flat_proc pp_un]. rewrite (structurize_none d2 (proj1 Hd) Hs). cbn [rbind].
    rewrite (pipe_un1_at _ _ _ _ _ H0). cbn [d_stages std_proc pp_un]. rewrite (ns_undo_none d2 Hd). done.
  Qed.

  (** The loop, as that of TRESTLE. *)
  Lemma d_loop_eq tb f b attrs : forall (d : inst X) (s : st (Cobweb3Class N)),
    fst (t_infer_loop rng ncmp normal tb f b attrs d s) = fst (d_infer_loop rng ncmp normal tb f b attrs d (st_amb s)).
  Proof.
    induction attrs as [|a attrs IH]; intros d s; [done|]. simpl. destruct (dmem a d); [apply IH|].
    unfold mbind, mamb, abind. destruct (predict3 rng ncmp normal tb a f b (st_amb s)) as [[v|e] am]; [|done]. by rewrite IH.
  Qed.
  Lemma d_loop_spec (tb : nsum3 N) l f b attrs (d : inst X) am d2 : Hist3 counts tb l ->
    fst (d_infer_loop rng ncmp normal tb f b attrs d am) = Ok d2 ->
    (forall a v, dget a d = Some v -> dget a d2 = Some v) /\
    (forall a v, dget a d = None -> dget a d2 = Some v ->
       a ∈ attrs /\ exists w, v = of_scalar w /\ w <> VNom NNone /\ seen normal tb f a w) /\
    (b = false -> forall a, a ∈ attrs -> dget a (n3_av tb) <> None ->
       (exists v, dget a d2 = Some v) \/ seen normal tb f a (VNom NNone)) /\
    (dwf d -> dwf d2).
  Proof.
    intros Hh E. set (s := @St N (Cobweb3Class N) ∅ 0 am (@new_ctx N None false)).
    change am with (st_amb s) in E. rewrite <- d_loop_eq in E.
    destruct (t_infer_loop rng ncmp normal tb f b attrs d s) as [r s'] eqn:E1. cbn [fst] in E.
    exact (t_infer_loop_spec rng ncmp normal tb l f b attrs Hh d s r s' E1 d2 E).
  Qed.
  (** Each attribute is predicted once, if at all. *)
  Lemma d_loop_predicts tb f b attrs : NoDup attrs -> forall (d : inst X) am d2,
    fst (d_infer_loop rng ncmp normal tb f b attrs d am) = Ok d2 ->
    (forall a, a ∉ attrs -> dget a d2 = dget a d) /\
    forall a, a ∈ attrs -> dget a d = None ->
      exists am' r, fst (predict3 rng ncmp normal tb a f b am') = Ok r /\ dget a d2 = option_map of_scalar (some_val r).
  Proof.
    induction 1 as [|a attrs Ha _ IH]; intros d am d2 E; cbn [d_infer_loop] in E.
    - injection E as <-. split; [done|]. intros a Hin. by apply elem_of_nil in Hin.
    - destruct (dmem a d) eqn:Em.
      + destruct (IH _ _ _ E) as [K1 K2]. split.
        * intros a' Ha'. apply K1. intros Hin. apply Ha'. by right.
        * intros a' Ha' Hn. apply elem_of_cons in Ha' as [->|Ha']; [|by apply K2]. unfold dmem in Em. by rewrite Hn in Em.
      + unfold abind in E. destruct (predict3 rng ncmp normal tb a f b am) as [[v|e] am'] eqn:Ep; [|done].
        assert (Ed : dget a d = None) by (unfold dmem in Em; by destruct (dget a d)).
        set (d' := match some_val v with Some v => dset a (of_scalar v) d | None => d end) in E.
        assert (Ha1 : dget a d' = option_map of_scalar (some_val v)) by (unfold d'; destruct (some_val v) as [w|]; [exact (dget_dset_eq a (of_scalar w) d)|done]).
        assert (Ha2 : forall a', a' <> a -> dget a' d' = dget a' d) by (intros a' Hne; unfold d'; destruct (some_val v); [by apply dget_dset_ne|done]).
        destruct (IH _ _ _ E) as [K1 K2]. split.
        * intros a' Ha'. rewrite K1; [|intros Hin; apply Ha'; by right]. apply Ha2. intros ->. apply Ha'. left.
        * intros a' Ha' Hn. destruct (decide (a' = a)) as [->|Hne].
          -- exists am, v. rewrite Ep. split; [done|]. by rewrite K1.
          -- apply elem_of_cons in Ha' as [->|Ha']; [done|]. apply K2; [done|]. by rewrite Ha2.
  Qed.
  Lemma d_loop_returns tb f b attrs : (forall a am, exists r, fst (predict3 rng ncmp normal tb a f b am) = Ok r) ->
    forall (d : inst X) am, exists d2, fst (d_infer_loop rng ncmp normal tb f b attrs d am) = Ok d2.
  Proof.
    intros Hp. induction attrs as [|a attrs IH]; intros d am; cbn [d_infer_loop]; [by eexists|].
    destruct (dmem a d); [apply IH|]. unfold abind. destruct (Hp a am) as (r & Er).
    destruct (predict3 rng ncmp normal tb a f b am) as [r' am']. cbn [fst] in Er. subst r'. apply IH.
  Qed.
End Plain.

Section Props.
  Context {N : NumOps} (rng : nat -> num N).
  Notation F := (num N).
  Notation X := (val3 N).
  Context (ncmp : nom -> nom -> option bool) (normal : F -> F -> A F).
  Context (pystr : attr -> string) (setord : list attr -> list attr) (rlimit : nat).
  Notation dreachable := (dreachable (N:=N) pystr setord rlimit).
  Notation d_infer := (d_infer rng ncmp normal pystr setord rlimit).

  (** ** C98: infer_missing leaves the tree's counts alone, whether it returns
      or raises. *)
  Theorem C98_read_only q (d : inst X) f b rpos (s : dst N) :
    d_id (snd (d_infer q d f b rpos s)) = d_id s /\ d_tb (snd (d_infer q d f b rpos s)) = d_tb s.
  Proof.
    unfold Dummy.d_infer. destruct (pipe_tr _ _ _ _ _) as [[[d1|e] h] c]; [|done].
    by destruct (d_infer_loop _ _ _ _ _ _ _ _ _) as [[d2|e] am].
  Qed.

  (** Where an added value comes from: the value - not None - of some instance, or - for
      numbers - what the mean and deviation of all numbers under the attribute
      give. *)
  Definition from_all (tb : nsum3 N) (l : list (inst3 N)) (f : string) (a : attr) (v : pv X) : Prop :=
    (exists w, v = of_scalar (VNom w) /\ w <> NNone /\ exists j, j ∈ l /\ dget a j = Some (VNom w)) \/
    (exists y c, v = of_scalar (VNum y) /\ numeric_of tb a = Some c /\ (exists j z, j ∈ l /\ dget a j = Some (VNum z)) /\
       ((f = "most likely" \/ f = "m")%string /\ y = cv_mean c \/
        (f = "sampled" \/ f = "s")%string /\ exists sd am, cv_unbiased_std c = Ok sd /\ fst (normal (cv_mean c) sd am) = Ok y)).
  Lemma seen_from_all tb l f a w : Hist3 counts tb l -> w <> VNom NNone -> seen normal tb f a w -> from_all tb l f a (of_scalar w).
  Proof.
    intros Hh Hnn Hs. destruct w as [w|y].
    - left. exists w. split; [done|]. split; [congruence|]. cbn [seen] in Hs. rewrite (hist_count counts _ _ _ _ Hh) in Hs. by apply occ3_pos in Hs.
    - right. destruct Hs as (c & Hc & Hs). exists y, c. split; [done|]. split; [done|]. split; [|done].
      pose proof (hist_numeric counts _ _ a Hh) as Hn. destruct (nums l a) as [|z zs] eqn:En; [congruence|].
      destruct (proj1 (nums_in l a z)) as (j & Hj & Ej); [rewrite En; left|]. by exists j, z.
  Qed.
  Lemma none_had tb (l : list (inst3 N)) f a : Hist3 counts tb l -> seen normal tb f a (VNom NNone) ->
    exists j, j ∈ l /\ dget a j = Some (VNom NNone).
  Proof. intros Hh Hs. cbn [seen] in Hs. rewrite (hist_count counts _ _ _ _ Hh) in Hs. by apply occ3_pos in Hs. Qed.
  Lemma had_key tb (l : list (inst3 N)) a j x : Hist3 counts tb l -> j ∈ l -> dget a j = Some x -> dget a (n3_av tb) <> None.
  Proof.
    intros Hh Hj Ex. apply knows_key. destruct x as [w|y].
    - left. exists w. rewrite (hist_count counts _ _ _ _ Hh). apply occ3_pos. by exists j.
    - right. pose proof (hist_numeric counts _ _ a Hh) as Hn. assert (Hy : y ∈ nums l a) by (apply nums_in; by exists j).
      destruct (nums l a); [by apply elem_of_nil in Hy|]. by destruct Hn as (c & -> & _).
  Qed.
  Lemma key_had tb (l : list (inst3 N)) a : Hist3 counts tb l -> a ∈ dkeys (n3_av tb) -> exists j, j ∈ l /\ a ∈ map fst j.
  Proof.
    intros Hh Ha. destruct (dget_key_Some _ _ Ha) as [d Ed]. destruct Hh as (_ & _ & Hne & Hc). specialize (Hne a d Ed). specialize (Hc a).
    rewrite Ed in Hc. change (default [] (Some d)) with d in Hc. destruct Hc as (Hw & H0 & Hn & Hx).
    assert (G : forall j x, j ∈ l -> dget a j = Some x -> exists j, j ∈ l /\ a ∈ map fst j).
    { intros j x Hj Ej. exists j. split; [done|]. exact (dget_Some_key _ _ _ Ej). }
    destruct (nums l a) as [|z zs] eqn:En.
    2:{ destruct (proj1 (nums_in l a z)) as (j & Hj & Ej); [rewrite En; left|]. by apply (G j _ Hj Ej). }
    destruct d as [|[v k] d]; [done|]. destruct (decide (v = cv_key)) as [->|Hv]; [simpl in Hx; by destruct (decide (cv_key = cv_key))|].
    specialize (Hn v Hv). cbn [dget] in Hn. destruct (decide (v = v)); [|done]. destruct (decide (occ3 l a v = 0)) as [|Ho]; [done|].
    destruct (proj1 (occ3_pos l a v)) as (j & Hj & Ej); [lia|]. by apply (G j _ Hj Ej).
  Qed.

  (** In general: the preprocessors are undone on the mapped instance [d1] to
      which values of earlier instances were added. *)
  Theorem C98_infer_adds_to_mapped evs (s : dst N) q (d : inst X) f b rpos d' s' :
    dreachable evs s -> Forall d_good evs ->
    d_infer q d f b rpos s = (Ok d', s') ->
    exists d1 h c d2,
      pipe_tr (d_stages pystr setord rlimit (d_tb s) (to_orc q)) (d_stage_list true) d new_objs (d_sym s) = (Ok d1, h, c) /\
      (forall a v, dget a d1 = Some v -> dget a d2 = Some v) /\
      (forall a v, dget a d1 = None -> dget a d2 = Some v -> from_all (d_tb s) (dhistory evs) f a v) /\
      (b = false -> forall a j x, j ∈ dhistory evs -> dget a j = Some x ->
        (exists v, dget a d2 = Some v) \/ exists j', j' ∈ dhistory evs /\ dget a j' = Some (VNom NNone)) /\
      pipe_un (d_stages pystr setord rlimit (NSum3 0 []) (to_orc q)) (d_stage_list true) d2 h = Ok d'.
  Proof.
    intros Hr Hg E. destruct (run_hist pystr setord rlimit evs s Hr Hg) as [Hh _].
    unfold Dummy.d_infer in E. destruct (pipe_tr _ _ _ _ _) as [[[d1|e] h] c] eqn:Ep; [|done].
    destruct (d_infer_loop _ _ _ _ _ _ _ _ _) as [[d2|e] am] eqn:El; [|done]. injection E as E _.
    destruct (d_loop_spec rng ncmp normal (d_tb s) (dhistory evs) f b _ d1 _ d2 Hh ltac:(by rewrite El)) as (K1 & K2 & K3 & _).
    exists d1, h, c, d2. split; [done|]. split; [done|]. split; [|split; [|done]].
    - intros a v Ha Hv. destruct (K2 a v Ha Hv) as (_ & w & -> & Hnn & Hs). by apply seen_from_all.
    - intros Hb a j x Hj Ej. pose proof (had_key _ _ _ _ _ Hh Hj Ej) as Hk. destruct (K3 Hb a) as [?|Hs]; [|done|by left|right; by eapply none_had].
      destruct (dget a (n3_av (d_tb s))) eqn:Ea; [|done]. by eapply dget_Some_key.
  Qed.

  (** If neither the instance nor the earlier ones have components: the loop
      runs on the instance itself, and what it gives is returned. *)
  Lemma infer_flat evs (s : dst N) q (d : inst X) f b rpos : 0 < rlimit ->
    dreachable evs s -> Forall d_good evs -> flat_inst d -> (forall j a, j ∈ dhistory evs -> a ∈ map fst j -> simple a) ->
    exists d1 am, d1 ≡ₚ d /\
      fst (d_infer q d f b rpos s) = fst (d_infer_loop rng ncmp normal (d_tb s) f b (dkeys (n3_av (d_tb s))) d1 am).
  Proof.
    intros Hl Hr Hg Hd Hall. destruct (run_hist pystr setord rlimit evs s Hr Hg) as [Hh _].
    assert (Hk : Forall simple (dkeys (n3_av (d_tb s)))).
    { apply Forall_forall. intros a Ha. destruct (key_had _ _ a Hh Ha) as (j & Hj & Haj). by apply (Hall j). }
    unfold Dummy.d_infer.
    destruct (pipe_flat pystr setord rlimit (d_tb s) (to_orc q) d (d_sym s) Hd Hk) as (d1 & h & Hp & Ep & H0 & H1 & H2 & H3).
    rewrite Ep. exists d1, (Amb (d_ctr s + to_ids q) rpos). split; [done|]. cbn [d_ctr]. destruct (d_infer_loop _ _ _ _ _ _ _ _ _) as [[d2|e] am] eqn:El; [|done].
    cbn [fst].
    destruct (d_loop_spec rng ncmp normal (d_tb s) (dhistory evs) f b _ d1 _ d2 Hh ltac:(by rewrite El)) as (K1 & K2 & K3 & K4).
    pose proof (flat_perm _ _ (symmetry Hp) Hd) as [Hw1 Hf1]. specialize (K4 Hw1).
    assert (Hd2 : flat_inst d2).
    { split; [exact K4|]. apply Forall_forall. intros [a v] Hin. pose proof (In_dget a v d2 K4 Hin) as Ev. cbn [fst snd].
      destruct (dget a d1) as [v1|] eqn:E1.
      - pose proof (K1 a v1 E1) as Ev1. rewrite Ev in Ev1. injection Ev1 as <-. rewrite Forall_forall in Hf1.
        apply dget_In in E1. exact (Hf1 _ E1).
      - destruct (K2 a v E1 Ev) as (Ha & w & -> & _). rewrite Forall_forall in Hk. split; [by apply Hk|].
        destruct w as [[]|]; by eexists. }
    exact (unpipe_flat pystr setord rlimit (to_orc q) d2 h Hl Hd2 H0 H1 H2 H3).
  Qed.

  (** What is returned then is the instance, and values of earlier instances
      for attributes that it does not have. *)
  Theorem C98_flat evs (s : dst N) q (d : inst X) f b rpos d' s' : 0 < rlimit ->
    dreachable evs s -> Forall d_good evs -> flat_inst d -> (forall j a, j ∈ dhistory evs -> a ∈ map fst j -> simple a) ->
    d_infer q d f b rpos s = (Ok d', s') ->
    NoDup (map fst d') /\
    (forall a v, dget a d = Some v -> dget a d' = Some v) /\
    (forall a v, dget a d = None -> dget a d' = Some v -> from_all (d_tb s) (dhistory evs) f a v) /\
    (b = false -> forall a j x, j ∈ dhistory evs -> dget a j = Some x ->
        (exists v, dget a d' = Some v) \/ exists j', j' ∈ dhistory evs /\ dget a j' = Some (VNom NNone)).
  Proof.
    intros Hl Hr Hg Hd Hall E. destruct (run_hist pystr setord rlimit evs s Hr Hg) as [Hh _].
    destruct (infer_flat evs s q d f b rpos Hl Hr Hg Hd Hall) as (d1 & am & Hp & E1). rewrite E in E1. cbn [fst] in E1. symmetry in E1.
    destruct (d_loop_spec rng ncmp normal (d_tb s) (dhistory evs) f b _ d1 _ d' Hh E1) as (K1 & K2 & K3 & K4).
    assert (Hget : forall a, dget a d1 = dget a d).
    { intros a. symmetry. apply dget_perm; [by destruct Hd|by symmetry]. }
    split; [apply K4; unfold dwf, dkeys; by rewrite Hp; destruct Hd|]. split; [|split].
    - intros a v Ha. apply K1. by rewrite Hget.
    - intros a v Ha Hv. rewrite <- Hget in Ha. destruct (K2 a v Ha Hv) as (_ & w & -> & Hnn & Hs). by apply seen_from_all.
    - intros Hb a j x Hj Ej. pose proof (had_key _ _ _ _ _ Hh Hj Ej) as Hk'. destruct (K3 Hb a) as [?|Hs]; [|done|by left|right; by eapply none_had].
      destruct (dget a (n3_av (d_tb s))) eqn:Ea; [|done]. by eapply dget_Some_key.
  Qed.
End Props.
Print Assumptions C98_read_only.
Print Assumptions C98_infer_adds_to_mapped.
Print Assumptions C98_flat.
