(** * Properties of TrestleTree, for any arithmetic. *)
From stdpp Require Import base decidable list gmap strings sets.
From Coq Require Import Ascii String ZArith.
From Verif Require Import Base Num TreeModel TreeFun TreeScore TreeRefine TreeSorts TreeInv SpecTree TreeState
  TreeTotal TreeLeaf Nominal Utils CV Cobweb3 C3Facts C3Tree Query Query3 PropsC3
  PyVal Preproc Preproc2 StructMap StructFacts PropsStruct PreStd Trestle SpecTrestle
  TreeKeep TrestleFacts TrestleFresh TrestleRaise TrestleVals TrestleTotal TrestleSim.
Set Default Proof Using "Type".
Open Scope list_scope.

Section Props.
  Context {N : NumOps} (rng : nat -> num N).
  Notation F := (num N).
  Notation C := (Cobweb3Class N).
  Notation X := (val3 N).
  Context (ncmp : nom -> nom -> option bool) (normal : F -> F -> A F).
  Context (pystr : attr -> string) (setord : list attr -> list attr) (rlimit : nat).
  (** Drawing normally distributed numbers moves the random generator on. *)
  Hypothesis Hnormal : forall m sd, amono (normal m sd).
  (** Iterating over a set visits its elements. *)
  Hypothesis setord_spec : forall l x, x ∈ setord l <-> x ∈ l.
  Notation treachable := (treachable rng ncmp normal pystr setord rlimit).
  Notation t_prepare := (t_prepare (N:=N) pystr setord rlimit).
  Notation stages := (stages (N:=N) pystr setord rlimit).
  Notation texec := (texec rng ncmp normal pystr setord rlimit).
  (** [TrestleTree(scaling, inner_attr_scaling)] *)
  Variable sc : option F.
  Variable inner : bool.
  Notation x0 := (@new_ctx N sc inner).

  (** ** C50: instance and concepts share no component when they are matched. *)
  Lemma names_apart evs s id tb : treachable x0 evs s -> in_tree (t_tree s) id -> table_of (t_tree s) id tb ->
    tabQ (made 0 (t_sym s)) tb.
  Proof using Hnormal setord_spec.
    intros Hr Hin Htb.
    destruct (treachable_names rng ncmp normal pystr setord rlimit Hnormal setord_spec x0 evs s Hr) as (t & Hok & Ht).
    apply (in_tree_sub _ _ _ _ Hok) in Hin as (u & Hu & <-).
    rewrite (table_of_det _ _ _ _ _ Htb (sub_table _ _ _ _ Hok Hu)).
    exact (tall_sub C _ _ _ Ht Hu).
  Qed.

  (** [d3] is the instance that the structure mapper is given: standardised,
      flattened and with its sub-components extracted. *)
  Theorem C50_names_apart evs s id tb x base orc d d3 h c :
    treachable x0 evs s -> in_tree (t_tree s) id -> table_of (t_tree s) id tb ->
    pwf (PD d) -> pipe_tr (stages x base orc) [0; 1; 2] d new_objs (t_sym s) = (Ok d3, h, c) ->
    forall o, component (map fst d3) o -> ~ component (map fst (n3_av tb)) o.
  Proof using Hnormal setord_spec.
    intros Hr Hin Htb Hw E o (v & -> & Hv1)%component_kvars (v' & [= <-] & Hv2)%component_kvars.
    destruct (before_mapping pystr setord rlimit setord_spec _ _ _ _ _ _ _ _ Hw E) as (_ & _ & H3).
    destruct (H3 _ eq_refl) as [HQ3 _]. pose proof (names_apart evs s id tb Hr Hin Htb) as HQ.
    pose proof (kvars_Q _ _ HQ3 _ Hv1) as (k & -> & Hk). pose proof (kvars_Q _ _ HQ _ Hv2) as (k' & Ek & Hk').
    apply gensym_inj in Ek. lia.
  Qed.

  (** [flat_match] raises [OtherException] ("Objects in target and base must
      not collide") for nothing else, and the pipeline never does. *)
  Theorem C50_no_collision evs s q d :
    treachable x0 evs s -> pwf (PD d) -> fst (fst (t_prepare q d s)) <> Err OtherException.
  Proof using Hnormal setord_spec.
    intros Hr Hw. unfold Trestle.t_prepare.
    destruct (st_heap (t_tree s) !! st_root (t_tree s)) as [n|] eqn:En; [|done].
    destruct (pipe_tr (stages (st_ctx (t_tree s)) (nd_sum n) (to_orc q)) [0; 1; 2] d new_objs (t_sym s)) as [[r3 h3] c3] eqn:E3.
    rewrite (stages_split pystr setord rlimit setord_spec _ _ _ _ _ _ _ _ Hw E3).
    destruct r3 as [d3|e].
    - destruct (treachable_names rng ncmp normal pystr setord rlimit Hnormal setord_spec x0 evs s Hr) as (t & Hok & _).
      assert (Hin : in_tree (t_tree s) (st_root (t_tree s))) by (apply (in_tree_ids _ _ _ _ Hok); rewrite (so_root _ _ _ Hok); by destruct t; left).
      assert (Htb : table_of (t_tree s) (st_root (t_tree s)) (nd_sum n)) by (by exists n).
      pose proof (C50_names_apart evs s _ _ _ _ _ _ _ _ _ Hr Hin Htb Hw E3) as Ha.
      assert (Hn : nox (sm_transform (mapping_cost (st_ctx (t_tree s)) (nd_sum n) d3) (to_orc q) None (dkeys (n3_av (nd_sum n))) d3)).
      { apply nox_sm_transform; [intros m; apply nox_mapping_cost|].
        intros v Hv1 Hv2. apply (Ha (AStr v)); apply component_kvars; by exists v. }
      destruct (sm_transform _ _ _ _ _) as [[d4 rev]|e]; cbn [fst]; [done|]. exact (nox_err _ Hn).
    - cbn [fst]. clear -E3. simpl in E3.
      pose proof (nox_ns_transform pystr setord (t_sym s) d) as H1.
      destruct (ns_transform pystr setord (t_sym s) d) as [[[d1 rev]|e1] c1]; simpl in *.
      2:{ injection E3 as <- _ _. exact (nox_err _ H1). }
      pose proof (nox_flatten d1) as H2. destruct (flatten d1) as [d2|e2]; simpl in *.
      2:{ injection E3 as <- _ _. exact (nox_err _ H2). }
      pose proof (nox_sub_transform (vtrue (N:=N)) d2) as H3. destruct (sub_transform vtrue d2) as [d3|e3]; simpl in *; [done|].
      injection E3 as <- _ _. exact (nox_err _ H3).
  Qed.

  (** ** C25: a cleared TrestleTree answers every later call as a new one. *)
  Theorem C25_trestle_clear_like_new s cs :
    let s1 := t_clear x0 s in
    let s2 := t_new (am_ctr (st_amb (t_tree s))) (am_rpos (st_amb (t_tree s))) x0 in
    fst (texec x0 cs s1) = fst (texec x0 cs s2) /\
    same_view eq (t_tree (snd (texec x0 cs s1))) (t_tree (snd (texec x0 cs s2))) /\
    t_sym (snd (texec x0 cs s1)) = t_sym (snd (texec x0 cs s2)) /\
    t_sym s1 = 0 /\ st_ctx (t_tree s1) = x0.
  Proof using Hnormal.
    cbv zeta. destruct (texec_alike rng ncmp normal pystr setord rlimit Hnormal x0 cs _ _ (clear_new_alike x0 s)) as [H1 [H2 H3]].
    split; [done|]. split; [by apply alike_view|]. split; [done|]. split; [done|].
    destruct (clear_runs C x0 (t_tree s)) as (u & E & _ & _ & Hx). unfold t_clear. cbn [t_tree]. by rewrite E.
  Qed.

  (** ** C75: a TrestleTree is a Cobweb/3 tree of structure mapped instances. *)
  (** No value is the string that marks numbers in tables. *)
  Definition t_clean (e : tevent N) : Prop :=
    match e with TFit d _ _ _ => pV (clean (N:=N)) (PD d) | _ => True end.

  Lemma treachable_good evs s : treachable x0 evs s -> Forall t_clean evs -> Forall (tfit_inst good3) evs.
  Proof using Hnormal setord_spec.
    intros (ctr & rpos & H) Hc. induction H as [|s evs s1 e s2 H IH Hs]; [done|].
    apply Forall_app in Hc as [Hc [He _]%Forall_cons]. apply Forall_app. split; [auto|]. constructor; [|done].
    destruct Hs as [s' d q j r s'' Hw Ho Ej E| | | |]; simpl in *; try done.
    destruct j as [j|]; [|done]. destruct (Trestle.t_ready pystr setord rlimit q d s') as [r1 s1'] eqn:Er. simpl in Ej. subst r1.
    eapply ready_good; [exact setord_spec|exact Hw|exact He|exact Er].
  Qed.

  Lemma hashed_of_scalar (d : inst X) j : hashed d = Ok j -> map (fun e => (fst e, Some (snd e))) j = map (fun e => (fst e, scalar (snd e))) d.
  Proof.
    unfold hashed. revert j. induction d as [|[a v] d IH]; intros j E; simpl in E; [by injection E as <-|].
    destruct (scalar v) as [w|] eqn:Es; [|done]. cbn [rbind] in E.
    destruct (rmapM _ d) as [j'|] eqn:Ej; [|done]. cbn [rbind] in E. injection E as <-.
    simpl. rewrite (IH _ eq_refl). by rewrite Es.
  Qed.
  (** What ifit counts is the instance after the first three stages, under a
      renaming that keeps its components apart, and nothing else. *)
  Theorem C75_mapped_instance evs s q d j s' : treachable x0 evs s -> pwf (PD d) -> oracle_ok (to_orc q) ->
    Trestle.t_ready pystr setord rlimit q d s = (Ok j, s') ->
    exists d3 h c g, pipe_tr (stages x0 (NSum3 0 []) (to_orc q)) [0; 1; 2] d new_objs (t_sym s) = (Ok d3, h, c) /\
      (forall u, component (map fst d3) (AStr u) -> is_var (g u) = true) /\
      (forall u v, component (map fst d3) (AStr u) -> component (map fst d3) (AStr v) -> g u = g v -> u = v) /\
      map (fun e => (fst e, Some (snd e))) j = map (fun e => (arename g (fst e), scalar (snd e))) d3.
  Proof using Hnormal setord_spec.
    intros Hr Hw Ho E. unfold Trestle.t_ready, Trestle.t_prepare in E.
    destruct (st_heap (t_tree s) !! st_root (t_tree s)) as [n|] eqn:En; [|done].
    destruct (pipe_tr (stages (st_ctx (t_tree s)) (nd_sum n) (to_orc q)) [0; 1; 2] d new_objs (t_sym s)) as [[r3 h3] c3] eqn:E3.
    rewrite (stages_split pystr setord rlimit setord_spec _ _ _ _ _ _ _ _ Hw E3) in E. destruct r3 as [d3|e]; [|done].
    destruct (before_mapping pystr setord rlimit setord_spec _ _ _ _ _ _ _ _ Hw E3) as (_ & _ & H3).
    destruct (H3 _ eq_refl) as [_ Hw3].
    unfold sm_transform in E. destruct (flat_match _ _ _ _ _) as [m|] eqn:Em; [|done]. cbn [rbind] in E.
    destruct (t_sane (rename_flat m d3)); [|done]. injection E as E _.
    apply flat_match_ok in Em as (Hm & Hdisj & _); [|done].
    assert (HT : forall v, kvars (dkeys d3) v -> is_var v = true) by apply kvars_var.
    assert (HB : forall v, kvars (dkeys (n3_av (nd_sum n))) v -> is_var v = true) by apply kvars_var.
    assert (Hk : forall a v, a ∈ dkeys d3 -> v ∈ avars a -> kvars (dkeys d3) v) by (intros a v Ha Hv; by exists a).
    destruct (rename_target _ _ m Hm HT HB Hdisj d3 Hw3 Hk) as [Er _].
    exists d3, h3, c3, (fm m). split; [exact E3|]. split; [|split].
    - intros u (u' & [= <-] & Hu)%component_kvars. by apply (fm_target _ _ m Hm HT HB Hdisj).
    - intros u v (u' & [= <-] & Hu)%component_kvars (v' & [= <-] & Hv)%component_kvars.
      by apply (fm_inj_T _ _ m Hm HT HB Hdisj).
    - rewrite (hashed_of_scalar _ _ E), Er, map_map. done.
  Qed.

  Theorem C75_proper_tree evs s : treachable x0 evs s -> Forall t_clean evs -> hierarchy (t_tree s).
  Proof using Hnormal setord_spec.
    intros Hr Hc. eapply C62_proper_tree; [eapply treachable_calls; [exact Hnormal|exact Hr]|].
    apply all_inst_calls. by eapply treachable_good.
  Qed.

  (** [thistory]: the mapped instances of the calls of ifit since
      the last clear. *)
  Theorem C75_counts evs s : treachable x0 evs s -> Forall t_clean evs -> Forall tfit_ok evs ->
    exists tb, table_of (t_tree s) (st_root (t_tree s)) tb /\
      n3_count tb = List.length (thistory evs) /\
      (forall a v, count_of tb a v = occ3 (thistory evs) a v) /\
      (forall a, match nums (thistory evs) a with
                 | [] => numeric_of tb a = None
                 | xs => exists c, numeric_of tb a = Some c /\ cv_num c = List.length xs
                 end).
  Proof using Hnormal setord_spec.
    intros Hr Hc Hok. rewrite <- history_calls.
    eapply C31_counts_any_arithmetic; [eapply treachable_calls; [exact Hnormal|exact Hr]| |by apply all_ok_calls].
    apply all_inst_calls. by eapply treachable_good.
  Qed.
End Props.
