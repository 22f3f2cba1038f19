(** * Undoing the TRESTLE pipeline (C77, C78). *)
From stdpp Require Import base decidable list gmap strings sets.
From Coq Require Import Ascii String ZArith.
From Verif Require Import Base Num TreeModel TreeFun TreeScore TreeRefine TreeSorts TreeInv SpecTree TreeState
  Nominal Utils CV Cobweb3 C3Facts Query Query3
  PyVal Preproc Preproc2 PreTuple PreFlat PreSub PreObj StructMap StructFacts PropsStruct PreStd PropsPre PropsPre2 Trestle SpecTrestle
  TrestleFacts TrestleFresh TrestleVals TrestleTotal TrestleSim PropsTrestle PropsTrestleI PropsC3.
Set Default Proof Using "Type".
Open Scope list_scope.

(** ** Pipelines with the same stages *)
Lemma pipe_tr_ext {I S} (cls cls' : nat -> pproc I S) os : (forall o, pp_tr (cls o) = pp_tr (cls' o)) ->
  forall i h c, pipe_tr cls os i h c = pipe_tr cls' os i h c.
Proof.
  intros H. induction os as [|o os IH]; intros i h c; [done|]. cbn [pipe_tr]. destruct (h !! o); [|done]. rewrite H.
  destruct (pp_tr (cls' o) i s c) as [[[k|e] s1] c1]; [apply IH|done].
Qed.
Lemma pipe_un_ext {I S} (cls cls' : nat -> pproc I S) os : (forall o, pp_un (cls o) = pp_un (cls' o)) ->
  forall i h, pipe_un cls os i h = pipe_un cls' os i h.
Proof.
  intros H i h. unfold pipe_un. revert i. induction (rev os) as [|o l IH]; intros i; [done|]. simpl.
  assert (E : pipe_un1 cls h i o = pipe_un1 cls' h i o) by (unfold pipe_un1; by rewrite H). rewrite E.
  destruct (pipe_un1 cls' h i o); [apply IH|done].
Qed.

(** ** A higher recursion limit gives the same answer. *)
Definition below {B} (r r' : res B) : Prop := forall b, r = Ok b -> r' = Ok b.
Lemma below_refl {B} (r : res B) : below r r.
Proof. by intros b. Qed.
Lemma below_bind {B D} (r r' : res B) (f f' : B -> res D) :
  below r r' -> (forall b, below (f b) (f' b)) -> below (let? x := r in f x) (let? x := r' in f' x).
Proof. intros H Hf y. destruct r as [b|e]; [|done]. rewrite (H b eq_refl). apply Hf. Qed.
Lemma below_mapM {B D} (f f' : B -> res D) l : (forall b, below (f b) (f' b)) -> below (rmapM f l) (rmapM f' l).
Proof.
  intros H. induction l as [|x l IH]; [apply below_refl|]. simpl. apply below_bind; [apply H|].
  intros b. apply below_bind; [done|]. intros ?. apply below_refl.
Qed.
Lemma below_fold {B D} (f f' : B -> D -> res B) l : (forall b x, below (f b x) (f' b x)) ->
  forall b, below (rfold f b l) (rfold f' b l).
Proof.
  intros H. induction l as [|x l IH]; intros b; [apply below_refl|]. simpl. apply below_bind; [apply H|]. done.
Qed.
Lemma rename_below m : forall k k', k <= k' -> forall a, below (rename_embedding k m a) (rename_embedding k' m a).
Proof.
  induction k as [|k IH]; intros k' Hk a; [by intros b|]. destruct k' as [|k']; [lia|]. assert (Hk' : k <= k') by lia.
  simpl. destruct (dget a m).
  - apply below_bind; [by apply IH|]. intros ?. apply below_refl.
  - destruct a as [t|l|z]; [apply below_refl| |apply below_refl].
    destruct l as [|x l]; [apply below_refl|]. destruct l as [|y l].
    { apply below_bind; [apply below_mapM; intros; by apply IH|]. intros ?. apply below_refl. }
    destruct l as [|z l].
    { apply below_bind; [by apply IH|]. intros ?. apply below_refl. }
    apply below_bind; [apply below_mapM; intros; by apply IH|]. intros ?. apply below_refl.
Qed.
Lemma sub_undo_below {V} (d : list (attr * V)) k k' : k <= k' -> below (sub_undo k d) (sub_undo k' d).
Proof.
  intros Hk. unfold sub_undo, mapkM. apply below_fold. intros b e. apply below_bind; [by apply rename_below|].
  intros ?. apply below_refl.
Qed.

Section Undo.
  Context {N : NumOps}.
  Notation X := (val3 N).
  Context (pystr : attr -> string) (setord : list attr -> list attr).
  Hypothesis setord_spec : forall l x, x ∈ setord l <-> x ∈ l.
  Notation stages := (stages (N:=N) pystr setord).

  Lemma flat_undone (d : inst X) : flat_ok d -> undone eq (flat_proc (N:=N)) d.
  Proof.
    intros Hd s c j s' c' E j' ->. cbn [flat_proc pp_tr pp_un] in *. injection E as E <- <-.
    destruct (C43_flattener _ d Hd) as (f & E1 & E2 & _). exists d. split; [|done]. congruence.
  Qed.
  Lemma sub_undone addr rl (d : inst X) : dwf d ->
    Forall (fun e => occ addr (fst e) /\ is_has_comp (fst e) = None) d -> maxsize d <= rl ->
    undone eq (sub_proc (N:=N) rl) d.
  Proof.
    intros Hd HF Hrl s c j s' c' E j' ->. cbn [sub_proc pp_tr pp_un] in *. injection E as E <- <-.
    destruct (sub_round_trip addr vtrue d Hd HF) as (f & E1 & _ & _ & E2). exists d. split; [|done].
    rewrite E1 in E. injection E as ->. by apply E2.
  Qed.
  Lemma map_undone x base orc (d : inst X) : oracle_ok orc -> dwf d ->
    undone eq (map_proc (N:=N) x base orc) d.
  Proof.
    intros Ho Hd s c j s' c' E j' ->. cbn [map_proc pp_tr pp_un] in *.
    destruct (sm_transform _ _ _ _ d) as [[d' rev]|e] eqn:Es; [|done]. injection E as <- <- <-.
    exists d. split; [|done]. by apply (C49_rename_and_undo _ _ _ _ _ _ Ho Hd) in Es as (_ & _ & _ & ?).
  Qed.

  Lemma pipe_un_below k k' x base orc os (d : inst X) h : k <= k' ->
    below (pipe_un (stages k x base orc) os d h) (pipe_un (stages k' x base orc) os d h).
  Proof.
    intros Hk. unfold pipe_un. apply below_fold. intros b o. unfold pipe_un1. destruct (h !! o); [|apply below_refl].
    destruct o as [|[|[|o]]]; [apply below_refl..| |apply below_refl]. by apply sub_undo_below.
  Qed.

  Lemma pipeline_undone x base orc (d : inst X) c j h c' rl :
    oracle_ok orc -> t_obj d ->
    pipe_tr (stages rl x base orc) stage_list d new_objs c = (Ok j, h, c') ->
    exists n, forall rl' x' base' orc', n <= rl' ->
      exists d', pipe_un (stages rl' x' base' orc') stage_list j h = Ok d' /\ ieq d' d.
  Proof using setord_spec.
    intros Ho Hd E. destruct (t_obj_std d Hd) as [Hs Hu].
    destruct (ns_transform_ok pystr setord setord_spec c d Hs) as (d1 & s & E1 & HG & Hdom & Hp).
    assert (Hf : renames (fm (snd s)) (pvars (PD d))).
    { split.
      - intros u Hu'. apply Hdom in Hu'. destruct (fm_good c s u HG Hu') as (n & -> & _). done.
      - intros u v Hu' Hv'. apply (fm_inj c s); [done| |]; by apply Hdom. }
    destruct (t_obj_rename (fm (snd s)) d Hf Hd) as [Hd1 Hcn].
    assert (Hq : "??" ∉ cnames (PD (irename (fm (snd s)) d))).
    { rewrite Hcn. intros Hin. apply elem_of_list_fmap in Hin as (u & Eu & Hin).
      assert (Hin' : u ∈ pvars (PD d)).
      { clear -Hd Hin. destruct Hd as [_ HF _]. cbn [cnames] in Hin.
        apply elem_of_list_In, in_flat_map in Hin as (e & He & Hu). apply elem_of_list_In in He, Hu. rewrite Forall_forall in HF.
        pose proof (HF e He) as Hx. eapply pvars_in; [exact He|]. destruct e as [a w]. unfold top_ok in Hx. cbn [fst snd] in *.
        apply elem_of_app in Hu as [Hu|Hu].
        - destruct a as [t|l|z]; [|by apply elem_of_nil in Hu..]. destruct Hx as [[Hv Ho]|[Hv Hp]].
          + destruct (obj_dict _ Ho) as (d' & ->). apply elem_of_list_singleton in Hu as ->. left. simpl. rewrite Hv. left.
          + destruct w; try done; by apply elem_of_nil in Hu.
        - destruct a as [t|l|z]; [|destruct Hx as [Hp _]; rewrite (cnames_plain _ Hp) in Hu; by apply elem_of_nil in Hu|done].
          destruct Hx as [[Hv Ho]|[Hv Hp]]; [right; by eapply cnames_vars|]. rewrite (cnames_plain _ Hp) in Hu. by apply elem_of_nil in Hu. }
      apply Hdom in Hin'. destruct (fm_good c s u HG Hin') as (n & Eg & _). rewrite Eg in Eu. discriminate Eu. }
    apply peq_sym in Hp. pose proof (t_obj_peq _ _ Hp Hd1) as Hd1'.
    assert (Hq' : "??" ∉ cnames (PD d1)) by (by rewrite <- (cnames_peq _ _ Hp)).
    pose proof (t_obj_flat d1 Hd1') as Hfl. destruct (t_obj_occ d1 Hd1' Hq') as (addr & Hocc).
    destruct (C43_flattener _ d1 Hfl) as (f & Ef & _ & Ef2 & _).
    exists (maxsize f). intros rl' x' base' orc' Hrl.
    rewrite (pipe_un_ext _ (stages rl' x base orc)) by (by intros [|[|[|o]]]).
    rewrite (pipe_tr_ext _ (stages rl' x base orc)) in E by (by intros [|[|[|o]]]).
    unfold stage_list in *. cbn [pipe_tr] in E. change (new_objs !! 0) with (Some (None : pstate)) in E. cbv iota in E.
    change (pp_tr (stages rl' x base orc 0) d None c) with
      (pp_tr (std_proc (X:=X) pystr setord) d None c) in E. unfold std_proc at 1 in E. cbn [pp_tr] in E. rewrite E1 in E.
    change (pipe_tr (stages rl' x base orc) [1; 2; 3] d1 (<[0:=Some (map (fun e => (snd e, fst e)) (snd s))]> new_objs) (fst s) = (Ok j, h, c')) in E.
    assert (H0 : h !! 0 = Some (Some (map (fun e => (snd e, fst e)) (snd s)))).
    { etransitivity; [eapply (pipe_tr_keeps _ _ _ _ _ _ _ _ E 0)|apply lookup_insert]. intros Hin.
      by repeat (apply elem_of_cons in Hin as [Hin|Hin]; [discriminate Hin|]); apply elem_of_nil in Hin. }
    assert (Hun : exists i', pipe_un (stages rl' x base orc) [1; 2; 3] j h = Ok i' /\ i' = d1).
    { eapply (C45_pipeline (stages rl' x base orc) eq [1; 2; 3]); [by apply (bool_decide_eq_true_1 (NoDup [1;2;3]))| |exact E|done].
      intros pre o post k h1 c1 Eos Epre.
      destruct pre as [|o1 pre]; simpl in Eos; injection Eos as <- Eos.
      { injection Epre as <- _ _. by apply flat_undone. }
      change (pipe_tr (stages rl' x base orc) (1 :: pre) d1 (<[0:=Some (map (fun e => (snd e, fst e)) (snd s))]> new_objs) (fst s) = (Ok k, h1, c1)) in Epre.
      cbn [pipe_tr] in Epre. rewrite lookup_insert_ne in Epre by done. change (new_objs !! 1) with (Some (None : pstate)) in Epre. cbv iota in Epre.
      change (pp_tr (stages rl' x base orc 1) d1 None (fst s)) with (flatten d1, None : pstate, fst s) in Epre. cbv iota beta zeta in Epre. rewrite Ef in Epre.
      assert (Hwf : dwf f).
      { rewrite Ef2. unfold dwf, dkeys. rewrite map_map. exact (enc_top_nodup d1 Hfl). }
      assert (HF : Forall (fun e => occ addr (fst e) /\ is_has_comp (fst e) = None) f).
      { rewrite Ef2. apply Forall_map. exact Hocc. }
      destruct pre as [|o2 pre]; simpl in Eos; injection Eos as <- Eos.
      { injection Epre as <- _ _. by eapply sub_undone. }
      cbn [pipe_tr] in Epre. rewrite !lookup_insert_ne in Epre by done. change (new_objs !! 2) with (Some (None : pstate)) in Epre. cbv iota in Epre.
      change (pp_tr (stages rl' x base orc 2) f None (fst s)) with (sub_transform vtrue f, None : pstate, fst s) in Epre. cbv iota beta zeta in Epre.
      destruct (sub_round_trip addr vtrue f Hwf HF) as (f2 & E2 & _). rewrite E2 in Epre.
      destruct pre as [|o3 pre]; simpl in Eos; [|by destruct pre]. injection Eos as <- <-. injection Epre as <- _ _.
      apply map_undone; [done|]. by eapply sub_transform_wf. }
    destruct Hun as (i' & Hun & ->). unfold pipe_un in *. cbn [rev app] in *.
    change (rfold (pipe_un1 (stages rl' x base orc) h) j ([3; 2; 1] ++ [0]) = Ok d1) in Hun || idtac.
    destruct (ns_round_trip_eq pystr setord setord_spec c d Hs Hu) as (d1' & rev' & c0 & E' & H). rewrite E1 in E'. injection E' as <- <- _.
    eexists. split; [|apply H, ieq_refl].
    change [3; 2; 1; 0] with ([3; 2; 1] ++ [0]). rewrite rfold_app, Hun. simpl. unfold pipe_un1.
    replace (h !! 0) with (Some (Some (map (fun e => (snd e, fst e)) (snd s)) : pstate)) by (symmetry; exact H0). done.
  Qed.

  (** ** C77: undoing what the four preprocessors did to an instance gives it
      back, if Python's recursion limit is not hit; a call that returns gives
      it back. *)
  Theorem C77_pipeline_undone x base orc (d : inst X) c j h c' rl :
    oracle_ok orc -> t_obj d ->
    pipe_tr (stages rl x base orc) stage_list d new_objs c = (Ok j, h, c') ->
    (exists n, forall rl' x' base' orc', n <= rl' ->
       exists d', pipe_un (stages rl' x' base' orc') stage_list j h = Ok d' /\ ieq d' d) /\
    (forall rl' x' base' orc' d', pipe_un (stages rl' x' base' orc') stage_list j h = Ok d' -> ieq d' d).
  Proof using setord_spec.
    intros Ho Hd E. destruct (pipeline_undone _ _ _ _ _ _ _ _ _ Ho Hd E) as (n & Hn). split; [by exists n|].
    intros rl' x' base' orc' d' Hun. destruct (Hn (n + rl') x' base' orc') as (d2 & E2 & H2); [lia|].
    apply (pipe_un_below rl' (n + rl')) in Hun; [|lia]. congruence.
  Qed.
End Undo.

Section Infer.
  Context {N : NumOps} (rng : nat -> num N).
  Notation F := (num N).
  Notation C := (Cobweb3Class N).
  Notation X := (val3 N).
  Context (ncmp : nom -> nom -> option bool) (normal : F -> F -> A F).
  Context (pystr : attr -> string) (setord : list attr -> list attr) (rlimit : nat).
  Hypothesis Hnormal : forall m sd, amono (normal m sd).
  Hypothesis setord_spec : forall l x, x ∈ setord l <-> x ∈ l.
  Notation treachable := (treachable rng ncmp normal pystr setord rlimit).
  Notation t_prepare := (t_prepare (N:=N) pystr setord rlimit).
  Notation t_infer := (t_infer rng ncmp normal pystr setord rlimit).
  Notation t_cat := (t_cat rng pystr setord rlimit).
  Variable sc : option F.
  Variable inner : bool.
  Notation x0 := (@new_ctx N sc inner).

  Lemma t_infer_loop_all (tb : nsum3 N) f b attrs (d : inst X) (s : st C) :
    Forall (fun a => dmem a d = true) attrs -> t_infer_loop rng ncmp normal tb f b attrs d s = (Ok d, s).
  Proof. induction 1 as [|a attrs Ha _ IH]; [done|]. cbn [t_infer_loop]. by rewrite Ha. Qed.

  (** ** C78, the case of nothing missing: if the mapped instance has every
      attribute of the leaf, infer_missing returns the instance it was given. *)
  Theorem C78_nothing_missing evs s q d f b d' s' d1 h s1 c tb :
    treachable x0 evs s -> oracle_ok (to_orc q) -> t_obj d ->
    t_prepare q d s = (Ok d1, h, s1) -> fst (t_cat q d s) = Ok c -> table_of (t_tree s) c tb ->
    (forall a, a ∈ dkeys (n3_av tb) -> a ∈ dkeys d1) ->
    t_infer q d f b s = (Ok d', s') -> ieq d' d.
  Proof using Hnormal setord_spec.
    intros Hr Ho Hd Hp Hc Htb Hall E.
    pose proof (treachable_calls rng ncmp normal pystr setord rlimit Hnormal _ _ _ Hr) as Hrc.
    unfold Trestle.t_infer in E. unfold Trestle.t_cat, Trestle.t_ready in Hc. rewrite Hp in E, Hc.
    pose proof (prepare_grown pystr setord rlimit _ _ _ _ _ _ Hp) as Hgr.
    destruct (t_sane d1); [|done]. destruct (hashed d1) as [k|e] eqn:Ek; [|done].
    assert (Hr1 : reachable C rng x0 (List.concat (map cobweb_calls evs) ++ [EOther]) (t_tree s1)).
    { destruct Hrc as (ctr & rpos & Hrc). exists ctr, rpos. eapply run_snoc; [exact Hrc|]. by eapply grown_other. }
    unfold t_find in E. rewrite Ek in E. unfold on_tree, mbind, mget in E, Hc. cbn [fst snd] in E, Hc.
    destruct (cobweb_categorize C rng k (t_tree s1)) as [rc s2] eqn:Ec. cbn [fst snd] in Hc. subst rc.
    destruct (C62_categorize_read_only rng sc inner _ _ k _ s2 Hr1 Ec) as (Hh & _).
    destruct Htb as (nd & Hnd & <-). destruct Hgr as (E2 & _). rewrite Hh, E2, Hnd in E. cbn [nd_sum] in E.
    rewrite t_infer_loop_all in E.
    - cbn [fst snd] in E. injection E as E _. unfold Trestle.t_prepare in Hp.
      destruct (st_heap (t_tree s) !! st_root (t_tree s)) as [n|]; [|done].
      destruct (pipe_tr _ _ _ _ _) as [[r h'] c'] eqn:Epi. injection Hp as -> -> _.
      eapply (C77_pipeline_undone pystr setord setord_spec); [exact Ho|exact Hd|exact Epi|exact E].
    - apply Forall_forall. intros a Ha. by apply dmem_true, Hall.
  Qed.
End Infer.
