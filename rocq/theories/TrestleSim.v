(** * A cleared TrestleTree behaves as a new one. *)
From stdpp Require Import base decidable list gmap sets strings.
From Coq Require Import Ascii String ZArith.
From Verif Require Import Base Num TreeModel TreeFun TreeScore TreeRefine TreeSorts TreeInv SpecTree TreeState
  TreeRel TreeSim Nominal CV Cobweb3 C3Facts C3Tree Query Query3 PropsC3
  PyVal Preproc Preproc2 StructMap StructFacts Trestle SpecTrestle TreeKeep TrestleFacts.
Set Default Proof Using "Type".
Open Scope list_scope.

Lemma trel_eq {N : NumOps} (C : NodeClass N) t1 : forall t2, trel C C eq t1 t2 -> t1 = t2.
Proof.
  induction t1 as [id s k IH] using (tree_ind' C). intros [id' s' k'] (-> & -> & Hk)%trel_inv. f_equal.
  induction Hk as [|a b k k' Hab Hk IHk]; [done|]. apply Forall_cons in IH as [Ha IH]. f_equal; auto.
Qed.
Lemma trel_refl {N : NumOps} (C : NodeClass N) t : trel C C eq t t.
Proof.
  induction t as [id s k IH] using (tree_ind' C). constructor; [done|]. induction IH; by constructor.
Qed.
Lemma leaf_sub {N : NumOps} (C : NodeClass N) t j sj : leaf_of C t j sj -> sub C (T j sj []) t.
Proof. induction 1 as [|id s kids k j sj Hk Hl IH]; [apply sub_refl|]. by eapply sub_kid. Qed.

Section Sim.
  Context {N : NumOps} (rng : nat -> num N).
  Notation F := (num N).
  Notation C := (Cobweb3Class N).
  Notation X := (val3 N).
  Context (ncmp : nom -> nom -> option bool) (normal : F -> F -> A F).
  Context (pystr : attr -> string) (setord : list attr -> list attr) (rlimit : nat).
  Hypothesis Hnormal : forall m sd, amono (normal m sd).
  Notation t_ready := (t_ready (N:=N) pystr setord rlimit).
  Notation t_prepare := (t_prepare (N:=N) pystr setord rlimit).
  Notation t_infer := (t_infer rng ncmp normal pystr setord rlimit).
  Notation texec1 := (texec1 rng ncmp normal pystr setord rlimit).
  Notation texec := (texec rng ncmp normal pystr setord rlimit).

  (** Two heaps with the same tree in them. *)
  Definition alike (s1 s2 : st C) : Prop :=
    exists t, state_ok C s1 t /\ state_ok C s2 t /\ st_amb s1 = st_amb s2 /\ st_ctx s1 = st_ctx s2.
  Definition talike (s1 s2 : tst N) : Prop := alike (t_tree s1) (t_tree s2) /\ t_sym s1 = t_sym s2.

  Lemma alike_srel s1 s2 : alike s1 s2 <-> srel C C eq eq s1 s2.
  Proof.
    split.
    - intros (t & H1 & H2 & Ha & Hx). exists t, t. split; [done|]. split; [done|]. split; [apply trel_refl|done].
    - intros (t1 & t2 & H1 & H2 & Ht & Ha & Hx). apply trel_eq in Ht as <-. by exists t1.
  Qed.
  Lemma cobweb_alike s1 s2 j : alike s1 s2 ->
    fst (cobweb C rng j s1) = fst (cobweb C rng j s2) /\ alike (snd (cobweb C rng j s1)) (snd (cobweb C rng j s2)).
  Proof.
    rewrite !alike_srel. intros H. exact (cobweb_rel C C rng eq eq eq (eq_sim C) (cobweb3_real N) s1 s2 j j H eq_refl).
  Qed.
  Lemma cat_alike s1 s2 j : alike s1 s2 ->
    fst (cobweb_categorize C rng j s1) = fst (cobweb_categorize C rng j s2) /\
    alike (snd (cobweb_categorize C rng j s1)) (snd (cobweb_categorize C rng j s2)).
  Proof.
    rewrite !alike_srel. intros H. exact (cat_rel C C rng eq eq eq (eq_sim C) (cobweb3_real N) s1 s2 j j H eq_refl).
  Qed.
  Lemma prepare_alike q d s1 s2 : talike s1 s2 ->
    fst (t_prepare q d s1) = fst (t_prepare q d s2) /\ talike (snd (t_prepare q d s1)) (snd (t_prepare q d s2)).
  Proof.
    intros [(t & H1 & H2 & Ha & Hx) Hs]. unfold Trestle.t_prepare.
    destruct (sub_table C _ _ t H1 (sub_refl C t)) as (n1 & E1 & En1). destruct (sub_table C _ _ t H2 (sub_refl C t)) as (n2 & E2 & En2).
    rewrite (so_root _ _ _ H1), (so_root _ _ _ H2), E1, E2, En1, En2, Hx, Hs.
    destruct (pipe_tr _ _ _ _ _) as [[r h] c]. cbn [fst snd]. split; [done|]. split; [|done]. exists t. unfold bump. cbn [t_tree].
    split; [|split]; [apply state_ok_amb; [done|simpl; lia]|apply state_ok_amb; [done|simpl; lia]|].
    simpl. by rewrite Ha, Hx.
  Qed.
  Lemma ready_alike q d s1 s2 : talike s1 s2 ->
    fst (t_ready q d s1) = fst (t_ready q d s2) /\ talike (snd (t_ready q d s1)) (snd (t_ready q d s2)).
  Proof.
    intros H. pose proof (prepare_alike q d _ _ H) as [He Hs]. unfold Trestle.t_ready.
    destruct (t_prepare q d s1) as [[r1 h1] s1'], (t_prepare q d s2) as [[r2 h2] s2']. cbn [fst snd] in *.
    injection He as <- <-. destruct r1 as [d1|e]; [|done]. by destruct (t_sane d1).
  Qed.
  Lemma fit_alike q d s1 s2 : talike s1 s2 ->
    fst (t_fit rng pystr setord rlimit q d s1) = fst (t_fit rng pystr setord rlimit q d s2) /\
    talike (snd (t_fit rng pystr setord rlimit q d s1)) (snd (t_fit rng pystr setord rlimit q d s2)).
  Proof.
    intros H. pose proof (ready_alike q d _ _ H) as [He Hs]. unfold Trestle.t_fit.
    destruct (t_ready q d s1) as [r1 s1'], (t_ready q d s2) as [r2 s2']. cbn [fst snd] in *. subst r2.
    destruct r1 as [j|e]; [|done]. destruct Hs as [Ht Hc]. destruct (cobweb_alike _ _ j Ht) as [Hr Ht'].
    unfold on_tree. cbn [fst snd t_tree t_sym]. split; [done|]. by split.
  Qed.
  Lemma tcat_alike q d s1 s2 : talike s1 s2 ->
    fst (t_cat rng pystr setord rlimit q d s1) = fst (t_cat rng pystr setord rlimit q d s2) /\
    talike (snd (t_cat rng pystr setord rlimit q d s1)) (snd (t_cat rng pystr setord rlimit q d s2)).
  Proof.
    intros H. pose proof (ready_alike q d _ _ H) as [He Hs]. unfold Trestle.t_cat.
    destruct (t_ready q d s1) as [r1 s1'], (t_ready q d s2) as [r2 s2']. cbn [fst snd] in *. subst r2.
    destruct r1 as [j|e]; [|done]. destruct Hs as [Ht Hc]. destruct (cat_alike _ _ j Ht) as [Hr Ht'].
    unfold on_tree. cbn [fst snd t_tree t_sym]. split; [done|]. by split.
  Qed.
  Lemma infer_loop_alike tb f b attrs : forall d s1 s2, alike s1 s2 ->
    fst (t_infer_loop rng ncmp normal tb f b attrs d s1) = fst (t_infer_loop rng ncmp normal tb f b attrs d s2) /\
    alike (snd (t_infer_loop rng ncmp normal tb f b attrs d s1)) (snd (t_infer_loop rng ncmp normal tb f b attrs d s2)).
  Proof using Hnormal.
    induction attrs as [|a attrs IH]; intros d s1 s2 H; [done|]. simpl.
    destruct (dmem a d); [by apply IH|]. unfold mbind, mamb. destruct H as (t & H1 & H2 & Ha & Hx). rewrite <- Ha, <- Hx.
    pose proof (predict3_mono rng ncmp normal Hnormal tb a f b (st_amb s1)) as Hm.
    destruct (predict3 rng ncmp normal tb a f b (st_amb s1)) as [r a1]. cbn [snd] in Hm.
    assert (H' : alike (St (st_heap s1) (st_root s1) a1 (st_ctx s1)) (St (st_heap s2) (st_root s2) a1 (st_ctx s1))).
    { exists t. split; [apply state_ok_amb; [done|apply Hm]|]. split; [|done]. rewrite Hx.
      apply state_ok_amb; [done|]. rewrite <- Ha. apply Hm. }
    destruct r as [v|e]; [|done]. by apply IH.
  Qed.
  Lemma infer_alike q d f b s1 s2 : talike s1 s2 ->
    fst (t_infer q d f b s1) = fst (t_infer q d f b s2) /\
    talike (snd (t_infer q d f b s1)) (snd (t_infer q d f b s2)).
  Proof using Hnormal.
    intros H. pose proof (prepare_alike q d _ _ H) as [He Hs]. unfold Trestle.t_infer.
    assert (Hctx : st_ctx (t_tree s1) = st_ctx (t_tree s2)) by (by destruct H as [(t & _ & _ & _ & ?) _]).
    destruct (t_prepare q d s1) as [[r1 h1] s1'], (t_prepare q d s2) as [[r2 h2] s2']. cbn [fst snd] in *.
    injection He as <- <-. destruct r1 as [d1|e]; [|done].
    destruct Hs as [Ht Hc].
    assert (Hl : forall (r : res (inst X)) u1 u2, alike u1 u2 ->
      fst (match r with Err e => (Err e, TSt u1 (t_sym s1')) | Ok d2 => (pipe_un (stages pystr setord rlimit (st_ctx (t_tree s1)) (NSum3 0 []) (to_orc q)) stage_list d2 h1, TSt u1 (t_sym s1')) end) =
      fst (match r with Err e => (Err e, TSt u2 (t_sym s2')) | Ok d2 => (pipe_un (stages pystr setord rlimit (st_ctx (t_tree s2)) (NSum3 0 []) (to_orc q)) stage_list d2 h1, TSt u2 (t_sym s2')) end) /\
      talike (snd (match r with Err e => (Err e, TSt u1 (t_sym s1')) | Ok d2 => (pipe_un (stages pystr setord rlimit (st_ctx (t_tree s1)) (NSum3 0 []) (to_orc q)) stage_list d2 h1, TSt u1 (t_sym s1')) end))
        (snd (match r with Err e => (Err e, TSt u2 (t_sym s2')) | Ok d2 => (pipe_un (stages pystr setord rlimit (st_ctx (t_tree s2)) (NSum3 0 []) (to_orc q)) stage_list d2 h1, TSt u2 (t_sym s2')) end))).
    { intros r u1 u2 Hu. rewrite Hctx. destruct r; cbn [fst snd]; by repeat split. }
    unfold on_tree, t_find. destruct (hashed d1) as [j|e].
    2:{ destruct Ht as (t & H1 & H2 & Ha & Hx). assert (Ht : alike (t_tree s1') (t_tree s2')) by (by exists t).
      destruct (rep_sub C _ _ _ _ (so_rep _ _ _ H1) (sub_refl C t)) as (q1 & E1 & _). apply rep_lookup in E1.
      destruct (rep_sub C _ _ _ _ (so_rep _ _ _ H2) (sub_refl C t)) as (q2 & E2 & _). apply rep_lookup in E2.
      unfold mbind, mroot, mget. rewrite (so_root _ _ _ H1), (so_root _ _ _ H2), E1, E2. cbn [nd_children].
      destruct (map tid (tkids t)) as [|k ks]; cbn [mret mraise]; [|exact (Hl (Err e) _ _ Ht)].
      unfold mret. rewrite E1, E2. cbn [nd_sum].
      destruct (infer_loop_alike (tsum t) f b (dkeys (n3_av (tsum t))) d1 _ _ Ht) as [Hr' Hu'].
      destruct (t_infer_loop _ _ _ _ _ _ _ _ (t_tree s1')) as [r3 u3], (t_infer_loop _ _ _ _ _ _ _ _ (t_tree s2')) as [r4 u4].
      cbn [fst snd] in *. subst r4. exact (Hl r3 _ _ Hu'). }
    destruct (cat_alike _ _ j Ht) as [Hr Hu].
    destruct Ht as (t & H1 & H2 & _).
    pose proof (categorize_runs C rng _ t j H1) as Hrun1. pose proof (categorize_runs C rng _ t j H2) as Hrun2. cbv zeta in Hrun1, Hrun2.
    pose proof (fcat_mono C rng (cob_fuel C (t_tree s1')) (st_ctx (t_tree s1')) t j (st_amb (t_tree s1'))) as [Hm1 _].
    pose proof (fcat_mono C rng (cob_fuel C (t_tree s2')) (st_ctx (t_tree s2')) t j (st_amb (t_tree s2'))) as [Hm2 _].
    pose proof (fcat_leaf C rng (cob_fuel C (t_tree s1')) (st_ctx (t_tree s1')) t j (st_amb (t_tree s1'))) as Hleaf.
    unfold mbind. revert Hr Hu. rewrite Hrun1, Hrun2. clear Hrun1 Hrun2.
    set (o1 := fcat C rng (cob_fuel C (t_tree s1')) _ _ _ _) in *. set (o2 := fcat C rng (cob_fuel C (t_tree s2')) _ _ _ _) in *.
    clearbody o1 o2. destruct o1 as [r1 a1], o2 as [r2 a2]. cbn [fst snd] in *. intros <- Hu.
    destruct r1 as [c|e]; [|exact (Hl (Err e) _ _ Hu)].
    destruct (Hleaf c eq_refl) as [sj Hj]. apply leaf_sub in Hj.
    set (u1 := St (st_heap (t_tree s1')) (st_root (t_tree s1')) a1 _) in *. set (u2 := St (st_heap (t_tree s2')) (st_root (t_tree s2')) a2 _) in *.
    assert (Hu1 : state_ok C u1 t) by (by apply state_ok_amb).
    assert (Hu2 : state_ok C u2 t) by (by apply state_ok_amb). clearbody u1 u2.
    destruct (sub_table C _ _ _ Hu1 Hj) as (n1 & E1 & En1). destruct (sub_table C _ _ _ Hu2 Hj) as (n2 & E2 & En2).
    unfold mget. simpl in E1, E2. rewrite E1, E2, En1, En2.
    destruct (infer_loop_alike (tsum (T c sj [])) f b (dkeys (n3_av (tsum (T c sj [])))) d1 u1 u2 Hu) as [Hr' Hu'].
    destruct (t_infer_loop _ _ _ _ _ _ _ _ u1) as [r3 u3], (t_infer_loop _ _ _ _ _ _ _ _ u2) as [r4 u4].
    cbn [fst snd] in *. subst r4. exact (Hl r3 _ _ Hu').
  Qed.

  Lemma clear_alike x0 s1 s2 : alike s1 s2 -> alike (snd (mclear C x0 s1)) (snd (mclear C x0 s2)).
  Proof.
    intros (t & _ & _ & Ha & _). destruct (clear_runs C x0 s1) as (u1 & -> & Hok1 & Ha1 & Hx1).
    destruct (clear_runs C x0 s2) as (u2 & -> & Hok2 & Ha2 & Hx2). cbn [snd]. rewrite Ha in Hok1, Ha1.
    eexists. split; [exact Hok1|]. split; [exact Hok2|]. by rewrite Ha1, Ha2, Hx1, Hx2.
  Qed.
  Lemma texec1_alike x0 c s1 s2 : talike s1 s2 ->
    fst (texec1 x0 c s1) = fst (texec1 x0 c s2) /\ talike (snd (texec1 x0 c s1)) (snd (texec1 x0 c s2)).
  Proof using Hnormal.
    intros H. destruct c as [d q|d q|d f b q|dc dr|]; simpl.
    - pose proof (fit_alike q d _ _ H) as [Hr Hs].
      destruct (t_fit _ _ _ _ q d s1), (t_fit _ _ _ _ q d s2). cbn [fst snd] in *. by subst.
    - pose proof (tcat_alike q d _ _ H) as [Hr Hs].
      destruct (t_cat _ _ _ _ q d s1), (t_cat _ _ _ _ q d s2). cbn [fst snd] in *. by subst.
    - pose proof (infer_alike q d f b _ _ H) as [Hr Hs].
      destruct (t_infer q d f b s1), (t_infer q d f b s2). cbn [fst snd] in *. by subst.
    - destruct H as [(t & H1 & H2 & Ha & Hx) Hc]. split; [done|]. split; [|done]. exists t. cbn [t_tree].
      split; [|split]; [apply state_ok_amb; [done|simpl; lia]|apply state_ok_amb; [done|simpl; lia]|].
      simpl. by rewrite Ha, Hx.
    - split; [done|]. split; [|done]. unfold t_clear. cbn [t_tree]. apply clear_alike, H.
  Qed.
  Lemma texec_alike x0 cs : forall s1 s2, talike s1 s2 ->
    fst (texec x0 cs s1) = fst (texec x0 cs s2) /\ talike (snd (texec x0 cs s1)) (snd (texec x0 cs s2)).
  Proof using Hnormal.
    induction cs as [|c cs IH]; intros s1 s2 H; [done|]. simpl.
    destruct (texec1_alike x0 c _ _ H) as [Hr Hs].
    destruct (texec1 x0 c s1) as [r1 u1], (texec1 x0 c s2) as [r2 u2]. cbn [fst snd] in *. subst r2.
    destruct (IH _ _ Hs) as [Hr2 Hs2].
    destruct (texec x0 cs u1) as [q1 v1], (texec x0 cs u2) as [q2 v2]. cbn [fst snd] in *. by subst q2.
  Qed.

  (** A tree that was cleared, and one created at that moment. *)
  Lemma clear_new_alike x0 s : talike (t_clear x0 s) (t_new (am_ctr (st_amb (t_tree s))) (am_rpos (st_amb (t_tree s))) x0).
  Proof.
    split; [|done]. unfold t_clear, t_new. cbn [t_tree].
    destruct (clear_runs C x0 (t_tree s)) as (s1 & -> & Hok & Ha & Hx). cbn [snd].
    eexists. split; [exact Hok|]. split; [apply fresh_ok|done].
  Qed.
  Lemma alike_view s1 s2 : alike s1 s2 -> same_view (C1:=C) (C2:=C) eq s1 s2.
  Proof. intros (t & H1 & H2 & _). by eapply same_tree_view. Qed.
End Sim.
