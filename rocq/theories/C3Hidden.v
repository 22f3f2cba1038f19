(** * Hidden attributes and Cobweb3Tree.

    Hidden attributes do not influence a Cobweb3Tree as long as no hidden
    number shares its scale with a visible attribute. *)
From stdpp Require Import base decidable list gmap strings.
From Verif Require Import Base Num TreeModel TreeFun TreeScore TreeRefine TreeSorts TreeInv
  SpecTree TreeState TreeRel TreeSim Nominal NominalFacts NominalHidden CV Cobweb3 C3Facts C3Scales.

Section Hid.
  Context {N : NumOps}.
  Notation C := (Cobweb3Class N).

  Lemma on_attr_vis {X} (f : list (nom * cell N) -> X -> list (nom * cell N) * option exn)
      (i : list (attr * X)) : forall av av',
    sfold (on_attr f) av i = (av', None) ->
    sfold (on_attr f) (dfilter visible av) (dfilter visible i) = (dfilter visible av', None).
  Proof.
    induction i as [|[a v] i IH]; intros av av'; simpl; [by intros [= ->]|].
    unfold on_attr at 1. cbn [fst snd].
    destruct (f (default [] (dget a av)) v) as [d [e|]] eqn:E; [done|]. intros H. apply IH in H.
    rewrite dset_dfilter in H. destruct (visible a) eqn:Ha; [|done].
    simpl. unfold on_attr at 1. cbn [fst snd]. rewrite dget_dfilter, Ha, E. done.
  Qed.

  (** The visible attributes that occur in the data. *)
  Context (used : attr -> Prop).
  Definition uses (i : inst3 N) : Prop := forall a, visible a = true -> a ∈ dkeys i -> used a.
  Definition some_used (s : nsum3 N) : Prop :=
    exists l, Hist3 counts s l /\ forall i, i ∈ l -> uses i.

  Lemma some_used_empty : some_used (nc_empty C).
  Proof. exists []. split; [apply Hist3_empty|]. intros i Hi. inversion Hi. Qed.
  Lemma some_used_inc s i : some_used s -> good3 i -> uses i ->
    exists s', n3_inc s i = (s', None) /\ some_used s'.
  Proof.
    intros (l & Hl & Hu) Hg Hi. destruct (Hist3_inc counts _ (counts_laws N) s l i Hl Hg) as (s' & E & Hs').
    exists s'. split; [done|]. exists (i :: l). split; [done|].
    intros j [->|Hj]%elem_of_cons; auto.
  Qed.
  Lemma some_used_add s o : some_used s -> some_used o -> exists s', n3_add s o = (s', None) /\ some_used s'.
  Proof.
    intros (l & Hl & Hu) (m & Hm & Hu'). destruct (Hist3_add counts _ (counts_laws N) s o l m Hl Hm) as (s' & E & Hs').
    exists s'. split; [done|]. exists (l ++ m). split; [done|].
    intros j [Hj|Hj]%elem_of_app; auto.
  Qed.
  Lemma some_used_key s a : some_used s -> visible a = true -> a ∈ dkeys (n3_av s) -> used a.
  Proof.
    intros (l & Hl & Hu) Ha Hk. destruct (proj1 (Hist3_key counts s l a Hl) Hk) as (i & Hi & Hki).
    by eapply Hu.
  Qed.

  Definition vis_tables3 (s1 s2 : nsum3 N) : Prop :=
    some_used s1 /\ some_used s2 /\
    n3_count s1 = n3_count s2 /\ dfilter visible (n3_av s1) = dfilter visible (n3_av s2).

  (** No hidden number of [i] has the same inner attribute as a visible
      attribute of the data. *)
  Definition apart (inner : bool) (i : inst3 N) : Prop :=
    forall a y b, (a, VNum y) ∈ i -> visible a = false -> used b ->
      inner_of inner a <> inner_of inner b.
  Definition vis_insts3 (inner : bool) (i1 i2 : inst3 N) : Prop :=
    good3 i1 /\ good3 i2 /\ uses i1 /\ apart inner i1 /\ apart inner i2 /\
    dfilter visible i1 = dfilter visible i2.
  Definition vis_ctxs3 (inner : bool) (x1 x2 : ctx3 N) : Prop :=
    x_scaling x1 = x_scaling x2 /\ x_inner x1 = inner /\ x_inner x2 = inner /\
    forall b, used b ->
      dget (inner_of inner b) (x_scales x1) = dget (inner_of inner b) (x_scales x2).

  Lemma inner_attr_of x inner a : x_inner x = inner -> inner_attr (N:=N) x a = inner_of inner a.
  Proof. intros <-. by destruct a as [|[]|]. Qed.

  Definition scale1 (inner : bool) (b : attr) (o : option (cval N)) (p : attr * val3 N) : option (cval N) :=
    match snd p with
    | VNum y => if decide (inner_of inner (fst p) = b) then Some (cv_update (default (cv_new N) o) y) else o
    | VNom _ => o
    end.
  Lemma update_scales_at x inner (i : inst3 N) b : x_inner x = inner ->
    dget b (x_scales (update_scales x i)) = fold_left (scale1 inner b) i (dget b (x_scales x)).
  Proof.
    intros Hx. unfold update_scales. cbn [x_scales]. generalize (x_scales x) as sc.
    induction i as [|[a v] i IH]; intros sc; [done|]. cbn [fold_left]. rewrite IH. f_equal.
    unfold scale1. cbn [fst snd]. destruct v as [v|y]; [done|].
    rewrite (inner_attr_of x inner a Hx), dget_dset. destruct (decide (inner_of inner a = b)) as [->|Hne].
    - by rewrite decide_True.
    - by rewrite decide_False by done.
  Qed.
  Lemma scale1_vis inner b (i : inst3 N) : apart inner i -> used b -> forall o,
    fold_left (scale1 inner (inner_of inner b)) i o =
    fold_left (scale1 inner (inner_of inner b)) (dfilter visible i) o.
  Proof.
    intros Hp Hb. induction i as [|[a v] i IH]; intros o; [done|].
    assert (Hp' : apart inner i). { intros a' y b' Hin. apply (Hp a' y b'). by right. }
    specialize (IH Hp'). simpl. destruct (visible a) eqn:Ha; simpl; [apply IH|].
    rewrite <- IH. f_equal. unfold scale1. cbn [fst snd]. destruct v as [v|y]; [done|].
    rewrite decide_False; [done|]. eapply Hp; [left|done|done].
  Qed.

  Lemma ecg_value_vis inner x1 x2 n a q : vis_ctxs3 inner x1 x2 -> used a ->
    ecg_value x1 n a q = ecg_value (N:=N) x2 n a q.
  Proof.
    intros (H1 & H2 & H3 & H4) Ha. unfold ecg_value, ecg_scale, scaling_on.
    rewrite H1, (inner_attr_of x1 inner a H2), (inner_attr_of x2 inner a H3), (H4 a Ha). done.
  Qed.

  Lemma ecg_vis inner x1 x2 s1 s2 : vis_ctxs3 inner x1 x2 -> vis_tables3 s1 s2 ->
    n3_ecg x1 s1 = n3_ecg x2 s2.
  Proof.
    intros Hx (_ & Hu & Hc & Hs). unfold n3_ecg. rewrite Hc, Hs.
    assert (Hv : Forall (fun p => used (fst p)) (dfilter visible (n3_av s2))).
    { rewrite Forall_forall. intros p Hp. apply elem_of_filterb in Hp as [Hp Hv].
      eapply some_used_key; [exact Hu|done|]. apply elem_of_list_fmap. eauto. }
    f_equal. generalize (nofnat N 0). clear Hs. induction Hv as [|[a d] l Ha Hl IH]; intros acc; [done|].
    cbn [rfold fst snd] in *.
    assert (E : forall acc,
      rfold (fun acc q => rbind (ecg_value x1 (n3_count s2) a q) (fun g => Ok (nadd N acc g))) acc d =
      rfold (fun acc q => rbind (ecg_value x2 (n3_count s2) a q) (fun g => Ok (nadd N acc g))) acc d).
    { clear -Hx Ha. induction d as [|q d IH]; intros acc; [done|]. cbn [rfold].
      rewrite (ecg_value_vis inner x1 x2 _ a q Hx Ha).
      destruct (ecg_value x2 (n3_count s2) a q); simpl; [|done]. apply IH. }
    rewrite E. destruct (rfold _ acc d); simpl; [|done]. apply IH.
  Qed.

  Lemma rall_vis (f : attr -> res bool) l : (forall a, visible a = false -> f a = Ok true) ->
    rall f l = rall f (List.filter visible l).
  Proof.
    intros Hf. induction l as [|a l IH]; [done|]. simpl. destruct (visible a) eqn:Ha; simpl.
    - destruct (f a) as [[]|]; simpl; done.
    - by rewrite (Hf a Ha).
  Qed.
  Lemma filter_twice (l : list attr) : List.filter visible (List.filter visible l) = List.filter visible l.
  Proof. induction l as [|a l IH]; [done|]. simpl. destruct (visible a) eqn:E; simpl; [|done]. by rewrite E, IH. Qed.

  Lemma exact_vis3 inner s1 s2 i1 i2 : vis_tables3 s1 s2 -> vis_insts3 inner i1 i2 ->
    n3_exact s1 i1 = n3_exact s2 i2.
  Proof.
    intros (_ & _ & Hc & Hs) (_ & _ & _ & _ & _ & Hi).
    assert (Hh : forall (s : nsum3 N) i a, visible a = false -> exact1 s i a = Ok true).
    { intros s i a Ha. unfold exact1. unfold visible in Ha. by destruct (hidden a). }
    unfold n3_exact. rewrite (rall_vis (exact1 s1 i1)) by apply Hh.
    rewrite (rall_vis (exact1 s2 i2)) by apply Hh. rewrite !List.filter_app, !filter_twice.
    rewrite <- !dkeys_dfilter, Hi, Hs.
    assert (Hv : Forall (fun a => visible a = true)
      (dkeys (dfilter visible i2) ++ dkeys (dfilter visible (n3_av s2)))).
    { rewrite Forall_app, !dkeys_dfilter, !Forall_forall.
      split; intros a Ha; by apply elem_of_list_In, filter_In in Ha as [_ ?]. }
    induction Hv as [|a l Ha Hl IH]; [done|]. cbn [rall]. rewrite IH.
    assert (E : exact1 s1 i1 a = exact1 s2 i2 a).
    { unfold exact1. rewrite (vis_dget _ _ a Hi Ha), (vis_dget _ _ a Hs Ha), Hc. done. }
    by rewrite E.
  Qed.

  Lemma hidden_sim3 inner : simulation C C vis_tables3 (vis_insts3 inner) (vis_ctxs3 inner).
  Proof.
    split; [split|]; simpl.
    - split; [apply some_used_empty|]. split; [apply some_used_empty|]. done.
    - by intros s1 s2 (_ & _ & ? & _).
    - intros s1 s2 i1 i2 (H1 & H2 & Hc & Hs) (G1 & G2 & U1 & _ & _ & Hi).
      assert (U2 : uses i2).
      { intros a Ha Hk. apply U1; [done|]. by eapply (vis_key i2 i1). }
      destruct (some_used_inc s1 i1 H1 G1 U1) as (s1' & E1 & S1).
      destruct (some_used_inc s2 i2 H2 G2 U2) as (s2' & E2 & S2).
      rewrite E1, E2. cbn [fst snd]. split; [|done]. split; [done|]. split; [done|].
      unfold n3_inc in E1, E2.
      destruct (sfold _ (n3_av s1) i1) as [a1 e1] eqn:F1, (sfold _ (n3_av s2) i2) as [a2 e2] eqn:F2.
      injection E1 as <- ->. injection E2 as <- ->. cbn [n3_count n3_av]. split; [by rewrite Hc|].
      apply on_attr_vis in F1, F2. rewrite Hs, Hi in F1. rewrite F1 in F2. by injection F2.
    - intros s1 s2 o1 o2 (H1 & H2 & Hc & Hs) (G1 & G2 & Hco & Ho).
      destruct (some_used_add s1 o1 H1 G1) as (s1' & E1 & S1). destruct (some_used_add s2 o2 H2 G2) as (s2' & E2 & S2).
      rewrite E1, E2. cbn [fst snd]. split; [|done]. split; [done|]. split; [done|].
      unfold n3_add in E1, E2.
      destruct (sfold _ (n3_av s1) (n3_av o1)) as [a1 e1] eqn:F1, (sfold _ (n3_av s2) (n3_av o2)) as [a2 e2] eqn:F2.
      injection E1 as <- ->. injection E2 as <- ->. cbn [n3_count n3_av]. split; [by rewrite Hc, Hco|].
      apply on_attr_vis in F1, F2. rewrite Hs, Ho in F1. rewrite F1 in F2. by injection F2.
    - intros x1 x2 s1 s2. apply ecg_vis.
    - intros s1 s2 i1 i2. apply exact_vis3.
    - intros x1 x2 i1 i2 (X1 & X2 & X3 & X4) (_ & _ & _ & P1 & P2 & Hi).
      split; [done|]. split; [done|]. split; [done|]. intros b Hb.
      rewrite (update_scales_at x1 inner i1 _ X2), (update_scales_at x2 inner i2 _ X3).
      rewrite (scale1_vis inner b i1 P1 Hb), (scale1_vis inner b i2 P2 Hb), Hi, (X4 b Hb). done.
  Qed.

  (** ** C66 *)
  Definition same_but_hidden3 (inner : bool) (c1 c2 : call C) : Prop :=
    match c1, c2 with
    | CFit i1, CFit i2 | CCat i1, CCat i2 =>
      good3 i1 /\ good3 i2 /\ (forall a, visible a = true -> a ∈ dkeys i1 -> used a) /\
      apart inner i1 /\ apart inner i2 /\ dfilter visible i1 = dfilter visible i2
    | COther a b, COther c d => a = c /\ b = d
    | CClear, CClear => True
    | _, _ => False
    end.

  Theorem C66_hidden_irrelevant (rng : nat -> num N) sc inner cs1 cs2 ctr rpos :
    Forall2 (same_but_hidden3 inner) cs1 cs2 ->
    let '(r1, s1) := exec C rng (new_ctx sc inner) cs1 (fresh C ctr rpos (new_ctx sc inner)) in
    let '(r2, s2) := exec C rng (new_ctx sc inner) cs2 (fresh C ctr rpos (new_ctx sc inner)) in
    r1 = r2 /\
    same_view (C1:=C) (C2:=C) (fun tb1 tb2 => n3_count tb1 = n3_count tb2 /\
      forall a, visible a = true -> dget a (n3_av tb1) = dget a (n3_av tb2)) s1 s2.
  Proof.
    intros Hcs.
    assert (Hcalls : Forall2 (crel C C (vis_insts3 inner)) cs1 cs2).
    { eapply Forall2_impl; [exact Hcs|]. intros c1 c2 Hc. by destruct c1, c2. }
    assert (Hx : vis_ctxs3 inner (new_ctx sc inner) (new_ctx sc inner)) by done.
    destruct (exec_rel C C rng _ _ _ (hidden_sim3 inner) (cobweb3_real N)
      (new_ctx sc inner) (new_ctx sc inner) cs1 cs2 (fresh C ctr rpos (new_ctx sc inner))
      (fresh C ctr rpos (new_ctx sc inner)) Hx Hcalls
      (srel_fresh C C _ _ _ (hidden_sim3 inner) ctr rpos _ _ Hx)) as [Hr Hs].
    destruct (exec C rng _ cs1 _) as [r1 s1], (exec C rng _ cs2 _) as [r2 s2].
    cbn [fst snd] in *. split; [done|].
    destruct (srel_view _ _ _ _ _ _ Hs) as [V1 V2 V3 V4 V5]. split; try done.
    intros id tb1 tb2 Hin H1 H2. destruct (V5 id tb1 tb2 Hin H1 H2) as (_ & _ & Hc & Hv).
    split; [done|]. intros a Ha. by apply vis_dget.
  Qed.

  (** Without inner-attribute scaling no scale is shared. *)
  Lemma C66_apart_off (i : inst3 N) : (forall a, used a -> visible a = true) -> apart false i.
  Proof.
    intros Hu a y b _ Ha Hb%Hu E.
    assert (Hoff : forall c : attr, inner_of false c = c) by (by intros [|[]|]).
    rewrite !Hoff in E. congruence.
  Qed.
End Hid.
