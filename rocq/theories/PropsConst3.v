(** * C104 for Cobweb3Tree: a constant attribute, nominal or numeric, changes
    nothing, in exact arithmetic.

    The value may be a number.  Then, with inner_attr_scaling, no visible
    attribute may share its scale: a constant among the numbers of a shared
    scale changes that scale (cobweb3.py:95-105). *)
From Coq Require Import Reals Lra.
From stdpp Require Import base decidable tactics gmap strings list.
From Verif Require Import Base Num TreeModel TreeFun TreeScore TreeRefine TreeSorts TreeInv
  SpecTree TreeState TreeTotal TreeRel TreeSim TreeAff RSum Nominal NominalFacts
  CV CVFacts Cobweb3 C3Facts C3Scales C3R C3Tree C3Total C3Hidden PropsTotal PropsC3R PropsClimb PropsOrder
  PropsOrder3 PropsConst.
Local Notation sqrt := R_sqrt.sqrt.
Notation I3R := (inst3 ROps).
Notation RC3 := (Cobweb3Class ROps).

(** ** What is stated *)
Record with_const3 (V : list attr) (a0 : attr) (w0 : val3 ROps) (i1 i2 : I3R) : Prop := {
  w3_good : good3 i1;
  w3_vis : forall a, visible a = true -> a ∈ dkeys i1 <-> a ∈ V;
  w3_new : a0 ∉ dkeys i1;
  w3_perm : Permutation i2 ((a0, w0) :: i1);
}.

Definition const_calls3 V a0 w0 (c1 c2 : call RC3) : Prop :=
  match c1, c2 with
  | CFit i, CFit j => with_const3 V a0 w0 i j
  | CCat i, CCat j => with_const3 V a0 w0 i j
  | COther a b, COther c d => a = c /\ b = d
  | CClear, CClear => True
  | _, _ => False
  end.

(** All that a table says about an attribute with one value [w] in [n]
    instances. *)
Definition const_entry (w : val3 ROps) (n : nat) (d : list (nom * cell ROps)) : Prop :=
  forall v, dget v d = match w with
                       | VNom u => if decide (v = u) then Some (Cnt n) else None
                       | VNum y => if decide (v = cv_key) then Some (CVc (@CVal ROps n y 0%R)) else None
                       end.

Definition const_tables3 (a0 : attr) (w0 : val3 ROps) (t1 t2 : nsum3 ROps) : Prop :=
  n3_count t1 = n3_count t2 /\
  (forall a, a <> a0 -> match dget a (n3_av t1), dget a (n3_av t2) with
                        | Some d1, Some d2 => forall v, dget v d1 = dget v d2
                        | None, None => True
                        | _, _ => False
                        end) /\
  dget a0 (n3_av t1) = None /\
  match dget a0 (n3_av t2) with
  | Some d => n3_count t2 <> 0%nat /\ const_entry w0 (n3_count t2) d
  | None => n3_count t2 = 0%nat
  end.

(** The scales that the new attribute does not touch. *)
Definition other_scale (inner : bool) (a0 : attr) (w0 : val3 ROps) (b : attr) : Prop :=
  match w0 with VNum _ => b <> inner_of inner a0 | VNom _ => True end.

Section Const.
  Variables (V : list attr) (a0 : attr) (w0 : val3 ROps) (inner : bool).
  Hypothesis HV : NoDup V.
  Hypothesis HVv : Forall (fun a => visible a = true) V.
  Hypothesis HVn : V <> [].
  Hypothesis Hvis : visible a0 = true.
  Hypothesis Hok : attr_ok a0 = true.
  Hypothesis Hnew : a0 ∉ V.
  Hypothesis Hres : w0 <> VNom cv_key.
  Hypothesis Hsc : forall a, a ∈ V -> other_scale inner a0 w0 (inner_of inner a).

  (** First the new attribute in front. *)
  Definition front (i1 i2 : I3R) : Prop :=
    with_const3 V a0 w0 i1 i2 /\ i2 = (a0, w0) :: i1.
  Notation WC := front.

  Lemma w3_good2 i1 i2 : with_const3 V a0 w0 i1 i2 -> good3 ((a0, w0) :: i1).
  Proof.
    intros [(G1 & G2 & G3) _ Hn _]. split; [by apply NoDup_cons_2|].
    split; [by apply Forall_cons_2|]. intros a. cbn [dget].
    destruct (decide (a = a0)); [congruence|apply G3].
  Qed.
  Lemma fr_good2 i1 i2 : WC i1 i2 -> good3 i2.
  Proof. intros [H ->]. by eapply w3_good2. Qed.

  Lemma fr_get i1 i2 a : WC i1 i2 -> dget a i2 = if decide (a = a0) then Some w0 else dget a i1.
  Proof. intros [_ ->]. cbn [dget]. destruct (decide (a = a0)); done. Qed.

  Lemma fr_none i1 i2 : WC i1 i2 -> dget a0 i1 = None.
  Proof. intros [H _]. apply dget_None. apply H. Qed.

  Lemma w3_hv i1 i2 : with_const3 V a0 w0 i1 i2 -> has_visible3 i1.
  Proof.
    intros H. destruct V as [|a V'] eqn:EV; [done|]. apply Forall_cons in HVv as [Ha _].
    exists a. split; [done|]. apply (w3_vis _ _ _ _ _ H); [done|]. left.
  Qed.

  Definition cR3 (s1 s2 : nsum3 ROps) : Prop :=
    exists l1 l2, HistR s1 l1 /\ HistR s2 l2 /\ Forall2 WC l1 l2.
  Definition cX3 (x1 x2 : ctx3 ROps) : Prop :=
    x_scaling x1 = x_scaling x2 /\ x_inner x1 = inner /\ x_inner x2 = inner /\
    scales_ok x1 /\ scales_ok x2 /\
    forall b, other_scale inner a0 w0 b -> dget b (x_scales x1) = dget b (x_scales x2).

  Lemma occ3_front l1 l2 a v : Forall2 WC l1 l2 -> a <> a0 -> occ3 l1 a v = occ3 l2 a v.
  Proof.
    intros HF Ha. induction HF as [|i j l1 l2 H HF IH]; [done|]. cbn [occ3].
    rewrite (fr_get _ _ a H), (decide_False (P:=a = a0)) by done. by rewrite IH.
  Qed.
  Lemma nums_front l1 l2 a : Forall2 WC l1 l2 -> a <> a0 -> nums l1 a = nums l2 a.
  Proof.
    intros HF Ha. induction HF as [|i j l1 l2 H HF IH]; [done|]. cbn [nums].
    rewrite (fr_get _ _ a H), (decide_False (P:=a = a0)) by done. by rewrite IH.
  Qed.

  Lemma key_front s1 s2 l1 l2 a : HistR s1 l1 -> HistR s2 l2 -> Forall2 WC l1 l2 -> a <> a0 ->
    a ∈ dkeys (n3_av s1) <-> a ∈ dkeys (n3_av s2).
  Proof.
    intros H1 H2 HF Ha. rewrite (Hist3_key summarises s1 l1 a H1), (Hist3_key summarises s2 l2 a H2).
    assert (Hk : forall i j, WC i j -> a ∈ dkeys i <-> a ∈ dkeys j).
    { intros i j [_ ->]. cbn [dkeys map fst]. rewrite elem_of_cons. naive_solver. }
    split.
    - intros (i & Hi & Hai). destruct (f2_l _ _ _ _ HF Hi) as (j & Hj & H). exists j. split; [done|].
      by apply (Hk i j).
    - intros (j & Hj & Haj). destruct (f2_r _ _ _ _ HF Hj) as (i & Hi & H). exists i. split; [done|].
      by apply (Hk i j).
  Qed.

  Lemma attr_same3 s1 s2 l1 l2 a : HistR s1 l1 -> HistR s2 l2 -> Forall2 WC l1 l2 -> a <> a0 ->
    match dget a (n3_av s1), dget a (n3_av s2) with
    | Some d1, Some d2 => deq eq d1 d2
    | None, None => True
    | _, _ => False
    end.
  Proof.
    intros H1 H2 HF Ha. pose proof (key_front s1 s2 l1 l2 a H1 H2 HF Ha) as Hk.
    pose proof H1 as (_ & W1 & _ & C1). pose proof H2 as (_ & W2 & _ & C2).
    specialize (C1 a). specialize (C2 a).
    destruct (dget a (n3_av s1)) as [d1|] eqn:E1, (dget a (n3_av s2)) as [d2|] eqn:E2.
    - simpl in C1, C2. destruct C1 as (D1 & _ & N1 & X1), C2 as (D2 & _ & N2 & X2).
      split; [done|]. split; [done|]. intros v.
      assert (E : dget v d1 = dget v d2); [|rewrite E; by destruct (dget v d2)].
      destruct (decide (v = cv_key)) as [->|Hv].
      + rewrite (nums_front l1 l2 a HF Ha) in X1. destruct (nums l2 a) as [|y ys]; [congruence|].
        destruct X1 as (c1 & -> & S1), X2 as (c2 & -> & S2). unfold summarises in *. congruence.
      + rewrite (N1 v Hv), (N2 v Hv). by rewrite (occ3_front l1 l2 a v HF Ha).
    - apply dget_Some_key in E1. apply dget_None in E2. by apply E2, Hk.
    - apply dget_Some_key in E2. apply dget_None in E1. by apply E1, Hk.
    - done.
  Qed.

  Lemma attr_none3 s l a : HistR s l -> (forall i, i ∈ l -> dget a i = None) -> dget a (n3_av s) = None.
  Proof.
    intros HH Hn. apply dget_None. intros (i & Hi & Hk)%(Hist3_key summarises s l a HH).
    apply dget_key_Some in Hk as [v Hv]. by rewrite Hn in Hv.
  Qed.

  Lemma attr_const3 s1 s2 l1 l2 : HistR s1 l1 -> HistR s2 l2 -> Forall2 WC l1 l2 -> l2 <> [] ->
    dget a0 (n3_av s2) = Some (only w0 (n3_count s2)).
  Proof.
    intros H1 H2 HF Hl. apply (HistR_only s2 l2); [done|done|]. intros i Hi.
    destruct (f2_r _ _ _ _ HF Hi) as (k & _ & H). rewrite (fr_get _ _ _ H). by rewrite decide_True.
  Qed.

  Lemma only_entry n : const_entry w0 n (only w0 n).
  Proof. intros v. unfold only. destruct w0; cbn [dget]; case_decide; done. Qed.

  Lemma const_spec3 s1 s2 : cR3 s1 s2 -> const_tables3 a0 w0 s1 s2.
  Proof.
    intros (l1 & l2 & H1 & H2 & HF).
    pose proof (proj1 H1) as Hc1. pose proof (proj1 H2) as Hc2.
    split; [rewrite Hc1, Hc2; by eapply Forall2_length|]. split; [|split].
    - intros a Ha. pose proof (attr_same3 s1 s2 l1 l2 a H1 H2 HF Ha) as Hd.
      destruct (dget a (n3_av s1)), (dget a (n3_av s2)); try done.
      destruct Hd as (_ & _ & Hd). intros v. specialize (Hd v).
      destruct (dget v _), (dget v _); congruence || done.
    - apply (attr_none3 _ _ _ H1). intros i Hi.
      destruct (f2_l _ _ _ _ HF Hi) as (j & _ & H). by eapply fr_none.
    - destruct (decide (l2 = [])) as [->|Hl2].
      + rewrite (attr_none3 s2 [] a0 H2); [done|]. intros i Hi. inversion Hi.
      + rewrite (attr_const3 s1 s2 l1 l2 H1 H2 HF Hl2). split; [|apply only_entry].
        rewrite Hc2. destruct l2; simpl; [done|lia].
  Qed.

  (** ** The local steps *)
  Lemma exact_hist3 s l (i : I3R) : HistR s l -> good3 i -> has_visible3 i ->
    n3_exact s i = Ok true <-> l <> [] /\ forall j, j ∈ l -> agree i j.
  Proof.
    intros HH Hg (a & Ha & Hk). split.
    - intros Hex. unfold n3_exact in Hex. rewrite rall_true in Hex. split.
      + intros ->. assert (Hx : exact1 s i a = Ok true) by (apply Hex, elem_of_app; by left).
        unfold exact1 in Hx. unfold visible in Ha. destruct (hidden a); [done|].
        apply dget_key_Some in Hk as [v Hv]. rewrite Hv, (attr_none3 s [] a HH) in Hx; [done|].
        intros j Hj. inversion Hj.
      + intros j Hj b Hb.
        destruct (decide (b ∈ dkeys i ++ List.filter visible (dkeys (n3_av s)))) as [Hin|Hni].
        * pose proof (exact1_same summarises eq summarises_laws s l i b HH Hg Hb (Hex b Hin) j Hj) as Hs.
          destruct (dget b i) as [[v|y]|], (dget b j) as [[w|z]|]; simpl in Hs; try done; by subst.
        * apply not_elem_of_app in Hni as [N1 N2]. rewrite (proj2 (dget_None b i) N1).
          destruct (dget b j) as [w|] eqn:Ej; [|done]. exfalso. apply N2.
          apply elem_of_filterb. split; [|done]. apply (Hist3_key summarises s l b HH).
          exists j. split; [done|]. by eapply dget_Some_key.
    - intros [Hl Hs]. by eapply exact3_of_same.
  Qed.

  Lemma const_exact3 s1 s2 i1 i2 : cR3 s1 s2 -> WC i1 i2 -> n3_exact s1 i1 = n3_exact s2 i2.
  Proof.
    intros (l1 & l2 & H1 & H2 & HF) Hi.
    assert (Hv2 : has_visible3 i2).
    { destruct Hi as [_ ->]. exists a0. split; [done|]. left. }
    pose proof (exact_hist3 s1 l1 i1 H1 (w3_good _ _ _ _ _ (proj1 Hi)) (w3_hv _ _ (proj1 Hi))) as X1.
    pose proof (exact_hist3 s2 l2 i2 H2 (fr_good2 _ _ Hi) Hv2) as X2.
    destruct (exact_total s1 l1 i1 H1) as [b1 E1], (exact_total s2 l2 i2 H2) as [b2 E2].
    rewrite E1 in X1. rewrite E2 in X2. rewrite E1, E2. f_equal.
    assert (Hsv : forall j1 j2, WC j1 j2 -> agree i1 j1 <-> agree i2 j2).
    { intros j1 j2 Hj. split; intros Hs a Ha.
      - rewrite (fr_get _ _ _ Hi), (fr_get _ _ _ Hj). case_decide; [done|by apply Hs].
      - destruct (decide (a = a0)) as [->|Hne].
        + by rewrite (fr_none _ _ Hi), (fr_none _ _ Hj).
        + specialize (Hs a Ha). rewrite (fr_get _ _ _ Hi), (fr_get _ _ _ Hj) in Hs.
          by rewrite !decide_False in Hs. }
    assert (Hb : @Ok bool b1 = Ok true <-> @Ok bool b2 = Ok true).
    { rewrite X1, X2. split; intros [Hl Hs]; (split; [by inversion HF; subst|]).
      - intros j Hj. destruct (f2_r _ _ _ _ HF Hj) as (k & Hk & H). apply (Hsv k j H). auto.
      - intros j Hj. destruct (f2_l _ _ _ _ HF Hj) as (k & Hk & H). apply (Hsv j k H). auto. }
    destruct b1, b2; try done.
    - discriminate (proj1 Hb eq_refl).
    - discriminate (proj2 Hb eq_refl).
  Qed.

  Lemma const_scales x1 x2 i1 i2 : cX3 x1 x2 -> WC i1 i2 -> cX3 (update_scales x1 i1) (update_scales x2 i2).
  Proof.
    intros (X1 & X2 & X3 & X4 & X5 & X6) [_ ->].
    split; [done|]. split; [done|]. split; [done|].
    split; [by apply scales_ok_update|]. split; [by apply scales_ok_update|].
    unfold update_scales. cbn [x_scales].
    assert (Hin : forall x a, x_inner x = inner -> inner_attr (N:=ROps) x a = inner_of inner a)
      by (intros; by apply inner_attr_of).
    set (f := fun (x : ctx3 ROps) (sc : list (attr * cval ROps)) (p : attr * val3 ROps) =>
         match snd p with
         | VNum y => let b := inner_attr x (fst p) in
                     dset b (cv_update (default (cv_new ROps) (dget b sc)) y) sc
         | VNom _ => sc
         end).
    change (forall b, other_scale inner a0 w0 b -> dget b (fold_left (f x1) i1 (x_scales x1)) =
      dget b (fold_left (f x2) i1 (f x2 (x_scales x2) (a0, w0)))).
    assert (Hf : forall b, other_scale inner a0 w0 b ->
      dget b (x_scales x1) = dget b (f x2 (x_scales x2) (a0, w0))).
    { intros b Hb. rewrite X6 by done. unfold f. cbn [fst snd]. destruct w0 as [v|y]; [done|].
      rewrite (Hin x2) by done. cbv zeta. rewrite dget_dset, decide_False; [done|]. exact Hb. }
    revert Hf. generalize (x_scales x1) (f x2 (x_scales x2) (a0, w0)).
    induction i1 as [|[a [v|y]] l IH]; intros sc1 sc2 Hf; [done|by apply IH|].
    cbn [fold_left]. apply IH. intros b Hb. unfold f. cbn [fst snd]. cbv zeta.
    rewrite !Hin by done. rewrite !dget_dset. case_decide as E; [|by apply Hf].
    rewrite (Hf (inner_of inner a)); [done|]. by rewrite <- E.
  Qed.

  Open Scope R_scope.
  Definition share3 (x : ctx3 ROps) (s : nsum3 ROps) (a : attr) : R :=
    match dget a (n3_av s) with
    | Some d => Rsum (fun q : nom * cell ROps => contrib (escale x a) (n3_count s) (snd q)) d
    | None => 0
    end.

  Lemma vis3_in s a d : dwf (n3_av s) -> (a, d) ∈ vis3 s <-> visible a = true /\ dget a (n3_av s) = Some d.
  Proof.
    intros Hwf. unfold vis3, dfilter. rewrite elem_of_filterb. simpl. split.
    - intros [Hin Ha]. split; [done|]. by apply In_dget.
    - intros [Ha Hd]. split; [by apply dget_In|done].
  Qed.

  Lemma guesses_keys x s : dwf (n3_av s) -> guesses3 x s = Rsum (share3 x s) (dkeys (vis3 s)).
  Proof.
    intros Hw. unfold guesses3, dkeys. rewrite Rsum_map. apply Rsum_ext. intros [a d] Hin.
    unfold share3. cbn [fst snd]. apply vis3_in in Hin as [_ ->]; done.
  Qed.

  Lemma vis3_keys s l (W : list attr) : HistR s l -> l <> [] -> NoDup W ->
    Forall (fun a => visible a = true) W ->
    (forall i, i ∈ l -> forall a, visible a = true -> a ∈ dkeys i <-> a ∈ W) ->
    Permutation (dkeys (vis3 s)) W.
  Proof.
    intros HH Hl HW HWv Hk. pose proof (proj1 (proj2 HH)) as Hw.
    apply NoDup_Permutation.
    - apply (dwf_dfilter visible) in Hw. exact Hw.
    - done.
    - intros a.
      assert (Hin : a ∈ dkeys (vis3 s) <-> visible a = true /\ a ∈ dkeys (n3_av s)).
      { unfold vis3. rewrite dkeys_dfilter, elem_of_filterb. tauto. }
      rewrite Hin, (Hist3_key summarises s l a HH). split.
      + intros [Ha (i & Hi & Hai)]. by apply (Hk i Hi).
      + intros Ha. pose proof (proj1 (Forall_forall _ _) HWv a Ha) as Hva. split; [done|].
        destruct l as [|i l]; [done|]. exists i. split; [left|]. apply (Hk i); [left|done|done].
  Qed.

  Lemma guess_one c s : ustd c = 0 -> guess c s = 1.
  Proof.
    intros Hu. unfold guess, noisy. rewrite Hu.
    pose proof PI_RGT_0 as Hpi. pose proof (sqrt_lt_R0 PI Hpi) as Hs.
    replace (0 / eff_scale s * (0 / eff_scale s) + 1 / (4 * PI)) with (1 / (4 * PI))
      by (unfold Rdiv; rewrite Rmult_0_l; lra).
    assert (E : sqrt (1 / (4 * PI)) = 1 / (2 * sqrt PI)).
    { apply sqrt_lem_1.
      - pose proof noise_pos. lra.
      - apply div_nonneg; lra.
      - pose proof (sqrt_sqrt PI ltac:(lra)) as Hss.
        replace (1 / (2 * sqrt PI) * (1 / (2 * sqrt PI))) with (1 / (4 * (sqrt PI * sqrt PI))) by (field; lra).
        by rewrite Hss. }
    rewrite E. field. lra.
  Qed.

  Lemma share_const x s1 s2 l1 l2 : HistR s1 l1 -> HistR s2 l2 -> Forall2 WC l1 l2 -> l2 <> [] ->
    share3 x s2 a0 = 1.
  Proof.
    intros H1 H2 HF Hl. unfold share3. rewrite (attr_const3 s1 s2 l1 l2 H1 H2 HF Hl).
    assert (Hn : (0 < n3_count s2)%nat) by (rewrite (proj1 H2); destruct l2; simpl; [done|lia]).
    assert (Hn0 : INR (n3_count s2) <> 0) by (apply not_0_INR; lia).
    destruct w0 as [v|y]; cbn [only Rsum snd]; unfold contrib; cbn [weight cv_num].
    - match goal with |- ?a = ?b => change (@eq R a b) end. field. done.
    - rewrite guess_one.
      + match goal with |- ?a = ?b => change (@eq R a b) end. field. done.
      + set (c := @CVal ROps (n3_count s2) y 0).
        assert (Ec : c = summ (repeat y (n3_count s2))).
        { rewrite (summ_const _ y).
          - by rewrite repeat_length.
          - by destruct (n3_count s2); [lia|].
          - intros z Hz. apply elem_of_list_In in Hz. by apply repeat_spec in Hz. }
        rewrite Ec. apply ustd_summ. intros u z Hu Hz. apply elem_of_list_In in Hu, Hz.
        by rewrite (repeat_spec _ _ _ Hu), (repeat_spec _ _ _ Hz).
  Qed.

  Lemma const_escale x1 x2 a : cX3 x1 x2 -> a ∈ V -> escale x1 a = escale x2 a.
  Proof.
    intros (X1 & X2 & X3 & _ & _ & X6) Ha. unfold escale, scaling_on. rewrite X1.
    rewrite (inner_attr_of x1 inner a X2), (inner_attr_of x2 inner a X3).
    by rewrite (X6 (inner_of inner a) (Hsc a Ha)).
  Qed.

  Notation al := (al V).
  Notation be := (be V).

  Lemma const_ecg3 x1 x2 s1 s2 : cX3 x1 x2 -> cR3 s1 s2 ->
    rfmap (fun e => al * e + be) (n3_ecg x1 s1) = n3_ecg x2 s2.
  Proof.
    intros Hx (l1 & l2 & H1 & H2 & HF).
    destruct (decide (l1 = [])) as [->|Hl1].
    { apply Forall2_nil_inv_l in HF as ->.
      assert (Hav : forall s, HistR s [] -> n3_av s = []).
      { intros s HH. destruct (n3_av s) as [|[a d] av] eqn:E; [done|].
        assert (Hka : a ∈ dkeys (n3_av s)) by (rewrite E; left).
        apply (Hist3_key summarises s [] a HH) in Hka as (j & Hj & _). inversion Hj. }
      unfold n3_ecg. rewrite (Hav _ H1), (Hav _ H2). cbn [dfilter List.filter rfold rbind length].
      unfold pydiv. by rewrite (ct_zero _ counting_R). }
    assert (Hl2 : l2 <> []) by (intros ->; by apply Forall2_nil_inv_r in HF).
    assert (Hc1 : (0 < n3_count s1)%nat) by (rewrite (proj1 H1); destruct l1; simpl; [done|lia]).
    assert (Hc : n3_count s2 = n3_count s1)
      by (rewrite (proj1 H1), (proj1 H2); symmetry; by eapply Forall2_length).
    assert (P1 : Permutation (dkeys (vis3 s1)) V).
    { apply (vis3_keys s1 l1); [done|done|done|done|]. intros i Hi.
      destruct (f2_l _ _ _ _ HF Hi) as (j & _ & [H _]). apply H. }
    assert (P2 : Permutation (dkeys (vis3 s2)) (a0 :: V)).
    { apply (vis3_keys s2 l2); [done|done|by apply NoDup_cons_2|by apply Forall_cons_2|].
      intros i Hi a Ha. destruct (f2_r _ _ _ _ HF Hi) as (j & _ & [H ->]).
      cbn [dkeys map fst]. rewrite !elem_of_cons. by rewrite <- (w3_vis _ _ _ _ _ H a Ha). }
    assert (L1 : length (vis3 s1) = length V).
    { rewrite <- (Permutation_length P1). unfold dkeys. by rewrite map_length. }
    assert (L2 : length (vis3 s2) = S (length V)).
    { apply Permutation_length in P2. unfold dkeys in P2. rewrite map_length in P2. exact P2. }
    assert (Hx' : scales_ok x1 /\ scales_ok x2) by (destruct Hx as (_ & _ & _ & ? & ? & _); done).
    destruct Hx' as [Hx1 Hx2].
    rewrite n3_ecg_ok; [|done|by eapply HistR_all_fine|done|intros E; rewrite E in L1; destruct V; done].
    rewrite n3_ecg_ok; [|done|by eapply HistR_all_fine|by rewrite Hc|intros E; by rewrite E in L2].
    cbn [rfmap]. f_equal. rewrite L1, L2.
    rewrite (guesses_keys x1 s1), (guesses_keys x2 s2); [|apply H2|apply H1].
    rewrite (Rsum_perm _ _ _ P1), (Rsum_perm _ _ _ P2). cbn [Rsum].
    rewrite (share_const x2 s1 s2 l1 l2) by done.
    assert (E1 : Rsum (share3 x2 s2) V = Rsum (share3 x1 s1) V).
    { apply Rsum_ext. intros a Ha. assert (Hne : a <> a0) by (by intros ->).
      pose proof (attr_same3 s1 s2 l1 l2 a H1 H2 HF Hne) as Hd.
      unfold share3. rewrite Hc, (const_escale x1 x2 a Hx Ha).
      destruct (dget a (n3_av s1)) as [d1|], (dget a (n3_av s2)) as [d2|]; try done.
      apply Rsum_perm. symmetry. by apply deq_perm. }
    rewrite E1. unfold PropsConst.al, PropsConst.be. assert (Hlen : 0 < INR (length V)) by (apply lt_0_INR; destruct V; simpl; [done|lia]).
    assert (INR (S (length V)) <> 0) by (apply not_0_INR; lia).
    match goal with |- ?a = ?b => change (@eq R a b) end. field. split; [done|lra].
  Qed.
  Lemma al_pos3 : 0 < al.
  Proof.
    apply Rdiv_lt_0_compat; apply lt_0_INR; [|lia]. destruct V; simpl; [done|lia].
  Qed.
  Close Scope R_scope.

  Notation D := (rescaled RC3 al be).

  Lemma count_cobweb3 : count_laws RC3.
  Proof.
    split; [done| |]; intros s i s'; simpl.
    - rewrite n3_inc_eq. by intros [= <- _].
    - rewrite n3_add_eq. by intros [= <- _].
  Qed.

  Lemma const_sim3 : simulation D RC3 cR3 WC cX3.
  Proof.
    pose proof summarises_laws as CL.
    split; [split|].
    - exists [], []. split; [apply (Hist3_empty summarises)|]. split; [apply (Hist3_empty summarises)|].
      by apply Forall2_nil_2.
    - intros s1 s2 (l1 & l2 & H1 & H2 & HF). simpl. rewrite (proj1 H1), (proj1 H2).
      by eapply Forall2_length.
    - intros s1 s2 i1 i2 (l1 & l2 & H1 & H2 & Hl) Hi. simpl.
      destruct (Hist3_inc summarises eq CL s1 l1 i1 H1 (w3_good _ _ _ _ _ (proj1 Hi))) as (s1' & -> & H1').
      destruct (Hist3_inc summarises eq CL s2 l2 i2 H2 (fr_good2 _ _ Hi)) as (s2' & -> & H2').
      split; [|done]. exists (i1 :: l1), (i2 :: l2). split; [done|]. split; [done|].
      by apply Forall2_cons_2.
    - intros s1 s2 o1 o2 (l1 & l2 & H1 & H2 & Hl) (m1 & m2 & G1 & G2 & Hm). simpl.
      destruct (Hist3_add summarises eq CL s1 o1 l1 m1 H1 G1) as (s1' & -> & H1').
      destruct (Hist3_add summarises eq CL s2 o2 l2 m2 H2 G2) as (s2' & -> & H2').
      split; [|done]. exists (l1 ++ m1), (l2 ++ m2). split; [done|]. split; [done|].
      by apply Forall2_app.
    - intros x1 x2 s1 s2 Hx Hs. by apply const_ecg3.
    - intros s1 s2 i1 i2 Hs Hi. by apply const_exact3.
    - intros x1 x2 i1 i2 Hx Hi. by apply const_scales.
  Qed.

  Variables (rng : nat -> R) (sc : option R).
  Notation x0 := (new_ctx (N:=ROps) sc inner).

  Definition add_front (c : call RC3) : call RC3 :=
    match c with
    | CFit i => @CFit _ RC3 ((a0, w0) :: i)
    | CCat i => @CCat _ RC3 ((a0, w0) :: i)
    | c => c
    end.

  (** ** C104 for Cobweb3Tree, when no call of the first run raised *)
  Theorem C104_constant3 (cs1 cs2 : list (call RC3)) ctr rpos : Forall2 (const_calls3 V a0 w0) cs1 cs2 ->
    let o1 := exec RC3 rng x0 cs1 (fresh RC3 ctr rpos x0) in
    let o2 := exec RC3 rng x0 cs2 (fresh RC3 ctr rpos x0) in
    Forall (fun r => exists j, r = Ok j) (fst o1) ->
    fst o1 = fst o2 /\
    same_view (C1:=RC3) (C2:=RC3) (const_tables3 a0 w0) (snd o1) (snd o2) /\
    forall b, other_scale inner a0 w0 b ->
      dget b (x_scales (st_ctx (snd o1))) = dget b (x_scales (st_ctx (snd o2))).
  Proof.
    intros HF. cbv zeta. intros Hr.
    assert (Hg : Forall (call_good RC3 good3) cs1).
    { clear -HF. induction HF as [|c1 c2 cs1 cs2 H HF IH]; [apply Forall_nil_2|].
      apply Forall_cons_2; [|done]. destruct c1, c2; try done. apply H. }
    destruct (exec_aff RC3 rng al be al_pos3 count_cobweb3 HistR LeafR good3 histR_laws (cobweb3_real ROps)
      x0 cs1 _ _ Hg (arel_fresh RC3 al be HistR LeafR good3 histR_laws ctr rpos x0) Hr) as [E1 Ha].
    destruct Ha as (t1 & t2 & l & Ok1 & Ok2 & Ht & _ & _ & Ex1).
    apply (trel_view RC3 D) with (1:=Ok1) (2:=Ok2) in Ht.
    assert (Hx0 : cX3 x0 x0).
    { split; [done|]. split; [done|]. split; [done|]. split; [apply scales_ok_new|].
      split; [apply scales_ok_new|done]. }
    destruct (exec_rel D RC3 rng cR3 WC cX3 const_sim3 (cobweb3_real ROps)
      x0 x0 (map (dcall RC3 al be) cs1) (map add_front cs1) (fresh D ctr rpos x0) (fresh RC3 ctr rpos x0) Hx0)
      as [E2 H2].
    { clear -HF. induction HF as [|c1 c2 cs1 cs2 H HF IH]; [apply Forall2_nil_2|].
      cbn [map]. apply Forall2_cons_2; [|done]. destruct c1, c2; try done.
      - split; [|done]. destruct H as [W1 W2 W3 W4]. split; done.
      - split; [|done]. destruct H as [W1 W2 W3 W4]. split; done. }
    { by apply (srel_fresh D RC3 cR3 WC cX3 const_sim3). }
    pose proof H2 as (u1 & u2 & _ & Ok3 & _ & _ & Hx2).
    apply (srel_view D RC3 cR3 cX3) in H2.
    destruct (C102_order3 rng sc inner (map add_front cs1) cs2 ctr rpos) as (E3 & H3 & S3).
    { clear -HF Hok Hres. induction HF as [|c1 c2 cs1 cs2 H HF IH]; [apply Forall2_nil_2|].
      cbn [map]. apply Forall2_cons_2; [|done]. destruct c1, c2; try done.
      - split; [by eapply w3_good2|]. symmetry. apply H.
      - split; [by eapply w3_good2|]. symmetry. apply H. }
    split; [congruence|]. split.
    - pose proof (view_comp _ _ _ _ _ t2 Ok2 Ht H2) as H12.
      destruct (view_comp _ _ _ _ _ u2 Ok3 H12 H3) as [V1 V2 V3' V4 V5].
      split; [done|done|done|done|]. intros id y1 y3 Hi T1 T3.
      destruct (V5 id y1 y3 Hi T1 T3) as (y2 & (y & -> & Hy) & Hc & Hd).
      apply const_spec3 in Hy as (Q1 & Q2 & Q3 & Q4). split; [congruence|]. split; [|split; [done|]].
      + intros a Ha. specialize (Q2 a Ha). specialize (Hd a).
        destruct (dget a (n3_av y)), (dget a (n3_av y2)), (dget a (n3_av y3)); try done.
        intros v. rewrite Q2. specialize (Hd v). destruct (dget v _), (dget v _); congruence || done.
      + specialize (Hd a0). destruct (dget a0 (n3_av y2)) as [d2|], (dget a0 (n3_av y3)) as [d3|]; try done.
        * destruct Q4 as [Q4 Q5]. rewrite <- Hc. split; [done|]. intros v. rewrite <- (Q5 v).
          specialize (Hd v). destruct (dget v d2), (dget v d3); congruence || done.
        * congruence.
    - intros b Hb. destruct Hx2 as (_ & _ & _ & _ & _ & X6). rewrite Ex1, (X6 b Hb).
      rewrite same_eq in S3. apply S3.
  Qed.

  (** ** and always, when no two draws of random numbers are equal *)
  Theorem C104_constant3_always (cs1 cs2 : list (call RC3)) ctr rpos : distinct_draws (N:=ROps) rng ->
    Forall2 (const_calls3 V a0 w0) cs1 cs2 ->
    let o1 := exec RC3 rng x0 cs1 (fresh RC3 ctr rpos x0) in
    let o2 := exec RC3 rng x0 cs2 (fresh RC3 ctr rpos x0) in
    fst o1 = fst o2 /\
    same_view (C1:=RC3) (C2:=RC3) (const_tables3 a0 w0) (snd o1) (snd o2) /\
    forall b, other_scale inner a0 w0 b ->
      dget b (x_scales (st_ctx (snd o1))) = dget b (x_scales (st_ctx (snd o2))).
  Proof.
    intros Hd HF. apply C104_constant3; [done|].
    pose proof (exec_reachable RC3 rng x0 cs1 ctr rpos) as Hr.
    assert (Hg : Forall (fun c : call RC3 => match c with CFit i | CCat i => fits3 (N:=ROps) i | _ => True end) cs1).
    { clear Hr. induction HF as [|c1 c2 cs1 cs2 H HF IH]; [apply Forall_nil_2|].
      apply Forall_cons_2; [|done]. destruct c1, c2; try done; (split; [apply H|by eapply w3_hv]). }
    destruct (C63_fitting_never_raises rng sc inner Hd _ _ Hr) as [He _].
    - clear -Hg. generalize (fst (exec RC3 rng x0 cs1 (fresh RC3 ctr rpos x0))) as rs.
      induction Hg as [|c cs Hc Hg IH]; intros rs; [constructor|].
      destruct rs as [|r rs]; [constructor|]. cbn [zip_with]. constructor; [|apply IH].
      intros i. destruct c; simpl; try done; by intros ->.
    - clear -He. revert He. generalize (fresh RC3 ctr rpos x0) as s.
      induction cs1 as [|c cs IH]; intros s He; [apply Forall_nil_2|]. cbn [exec] in *.
      destruct (exec1 RC3 rng x0 c s) as [r s1] eqn:E1. specialize (IH s1).
      destruct (exec RC3 rng x0 cs s1) as [rs s2]. cbn [fst zip_with] in *.
      apply Forall_cons in He as [Hc He]. apply Forall_cons_2; [|by apply IH].
      destruct c; cbn [event_of no_exn exec1] in *.
      + destruct r; [eauto|done].
      + destruct r; [eauto|done].
      + injection E1 as <- _. eauto.
      + injection E1 as <- _. eauto.
  Qed.
End Const.

(** ** The hypotheses are met: a number that never changes, with sharing of
    scales switched on. *)
Definition ex_wall (x y : R) : I3R :=
  [(ATup [AStr "x"; AStr "o"], @VNum ROps x); (AStr "n", VNom (NStr "wall")); (AStr "w", @VNum ROps y)].
Definition ex_V3 : list attr := [ATup [AStr "x"; AStr "o"]; AStr "n"; AStr "w"].
Lemma ex_C104_3 (x y x' y' h : R) : let a0 := ATup [AStr "h"; AStr "o"] in
  Forall2 (const_calls3 ex_V3 a0 (@VNum ROps h))
    [@CFit _ RC3 (ex_wall x y); @CFit _ RC3 (ex_wall x' y'); @CCat _ RC3 (ex_wall x y)]
    [@CFit _ RC3 ((a0, @VNum ROps h) :: ex_wall x y); @CFit _ RC3 (ex_wall x' y' ++ [(a0, @VNum ROps h)]);
     @CCat _ RC3 (ex_wall x y ++ [(a0, @VNum ROps h)])] /\
  forall a, a ∈ ex_V3 -> other_scale true a0 (@VNum ROps h) (inner_of true a).
Proof.
  cbv zeta. split.
  - assert (Hw : forall x y i, Permutation i ((ATup [AStr "h"; AStr "o"], @VNum ROps h) :: ex_wall x y) ->
      with_const3 ex_V3 (ATup [AStr "h"; AStr "o"]) (@VNum ROps h) (ex_wall x y) i).
    { intros u v i Hp. split; [|done| |done].
      - split; [|split].
        + unfold dwf. change (dkeys (ex_wall u v)) with ex_V3. apply (bool_decide_unpack _). vm_compute. done.
        + by repeat constructor.
        + intros a E. apply dget_In in E. unfold ex_wall in E. rewrite !elem_of_cons in E.
          destruct E as [E|[E|[E|E]]]; try done. inversion E.
      - change (dkeys (ex_wall u v)) with ex_V3. apply (bool_decide_unpack _). vm_compute. done. }
    repeat (apply Forall2_cons_2; [apply Hw; first [done|symmetry; apply Permutation_cons_append]|]).
    apply Forall2_nil_2.
  - intros a Ha. unfold ex_V3 in Ha. rewrite !elem_of_cons in Ha.
    destruct Ha as [->|[->|[->|Ha]]]; [done|done|done|inversion Ha].
Qed.
