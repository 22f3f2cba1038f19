(** * C104: an attribute with the same value in every instance changes nothing.

    Two runs of a CobwebTree (exact arithmetic) get the same calls, except that
    in the second one every instance has one attribute more, with the same
    visible name [a0] and the same value [v0] everywhere.  All instances have
    the same visible attributes.  Then both runs return the same concepts and
    build the same tree, and the tables differ by the entry for [a0] only. *)
From Coq Require Import Reals Lra.
From stdpp Require Import base decidable list gmap strings.
From Verif Require Import Base Num TreeModel TreeFun TreeSorts TreeInv SpecTree TreeState TreeRel
  TreeSim TreeTotal TreeAff Nominal NominalFacts RSum NominalR CVFacts PropsTotal PropsOrder.
Close Scope R_scope.

(** Views compose. *)
Lemma view_comp {N : NumOps} {C1 C2 C3 : NodeClass N} R1 R2 (s1 : st C1) (s2 : st C2) (s3 : st C3) t :
  state_ok C2 s2 t -> same_view R1 s1 s2 -> same_view R2 s2 s3 ->
  same_view (fun a c => exists b, R1 a b /\ R2 b c) s1 s3.
Proof.
  intros Hok [A1 A2 A3 A4 A5] [B1 B2 B3 B4 B5]. split.
  - congruence.
  - intros id. by rewrite A2, B2.
  - intros id p Hi. rewrite A3 by done. apply B3. by apply A2.
  - intros id p Hi. rewrite A4 by done. apply B4. by apply A2.
  - intros id t1 t3 Hi H1 H3. pose proof (proj1 (A2 id) Hi) as Hi2.
    pose proof (proj1 (in_tree_ids _ _ _ _ Hok) Hi2) as Hid.
    destruct (rep_dom _ _ _ _ _ (so_rep _ _ _ Hok) Hid) as [n Hn].
    exists (nd_sum n). assert (H2 : table_of s2 id (nd_sum n)) by (exists n; done).
    split; [by eapply A5|by eapply B5].
Qed.

Lemma f2_l {A B} (P : A -> B -> Prop) l k x : Forall2 P l k -> x ∈ l -> exists y, y ∈ k /\ P x y.
Proof.
  induction 1 as [|a b l k H HF IH]; intros Hx; [inversion Hx|].
  apply elem_of_cons in Hx as [->|Hx]; [exists b; split; [left|done]|].
  destruct (IH Hx) as (y & Hy & Hp). exists y. split; [by right|done].
Qed.
Lemma f2_r {A B} (P : A -> B -> Prop) l k y : Forall2 P l k -> y ∈ k -> exists x, x ∈ l /\ P x y.
Proof.
  induction 1 as [|a b l k H HF IH]; intros Hx; [inversion Hx|].
  apply elem_of_cons in Hx as [->|Hx]; [exists a; split; [left|done]|].
  destruct (IH Hx) as (x & Hy & Hp). exists x. split; [by right|done].
Qed.

(** ** What is stated *)
(** [i2] is [i1] with the attribute [a0 = v0] added somewhere; the visible
    attributes of [i1] are those of [V]. *)
Record with_const (V : list attr) (a0 : attr) (v0 : nom) (i1 i2 : inst) : Prop := {
  wc_good : good i1;
  wc_vis : forall a, visible a = true -> a ∈ dkeys i1 <-> a ∈ V;
  wc_new : a0 ∉ dkeys i1;
  wc_perm : Permutation i2 ((a0, v0) :: i1);
}.

Definition const_calls {N} (V : list attr) (a0 : attr) (v0 : nom) (c1 c2 : call (CobwebClass N)) : Prop :=
  match c1, c2 with
  | CFit i, CFit j => with_const V a0 v0 i j
  | CCat i, CCat j => with_const V a0 v0 i j
  | COther a b, COther c d => a = c /\ b = d
  | CClear, CClear => True
  | _, _ => False
  end.

(** The second table is the first one plus a count of [v0] for [a0]. *)
Definition const_tables (a0 : attr) (v0 : nom) (t1 t2 : nsum) : Prop :=
  ns_count t1 = ns_count t2 /\
  (forall a, a <> a0 -> match dget a (ns_av t1), dget a (ns_av t2) with
                        | Some d1, Some d2 => forall v, dget v d1 = dget v d2
                        | None, None => True
                        | _, _ => False
                        end) /\
  dget a0 (ns_av t1) = None /\
  dget a0 (ns_av t2) = (if decide (ns_count t2 = 0) then None else Some [(v0, ns_count t2)]).

Section Const.
  Variables (V : list attr) (a0 : attr) (v0 : nom).
  Hypothesis HV : NoDup V.
  Hypothesis HVv : Forall (fun a => visible a = true) V.
  Hypothesis HVn : V <> [].
  Hypothesis Hvis : visible a0 = true.
  Hypothesis Hok : attr_ok a0 = true.
  Hypothesis Hnew : a0 ∉ V.

  Notation WC := (with_const V a0 v0).

  Lemma wc_good2 i1 i2 : WC i1 i2 -> good i2.
  Proof.
    intros [[G1 G2] _ Hn Hp]. split.
    - unfold dwf, dkeys. rewrite Hp. simpl. apply NoDup_cons_2; done.
    - unfold dkeys. rewrite Hp. simpl. by apply Forall_cons_2.
  Qed.

  Lemma wc_get i1 i2 a : WC i1 i2 -> dget a i2 = if decide (a = a0) then Some v0 else dget a i1.
  Proof.
    intros H. pose proof (wc_good2 _ _ H) as [Hw _]. destruct H as [_ _ _ Hp].
    rewrite (dget_perm a _ _ Hw Hp). cbn [dget].
    destruct (decide (a = a0)) as [->|Hne]; done.
  Qed.

  Lemma wc_none i1 i2 : WC i1 i2 -> dget a0 i1 = None.
  Proof. intros H. apply dget_None. apply H. Qed.

  Lemma wc_hv i1 i2 : WC i1 i2 -> has_visible i1.
  Proof.
    intros H. destruct V as [|a V'] eqn:EV; [done|]. apply Forall_cons in HVv as [Ha _].
    exists a. split; [done|]. apply (wc_vis _ _ _ _ _ H); [done|]. left.
  Qed.

  Lemma wc_hv2 i1 i2 : WC i1 i2 -> has_visible i2.
  Proof.
    intros H. exists a0. split; [done|]. unfold dkeys. rewrite (wc_perm _ _ _ _ _ H). left.
  Qed.

  Definition cRs (s1 s2 : nsum) : Prop :=
    exists l1 l2, Hist s1 l1 /\ Hist s2 l2 /\ Forall2 WC l1 l2.

  Lemma occ_const l1 l2 a v : Forall2 WC l1 l2 -> a <> a0 -> occ l1 a v = occ l2 a v.
  Proof.
    intros HF Ha. induction HF as [|i j l1 l2 H HF IH]; [done|]. cbn [occ].
    rewrite (wc_get _ _ a H), (decide_False (P:=a = a0)) by done. by rewrite IH.
  Qed.

  Lemma occ_const0 l1 l2 v : Forall2 WC l1 l2 ->
    occ l2 a0 v = if decide (v = v0) then length l2 else 0.
  Proof.
    intros HF. destruct (decide (v = v0)) as [->|Hne].
    - apply occ_all_2. intros j Hj. destruct (f2_r _ _ _ _ HF Hj) as (i & _ & H).
      rewrite (wc_get _ _ _ H). by rewrite decide_True.
    - apply occ_none. intros j Hj. destruct (f2_r _ _ _ _ HF Hj) as (i & _ & H).
      rewrite (wc_get _ _ _ H), decide_True by done. congruence.
  Qed.

  (** The dictionary of an attribute is fixed by the counts. *)
  Lemma attr_same s1 s2 l1 l2 a : Hist s1 l1 -> Hist s2 l2 -> (forall v, occ l1 a v = occ l2 a v) ->
    match dget a (ns_av s1), dget a (ns_av s2) with
    | Some d1, Some d2 => deq eq d1 d2
    | None, None => True
    | _, _ => False
    end.
  Proof.
    intros (_ & [_ W1] & E1) (_ & [_ W2] & E2) Ho.
    assert (He : forall v, entry s1 a v = entry s2 a v) by (intros v; by rewrite E1, E2).
    clear E1 E2 Ho. unfold entry in He.
    assert (Hne : forall d : list (nom * nat), d <> [] -> (forall v c, dget v d = Some c -> 0 < c) ->
      exists v, default 0 (dget v d) <> 0).
    { intros [|[v c] d] Hn Hp; [done|]. exists v.
      assert (Hg : dget v ((v, c) :: d) = Some c) by (cbn [dget]; by rewrite decide_True).
      rewrite Hg. simpl. apply Hp in Hg. lia. }
    destruct (dget a (ns_av s1)) as [d1|] eqn:D1, (dget a (ns_av s2)) as [d2|] eqn:D2; [|..|done].
    - destruct (W1 _ _ D1) as (A1 & _ & P1), (W2 _ _ D2) as (A2 & _ & P2).
      split; [done|]. split; [done|]. intros v. specialize (He v).
      destruct (dget v d1) as [c1|] eqn:C1, (dget v d2) as [c2|] eqn:C2; simpl in He; try done.
      + apply P1 in C1. lia.
      + apply P2 in C2. lia.
    - destruct (W1 _ _ D1) as (_ & N1 & P1). destruct (Hne d1 N1 P1) as [v Hv]. by rewrite He in Hv.
    - destruct (W2 _ _ D2) as (_ & N2 & P2). destruct (Hne d2 N2 P2) as [v Hv]. by rewrite <- He in Hv.
  Qed.

  Lemma attr_none s l a : Hist s l -> (forall i, i ∈ l -> dget a i = None) -> dget a (ns_av s) = None.
  Proof.
    intros HH Hn. apply dget_None. intros (i & Hi & Hk)%(Hist_key _ _ _ HH).
    apply dget_key_Some in Hk as [v Hv]. by rewrite Hn in Hv.
  Qed.

  Lemma attr_const s l a v : Hist s l -> l <> [] -> (forall i, i ∈ l -> dget a i = Some v) ->
    dget a (ns_av s) = Some [(v, length l)].
  Proof.
    intros HH Hl Hc. destruct HH as (Hn & [Hw Wd] & He).
    assert (H1 : entry s a v = length l) by (rewrite He; by apply occ_all_2).
    assert (H2 : forall w, w <> v -> entry s a w = 0).
    { intros w Hw'. rewrite He. apply occ_none. intros i Hi. rewrite Hc by done. congruence. }
    unfold entry in *. destruct (dget a (ns_av s)) as [d|] eqn:Ed;
      [|destruct l; simpl in *; [done|lia]].
    destruct (Wd _ _ Ed) as (Dw & _ & Dp). f_equal.
    assert (Hk : forall w c, (w, c) ∈ d -> w = v /\ c = length l).
    { intros w c Hin. apply In_dget in Hin; [|done].
      destruct (decide (w = v)) as [->|Hne].
      - rewrite Hin in H1. done.
      - specialize (H2 w Hne). rewrite Hin in H2. apply Dp in Hin. simpl in H2. lia. }
    destruct d as [|[w c] d]; [destruct l; simpl in *; [done|lia]|].
    destruct (Hk w c) as [-> ->]; [left|].
    destruct d as [|[w c] d]; [done|]. exfalso.
    destruct (Hk w c) as [-> ->]; [right; left|]. unfold dwf, dkeys in Dw. cbn [map fst] in Dw.
    apply NoDup_cons in Dw as [Dw _]. apply Dw. left.
  Qed.

  Lemma const_spec s1 s2 : cRs s1 s2 -> const_tables a0 v0 s1 s2.
  Proof.
    intros (l1 & l2 & H1 & H2 & HF).
    pose proof (proj1 H1) as Hc1. pose proof (proj1 H2) as Hc2.
    split; [rewrite Hc1, Hc2; by eapply Forall2_length|]. split; [|split].
    - intros a Ha. pose proof (attr_same s1 s2 l1 l2 a H1 H2 (fun v => occ_const l1 l2 a v HF Ha)) as Hd.
      destruct (dget a (ns_av s1)), (dget a (ns_av s2)); try done.
      destruct Hd as (_ & _ & Hd). intros v. specialize (Hd v).
      destruct (dget v _), (dget v _); congruence || done.
    - apply (attr_none _ _ _ H1). intros i Hi.
      destruct (f2_l _ _ _ _ HF Hi) as (j & _ & H). by eapply wc_none.
    - rewrite Hc2. destruct l2 as [|j l2].
      + simpl. apply (attr_none _ _ _ H2). intros i Hi. inversion Hi.
      + rewrite decide_False by (simpl; lia). apply (attr_const _ _ _ _ H2); [done|].
        intros i Hi. destruct (f2_r _ _ _ _ HF Hi) as (k & _ & H).
        rewrite (wc_get _ _ _ H). by rewrite decide_True.
  Qed.

  (** ** The local steps *)
  Lemma const_inc s1 s2 i1 i2 : cRs s1 s2 -> WC i1 i2 -> cRs (ns_inc s1 i1) (ns_inc s2 i2).
  Proof.
    intros (l1 & l2 & H1 & H2 & HF) Hi. exists (i1 :: l1), (i2 :: l2).
    split; [apply Hist_inc; [done|apply Hi]|].
    split; [apply Hist_inc; [done|by eapply wc_good2]|by apply Forall2_cons_2].
  Qed.

  Lemma const_add s1 s2 o1 o2 : cRs s1 s2 -> cRs o1 o2 -> cRs (ns_add s1 o1) (ns_add s2 o2).
  Proof.
    intros (l1 & l2 & H1 & H2 & HF) (k1 & k2 & K1 & K2 & KF). exists (l1 ++ k1), (l2 ++ k2).
    split; [by apply Hist_add|]. split; [by apply Hist_add|]. by apply Forall2_app.
  Qed.

  Lemma exact_hist s l i : Hist s l -> has_visible i ->
    ns_exact s i = true <-> l <> [] /\ forall j, j ∈ l -> same_visible i j.
  Proof.
    intros HH (a & Ha & Hk). split.
    - intros Hex. rewrite exact_true in Hex. split.
      + intros ->. destruct (Hex a Ha (or_introl Hk)) as (v & d & c & _ & Hd & _).
        assert (Hka : a ∈ dkeys (ns_av s)) by (by eapply dget_Some_key).
        apply (Hist_key _ _ _ HH) in Hka as (j & Hj & _). inversion Hj.
      + intros j Hj b Hb. destruct HH as (Hc & Hwf & He). destruct (dget b i) as [v|] eqn:Ei.
        * destruct (Hex b Hb) as (v' & d & c & Hv & Hd & Hc' & ->).
          { left. by eapply dget_Some_key. }
          rewrite Hv in Ei. injection Ei as ->. symmetry. apply (occ_all l); [|done].
          rewrite <- He, <- Hc. unfold entry. by rewrite Hd, Hc'.
        * destruct (dget b j) as [v|] eqn:Ej; [|done].
          destruct (Hex b Hb) as (v' & d & c & Hv & _); [|congruence].
          right. apply (Hist_key s l b); [done|]. exists j. split; [done|]. by eapply dget_Some_key.
    - intros [Hl Hs]. by eapply exact_of_same.
  Qed.

  Lemma const_exact s1 s2 i1 i2 : cRs s1 s2 -> WC i1 i2 -> ns_exact s1 i1 = ns_exact s2 i2.
  Proof.
    intros (l1 & l2 & H1 & H2 & HF) Hi. apply eq_true_iff_eq.
    rewrite (exact_hist _ _ _ H1 (wc_hv _ _ Hi)), (exact_hist _ _ _ H2 (wc_hv2 _ _ Hi)).
    assert (Hsv : forall j1 j2, WC j1 j2 -> same_visible i1 j1 <-> same_visible i2 j2).
    { intros j1 j2 Hj. split; intros Hs a Ha.
      - rewrite (wc_get _ _ _ Hi), (wc_get _ _ _ Hj). case_decide; [done|by apply Hs].
      - destruct (decide (a = a0)) as [->|Hne].
        + by rewrite (wc_none _ _ Hi), (wc_none _ _ Hj).
        + specialize (Hs a Ha). rewrite (wc_get _ _ _ Hi), (wc_get _ _ _ Hj) in Hs.
          by rewrite !decide_False in Hs. }
    split; intros [Hl Hs]; (split; [by inversion HF; subst|]).
    - intros j Hj. destruct (f2_r _ _ _ _ HF Hj) as (k & Hk & H). apply (Hsv k j H). auto.
    - intros j Hj. destruct (f2_l _ _ _ _ HF Hj) as (k & Hk & H). apply (Hsv j k H). auto.
  Qed.

  Open Scope R_scope.
  Definition share_of (s : nsum) (a : attr) : R :=
    match dget a (ns_av s) with
    | Some d => Rsum (fun q : nom * nat => (INR (snd q) / INR (ns_count s)) ^ 2) d
    | None => 0
    end.

  Lemma guess_keys s : dwf (ns_av s) -> guess_sum s = Rsum (share_of s) (dkeys (vis s)).
  Proof.
    intros Hw. unfold guess_sum, dkeys. rewrite Rsum_map. apply Rsum_ext. intros [a d] Hin.
    unfold share_of. cbn [fst snd]. apply vis_in in Hin as [_ ->]; done.
  Qed.

  Lemma vis_keys s l (W : list attr) : Hist s l -> l <> [] -> NoDup W ->
    Forall (fun a => visible a = true) W ->
    (forall i, i ∈ l -> forall a, visible a = true -> a ∈ dkeys i <-> a ∈ W) ->
    Permutation (dkeys (vis s)) W.
  Proof.
    intros HH Hl HW HWv Hk. pose proof (proj1 (proj1 (proj2 HH))) as Hw.
    apply NoDup_Permutation.
    - apply (dwf_dfilter visible) in Hw. exact Hw.
    - done.
    - intros a.
      assert (Hin : a ∈ dkeys (vis s) <-> visible a = true /\ a ∈ dkeys (ns_av s)).
      { split.
        - intros (d & Hd)%dget_key_Some. apply dget_In in Hd.
          apply vis_in in Hd as [Hd1 Hd2]; [|done]. split; [done|]. by eapply dget_Some_key.
        - intros [Ha (d & Hd)%dget_key_Some].
          assert (Hi : (a, d) ∈ vis s) by (by apply vis_in).
          apply elem_of_list_fmap. by exists (a, d). }
      rewrite Hin, (Hist_key _ _ _ HH). split.
      + intros [Ha (i & Hi & Hai)]. by apply (Hk i Hi).
      + intros Ha. pose proof (proj1 (Forall_forall _ _) HWv a Ha) as Hva. split; [done|].
        destruct l as [|i l]; [done|]. exists i. split; [left|]. apply (Hk i); [left|done|done].
  Qed.

  (** With the attributes of [V] the score is divided by their number. *)
  Definition al : R := INR (length V) / INR (S (length V)).
  Definition be : R := / INR (S (length V)).

  Lemma len_V : 0 < INR (length V).
  Proof. apply lt_0_INR. destruct V; simpl; [done|lia]. Qed.
  Lemma al_pos : 0 < al.
  Proof. apply Rdiv_lt_0_compat; [apply len_V|]. apply lt_0_INR. lia. Qed.

  Lemma const_ecg s1 s2 : cRs s1 s2 ->
    rfmap (fun e => al * e + be) (ns_ecg ROps s1) = ns_ecg ROps s2.
  Proof.
    intros (l1 & l2 & H1 & H2 & HF).
    destruct (decide (l1 = [])) as [->|Hl1].
    { inversion HF; subst. 
      assert (Hav : forall s, Hist s [] -> ns_av s = []).
      { intros s HH. destruct (ns_av s) as [|[a d] av] eqn:E; [done|].
        assert (Hka : a ∈ dkeys (ns_av s)) by (rewrite E; left).
        apply (Hist_key _ _ _ HH) in Hka as (j & Hj & _). inversion Hj. }
      unfold ns_ecg. rewrite (Hav _ H1), (Hav _ H2). cbn [dfilter List.filter rfold rbind length].
      unfold pydiv. by rewrite (ct_zero _ counting_R). }
    assert (Hl2 : l2 <> []) by (intros ->; by apply Forall2_nil_inv_r in HF).
    assert (Hc1 : (0 < ns_count s1)%nat) by (rewrite (proj1 H1); destruct l1; simpl; [done|lia]).
    assert (Hc : ns_count s2 = ns_count s1)
      by (rewrite (proj1 H1), (proj1 H2); symmetry; by eapply Forall2_length).
    assert (P1 : Permutation (dkeys (vis s1)) V).
    { apply (vis_keys s1 l1); [done|done|done|done|]. intros i Hi.
      destruct (f2_l _ _ _ _ HF Hi) as (j & _ & H). apply H. }
    assert (P2 : Permutation (dkeys (vis s2)) (a0 :: V)).
    { apply (vis_keys s2 l2); [done|done|by apply NoDup_cons_2|by apply Forall_cons_2|].
      intros i Hi a Ha. destruct (f2_r _ _ _ _ HF Hi) as (j & _ & H).
      unfold dkeys. rewrite (wc_perm _ _ _ _ _ H). cbn [map fst]. rewrite !elem_of_cons.
      by rewrite (wc_vis _ _ _ _ _ H a Ha). }
    assert (L1 : length (vis s1) = length V).
    { rewrite <- (Permutation_length P1). unfold dkeys. by rewrite map_length. }
    assert (L2 : length (vis s2) = S (length V)).
    { apply Permutation_length in P2. unfold dkeys in P2. rewrite map_length in P2. exact P2. }
    rewrite ecg_value; [|done|intros E; rewrite E in L1; destruct V; done].
    rewrite ecg_value; [|by rewrite Hc|intros E; by rewrite E in L2].
    cbn [rfmap]. f_equal. rewrite L1, L2.
    rewrite (guess_keys s1), (guess_keys s2); [|apply H2|apply H1].
    rewrite (Rsum_perm _ _ _ P1), (Rsum_perm _ _ _ P2). cbn [Rsum].
    assert (E0 : share_of s2 a0 = 1).
    { unfold share_of. destruct (const_spec s1 s2) as (_ & _ & _ & ->); [by exists l1, l2|].
      rewrite decide_False by lia. cbn [Rsum snd].
      assert (INR (ns_count s2) <> 0) by (apply not_0_INR; lia).
      match goal with |- ?a = ?b => change (@eq R a b) end. field. done. }
    assert (E1 : Rsum (share_of s2) V = Rsum (share_of s1) V).
    { apply Rsum_ext. intros a Ha. assert (Hne : a <> a0) by (by intros ->).
      pose proof (attr_same s1 s2 l1 l2 a H1 H2 (fun v => occ_const l1 l2 a v HF Hne)) as Hd.
      unfold share_of. rewrite Hc.
      destruct (dget a (ns_av s1)) as [d1|], (dget a (ns_av s2)) as [d2|]; try done.
      apply Rsum_perm. symmetry. 
      by apply deq_perm. }
    rewrite E0, E1. unfold al, be. pose proof len_V. 
    assert (INR (S (length V)) <> 0) by (apply not_0_INR; lia).
    match goal with |- ?a = ?b => change (@eq R a b) end. field. split; [done|lra].
  Qed.
  Close Scope R_scope.

  Notation C := (CobwebClass ROps).
  Notation D := (rescaled (CobwebClass ROps) al be).

  Lemma count_cobweb : count_laws C.
  Proof. split; [done| |]; intros s i s'; simpl; by intros [= <-]. Qed.

  Lemma const_sim : simulation D C cRs WC eq.
  Proof.
    split; [split|].
    - exists [], []. split; [apply Hist_empty|]. split; [apply Hist_empty|done].
    - intros s1 s2 (l1 & l2 & H1 & H2 & HF). simpl. rewrite (proj1 H1), (proj1 H2).
      by eapply Forall2_length.
    - intros s1 s2 i1 i2 Hs Hi. split; [|done]. by apply const_inc.
    - intros s1 s2 o1 o2 Hs Ho. split; [|done]. by apply const_add.
    - intros x1 x2 s1 s2 _ Hs. by apply const_ecg.
    - intros s1 s2 i1 i2 Hs Hi. simpl. f_equal. by apply const_exact.
    - intros [] [] i1 i2 _ _. done.
  Qed.

  Variable rng : nat -> R.

  (** ** C104 for any random numbers, when no call of the first run raised *)
  Theorem C104_constant (cs1 cs2 : list (call C)) ctr rpos : Forall2 (const_calls V a0 v0) cs1 cs2 ->
    let o1 := exec C rng tt cs1 (fresh C ctr rpos tt) in
    let o2 := exec C rng tt cs2 (fresh C ctr rpos tt) in
    Forall (fun r => exists j, r = Ok j) (fst o1) ->
    fst o1 = fst o2 /\ same_view (C1:=C) (C2:=C) (const_tables a0 v0) (snd o1) (snd o2).
  Proof.
    intros HF. cbv zeta. intros Hr.
    assert (Hg : Forall (call_good C good) cs1).
    { clear -HF. induction HF as [|c1 c2 cs1 cs2 H HF IH]; [apply Forall_nil_2|].
      apply Forall_cons_2; [|done]. destruct c1, c2; try done. apply H. }
    destruct (exec_aff C rng al be al_pos count_cobweb Hist LeafV good (hist_laws ROps) (cobweb_real ROps)
      tt cs1 _ _ Hg (arel_fresh C al be Hist LeafV good (hist_laws ROps) ctr rpos tt) Hr) as [E1 Ha].
    destruct Ha as (t1 & t2 & l & Ok1 & Ok2 & Ht & _).
    apply (trel_view C D) with (1:=Ok1) (2:=Ok2) in Ht.
    destruct (exec_rel D C rng cRs WC eq const_sim (cobweb_real ROps)
      tt tt (map (dcall C al be) cs1) cs2 (fresh D ctr rpos tt) (fresh C ctr rpos tt) eq_refl) as [E2 H2].
    - clear -HF. induction HF as [|c1 c2 cs1 cs2 H HF IH]; [apply Forall2_nil_2|].
      cbn [map]. apply Forall2_cons_2; [|done]. destruct c1, c2; done.
    - apply (srel_fresh D C cRs WC eq const_sim). done.
    - apply (srel_view D C cRs eq) in H2. split; [congruence|].
      destruct (view_comp _ _ _ _ _ t2 Ok2 Ht H2) as [V1 V2 V3 V4 V5].
      split; [done|done|done|done|]. intros id u1 u2 Hi T1 T2.
      destruct (V5 id u1 u2 Hi T1 T2) as (u & -> & Hu). by apply const_spec.
  Qed.

  (** ** and always, when no two draws of random numbers are equal *)
  Theorem C104_constant_always (cs1 cs2 : list (call C)) ctr rpos : distinct_draws (N:=ROps) rng ->
    Forall2 (const_calls V a0 v0) cs1 cs2 ->
    let o1 := exec C rng tt cs1 (fresh C ctr rpos tt) in
    let o2 := exec C rng tt cs2 (fresh C ctr rpos tt) in
    fst o1 = fst o2 /\ same_view (C1:=C) (C2:=C) (const_tables a0 v0) (snd o1) (snd o2).
  Proof.
    intros Hd HF. apply C104_constant; [done|].
    pose proof (exec_reachable C rng tt cs1 ctr rpos) as Hr.
    assert (Hg : Forall (fun c : call C => match c with CFit i | CCat i => has_visible i | _ => True end) cs1).
    { clear Hr. induction HF as [|c1 c2 cs1 cs2 H HF IH]; [apply Forall_nil_2|].
      apply Forall_cons_2; [|done]. destruct c1, c2; try done; by eapply wc_hv. }
    destruct (C20_fitting_never_raises (N:=ROps) rng counting_R Hd _ _ Hr) as [He _].
    - clear -Hg. generalize (fst (exec C rng tt cs1 (fresh C ctr rpos tt))) as rs.
      induction Hg as [|c cs Hc Hg IH]; intros rs; [constructor|].
      destruct rs as [|r rs]; [constructor|]. cbn [zip_with]. constructor; [|apply IH].
      intros i. destruct c; simpl; try done; by intros ->.
    - clear -He. revert He. generalize (fresh C ctr rpos tt) as s.
      induction cs1 as [|c cs IH]; intros s He; [apply Forall_nil_2|]. cbn [exec] in *.
      destruct (exec1 C rng tt c s) as [r s1] eqn:E1. specialize (IH s1).
      destruct (exec C rng tt cs s1) as [rs s2]. cbn [fst zip_with] in *.
      apply Forall_cons in He as [Hc He]. apply Forall_cons_2; [|by apply IH].
      destruct c; cbn [event_of no_exn exec1] in *.
      + destruct r; [eauto|done].
      + destruct r; [eauto|done].
      + injection E1 as <- _. eauto.
      + injection E1 as <- _. eauto.
  Qed.
End Const.
