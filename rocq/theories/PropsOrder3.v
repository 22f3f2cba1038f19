(** * The order of the attributes of an instance does not matter to
    Cobweb3Tree either, in exact arithmetic.

    Here the instances are proper ones (no nominal value is the reserved
    string), and with inner_attr_scaling several attributes of an instance may
    share one scale (cobweb3.py:95-105). *)
From Coq Require Import Reals Lra.
From stdpp Require Import base decidable tactics gmap strings list.
From Verif Require Import Base Num TreeModel TreeFun TreeScore TreeRefine TreeSorts TreeInv
  SpecTree TreeState TreeTotal TreeRel TreeSim TreeLeaf TreeGen RSum Nominal NominalFacts
  CV CVFacts Cobweb3 C3Facts C3Scales C3R C3Tree C3Total PropsOrder.

(** ** Specification *)
Definition same_table3 (t1 t2 : nsum3 ROps) : Prop :=
  n3_count t1 = n3_count t2 /\ same_dict (same_dict eq) (n3_av t1) (n3_av t2).

Definition reordered3 (c1 c2 : call (Cobweb3Class ROps)) : Prop :=
  match c1, c2 with
  | CFit i1, CFit i2 | CCat i1, CCat i2 => good3 (i1 : inst3 ROps) /\ Permutation (i1 : inst3 ROps) i2
  | COther a b, COther c d => a = c /\ b = d
  | CClear, CClear => True
  | _, _ => False
  end.

(** ** Tables of the same instances *)
Notation alike := (Forall2 (fun i j : inst3 ROps => forall a, dget a i = dget a j)).

Lemma alike_occ l1 l2 a v : alike l1 l2 -> occ3 l1 a v = occ3 l2 a v.
Proof. induction 1 as [|i j l1 l2 H _ IH]; [done|]. simpl. by rewrite H, IH. Qed.
Lemma alike_nums l1 l2 a : alike l1 l2 -> nums l1 a = nums l2 a.
Proof. induction 1 as [|i j l1 l2 H _ IH]; [done|]. simpl. by rewrite H, IH. Qed.
Lemma alike_sym l1 l2 : alike l1 l2 -> alike l2 l1.
Proof. induction 1; [by apply Forall2_nil_2|]. apply Forall2_cons_2; [|done]. intros a. by symmetry. Qed.

Definition perm_tables3 (s1 s2 : nsum3 ROps) : Prop :=
  exists l1 l2, HistR s1 l1 /\ HistR s2 l2 /\ alike l1 l2.
Definition perm_insts3 (i1 i2 : inst3 ROps) : Prop := good3 i1 /\ Permutation i1 i2.

Lemma alike_key s1 s2 l1 l2 a : HistR s1 l1 -> HistR s2 l2 -> alike l1 l2 ->
  a ∈ dkeys (n3_av s1) -> a ∈ dkeys (n3_av s2).
Proof.
  intros H1 H2 Hl Ha. apply (Hist3_key summarises s1 l1 a H1) in Ha as (i & Hi & Ha).
  apply (Hist3_key summarises s2 l2 a H2).
  apply elem_of_list_lookup in Hi as [n Hn]. destruct (Forall2_lookup_l _ _ _ _ _ Hl Hn) as (j & Hj & E).
  exists j. split; [by eapply elem_of_list_lookup_2|]. apply dget_key_Some in Ha as [v Hv].
  rewrite E in Hv. by eapply dget_Some_key.
Qed.

Lemma perm_tables3_dict s1 s2 : perm_tables3 s1 s2 ->
  n3_count s1 = n3_count s2 /\ deq (deq eq) (n3_av s1) (n3_av s2).
Proof.
  intros (l1 & l2 & H1 & H2 & Hl). split.
  - destruct H1 as [-> _], H2 as [-> _]. by eapply Forall2_length.
  - pose proof H1 as (_ & W1 & _ & C1). pose proof H2 as (_ & W2 & _ & C2).
    split; [done|]. split; [done|]. intros a. specialize (C1 a). specialize (C2 a).
    destruct (dget a (n3_av s1)) as [d1|] eqn:E1, (dget a (n3_av s2)) as [d2|] eqn:E2.
    + simpl in C1, C2. destruct C1 as (D1 & _ & N1 & X1), C2 as (D2 & _ & N2 & X2).
      split; [done|]. split; [done|]. intros v.
      assert (E : dget v d1 = dget v d2); [|rewrite E; by destruct (dget v d2)].
      destruct (decide (v = cv_key)) as [->|Hv].
      * rewrite (alike_nums l1 l2 a Hl) in X1. destruct (nums l2 a) as [|y ys]; [congruence|].
        destruct X1 as (c1 & -> & S1), X2 as (c2 & -> & S2). unfold summarises in *. congruence.
      * rewrite (N1 v Hv), (N2 v Hv). by rewrite (alike_occ l1 l2 a v Hl).
    + apply dget_Some_key in E1. apply dget_None in E2. apply E2. by apply (alike_key s1 s2 l1 l2).
    + apply dget_Some_key in E2. apply dget_None in E1. apply E1.
      apply (alike_key s2 s1 l2 l1); [done|done|by apply alike_sym|done].
    + done.
Qed.

Lemma perm_insts3_alike i1 i2 : perm_insts3 i1 i2 -> good3 i2 /\ forall a, dget a i1 = dget a i2.
Proof.
  intros [(Hw & Ha & Hc) Hp]. assert (E : forall a, dget a i1 = dget a i2) by (intros a; by apply dget_perm).
  split; [|done]. split; [|split].
  - unfold dwf, dkeys in *. by rewrite <- Hp.
  - unfold dkeys in *. by rewrite <- Hp.
  - intros a. rewrite <- E. apply Hc.
Qed.

(** ** Scales *)
Definition perm_ctxs (x1 x2 : ctx3 ROps) : Prop :=
  x_scaling x1 = x_scaling x2 /\ x_inner x1 = x_inner x2 /\ deq eq (x_scales x1) (x_scales x2) /\
  scales_ok x1 /\ scales_ok x2.

Lemma cv_update_comm (c : cval ROps) (x y : R) :
  cv_update (cv_update c x) y = cv_update (cv_update c y) x.
Proof.
  destruct c as [n m q]. unfold cv_update. cbn [cv_num cv_mean cv_msq].
  change (nsub ROps) with Rminus. change (nadd ROps) with Rplus. change (ndiv ROps) with Rdiv.
  change (nmul ROps) with Rmult. change (nofnat ROps) with INR.
  assert (H1 : (INR (S n) = INR n + 1)%R) by apply S_INR.
  assert (H2 : (INR (S (S n)) = INR n + 2)%R) by (rewrite !S_INR; lra).
  pose proof (pos_INR n). rewrite H1, H2.
  f_equal; match goal with |- ?a = ?b => change (@eq R a b) end; field; lra.
Qed.

Lemma scale_eq_trans (d1 d2 d3 : list (attr * cval ROps)) : deq eq d1 d2 -> deq eq d2 d3 -> deq eq d1 d3.
Proof.
  intros (W1 & W2 & H) (_ & W3 & H'). split; [done|]. split; [done|]. intros k.
  specialize (H k). specialize (H' k).
  destruct (dget k d1), (dget k d2), (dget k d3); try done. congruence.
Qed.

Lemma same_eq {V} (d1 d2 : list (attr * V)) : same_dict eq d1 d2 <-> forall k, dget k d1 = dget k d2.
Proof.
  split; intros H k; specialize (H k).
  - destruct (dget k d1), (dget k d2); try done. by subst.
  - rewrite H. by destruct (dget k d2).
Qed.

Lemma perm_fold {S X} (E : S -> S -> Prop) (f : S -> X -> S) :
  (forall s1 s2 s3, E s1 s2 -> E s2 s3 -> E s1 s3) -> (forall s1 s2, E s1 s2 -> E s2 s2) ->
  (forall s1 s2 x, E s1 s2 -> E (f s1 x) (f s2 x)) ->
  (forall s x y, E s s -> E (f (f s x) y) (f (f s y) x)) ->
  forall l1 l2, Permutation l1 l2 -> forall s1 s2, E s1 s2 -> E (fold_left f l1 s1) (fold_left f l2 s2).
Proof.
  intros Ht Hr Hf Hc. assert (Hsame : forall l s1 s2, E s1 s2 -> E (fold_left f l s1) (fold_left f l s2)).
  { induction l as [|x l IH]; intros s1 s2 H; [done|]. cbn [fold_left]. by apply IH, Hf. }
  induction 1 as [|x l1 l2 Hp IH|x y l|l1 l2 l3 H1 IH1 H2 IH2]; intros s1 s2 H.
  - done.
  - cbn [fold_left]. by apply IH, Hf.
  - cbn [fold_left]. apply Hsame. eapply Ht; [|by apply Hc; eapply Hr]. by apply Hf, Hf.
  - eapply Ht; [by apply IH1|]. apply IH2. by eapply Hr.
Qed.

Lemma perm_scales (x1 x2 : ctx3 ROps) (i1 i2 : inst3 ROps) : perm_ctxs x1 x2 -> perm_insts3 i1 i2 ->
  perm_ctxs (update_scales x1 i1) (update_scales x2 i2).
Proof.
  intros (H1 & H2 & H3 & H4 & H5) [_ Hp].
  split; [done|]. split; [done|]. split; [|split; by apply scales_ok_update].
  unfold update_scales. cbn [x_scales].
  assert (Hin : forall a, inner_attr x1 a = inner_attr x2 a).
  { intros [ | |]; simpl; try done. by rewrite H2. }
  set (f := fun (x : ctx3 ROps) (sc : list (attr * cval ROps)) (p : attr * val3 ROps) =>
         match snd p with
         | VNum y => let b := inner_attr x (fst p) in
                     dset b (cv_update (default (cv_new ROps) (dget b sc)) y) sc
         | VNom _ => sc
         end).
  change (deq eq (fold_left (f x1) i1 (x_scales x1)) (fold_left (f x2) i2 (x_scales x2))).
  assert (Ef : forall l sc, fold_left (f x1) l sc = fold_left (f x2) l sc).
  { induction l as [|[a [v|y]] l IH]; intros sc; [done|apply IH|]. cbn [fold_left].
    unfold f at 2 4. cbn [fst snd]. rewrite Hin. apply IH. }
  rewrite Ef. apply perm_fold; [apply scale_eq_trans| | | |done|done].
  - intros s1 s2 (_ & W & _). split; [done|]. split; [done|]. by apply same_eq.
  - intros s1 s2 [a [v|y]] (W1 & W2 & H); unfold f; cbn [fst snd]; [done|].
    split; [by apply dset_wf|]. split; [by apply dset_wf|]. apply same_eq. rewrite same_eq in H.
    intros k. rewrite !dget_dset, !H. done.
  - intros s [a [v|y]] [b [w|z]] (W & _ & _); unfold f; cbn [fst snd].
    + split; [done|]. split; [done|]. by apply same_eq.
    + split; [by apply dset_wf|]. split; [by apply dset_wf|]. by apply same_eq.
    + split; [by apply dset_wf|]. split; [by apply dset_wf|]. by apply same_eq.
    + cbv zeta. split; [by apply dset_wf, dset_wf|]. split; [by apply dset_wf, dset_wf|]. apply same_eq.
      generalize (inner_attr x2 a) (inner_attr x2 b). intros a' b' k.
      destruct (decide (a' = b')) as [<-|Hne].
      * rewrite !dget_dset. case_decide; [|done]. rewrite !decide_True by done. cbn [from_option]; unfold Datatypes.id.
        by rewrite cv_update_comm.
      * rewrite !dget_dset. rewrite (decide_False (P:=b' = a')), (decide_False (P:=a' = b')) by done.
        destruct (decide (k = a')), (decide (k = b')); congruence.
Qed.

(** ** The simulation *)
Lemma perm_escale x1 x2 a : perm_ctxs x1 x2 -> escale x1 a = escale x2 a.
Proof.
  intros (H1 & H2 & (_ & _ & H3) & _). rewrite same_eq in H3. unfold escale, scaling_on. rewrite H1.
  assert (E : inner_attr x1 a = inner_attr x2 a) by (destruct a; simpl; try done; by rewrite H2).
  by rewrite E, H3.
Qed.

Lemma perm_ecg3 x1 x2 s1 s2 : perm_ctxs x1 x2 -> perm_tables3 s1 s2 -> n3_ecg x1 s1 = n3_ecg x2 s2.
Proof.
  intros Hx Hs. destruct (perm_tables3_dict s1 s2 Hs) as [Hc Hd].
  assert (Hv : deq (deq eq) (vis3 s1) (vis3 s2)) by (by apply deq_filter).
  destruct (decide (vis3 s1 = [])) as [E1|E1].
  - assert (E2 : vis3 s2 = []).
    { apply deq_length in Hv. rewrite E1 in Hv. by destruct (vis3 s2). }
    unfold n3_ecg. fold (vis3 s1) (vis3 s2). by rewrite E1, E2.
  - assert (E2 : vis3 s2 <> []).
    { intros E. apply deq_length in Hv. rewrite E in Hv. by destruct (vis3 s1). }
    destruct Hs as (l1 & l2 & H1 & H2 & Hl).
    assert (Hn : (0 < n3_count s1)%nat).
    { destruct H1 as (Hn & H1). rewrite Hn. destruct l1 as [|i l1]; [|simpl; lia]. exfalso. apply E1.
      destruct H1 as (_ & Hne & Hcells). unfold vis3. destruct (n3_av s1) as [|[a d] av] eqn:E; [done|].
      exfalso. apply (Hne a d); [simpl; by rewrite decide_True|].
      specialize (Hcells a). simpl in Hcells. rewrite decide_True in Hcells by done. simpl in Hcells.
      destruct Hcells as (_ & _ & Hv0 & Hk). destruct d as [|[v q] d]; [done|]. exfalso.
      destruct (decide (v = cv_key)) as [->|Hv1].
      - cbn [dget] in Hk. by rewrite decide_True in Hk.
      - specialize (Hv0 v Hv1). cbn [dget] in Hv0. by rewrite !decide_True in Hv0. }
    destruct Hx as (X1 & X2 & X3 & X4 & X5).
    rewrite (n3_ecg_ok x1 s1), (n3_ecg_ok x2 s2); try done; try lia; try by eapply HistR_all_fine.
    rewrite (deq_length _ _ _ Hv). f_equal. f_equal. unfold guesses3. rewrite <- Hc.
    apply (Rsum_deq (deq eq)) with (f := fun p => Rsum (fun q => contrib (escale x1 (fst p)) (n3_count s1) (snd q)) (snd p)) in Hv as ->.
    + apply Rsum_ext. intros [a d] _. cbn [fst snd]. by rewrite (perm_escale x1 x2 a).
    + intros k v w H. cbn [fst snd]. apply (Rsum_deq eq); [done|]. by intros ? ? ? ->.
Qed.

Lemma rall_same {X} (f g : X -> res bool) l1 l2 :
  (forall a, f a = g a) -> (forall a, exists b, f a = Ok b) -> (forall a, a ∈ l1 <-> a ∈ l2) ->
  rall f l1 = rall g l2.
Proof.
  intros E Hf Hl.
  assert (Ht : forall l, exists b, rall f l = Ok b /\ (b = true <-> forall a, a ∈ l -> f a = Ok true)).
  { induction l as [|a l (b & IH & Hb)]; [exists true; split; [done|split; [intros _ a Ha; inversion Ha|done]]|].
    destruct (Hf a) as [[] Ea]; simpl; rewrite Ea; cbn [rbind].
    - exists b. split; [done|]. rewrite Hb. split.
      + intros H c [->|Hc]%elem_of_cons; [done|by apply H].
      + intros H c Hc. apply H. by right.
    - exists false. split; [done|]. split; [done|]. intros H. rewrite (H a) in Ea by left. done. }
  assert (Eg : forall l, rall g l = rall f l).
  { induction l as [|a l IH]; [done|]. simpl. by rewrite IH, E. }
  rewrite Eg. destruct (Ht l1) as (b1 & -> & H1), (Ht l2) as (b2 & -> & H2). f_equal.
  assert (b1 = true <-> b2 = true) as Hb.
  { rewrite H1, H2. split; intros H a Ha; apply H; by apply Hl. }
  destruct b1, b2; try done; [symmetry|]; by apply Hb.
Qed.

Lemma perm_exact3 s1 s2 i1 i2 : perm_tables3 s1 s2 -> perm_insts3 i1 i2 -> n3_exact s1 i1 = n3_exact s2 i2.
Proof.
  intros Hs Hi. destruct (perm_tables3_dict s1 s2 Hs) as [Hc (W1 & W2 & Hd)].
  destruct (perm_insts3_alike i1 i2 Hi) as [_ Ei]. destruct Hs as (l1 & l2 & H1 & _).
  unfold n3_exact. apply rall_same.
  - intros a. unfold exact1. destruct (hidden a); [done|]. rewrite Ei. specialize (Hd a).
    destruct (dget a i2) as [v|], (dget a (n3_av s1)) as [d1|], (dget a (n3_av s2)) as [d2|]; try done.
    pose proof (deq_length _ _ _ Hd) as Hlen. destruct Hd as (_ & _ & Hd).
    assert (E : forall w, dget w d1 = dget w d2).
    { intros w. specialize (Hd w). destruct (dget w d1), (dget w d2); try done. by subst. }
    destruct v as [v|y]; [by rewrite E, Hc|]. by rewrite E, Hlen, Hc.
  - intros a. pose proof (exact_total s1 l1 i1 H1) as [b _]. unfold exact1.
    destruct (hidden a); [eauto|].
    destruct (dget a i1) as [v|], (dget a (n3_av s1)) as [d|] eqn:Ed; try (eexists; done).
    destruct v as [v|y].
    + destruct (dget v d) as [[n|c]|]; eauto.
    + destruct (dget cv_key d) as [c|] eqn:Ec; [|eauto].
      destruct (negb (length d =? 1)%nat); [eauto|].
      assert (Hf : cell_fine (cv_key, c)).
      { eapply HistR_fine; [exact H1|exact Ed|]. by apply dget_In. }
      destruct c as [n|c]; [done|]. destruct Hf as [_ Hm]. simpl in Hm.
      destruct (negb (cv_num c =? n3_count s1)%nat); [eauto|].
      destruct (ustd_ok c Hm) as [-> _]. cbn [rbind]. destruct (negb _); eauto.
  - intros a. rewrite !elem_of_app, !elem_of_list_In, !filter_In, <- !elem_of_list_In.
    assert (Ha : a ∈ dkeys i1 <-> a ∈ dkeys i2) by (destruct Hi as [_ Hp]; unfold dkeys; by rewrite Hp).
    rewrite Ha, (same_dict_keys _ _ _ a Hd). done.
Qed.

Lemma order_sim3 : simulation (Cobweb3Class ROps) (Cobweb3Class ROps) perm_tables3 perm_insts3 perm_ctxs.
Proof.
  pose proof summarises_laws as CL.
  split; [split|]; simpl.
  - exists [], []. split; [apply (Hist3_empty summarises)|]. split; [apply (Hist3_empty summarises)|].
    by apply Forall2_nil_2.
  - intros s1 s2 Hs. by apply perm_tables3_dict in Hs as [? _].
  - intros s1 s2 i1 i2 (l1 & l2 & H1 & H2 & Hl) Hi. destruct (perm_insts3_alike i1 i2 Hi) as [Hg Ei].
    destruct (Hist3_inc summarises eq CL s1 l1 i1 H1 (proj1 Hi)) as (s1' & -> & H1').
    destruct (Hist3_inc summarises eq CL s2 l2 i2 H2 Hg) as (s2' & -> & H2').
    split; [|done]. exists (i1 :: l1), (i2 :: l2). split; [done|]. split; [done|].
    by apply Forall2_cons_2.
  - intros s1 s2 o1 o2 (l1 & l2 & H1 & H2 & Hl) (m1 & m2 & G1 & G2 & Hm).
    destruct (Hist3_add summarises eq CL s1 o1 l1 m1 H1 G1) as (s1' & -> & H1').
    destruct (Hist3_add summarises eq CL s2 o2 l2 m2 H2 G2) as (s2' & -> & H2').
    split; [|done]. exists (l1 ++ m1), (l2 ++ m2). split; [done|]. split; [done|].
    by apply Forall2_app.
  - intros x1 x2 s1 s2 Hx Hs. by apply perm_ecg3.
  - intros s1 s2 i1 i2 Hs Hi. by apply perm_exact3.
  - intros x1 x2 i1 i2 Hx Hi. by apply perm_scales.
Qed.

(** ** C102 *)
(** For every scaling, with or without inner_attr_scaling. *)
Theorem C102_order3 (rng : nat -> R) sc inner (cs1 cs2 : list (call (Cobweb3Class ROps))) ctr rpos :
  Forall2 reordered3 cs1 cs2 ->
  let x := new_ctx (N:=ROps) sc inner in
  let o1 := exec (Cobweb3Class ROps) rng x cs1 (fresh (Cobweb3Class ROps) ctr rpos x) in
  let o2 := exec (Cobweb3Class ROps) rng x cs2 (fresh (Cobweb3Class ROps) ctr rpos x) in
  fst o1 = fst o2 /\
  same_view (C1:=Cobweb3Class ROps) (C2:=Cobweb3Class ROps) same_table3 (snd o1) (snd o2) /\
  same_dict eq (x_scales (st_ctx (snd o1))) (x_scales (st_ctx (snd o2))).
Proof.
  intros HF x. cbv zeta.
  assert (Hx : perm_ctxs x x).
  { split; [done|]. split; [done|]. split; [apply deq_nil|]. split; apply scales_ok_new. }
  destruct (exec_rel (Cobweb3Class ROps) (Cobweb3Class ROps) rng perm_tables3 perm_insts3 perm_ctxs order_sim3 (cobweb3_real ROps)
    x x cs1 cs2 (fresh (Cobweb3Class ROps) ctr rpos x) (fresh (Cobweb3Class ROps) ctr rpos x) Hx) as [H1 H2].
  - eapply Forall2_impl; [exact HF|]. intros [i|i|a b|] [k|k|c d|]; done.
  - by apply (srel_fresh (Cobweb3Class ROps) (Cobweb3Class ROps) perm_tables3 perm_insts3 perm_ctxs order_sim3).
  - split; [done|]. pose proof H2 as (_ & _ & _ & _ & _ & _ & Hx').
    apply (srel_view (Cobweb3Class ROps) (Cobweb3Class ROps) perm_tables3 perm_ctxs) in H2. destruct H2 as [V1 V2 V3' V4 V5].
    split; [|by destruct Hx' as (_ & _ & (_ & _ & ?) & _)].
    split; [done|done|done|done|]. intros id t1 t2 Hin Ht1 Ht2.
    destruct (perm_tables3_dict _ _ (V5 id t1 t2 Hin Ht1 Ht2)) as (Hc & _ & _ & Hd). split; [done|].
    intros a. specialize (Hd a). destruct (dget a (n3_av t1)), (dget a (n3_av t2)); try done. apply Hd.
Qed.

(** Two parts that share a scale, given in two orders. *)
Definition part (b : string) (x y z : R) : inst3 ROps :=
  [(ATup [AStr "x"; AStr "p"], VNum (N:=ROps) x); (AStr "kind", VNom (NStr b)); (ATup [AStr "x"; AStr "q"], VNum (N:=ROps) y);
   (AStr "z", VNum (N:=ROps) z)].
Lemma ex_C102_3 (x y z : R) :
  reordered3 (CFit (C:=Cobweb3Class ROps) (part "b" x y z)) (CFit (C:=Cobweb3Class ROps) (List.rev (part "b" x y z))) /\
  x_scales (update_scales (N:=ROps) (new_ctx (N:=ROps) (Some 1%R) true) (part "b" x y z)) =
    [(AStr "x", cv_update (N:=ROps) (cv_update (N:=ROps) (cv_new ROps) x) y); (AStr "z", cv_update (N:=ROps) (cv_new ROps) z)].
Proof.
  split; [|done]. split; [|apply Permutation_rev]. split; [|split].
  - apply (bool_decide_unpack _). vm_compute. done.
  - repeat (apply Forall_cons_2; [done|]). apply Forall_nil_2.
  - intros a. unfold part. cbn [dget]. repeat case_decide; done.
Qed.
