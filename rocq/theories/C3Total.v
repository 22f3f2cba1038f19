(** * Cobweb3Tree never raises in exact arithmetic on sensible instances. *)
From Coq Require Import Reals Lra.
From stdpp Require Import base decidable tactics gmap strings list.
From Verif Require Import Base Num TreeModel TreeFun TreeScore TreeRefine TreeSorts TreeInv
  SpecTree TreeState TreeTotal TreeRel TreeSim TreeLeaf TreeGen RSum Nominal NominalFacts
  CV CVFacts Cobweb3 C3Facts C3Scales C3R C3Tree.

Lemma batch_scale (ys : list R) : scale_of (N:=ROps) ys = match ys with [] => None | _ => Some (summ ys) end.
Proof.
  unfold scale_of. destruct ys as [|y ys]; [done|]. f_equal.
  etransitivity; [|exact (batch_summ (y :: ys) [])]. by rewrite summ_nil.
Qed.

Lemma scales_ok_new scaling inner : scales_ok (@new_ctx ROps scaling inner).
Proof. intros b c. done. Qed.

Lemma cv_update_msq (c : cval ROps) (x : R) : (0 <= cv_msq c)%R -> (0 <= cv_msq (cv_update c x))%R.
Proof.
  intros Hc. unfold cv_update. cbn [cv_msq].
  set (d := (x - cv_mean c)%R). set (n := S (cv_num c)).
  change (0 <= cv_msq c + d * (x - (cv_mean c + d / INR n)))%R.
  assert (Hn : (0 < INR n)%R) by (apply lt_0_INR; unfold n; lia).
  assert (H1 : (1 <= INR n)%R) by (change 1%R with (INR 1); apply le_INR; unfold n; lia).
  replace (x - (cv_mean c + d / INR n))%R with (d * ((INR n - 1) / INR n))%R by (unfold d; field; lra).
  assert (0 <= (INR n - 1) / INR n)%R by (apply div_nonneg; lra).
  assert (0 <= d * d)%R by apply Rle_0_sqr. nra.
Qed.

Lemma scales_ok_update x i : scales_ok x -> scales_ok (update_scales x i).
Proof.
  unfold scales_ok, update_scales. cbn [x_scales]. generalize (x_scales x) as sc.
  induction i as [|[a v] i IH]; intros sc Hx; [done|]. cbn [fold_left fst snd].
  apply IH. destruct v as [v|y]; [done|]. intros b c Hc. rewrite dget_dset in Hc.
  destruct (decide (b = inner_attr x a)) as [->|Hne]; [|by eapply Hx].
  injection Hc as <-. apply cv_update_msq.
  destruct (dget (inner_attr x a) sc) as [c|] eqn:E; [by eapply Hx|]. simpl. lra.
Qed.

Lemma fold_scales_ok l x : scales_ok x -> scales_ok (fold_left update_scales l x).
Proof. revert x. induction l as [|i l IH]; intros x Hx; [done|]. by apply IH, scales_ok_update. Qed.

(** ** Tables a score can be computed for *)
Definition has_visible3 {N} (i : inst3 N) : Prop := exists a, visible a = true /\ a ∈ dkeys i.

Definition V3 (s : nsum3 ROps) : Prop :=
  exists l, HistR s l /\ exists i, i ∈ l /\ has_visible3 i.

Lemma V3_count s : V3 s -> (0 < n3_count s)%nat.
Proof. intros (l & (-> & _) & i & Hi & _). destruct l; [inversion Hi|simpl; lia]. Qed.

Lemma V3_vis s : V3 s -> vis3 s <> [].
Proof.
  intros (l & Hl & i & Hi & a & Ha & Hk) E.
  assert (Hs : a ∈ dkeys (n3_av s)) by (apply (Hist3_key summarises s l a Hl); eauto).
  assert (Hf : a ∈ dkeys (dfilter visible (n3_av s))).
  { rewrite dkeys_dfilter. apply elem_of_list_In, filter_In. split; [by apply elem_of_list_In|done]. }
  unfold vis3 in E. rewrite E in Hf. inversion Hf.
Qed.

Lemma V3_ecg x s : scales_ok x -> V3 s -> exists e, n3_ecg x s = Ok e.
Proof.
  intros Hx HV. eexists. apply n3_ecg_ok; [done| |by apply V3_count|by apply V3_vis].
  destruct HV as (l & Hl & _). by eapply HistR_all_fine.
Qed.

Lemma exact_total s l i : HistR s l -> exists b, n3_exact s i = Ok b.
Proof.
  intros Hl. unfold n3_exact. apply rall_total. intros a _. unfold exact1.
  destruct (hidden a); [eauto|].
  destruct (dget a i) as [v|], (dget a (n3_av s)) as [d|] eqn:Ed; try (eexists; done).
  destruct v as [v|y].
  - destruct (dget v d) as [[n|c]|]; eauto.
  - destruct (dget cv_key d) as [c|] eqn:Ec; [|eauto].
    destruct (negb (length d =? 1)%nat); [eauto|].
    assert (Hf : cell_fine (cv_key, c)).
    { eapply HistR_fine; [exact Hl|exact Ed|].
      by apply dget_In. }
    destruct c as [n|c]; [done|]. destruct Hf as [_ Hm]. simpl in Hm.
    destruct (negb (cv_num c =? n3_count s)%nat); [eauto|].
    destruct (ustd_ok c Hm) as [-> _]. cbn [rbind]. destruct (negb _); eauto.
Qed.

Definition fits3 {N} (i : inst3 N) : Prop := good3 i /\ has_visible3 i.

Lemma cobweb3_scorable x i : scales_ok x -> fits3 i -> scorable (Cobweb3Class ROps) V3 x i.
Proof.
  intros Hx [Hg Hv]. pose proof summarises_laws as CL. split; simpl.
  - apply V3_count.
  - intros s Hs. by apply V3_ecg.
  - destruct (Hist3_inc summarises eq CL _ [] i (Hist3_empty summarises) Hg) as (s' & E & Hs').
    exists s'. split; [done|]. exists [i]. split; [done|]. exists i. split; [left|done].
  - intros s (l & Hl & Hi). destruct (Hist3_inc summarises eq CL _ l i Hl Hg) as (s' & E & Hs').
    exists s'. split; [done|]. exists (i :: l). split; [done|]. exists i. split; [left|done].
  - intros s (l & Hl & Hi).
    destruct (Hist3_add summarises eq CL _ s [] l (Hist3_empty summarises) Hl) as (s' & E & Hs').
    exists s'. split; [done|]. by exists l.
  - intros s1 s2 (l1 & H1 & i1 & Hi1 & Hv1) (l2 & H2 & _).
    destruct (Hist3_add summarises eq CL s1 s2 l1 l2 H1 H2) as (s' & E & Hs').
    exists s'. split; [done|]. exists (l1 ++ l2). split; [done|]. exists i1. split; [|done].
    apply elem_of_app. by left.
  - intros s [(l & Hl & _)| ->]; [by eapply exact_total|]. eapply exact_total. apply (Hist3_empty summarises).
  - done.
Qed.
