(** * CobwebNode tables are histograms. *)
From stdpp Require Import base decidable list gmap strings.
From Verif Require Import Base Num TreeModel TreeSorts TreeInv Nominal.

(** Number of instances in which attribute [a] has value [v]. *)
Fixpoint occ (l : list inst) (a : attr) (v : nom) : nat :=
  match l with
  | [] => 0
  | i :: l => (if decide (dget a i = Some v) then 1 else 0) + occ l a v
  end.

(** Entry of a table, 0 when absent. *)
Definition entry (s : nsum) (a : attr) (v : nom) : nat :=
  match dget a (ns_av s) with
  | Some d => default 0 (dget v d)
  | None => 0
  end.

Lemma occ_app l1 l2 a v : occ (l1 ++ l2) a v = occ l1 a v + occ l2 a v.
Proof. induction l1 as [|i l1 IH]; simpl; [done|]. rewrite IH. lia. Qed.

Lemma occ_perm l1 l2 a v : Permutation l1 l2 -> occ l1 a v = occ l2 a v.
Proof. induction 1; simpl; lia. Qed.

Lemma occ_le l a v : occ l a v <= length l.
Proof. induction l as [|i l IH]; simpl; [lia|]. case_decide; lia. Qed.

Lemma occ_all l a v : occ l a v = length l -> forall i, i ∈ l -> dget a i = Some v.
Proof.
  induction l as [|j l IH]; simpl; intros Ho i Hi; [inversion Hi|].
  pose proof (occ_le l a v). case_decide as Hd; [|lia].
  apply elem_of_cons in Hi as [->|Hi]; [done|]. apply IH; [lia|done].
Qed.

Lemma occ_all_2 l a v : (forall i, i ∈ l -> dget a i = Some v) -> occ l a v = length l.
Proof.
  induction l as [|j l IH]; simpl; intros Ho; [done|].
  rewrite decide_True by (apply Ho; left). f_equal. apply IH.
  intros i Hi. apply Ho. by right.
Qed.

Lemma occ_none l a v : (forall i, i ∈ l -> dget a i <> Some v) -> occ l a v = 0.
Proof.
  induction l as [|j l IH]; simpl; intros Ho; [done|].
  rewrite decide_False by (apply Ho; left). apply IH.
  intros i Hi. apply Ho. by right.
Qed.

Lemma occ_pos l a v : 0 < occ l a v <-> exists i, i ∈ l /\ dget a i = Some v.
Proof.
  induction l as [|j l IH]; simpl.
  - split; [lia|]. intros (i & Hi & _). inversion Hi.
  - destruct (decide (dget a j = Some v)) as [Hd|Hd].
    + split; [|lia]. intros _. exists j. split; [left|done].
    + simpl. rewrite IH. split.
      * intros (i & Hi & E). exists i. split; [by right|done].
      * intros (i & Hi & E). apply elem_of_cons in Hi as [->|Hi]; [done|eauto].
Qed.

(** Two instances agree on the visible attributes. *)
Definition same_visible (i j : inst) : Prop :=
  forall a, visible a = true -> dget a i = dget a j.

(** Tables without junk: distinct keys, no empty value dicts, no zeros. *)
Definition av_wf (av : list (attr * list (nom * nat))) : Prop :=
  dwf av /\
  forall a d, dget a av = Some d ->
    dwf d /\ d <> [] /\ (forall v c, dget v d = Some c -> 0 < c).

Definition av_entry (av : list (attr * list (nom * nat))) a v : nat :=
  match dget a av with
  | Some d => default 0 (dget v d)
  | None => 0
  end.

Definition Hist (s : nsum) (l : list inst) : Prop :=
  ns_count s = length l /\ av_wf (ns_av s) /\ forall a v, entry s a v = occ l a v.

Definition good (i : inst) : Prop := dwf i /\ Forall (fun a => attr_ok a = true) (dkeys i).

Definition LeafV (l : list inst) : Prop := forall i j, i ∈ l -> j ∈ l -> same_visible i j.

(** ** dadd, avadd *)
Lemma dget_dadd v w k d :
  default 0 (dget w (dadd v k d)) = default 0 (dget w d) + (if decide (w = v) then k else 0).
Proof.
  unfold dadd. rewrite dget_dset. destruct (decide (w = v)) as [->|]; simpl; lia.
Qed.

Lemma dadd_ok v k d : 0 < k -> dwf d -> (forall w c, dget w d = Some c -> 0 < c) ->
  dwf (dadd v k d) /\ dadd v k d <> [] /\ (forall w c, dget w (dadd v k d) = Some c -> 0 < c).
Proof.
  intros Hk Hd Hp. unfold dadd. split; [by apply dset_wf|]. split; [apply dset_not_nil|].
  intros w c. rewrite dget_dset. case_decide as E; [|by apply Hp].
  intros [= <-]. lia.
Qed.

Lemma avadd_ok a v k av : 0 < k -> av_wf av -> av_wf (avadd a v k av).
Proof.
  intros Hk [Hwf Hav]. split; [by apply dset_wf|].
  intros b d. unfold avadd. rewrite dget_dset. case_decide as E; [|by apply Hav].
  intros [= <-]. subst b. destruct (dget a av) as [d|] eqn:Ed; simpl.
  - destruct (Hav _ _ Ed) as (H1 & H2 & H3). by apply dadd_ok.
  - apply dadd_ok; [done|apply dwf_nil|done].
Qed.

Lemma av_entry_avadd a v k av b w :
  av_entry (avadd a v k av) b w =
  av_entry av b w + (if decide (b = a /\ w = v) then k else 0).
Proof.
  unfold av_entry, avadd. rewrite dget_dset.
  destruct (decide (b = a)) as [->|Hne].
  - rewrite dget_dadd. destruct (decide (w = v)) as [->|Hw].
    + rewrite decide_True by done. destruct (dget a av); simpl; lia.
    + rewrite decide_False by naive_solver. destruct (dget a av); simpl; lia.
  - rewrite decide_False by naive_solver. lia.
Qed.

(** ** increment_counts *)
Lemma inc_fold_ok i : forall av, av_wf av ->
  av_wf (fold_left (fun av p => avadd (fst p) (snd p) 1 av) i av).
Proof.
  induction i as [|[a v] i IH]; intros av Hav; [done|]. simpl. apply IH. apply avadd_ok; [lia|done].
Qed.

Lemma inc_fold_entry i : forall av b w, dwf i ->
  av_entry (fold_left (fun av p => avadd (fst p) (snd p) 1 av) i av) b w =
  av_entry av b w + (if decide (dget b i = Some w) then 1 else 0).
Proof.
  induction i as [|[a v] i IH]; intros av b w Hi; simpl.
  { lia. }
  apply dwf_cons in Hi as [Hni Hi]. rewrite IH by done. rewrite av_entry_avadd.
  destruct (decide (b = a)) as [->|Hne].
  - rewrite (proj2 (dget_None a i)) by done.
    destruct (decide (Some v = Some w)) as [[= ->]|Hvw].
    + rewrite decide_True by done. rewrite decide_False by done. lia.
    + rewrite decide_False by naive_solver. rewrite decide_False by done. lia.
  - rewrite decide_False by naive_solver. lia.
Qed.

Lemma Hist_inc s l i : Hist s l -> good i -> Hist (ns_inc s i) (i :: l).
Proof.
  intros (Hc & Hwf & He) [Hi _]. split; [|split].
  - simpl. by rewrite Hc.
  - by apply inc_fold_ok.
  - intros a v. change (entry (ns_inc s i) a v) with
      (av_entry (fold_left (fun av p => avadd (fst p) (snd p) 1 av) i (ns_av s)) a v).
    rewrite inc_fold_entry by done. simpl. change (av_entry (ns_av s) a v) with (entry s a v).
    rewrite He. lia.
Qed.

(** ** update_counts_from_node *)
Lemma vmerge_ok (e : list (nom * nat)) : forall d,
  dwf d -> (forall w c, dget w d = Some c -> 0 < c) ->
  (forall w c, (w, c) ∈ e -> 0 < c) -> (d <> [] \/ e <> []) ->
  let r := fold_left (fun d q => dadd (fst q) (snd q) d) e d in
  dwf r /\ r <> [] /\ (forall w c, dget w r = Some c -> 0 < c).
Proof.
  induction e as [|[v k] e IH]; intros d Hd Hp He Hne; simpl.
  - split; [done|]. split; [|done]. by destruct Hne.
  - assert (0 < k) by (apply (He v); left).
    destruct (dadd_ok v k d) as (H1 & H2 & H3); [done|done|done|].
    apply IH; [done|done| |by left]. intros w c Hin. apply (He w). by right.
Qed.

Lemma vmerge_entry (e : list (nom * nat)) : forall d w, dwf e ->
  default 0 (dget w (fold_left (fun d q => dadd (fst q) (snd q) d) e d)) =
  default 0 (dget w d) + default 0 (dget w e).
Proof.
  induction e as [|[v k] e IH]; intros d w He; simpl; [lia|].
  apply dwf_cons in He as [Hni He]. rewrite IH by done. rewrite dget_dadd.
  destruct (decide (w = v)) as [->|]; [|lia].
  rewrite (proj2 (dget_None v e)) by done. simpl. lia.
Qed.

Lemma avmerge1_ok av p : av_wf av ->
  dwf (snd p) -> snd p <> [] -> (forall v c, dget v (snd p) = Some c -> 0 < c) ->
  av_wf (avmerge1 av p).
Proof.
  destruct p as [a e]. simpl. intros [Hwf Hav] He Hne Hp. split; [by apply dset_wf|].
  intros b d. unfold avmerge1. simpl. rewrite dget_dset. case_decide as E; [|by apply Hav].
  intros [= <-]. subst b. apply vmerge_ok.
  - destruct (dget a av) as [d|] eqn:Ed; simpl; [by apply (Hav _ _ Ed)|apply dwf_nil].
  - destruct (dget a av) as [d|] eqn:Ed; simpl; [by apply (Hav _ _ Ed)|done].
  - intros w c Hin. eapply Hp. by apply In_dget.
  - by right.
Qed.

Lemma avmerge1_entry av p b w : dwf (snd p) ->
  av_entry (avmerge1 av p) b w =
  av_entry av b w + (if decide (b = fst p) then default 0 (dget w (snd p)) else 0).
Proof.
  destruct p as [a e]. simpl. intros He. unfold av_entry, avmerge1. simpl.
  rewrite dget_dset. destruct (decide (b = a)) as [->|]; [|lia].
  rewrite vmerge_entry by done. destruct (dget a av); simpl; lia.
Qed.

Lemma avmerge_ok o : forall av, av_wf av -> av_wf o -> av_wf (fold_left avmerge1 o av).
Proof.
  induction o as [|[a e] o IH]; intros av Hav Ho; [done|]. simpl.
  destruct Ho as [Hwf Ho]. pose proof Hwf as [Hni Hwf']%dwf_cons.
  assert (Hae : dget a ((a, e) :: o) = Some e) by (simpl; by rewrite decide_True).
  destruct (Ho _ _ Hae) as (H1 & H2 & H3).
  apply IH; [by apply avmerge1_ok|]. split; [done|].
  intros b d Hb. apply (Ho b). simpl. rewrite decide_False; [done|].
  intros ->. apply dget_Some_key in Hb. done.
Qed.

Lemma avmerge_entry o : forall av b w, av_wf o ->
  av_entry (fold_left avmerge1 o av) b w = av_entry av b w + av_entry o b w.
Proof.
  induction o as [|[a e] o IH]; intros av b w Ho; simpl; [unfold av_entry at 3; simpl; lia|].
  destruct Ho as [Hwf Ho]. pose proof Hwf as [Hni Hwf']%dwf_cons.
  assert (Hae : dget a ((a, e) :: o) = Some e) by (simpl; by rewrite decide_True).
  destruct (Ho _ _ Hae) as (H1 & H2 & H3).
  rewrite IH.
  - rewrite avmerge1_entry by done. simpl. unfold av_entry at 4. simpl.
    destruct (decide (b = a)) as [->|].
    + unfold av_entry at 2. rewrite (proj2 (dget_None a o)) by done. lia.
    + unfold av_entry. lia.
  - split; [done|]. intros b' d Hb. apply (Ho b'). simpl. rewrite decide_False; [done|].
    intros ->. apply dget_Some_key in Hb. done.
Qed.

Lemma Hist_add s1 s2 l1 l2 : Hist s1 l1 -> Hist s2 l2 -> Hist (ns_add s1 s2) (l1 ++ l2).
Proof.
  intros (Hc1 & Hw1 & He1) (Hc2 & Hw2 & He2). split; [|split].
  - simpl. rewrite app_length. lia.
  - by apply avmerge_ok.
  - intros a v. change (entry (ns_add s1 s2) a v) with
      (av_entry (fold_left avmerge1 (ns_av s2) (ns_av s1)) a v).
    rewrite avmerge_entry by done. rewrite occ_app, <- He1, <- He2. done.
Qed.

Lemma Hist_empty : Hist (NSum 0 []) [].
Proof. split; [done|]. split; [|done]. split; [apply dwf_nil|done]. Qed.

Lemma Hist_perm s l l' : Hist s l -> Permutation l l' -> Hist s l'.
Proof.
  intros (Hc & Hw & He) Hp. split; [by rewrite <- Hp|]. split; [done|].
  intros a v. rewrite He. by apply occ_perm.
Qed.

(** The keys of a table are the attributes of the instances. *)
Lemma Hist_key s l a : Hist s l -> a ∈ dkeys (ns_av s) <-> exists i, i ∈ l /\ a ∈ dkeys i.
Proof.
  intros (Hc & [Hwf Hav] & He). split.
  - intros (d & Hd)%dget_key_Some. destruct (Hav _ _ Hd) as (_ & Hne & Hp).
    destruct d as [|[v c] d]; [done|].
    assert (dget v ((v, c) :: d) = Some c) as Hv by (simpl; by rewrite decide_True).
    specialize (Hp _ _ Hv). specialize (He a v). unfold entry in He. rewrite Hd, Hv in He.
    simpl in He. assert (0 < occ l a v) as (i & Hi & E)%occ_pos by lia.
    exists i. split; [done|]. by eapply dget_Some_key.
  - intros (i & Hi & (v & Hv)%dget_key_Some).
    assert (0 < occ l a v) as Ho by (apply occ_pos; eauto).
    rewrite <- He in Ho. unfold entry in Ho. destruct (dget a (ns_av s)) eqn:E; [|lia].
    by eapply dget_Some_key.
Qed.

(** ** is_exact_match *)
Lemma exact_true s i : ns_exact s i = true <->
  forall a, visible a = true -> a ∈ dkeys i \/ a ∈ dkeys (ns_av s) ->
    exists v d c, dget a i = Some v /\ dget a (ns_av s) = Some d /\
                  dget v d = Some c /\ c = ns_count s.
Proof.
  unfold ns_exact. rewrite forallb_forall. split.
  - intros Hall a Hv Hin.
    specialize (Hall a). unfold visible in Hv. apply negb_true_iff in Hv.
    rewrite Hv in Hall. simpl in Hall.
    destruct (dget a i) as [v|] eqn:E1; destruct (dget a (ns_av s)) as [d|] eqn:E2.
    + destruct (dget v d) as [c|] eqn:E3.
      * exists v, d, c. repeat split; try done. apply Nat.eqb_eq, Hall.
        apply elem_of_list_In, elem_of_app. left. by eapply dget_Some_key.
      * exfalso. assert (false = true); [|done]. apply Hall.
        apply elem_of_list_In, elem_of_app. left. by eapply dget_Some_key.
    + exfalso. assert (false = true); [|done]. apply Hall.
      apply elem_of_list_In, elem_of_app. left. by eapply dget_Some_key.
    + exfalso. assert (false = true); [|done]. apply Hall.
      apply elem_of_list_In, elem_of_app. right. apply elem_of_filterb.
      split; [by eapply dget_Some_key|]. unfold visible. by rewrite Hv.
    + exfalso. apply dget_None in E1, E2. by destruct Hin.
  - intros Hall a Hin. apply elem_of_list_In, elem_of_app in Hin.
    destruct (hidden a) eqn:Hh; [done|]. simpl.
    destruct (Hall a) as (v & d & c & -> & -> & -> & ->).
    + unfold visible. by rewrite Hh.
    + destruct Hin as [?|[? _]%elem_of_filterb]; auto.
    + apply Nat.eqb_refl.
Qed.

Lemma LeafV_exact s l i : Hist s l -> LeafV l -> ns_exact s i = true -> LeafV (i :: l).
Proof.
  intros HH Hl Hex. rewrite exact_true in Hex.
  assert (Hi : forall j, j ∈ l -> same_visible i j).
  { intros j Hj a Ha. destruct (dget a i) as [v|] eqn:Ei.
    - destruct (Hex a Ha) as (v' & d & c & E1 & E2 & E3 & E4).
      { left. by eapply dget_Some_key. }
      rewrite Ei in E1. injection E1 as <-.
      destruct HH as (Hc & Hw & He). symmetry. apply (occ_all l); [|done].
      rewrite <- He. unfold entry. rewrite E2, E3. simpl. congruence.
    - symmetry. apply dget_None. intros Hk.
      destruct (Hex a Ha) as (v' & d & c & E1 & E2 & E3 & E4); [|congruence].
      right. apply (Hist_key _ _ _ HH). eauto. }
  intros j k Hj Hk. apply elem_of_cons in Hj as [->|Hj]; apply elem_of_cons in Hk as [->|Hk].
  - by intros a _.
  - auto.
  - intros a Ha. symmetry. by apply Hi.
  - auto.
Qed.

(** Conversely a leaf of identical instances matches each of them. *)
Lemma exact_of_same s l i : Hist s l -> l <> [] -> (forall j, j ∈ l -> same_visible i j) ->
  ns_exact s i = true.
Proof.
  intros HH Hne Hs. apply exact_true. intros a Ha Hin.
  destruct l as [|j l]; [done|]. clear Hne.
  assert (exists v, dget a i = Some v) as [v Hv].
  { destruct Hin as [Hin|Hin]; [by apply dget_key_Some|].
    apply (Hist_key _ _ _ HH) in Hin as (k & Hk & Hin). apply dget_key_Some in Hin as [v Hv].
    exists v. rewrite (Hs k Hk a Ha). done. }
  destruct HH as (Hc & Hw & He).
  assert (Ho : occ (j :: l) a v = length (j :: l)).
  { apply occ_all_2. intros k Hk. rewrite <- (Hs k Hk a Ha). done. }
  rewrite <- He in Ho. unfold entry in Ho. simpl in Ho.
  destruct (dget a (ns_av s)) as [d|] eqn:Ed; [|done].
  destruct (dget v d) as [c|] eqn:Ev; [|done]. simpl in Ho.
  exists v, d, c. repeat split; try done. rewrite Hc. done.
Qed.

Lemma hist_laws (N : NumOps) : summ_laws (CobwebClass N) Hist LeafV good.
Proof.
  split.
  - apply Hist_perm.
  - apply Hist_empty.
  - intros s l H. apply H.
  - intros s l i H Hg. exists (ns_inc s i). split; [done|]. by apply Hist_inc.
  - intros s1 s2 l1 l2 H1 H2. exists (ns_add s1 s2). split; [done|]. by apply Hist_add.
  - intros l l' Hl Hp i j Hi Hj. apply Hl; by rewrite Hp.
  - intros i j Hi. inversion Hi.
  - intros i _ j k ->%elem_of_list_singleton ->%elem_of_list_singleton. by intros a _.
  - intros s l i H Hl Hg [= E]. by eapply LeafV_exact.
Qed.

Lemma cobweb_real (N : NumOps) : real_class (CobwebClass N).
Proof.
  split; try done.
  intros x s. simpl. unfold ns_ecg.
  assert (Hd : forall a b, rres (pydiv N a b)).
  { intros a b. unfold pydiv. by destruct (neqb N b (nofnat N 0)). }
  assert (Hb : forall X Y (r : res X) (f : X -> res Y), rres r -> (forall x, rres (f x)) ->
             rres (rbind r f)).
  { intros X Y [v|e] f; simpl; auto. }
  assert (Hf : forall X Y (f : Y -> X -> res Y) l b, (forall b x, rres (f b x)) ->
             rres (rfold f b l)).
  { intros X Y f l. induction l as [|v l IH]; intros b H; simpl; [done|].
    apply Hb; [done|]. auto. }
  apply Hb; [|done]. apply Hf. intros b p. apply Hf. intros b' q. apply Hb; [done|done].
Qed.

(** ** Sanity check *)
Lemma sanity_ok i j : sanity i = Ok j ->
  i = map (fun p => (fst p, PVal (snd p))) j /\ Forall (fun a => attr_ok a = true) (dkeys j).
Proof.
  revert j. induction i as [|[a v] i IH]; simpl; intros j.
  { intros [= <-]. split; [done|constructor]. }
  destruct (attr_ok a) eqn:Ha; [|done]. destruct v as [v| |]; [|done|done].
  destruct (sanity i) as [j'|e]; [|done]. simpl. intros [= <-].
  destruct (IH j' eq_refl) as [-> Hk]. split; [done|]. by constructor.
Qed.

Lemma sanity_err i e : sanity i = Err e -> e = ValueError.
Proof.
  induction i as [|[a v] i IH]; simpl; [done|].
  destruct (attr_ok a); [|congruence]. destruct v; [|congruence|congruence].
  destruct (sanity i); simpl; [done|]. intros [= <-]. auto.
Qed.

Lemma sanity_good i j : dwf i -> sanity i = Ok j -> good j.
Proof.
  intros Hwf E. apply sanity_ok in E as [-> Hk]. split; [|done].
  unfold dwf, dkeys in *. rewrite map_map in Hwf. done.
Qed.

Lemma sanity_rejects i :
  (exists a v, (a, v) ∈ i /\ (attr_ok a = false \/ v = PNone \/ v = PUnhashable)) ->
  sanity i = Err ValueError.
Proof.
  induction i as [|[a v] i IH]; intros (b & w & Hin & Hbad); [inversion Hin|].
  simpl. apply elem_of_cons in Hin as [[= -> ->]|Hin].
  - destruct (attr_ok a); [|done]. destruct Hbad as [?|[->| ->]]; done.
  - destruct (attr_ok a); [|done]. destruct v; [|done|done].
    rewrite IH; [done|eauto].
Qed.

(** ** Visible attributes *)
Definition vis (s : nsum) := dfilter visible (ns_av s).
(** The instance has a visible attribute. *)
Definition has_visible (i : inst) : Prop := exists a, visible a = true /\ a ∈ dkeys i.
