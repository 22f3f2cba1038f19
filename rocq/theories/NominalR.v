(** * CobwebNode scores over the real numbers. *)
From Coq Require Import Reals Lra.
From stdpp Require Import base decidable tactics gmap strings list.
From Verif Require Import Base Num TreeModel TreeFun TreeSorts TreeInv Nominal NominalFacts ScoreR RSum.

(** ** Copies are exact *)
Definition cwf (s : nsum) : Prop :=
  dwf (ns_av s) /\ forall a d, (a, d) ∈ ns_av s -> dwf d.

Lemma dadd_wf v k d : dwf d -> dwf (dadd v k d).
Proof. intros Hd. by apply dset_wf. Qed.

Lemma vfold_wf (e : list (nom * nat)) : forall d, dwf d ->
  dwf (fold_left (fun d q => dadd (fst q) (snd q) d) e d).
Proof. induction e as [|q e IH]; simpl; intros d Hd; [done|]. by apply IH, dadd_wf. Qed.

Lemma dset_inner (P : list (nom * nat) -> Prop) a d av :
  P d -> (forall a d, (a, d) ∈ av -> P d) -> forall a' d', (a', d') ∈ dset (a : attr) d av -> P d'.
Proof.
  intros Hd Hav a' d'. induction av as [|[b e] av IH]; simpl.
  - intros [= -> ->]%elem_of_list_singleton. done.
  - destruct (decide (a = b)) as [->|]; intros Hin; apply elem_of_cons in Hin as [Hin|Hin].
    + injection Hin as -> ->. done.
    + apply (Hav a'). by right.
    + injection Hin as -> ->. apply (Hav b). left.
    + apply IH; [|done]. intros c f Hc. apply (Hav c). by right.
Qed.

Lemma default_inner (P : list (nom * nat) -> Prop) a (av : list (attr * list (nom * nat))) :
  P [] -> (forall a d, (a, d) ∈ av -> P d) -> P (default [] (dget a av)).
Proof. intros H0 Hav. destruct (dget a av) eqn:E; simpl; [|done]. apply (Hav a). by apply dget_In. Qed.

Lemma cwf_inc s i : cwf s -> cwf (ns_inc s i).
Proof.
  intros [H1 H2]. unfold cwf, ns_inc. simpl. revert H1 H2. generalize (ns_av s) as av.
  induction i as [|[a v] i IH]; simpl; intros av H1 H2; [done|].
  apply IH; [by apply dset_wf|]. apply (dset_inner dwf); [|done].
  apply dadd_wf. by apply (default_inner dwf); [apply dwf_nil|].
Qed.

Lemma cwf_add s o : cwf s -> cwf o -> cwf (ns_add s o).
Proof.
  intros [H1 H2] _. unfold cwf, ns_add. simpl. revert H1 H2.
  generalize (ns_av s) as av. generalize (ns_av o) as oav.
  induction oav as [|[a d] oav IH]; simpl; intros av H1 H2; [done|].
  apply IH; [by apply dset_wf|]. apply (dset_inner dwf); [|done].
  apply vfold_wf. by apply (default_inner dwf); [apply dwf_nil|].
Qed.

Lemma cwf_empty : cwf (NSum 0 []).
Proof. split; [apply dwf_nil|]. simpl. intros a d Hin. inversion Hin. Qed.

Lemma vfold_copy (e : list (nom * nat)) : forall d, dwf (d ++ e) ->
  fold_left (fun d q => dadd (fst q) (snd q) d) e d = d ++ e.
Proof.
  induction e as [|[v c] e IH]; simpl; intros d Hd; [by rewrite app_nil_r|].
  assert (Hv : v ∉ dkeys d).
  { unfold dwf in Hd. rewrite dkeys_app in Hd. apply NoDup_app in Hd as (_ & Hd & _).
    intros Hv. apply (Hd v Hv). left. }
  unfold dadd at 2. apply dget_None in Hv as Hg. rewrite Hg. simpl. rewrite dset_fresh by done.
  rewrite IH; [by rewrite <- (assoc_L (++))|]. by rewrite <- (assoc_L (++)).
Qed.

Lemma merge_copy (o : list (attr * list (nom * nat))) : forall av, dwf (av ++ o) ->
  (forall a d, (a, d) ∈ o -> dwf d) -> fold_left avmerge1 o av = av ++ o.
Proof.
  induction o as [|[a d] o IH]; simpl; intros av Hwf Hin; [by rewrite app_nil_r|].
  assert (Ha : a ∉ dkeys av).
  { unfold dwf in Hwf. rewrite dkeys_app in Hwf. apply NoDup_app in Hwf as (_ & Hd & _).
    intros Hv. apply (Hd a Hv). left. }
  unfold avmerge1 at 2. simpl. apply dget_None in Ha as Hg. rewrite Hg. simpl.
  rewrite vfold_copy by (simpl; apply (Hin a); left). simpl. rewrite dset_fresh by done.
  rewrite IH; [by rewrite <- (assoc_L (++))|by rewrite <- (assoc_L (++))|].
  intros b e Hb. apply (Hin b). by right.
Qed.

Lemma cwf_copies s : cwf s -> copies (CobwebClass ROps) s.
Proof.
  intros [H1 H2]. unfold copies, tcopy, tadd. simpl. unfold ns_add. simpl.
  rewrite merge_copy by done. by destruct s.
Qed.

Lemma cwf_counts i : counts (CobwebClass ROps) i.
Proof. intros s s'. unfold tinc. simpl. by intros [= <-]. Qed.

Lemma cwf_closed i : closed (CobwebClass ROps) cwf i.
Proof.
  split.
  - apply cwf_empty.
  - intros s Hs. eexists. split; [reflexivity|]. by apply cwf_inc.
  - intros s1 s2 H1 H2. eexists. split; [reflexivity|]. by apply cwf_add.
Qed.

Lemma Hist_cwf s l : Hist s l -> cwf s.
Proof.
  intros (_ & [H1 H2] & _). split; [done|]. intros a d Hin. apply In_dget in Hin; [|done].
  by destruct (H2 a d Hin).
Qed.

(** ** Counting *)

(** Number of instances that have the attribute. *)
Fixpoint nhas (l : list inst) (a : attr) : nat :=
  match l with
  | [] => 0
  | i :: l => (match dget a i with Some _ => 1 | None => 0 end) + nhas l a
  end.

Lemma nhas_le l a : nhas l a <= length l.
Proof. induction l as [|i l IH]; simpl; [lia|]. destruct (dget a i); lia. Qed.

Lemma sum_ind (w : nom) vs : NoDup vs ->
  sumn (map (fun v => if decide (Some w = Some v) then 1 else 0) vs) =
  if decide (w ∈ vs) then 1 else 0.
Proof.
  induction vs as [|v vs IH]; intros Hnd.
  { destruct (decide (w ∈ [])) as [H|H]; [inversion H|done]. }
  apply NoDup_cons in Hnd as [Hv Hnd]. cbn [map sumn]. rewrite (IH Hnd).
  destruct (decide (Some w = Some v)) as [Heq|Hne].
  - injection Heq as ->. destruct (decide (v ∈ vs)) as [|]; [done|].
    destruct (decide (v ∈ v :: vs)) as [|H]; [done|]. exfalso. apply H. left.
  - destruct (decide (w ∈ vs)) as [H1|H1], (decide (w ∈ v :: vs)) as [H2|H2]; try done.
    + exfalso. apply H2. by right.
    + exfalso. apply elem_of_cons in H2 as [->|?]; done.
Qed.

Lemma sum_occ l a vs : NoDup vs ->
  (forall i v, i ∈ l -> dget a i = Some v -> v ∈ vs) ->
  sumn (map (occ l a) vs) = nhas l a.
Proof.
  intros Hnd. induction l as [|i l IH]; intros Hin; simpl.
  - clear. induction vs; simpl; [done|]. done.
  - assert (Hs : forall ws, sumn (map (occ (i :: l) a) ws) =
      sumn (map (fun v => if decide (dget a i = Some v) then 1 else 0) ws) + sumn (map (occ l a) ws)).
    { induction ws as [|w ws IHw]; [done|]. cbn [map sumn]. rewrite IHw. simpl. lia. }
    rewrite Hs, IH by (intros j v Hj; apply Hin; by right). f_equal.
    destruct (dget a i) as [w|] eqn:Ew.
    + rewrite sum_ind by done. rewrite decide_True; [done|]. apply (Hin i); [left|done].
    + clear. induction vs; simpl; done.
Qed.

Lemma Hist_dict s l a d : Hist s l -> dget a (ns_av s) = Some d ->
  dwf d /\ d <> [] /\ (forall v c, (v, c) ∈ d -> c = occ l a v /\ 0 < c) /\
  (forall i v, i ∈ l -> dget a i = Some v -> v ∈ dkeys d).
Proof.
  intros (Hc & [_ Hav] & He) Hd. destruct (Hav _ _ Hd) as (Hwf & Hne & Hpos).
  split; [done|]. split; [done|]. split.
  - intros v c Hin. apply In_dget in Hin; [|done]. split; [|by eapply Hpos].
    specialize (He a v). unfold entry in He. rewrite Hd, Hin in He. done.
  - intros i v Hi Hv. specialize (He a v). unfold entry in He. rewrite Hd in He.
    assert (Ho : 0 < occ l a v) by (apply occ_pos; eauto).
    destruct (dget v d) eqn:E; simpl in He; [by eapply dget_Some_key|lia].
Qed.

Lemma Hist_sum s l a d : Hist s l -> dget a (ns_av s) = Some d ->
  sumn (map snd d) = nhas l a.
Proof.
  intros Hh Hd. destruct (Hist_dict s l a d Hh Hd) as (Hwf & _ & Hocc & Hin).
  rewrite <- (sum_occ l a (dkeys d)) by done. unfold dkeys. rewrite map_map. f_equal.
  apply map_ext_in. intros [v c] Hq. apply elem_of_list_In in Hq. simpl. by apply Hocc.
Qed.

Lemma nhas_absent s l a : Hist s l -> dget a (ns_av s) = None -> nhas l a = 0.
Proof.
  intros (_ & _ & He) Hd.
  assert (Hn : forall i, i ∈ l -> dget a i = None).
  { intros i Hi. destruct (dget a i) as [v|] eqn:E; [|done].
    assert (Ho : 0 < occ l a v) by (apply occ_pos; eauto).
    rewrite <- He in Ho. unfold entry in Ho. rewrite Hd in Ho. lia. }
  clear -Hn. induction l as [|i l IH]; simpl; [done|].
  rewrite (Hn i) by left. apply IH. intros j Hj. apply Hn. by right.
Qed.

(** ** expected_correct_guesses *)
Local Open Scope R_scope.

(** Sum over the visible attributes and their values of P(attr=v)^2. *)
Definition guess_sum (s : nsum) : R :=
  Rsum (fun p => Rsum (fun q : nom * nat => (INR (snd q) / INR (ns_count s)) ^ 2) (snd p)) (vis s).

Lemma ecg_value s : (0 < ns_count s)%nat -> vis s <> [] ->
  ns_ecg ROps s = Ok (guess_sum s / INR (length (vis s))).
Proof.
  intros Hc Hv. assert (Hc' : INR (ns_count s) <> 0) by (apply not_0_INR; lia).
  unfold ns_ecg. fold (vis s).
  assert (Hin : forall (d : list (nom * nat)) acc,
    rfold (fun acc q => rbind (pydiv ROps (nofnat ROps (snd q)) (nofnat ROps (ns_count s)))
             (fun pr => Ok (nadd ROps acc (nmul ROps pr pr)))) acc d =
    Ok (acc + Rsum (fun q : nom * nat => (INR (snd q) / INR (ns_count s)) ^ 2) d)).
  { induction d as [|q d IH]; intros acc; cbn [rfold Rsum]; [by rewrite Rplus_0_r|].
    assert (Ep : pydiv ROps (nofnat ROps (snd q)) (nofnat ROps (ns_count s)) =
                 Ok (INR (snd q) / INR (ns_count s))) by (by apply Rdiv_pydiv).
    rewrite Ep. cbn [rbind]. rewrite IH. f_equal. simpl. lra. }
  assert (Hout : forall (av : list (attr * list (nom * nat))) acc,
    rfold (fun acc p => rfold (fun acc q =>
             rbind (pydiv ROps (nofnat ROps (snd q)) (nofnat ROps (ns_count s)))
             (fun pr => Ok (nadd ROps acc (nmul ROps pr pr)))) acc (snd p)) acc av =
    Ok (acc + Rsum (fun p => Rsum (fun q : nom * nat => (INR (snd q) / INR (ns_count s)) ^ 2) (snd p)) av)).
  { induction av as [|p av IH]; intros acc; cbn [rfold Rsum]; [by rewrite Rplus_0_r|].
    rewrite Hin. cbn [rbind]. rewrite IH. f_equal. simpl. lra. }
  rewrite Hout. cbn [rbind]. change (nofnat ROps 0) with 0. rewrite Rplus_0_l.
  apply Rdiv_pydiv. split; [|done]. apply not_0_INR. by destruct (vis s).
Qed.

(** What expected_correct_guesses does when it has nothing to divide by. *)
Lemma ecg_ok s g : ns_ecg ROps s = Ok g -> vis s <> [].
Proof.
  unfold ns_ecg. fold (vis s). intros E Hv. rewrite Hv in E. simpl in E.
  apply Rdiv_pydiv in E as [E _]. done.
Qed.

Lemma vis_in s a d : dwf (ns_av s) ->
  (a, d) ∈ vis s <-> visible a = true /\ dget a (ns_av s) = Some d.
Proof.
  intros Hwf. unfold vis, dfilter. rewrite elem_of_filterb. simpl. split.
  - intros [Hin Ha]. split; [done|]. by apply In_dget.
  - intros [Ha Hd]. split; [by apply dget_In|done].
Qed.

Lemma INR_sumn {A} (f : A -> nat) l : INR (sumn (map f l)) = Rsum (fun a => INR (f a)) l.
Proof. induction l as [|a l IH]; simpl; [done|]. by rewrite plus_INR, IH. Qed.

(** One attribute's share. *)
Lemma share_bounds s l a d : Hist s l -> l <> [] -> dget a (ns_av s) = Some d ->
  let g := Rsum (fun q : nom * nat => (INR (snd q) / INR (ns_count s)) ^ 2) d in
  0 < g <= 1 /\ (g = 1 <-> exists v, d = [(v, ns_count s)]).
Proof.
  intros Hh Hl Hd. destruct (Hist_dict s l a d Hh Hd) as (Hwf & Hne & Hocc & _).
  pose proof (Hist_sum s l a d Hh Hd) as Hsum. pose proof (nhas_le l a) as Hle.
  assert (Hc : ns_count s = length l) by apply Hh.
  set (n := ns_count s) in *. assert (Hn : (0 < n)%nat) by (destruct l; simpl in *; [done|lia]).
  assert (Hn' : 0 < INR n) by (by apply lt_0_INR).
  assert (Hq : forall q, q ∈ d -> 0 < INR (snd q) / INR n <= 1).
  { intros [v c] Hin. apply Hocc in Hin as [-> Hp]. simpl. split.
    - apply Rdiv_lt_0_compat; [by apply lt_0_INR|done].
    - apply (Rmult_le_reg_r (INR n)); [done|]. unfold Rdiv. rewrite Rmult_assoc, Rinv_l, Rmult_1_r, Rmult_1_l by lra.
      apply le_INR. rewrite Hc. apply occ_le. }
  assert (Hsq : forall q, q ∈ d -> (INR (snd q) / INR n) ^ 2 <= INR (snd q) / INR n).
  { intros q Hin. destruct (Hq q Hin) as [H1 H2]. simpl. rewrite Rmult_1_r.
    rewrite <- (Rmult_1_r (INR (snd q) / INR n)) at 3. apply Rmult_le_compat_l; lra. }
  assert (Hsum' : Rsum (fun q : nom * nat => INR (snd q) / INR n) d <= 1).
  { unfold Rdiv. rewrite (Rsum_ext _ (fun q => / INR n * INR (snd q))) by (intros; lra).
    rewrite Rsum_scal, <- INR_sumn, Hsum. apply (Rmult_le_reg_l (INR n)); [done|].
    rewrite <- Rmult_assoc, Rinv_r, Rmult_1_l, Rmult_1_r by lra. apply le_INR. lia. }
  intros g. pose proof (Rsum_le _ _ d Hsq) as Hgle. fold g in Hgle.
  split; [split|].
  - apply Rsum_pos; [done|]. intros q Hin. destruct (Hq q Hin). apply pow_lt. lra.
  - lra.
  - split.
    + intros Hg1.
      assert (Heq : g = Rsum (fun q : nom * nat => INR (snd q) / INR n) d) by lra.
      pose proof (Rsum_le_eq _ _ d Hsq Heq) as Hall.
      assert (H1 : forall q, q ∈ d -> INR (snd q) / INR n = 1).
      { intros q Hin. specialize (Hall q Hin). destruct (Hq q Hin) as [Hp Hp'].
        simpl in Hall. rewrite Rmult_1_r in Hall. apply (Rmult_eq_reg_l (INR (snd q) / INR n)); lra. }
      destruct d as [|[v c] [|q2 d]]; [done| |].
      * exists v. do 2 f_equal. assert (Hv : INR c / INR n = 1) by (apply (H1 (v, c)); left).
        apply INR_eq. apply (Rmult_eq_reg_r (/ INR n)); [|apply Rinv_neq_0_compat; lra].
        unfold Rdiv in Hv. rewrite Hv, Rinv_r; lra.
      * exfalso. assert (H2 : INR (snd (v, c)) / INR n = 1) by (apply H1; left).
        assert (H3 : INR (snd q2) / INR n = 1) by (apply H1; right; left).
        cbn [Rsum] in Hsum'.
        assert (0 <= Rsum (fun q : nom * nat => INR (snd q) / INR n) d).
        { apply Rsum_nonneg. intros q Hin. left. apply Hq. by do 2 right. }
        lra.
    + intros [v ->]. unfold g. simpl. unfold Rdiv. rewrite Rinv_r by lra. lra.
Qed.

(** C13 for a table. *)
Theorem ecg_bounds s l : Hist s l -> l <> [] -> vis s <> [] ->
  exists g, ns_ecg ROps s = Ok g /\ 0 < g <= 1 /\
    (g = 1 <-> forall a d, visible a = true -> dget a (ns_av s) = Some d ->
                 exists v, d = [(v, ns_count s)]).
Proof.
  intros Hh Hl Hv. assert (Hc : ns_count s = length l) by apply Hh.
  assert (Hwf : dwf (ns_av s)) by apply Hh.
  exists (guess_sum s / INR (length (vis s))).
  split; [apply ecg_value; [destruct l; simpl in *; [done|lia]|done]|].
  assert (Hn : 0 < INR (length (vis s))) by (apply lt_0_INR; destruct (vis s); simpl; [done|lia]).
  assert (Hsh : forall p, p ∈ vis s ->
    0 < Rsum (fun q : nom * nat => (INR (snd q) / INR (ns_count s)) ^ 2) (snd p) <= 1).
  { intros [a d] Hin. apply vis_in in Hin as [_ Hd]; [|done].
    by apply (share_bounds s l a d). }
  assert (Hle : guess_sum s <= Rsum (fun _ => 1) (vis s)).
  { apply Rsum_le. intros p Hp. by apply Hsh. }
  pose proof Hle as Hle'. rewrite Rsum_const, Rmult_1_r in Hle'.
  split; [split|].
  - apply Rdiv_lt_0_compat; [|done]. apply Rsum_pos; [done|]. intros p Hp. by apply Hsh.
  - apply (Rmult_le_reg_r (INR (length (vis s)))); [done|].
    unfold Rdiv. rewrite Rmult_assoc, Rinv_l; lra.
  - split.
    + intros Hg a d Ha Hd.
      assert (Hs : guess_sum s = Rsum (fun _ => 1) (vis s)).
      { rewrite Rsum_const, Rmult_1_r. apply (Rmult_eq_reg_r (/ INR (length (vis s))));
          [|apply Rinv_neq_0_compat; lra]. unfold Rdiv in Hg. rewrite Hg, Rinv_r; lra. }
      assert (Hin : (a, d) ∈ vis s) by (by apply vis_in).
      pose proof (Rsum_le_eq _ _ _ (fun p Hp => proj2 (Hsh p Hp)) Hs (a, d) Hin) as H1.
      by apply (share_bounds s l a d Hh Hl Hd).
    + intros Hall.
      assert (Hs : guess_sum s = Rsum (fun _ => 1) (vis s)).
      { apply Rsum_ext. intros [a d] Hin. apply vis_in in Hin as [Ha Hd]; [|done].
        apply (share_bounds s l a d Hh Hl Hd). by apply (Hall a). }
      rewrite Hs, Rsum_const, Rmult_1_r. unfold Rdiv. rewrite Rinv_r; lra.
Qed.

(** ** category_utility of a partition *)

(** The visible attribute values of a table. *)
Definition gpairs (s : nsum) : list (attr * nom) :=
  concat (map (fun p => map (fun q => (fst p, fst q)) (snd p)) (vis s)).

Lemma gpairs_spec s l a v : Hist s l ->
  (a, v) ∈ gpairs s <-> visible a = true /\ (0 < occ l a v)%nat.
Proof.
  intros Hh. assert (Hwf : dwf (ns_av s)) by apply Hh. unfold gpairs.
  rewrite elem_of_list_In, in_concat. split.
  - intros (x & Hx & Hin). apply elem_of_list_In in Hx, Hin.
    apply elem_of_list_fmap in Hx as ([b d] & -> & Hd).
    apply elem_of_list_fmap in Hin as ([w c] & Heq & Hc). simpl in Heq. injection Heq as -> ->.
    apply vis_in in Hd as [Hb Hd]; [|done]. split; [done|].
    destruct (Hist_dict s l b d Hh Hd) as (_ & _ & Hocc & _). by apply Hocc in Hc as [-> Hc].
  - intros [Ha Ho]. pose proof Ho as (i & Hi & Hv)%occ_pos.
    destruct (dget a (ns_av s)) as [d|] eqn:Hd.
    + destruct (Hist_dict s l a d Hh Hd) as (Hwd & _ & _ & Hin). specialize (Hin i v Hi Hv).
      apply dget_key_Some in Hin as [c Hc]. apply dget_In in Hc.
      exists (map (fun q => (a, fst q)) d). rewrite <- !elem_of_list_In. split.
      * apply elem_of_list_fmap. exists (a, d). split; [done|]. by apply vis_in.
      * apply elem_of_list_fmap. by exists (v, c).
    + destruct Hh as (_ & _ & He). rewrite <- He in Ho. unfold entry in Ho. rewrite Hd in Ho. lia.
Qed.

Lemma NoDup_map_inj {A B} (f : A -> B) l : (forall a b, f a = f b -> a = b) -> NoDup l -> NoDup (map f l).
Proof.
  intros Hf Hnd. induction Hnd as [|a l Ha Hnd IH]; simpl; [apply NoDup_nil_2|].
  apply NoDup_cons. split; [|done]. intros (b & Hb & Hin)%elem_of_list_fmap.
  apply Hf in Hb as ->. done.
Qed.

Lemma gpairs_nodup s l : Hist s l -> NoDup (gpairs s).
Proof.
  intros Hh. assert (Hwf : dwf (ns_av s)) by apply Hh.
  assert (Hd : forall p, p ∈ vis s -> dwf (snd p)).
  { intros [a d] Hp. apply vis_in in Hp as [_ Hd]; [|done].
    by destruct (Hist_dict s l a d Hh Hd). }
  assert (Hv : NoDup (map fst (vis s))) by (by apply dwf_dfilter).
  unfold gpairs. induction (vis s) as [|[a d] av IH]; simpl; [apply NoDup_nil_2|].
  simpl in Hv. apply NoDup_cons in Hv as [Ha Hv]. apply NoDup_app. split; [|split].
  - specialize (Hd (a, d) (elem_of_list_here _ _)). simpl in Hd. unfold dwf, dkeys in Hd.
    rewrite <- (map_map fst (fun v => (a, v))). apply NoDup_map_inj; [|done]. by intros ? ? [=].
  - intros [b v] Hin Hin2. apply elem_of_list_fmap in Hin as (q & [= -> ->] & _).
    rewrite elem_of_list_In, in_concat in Hin2. destruct Hin2 as (x & Hx & Hi).
    apply elem_of_list_In in Hx, Hi. apply elem_of_list_fmap in Hx as (p & -> & Hp).
    apply elem_of_list_fmap in Hi as (q' & Heq & _). injection Heq as -> _.
    apply Ha. apply elem_of_list_fmap. eauto.
  - apply IH; [|done]. intros p Hp. apply Hd. by right.
Qed.

Lemma guess_sum_pairs s l : Hist s l ->
  guess_sum s = Rsum (fun q => (INR (occ l (fst q) (snd q)) / INR (length l)) ^ 2) (gpairs s).
Proof.
  intros Hh. assert (Hwf : dwf (ns_av s)) by apply Hh. assert (Hc : ns_count s = length l) by apply Hh.
  unfold guess_sum, gpairs. rewrite Rsum_concat. apply Rsum_ext. intros [a d] Hp.
  apply vis_in in Hp as [_ Hd]; [|done]. simpl. rewrite Rsum_map. apply Rsum_ext. intros [v c] Hq.
  destruct (Hist_dict s l a d Hh Hd) as (_ & _ & Hocc & _). apply Hocc in Hq as [-> _]. by rewrite Hc.
Qed.

Lemma vis_nonempty s l : Hist s l -> l <> [] -> (forall i, i ∈ l -> has_visible i) -> vis s <> [].
Proof.
  intros Hh Hl Hv. destruct l as [|i l]; [done|]. destruct (Hv i) as (a & Ha & Hk); [left|].
  assert (Hkey : a ∈ dkeys (ns_av s)).
  { apply (Hist_key s (i :: l)); [done|]. exists i. split; [left|done]. }
  apply dget_key_Some in Hkey as [d Hd]. intros E.
  assert (Hin : (a, d) ∈ vis s) by (apply vis_in; [apply Hh|done]). rewrite E in Hin. inversion Hin.
Qed.

Lemma vis_sub s l s' l' : Hist s l -> Hist s' l' -> (forall i, i ∈ l' -> i ∈ l) ->
  (length (vis s') <= length (vis s))%nat.
Proof.
  intros Hh Hh' Hin. assert (W : dwf (ns_av s)) by apply Hh. assert (W' : dwf (ns_av s')) by apply Hh'.
  rewrite <- (map_length fst (vis s')), <- (map_length fst (vis s)).
  apply NoDup_incl_length; [apply NoDup_ListNoDup; by apply dwf_dfilter|].
  intros a Ha. apply elem_of_list_In in Ha. apply elem_of_list_In.
  apply elem_of_list_fmap in Ha as ([b d] & -> & Hp). apply vis_in in Hp as [Hb Hd]; [|done].
  assert (Hk : b ∈ dkeys (ns_av s)).
  { apply (Hist_key s l b Hh). apply dget_Some_key in Hd. apply (Hist_key s' l' b Hh') in Hd as (i & Hi & Hd).
    exists i. split; [by apply Hin|done]. }
  apply dget_key_Some in Hk as [e He]. apply elem_of_list_fmap. exists (b, e). split; [done|].
  by apply vis_in.
Qed.

Lemma wsum_zip d (kl : list (nsum * list inst)) (g : nsum * list inst -> R) :
  wsum (CobwebClass ROps) d (map fst kl) (map g kl) =
  Rsum (fun p => INR (ns_count (fst p)) / d * g p) kl.
Proof. induction kl as [|p kl IH]; simpl; [done|]. by rewrite IH. Qed.

Lemma occ_concat ls a v : occ (concat ls) a v = sumn (map (fun l => occ l a v) ls).
Proof. induction ls as [|l ls IH]; simpl; [done|]. by rewrite occ_app, IH. Qed.
Lemma length_concat {A} (ls : list (list A)) : length (concat ls) = sumn (map length ls).
Proof. induction ls as [|l ls IH]; simpl; [done|]. by rewrite app_length, IH. Qed.

Theorem partition_cu s l (kl : list (nsum * list inst)) :
  Hist s l -> kl <> [] -> Forall (fun p => Hist (fst p) (snd p) /\ snd p <> []) kl ->
  Permutation l (concat (map snd kl)) -> (forall i, i ∈ l -> has_visible i) ->
  exists u, category_utility (CobwebClass ROps) tt s (map fst kl) = Ok u /\
    0 <= u < 1 / INR (length kl).
Proof.
  intros Hh Hne HF Hp Hvis. rewrite Forall_forall in HF.
  assert (Hsub : forall p, p ∈ kl -> forall i, i ∈ snd p -> i ∈ l).
  { intros p Hpk i Hi. rewrite Hp, elem_of_list_In, in_concat. exists (snd p).
    rewrite <- !elem_of_list_In. split; [|done]. apply elem_of_list_fmap. eauto. }
  assert (Hl : l <> []).
  { destruct kl as [|p kl]; [done|]. destruct (HF p) as [_ Hpl]; [left|].
    destruct (snd p) as [|i l'] eqn:E; [done|]. intros ->.
    assert (Hi : i ∈ ([] : list inst)) by (apply (Hsub p); [left|rewrite E; left]). inversion Hi. }
  assert (Hn0 : (0 < length l)%nat) by (destruct l; simpl; [done|lia]).
  assert (Hn : 0 < INR (length l)) by (by apply lt_0_INR).
  assert (Hc : ns_count s = length l) by apply Hh.
  assert (Hv : vis s <> []) by (by eapply vis_nonempty).
  assert (HA : 0 < INR (length (vis s))) by (apply lt_0_INR; destruct (vis s); simpl; [done|lia]).
  assert (Hk : forall p, p ∈ kl -> ns_count (fst p) = length (snd p) /\ (0 < length (snd p))%nat /\
                         vis (fst p) <> []).
  { intros p Hpk. destruct (HF p Hpk) as [Hhp Hpl]. split; [apply Hhp|]. split.
    - destruct (snd p); simpl; [done|lia].
    - eapply vis_nonempty; [done|done|]. intros i Hi. apply Hvis. by eapply Hsub. }
  pose (g := fun p : nsum * list inst => guess_sum (fst p) / INR (length (vis (fst p)))).
  pose (u := (wsum (CobwebClass ROps) (INR (length l)) (map fst kl) (map g kl) -
              guess_sum s / INR (length (vis s))) / INR (length (map fst kl))).
  assert (Hkl : 0 < INR (length kl)) by (apply lt_0_INR; destruct kl; simpl; [done|lia]).
  exists u. split.
  { assert (Hmne : map fst kl <> []) by (by destruct kl).
    apply (cu_ok (CobwebClass ROps) tt s (map fst kl) u Hmne). simpl. rewrite Hc.
    split; [lra|]. exists (map g kl), (guess_sum s / INR (length (vis s))).
    split; [|split; [apply ecg_value; [lia|done]|done]].
    unfold guesses. apply Forall2_fmap_2. apply Forall_Forall2_diag. rewrite Forall_forall.
    intros p Hpk. destruct (Hk p Hpk) as (E1 & E2 & E3). apply ecg_value; [lia|done]. }
  pose (w := fun p : nsum * list inst => INR (length (snd p)) / INR (length l)).
  assert (Hw0 : forall p, p ∈ kl -> 0 <= w p).
  { intros p _. unfold w. apply Rmult_le_pos; [apply pos_INR|]. left. by apply Rinv_0_lt_compat. }
  assert (Hw1 : Rsum w kl = 1).
  { unfold w, Rdiv. rewrite (Rsum_ext _ (fun p => / INR (length l) * INR (length (snd p)))) by (intros; lra).
    rewrite Rsum_scal, <- INR_sumn, <- (map_map snd length), <- length_concat, <- Hp. by apply Rinv_l; lra. }
  assert (Hws : wsum (CobwebClass ROps) (INR (length l)) (map fst kl) (map g kl) =
                Rsum (fun p => w p * g p) kl).
  { rewrite wsum_zip. apply Rsum_ext. intros p Hpk. destruct (Hk p Hpk) as (E1 & _). by rewrite E1. }
  (* every child's guesses are at most 1 *)
  assert (Hg1 : forall p, p ∈ kl -> g p <= 1).
  { intros p Hpk. destruct (HF p Hpk) as [Hhp Hpl]. destruct (Hk p Hpk) as (E1 & E2 & E3).
    destruct (ecg_bounds _ _ Hhp Hpl E3) as (e & Ee & [_ Hle] & _).
    rewrite (ecg_value (fst p)) in Ee; [|lia|done]. injection Ee as <-. exact Hle. }
  assert (He0 : 0 < guess_sum s / INR (length (vis s))).
  { destruct (ecg_bounds _ _ Hh Hl Hv) as (e & Ee & [Hlt _] & _).
    rewrite (ecg_value s) in Ee; [|lia|done]. injection Ee as <-. exact Hlt. }
  (* Jensen *)
  assert (Hjen : guess_sum s <= Rsum (fun p => w p * guess_sum (fst p)) kl).
  { rewrite (guess_sum_pairs s l Hh).
    rewrite (Rsum_ext (fun p => w p * guess_sum (fst p))
      (fun p => Rsum (fun q => w p * (INR (occ (snd p) (fst q) (snd q)) / INR (length (snd p))) ^ 2) (gpairs s))).
    2:{ intros p Hpk. destruct (HF p Hpk) as [Hhp Hpl]. rewrite Rsum_scal. f_equal.
        rewrite (guess_sum_pairs (fst p) (snd p) Hhp). symmetry. apply Rsum_superset.
        - by eapply gpairs_nodup.
        - intros [a v] Hin. apply (gpairs_spec _ _ a v Hhp) in Hin as [Ha Ho].
          apply (gpairs_spec s l a v Hh). split; [done|]. apply occ_pos in Ho as (i & Hi & Hiv).
          apply occ_pos. exists i. split; [by eapply Hsub|done].
        - by eapply gpairs_nodup.
        - intros [a v] Hin Hnin. simpl.
          assert (Ho : occ (snd p) a v = 0%nat).
          { destruct (occ (snd p) a v) eqn:Eo; [done|]. exfalso. apply Hnin.
            apply (gpairs_spec _ _ a v Hhp). apply (gpairs_spec s l a v Hh) in Hin as [Ha _].
            split; [done|lia]. }
          rewrite Ho. unfold Rdiv. simpl. lra. }
    rewrite Rsum_swap. apply Rsum_le. intros [a v] _. cbn [fst snd].
    eapply Rle_trans; [|apply (jensen_sq w (fun p => INR (occ (snd p) a v) / INR (length (snd p))) kl Hw0 Hw1)].
    right. f_equal.
    rewrite (Rsum_ext _ (fun p => / INR (length l) * INR (occ (snd p) a v))).
    - rewrite Rsum_scal, <- INR_sumn, <- (map_map snd (fun l => occ l a v)), <- occ_concat.
      rewrite <- (occ_perm _ _ a v Hp). unfold Rdiv. lra.
    - intros p Hpk. destruct (Hk p Hpk) as (_ & E2 & _). apply lt_0_INR in E2. unfold w. field. lra. }
  assert (Hlow : guess_sum s / INR (length (vis s)) <= Rsum (fun p => w p * g p) kl).
  { apply Rle_trans with (Rsum (fun p => w p * guess_sum (fst p)) kl / INR (length (vis s))).
    - apply Rmult_le_compat_r; [|done]. left. by apply Rinv_0_lt_compat.
    - unfold Rdiv. rewrite Rmult_comm, <- Rsum_scal. apply Rsum_le. intros p Hpk.
      destruct (HF p Hpk) as [Hhp Hpl]. destruct (Hk p Hpk) as (_ & _ & E3).
      assert (Hgp : 0 <= guess_sum (fst p)).
      { rewrite (guess_sum_pairs _ _ Hhp). apply Rsum_nonneg. intros. apply pow2_ge_0. }
      rewrite Rmult_comm, Rmult_assoc. apply Rmult_le_compat_l; [by apply Hw0|].
      unfold g. apply Rmult_le_compat_l; [done|]. apply Rinv_le_contravar.
      + apply lt_0_INR. destruct (vis (fst p)); simpl; [done|lia].
      + apply le_INR. eapply vis_sub; [done|done|]. by apply Hsub. }
  assert (Hup : Rsum (fun p => w p * g p) kl <= 1).
  { rewrite <- Hw1. apply Rsum_le. intros p Hpk. rewrite <- (Rmult_1_r (w p)) at 2.
    apply Rmult_le_compat_l; [by apply Hw0|by apply Hg1]. }
  unfold u. rewrite Hws, map_length. split.
  - apply Rmult_le_pos; [lra|]. left. by apply Rinv_0_lt_compat.
  - unfold Rdiv. apply Rmult_lt_compat_r; [by apply Rinv_0_lt_compat|lra].
Qed.
