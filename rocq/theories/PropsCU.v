(** * What expected_correct_guesses, category_utility and the heuristic CU
    compute, in terms of the instances (C13, C14, C85); exact arithmetic. *)
From Coq Require Import Reals Lra.
From stdpp Require Import base decidable tactics list gmap strings.
From Verif Require Import Base Num TreeModel TreeFun TreeScore TreeRefine TreeSorts TreeInv
  SpecTree SpecCluster TreeState TreeTotal TreeLeaf RSum Nominal NominalFacts NominalTotal NominalTree ScoreR NominalR
  Query QueryLinks Cluster ClusterFacts ClusterLoop ClusterCU PropsTree PropsTotal ScoreHeap ScoreStep.
Set Default Proof Using "Type".
Open Scope list_scope.

(** ** The specification *)

(** The expected number of attribute values guessed right, per attribute, when
    the values of an instance from [l] are guessed with the frequencies of [l]:
    [vals] are the visible attribute values that occur, [attrs] the visible
    attributes. *)
Definition guess_rate (l : list inst) (g : R) : Prop :=
  exists (attrs : list attr) (vals : list (attr * nom)), NoDup attrs /\ NoDup vals /\
    (forall a, a ∈ attrs <-> visible a = true /\ exists i, i ∈ l /\ a ∈ dkeys i) /\
    (forall a v, (a, v) ∈ vals <-> visible a = true /\ exists i, i ∈ l /\ dget a i = Some v) /\
    g = (Rsum (fun q => (INR (occ l (fst q) (snd q)) / INR (length l)) ^ 2) vals / INR (length attrs))%R.
(** The increase in the guesses that knowing the part of a partition gives, per
    part. *)
Definition partition_utility (parts : list (list inst)) (u : R) : Prop :=
  exists g gs, guess_rate (concat parts) g /\ Forall2 guess_rate parts gs /\
    u = ((Rsum (fun q : list inst * R => INR (length (fst q)) / INR (length (concat parts)) * snd q) (zip parts gs) - g) / INR (length parts))%R.

Lemma guess_rate_det l g g' : guess_rate l g -> guess_rate l g' -> g = g'.
Proof.
  intros (at1 & v1 & Na1 & Nv1 & Ha1 & Hv1 & ->) (at2 & v2 & Na2 & Nv2 & Ha2 & Hv2 & ->).
  assert (Hp : Permutation at1 at2). { apply NoDup_Permutation; [done|done|]. intros a. by rewrite Ha1, Ha2. }
  assert (Hq : Permutation v1 v2). { apply NoDup_Permutation; [done|done|]. intros [a v]. by rewrite Hv1, Hv2. }
  f_equal; [by apply Rsum_perm|]. f_equal. by rewrite Hp.
Qed.
Lemma guess_rate_perm l l' g : Permutation l l' -> guess_rate l g -> guess_rate l' g.
Proof.
  intros Hp (at1 & v1 & Na1 & Nv1 & Ha1 & Hv1 & ->). exists at1, v1. split; [done|]. split; [done|]. split; [|split].
  - intros a. rewrite Ha1. by setoid_rewrite Hp.
  - intros a v. rewrite Hv1. by setoid_rewrite Hp.
  - f_equal. apply Rsum_ext. intros q _. by rewrite (occ_perm _ _ _ _ Hp), Hp.
Qed.

(** ** Tables *)
Lemma ecg_rate s l : Hist s l -> l <> [] -> (forall i, i ∈ l -> has_visible i) ->
  exists g, ns_ecg ROps s = Ok g /\ guess_rate l g.
Proof.
  intros Hh Hl Hv. pose proof (vis_nonempty s l Hh Hl Hv) as Hvis. assert (Hc : ns_count s = length l) by apply Hh.
  assert (Hwf : dwf (ns_av s)) by apply Hh.
  eexists. split; [apply ecg_value; [destruct l; simpl in *; [done|lia]|done]|].
  exists (map fst (vis s)), (gpairs s). split; [by apply dwf_dfilter|]. split; [by eapply gpairs_nodup|].
  split; [|split].
  - intros a. split.
    + intros Ha. apply elem_of_list_fmap in Ha as ([b d] & -> & Hp). apply vis_in in Hp as [Hb Hd]; [|done]. split; [done|].
      apply (Hist_key s l b Hh). by eapply dget_Some_key.
    + intros [Ha Hk]. apply (Hist_key s l a Hh) in Hk. apply dget_key_Some in Hk as (d & Hd).
      apply elem_of_list_fmap. exists (a, d). split; [done|]. by apply vis_in.
  - intros a v. rewrite (gpairs_spec s l a v Hh). by rewrite occ_pos.
  - rewrite (guess_sum_pairs s l Hh), map_length. done.
Qed.

Lemma cu_partition s l (kl : list (nsum * list inst)) :
  Hist s l -> kl <> [] -> Forall (fun p => Hist (fst p) (snd p) /\ snd p <> []) kl ->
  Permutation l (concat (map snd kl)) -> (forall i, i ∈ l -> has_visible i) ->
  exists u, category_utility (CobwebClass ROps) tt s (map fst kl) = Ok u /\ partition_utility (map snd kl) u /\
    (0 <= u < 1 / INR (length kl))%R.
Proof.
  intros Hh Hne HF Hp Hvis. destruct (partition_cu s l kl Hh Hne HF Hp Hvis) as (u & Eu & Hb).
  exists u. split; [done|]. split; [|done].
  assert (Hne' : map fst kl <> []) by (by destruct kl).
  apply cu_ok in Eu as (Hc & es & e & Hg & He & ->); [|done].
  assert (Hsub : forall p, p ∈ kl -> forall i, i ∈ snd p -> i ∈ l).
  { intros p Hpk i Hi. rewrite Hp, elem_of_list_In, in_concat. exists (snd p).
    rewrite <- !elem_of_list_In. split; [|done]. apply elem_of_list_fmap. eauto. }
  assert (Hl : l <> []).
  { rewrite Forall_forall in HF. destruct kl as [|p kl]; [done|]. destruct (HF p) as [_ Hpl]; [left|].
    destruct (snd p) as [|i l'] eqn:E; [done|]. intros ->.
    assert (Hi : i ∈ ([] : list inst)) by (apply (Hsub p); [left|rewrite E; left]). inversion Hi. }
  destruct (ecg_rate s l Hh Hl Hvis) as (g & Eg & Hrate). change (nc_ecg (CobwebClass ROps) tt s) with (ns_ecg ROps s) in He.
  assert (e = g) as -> by congruence.
  exists g, es. split; [by eapply guess_rate_perm|].
  assert (Hlen : length l = length (concat (map snd kl))) by (by rewrite Hp).
  assert (Hcn : nofnat ROps (nc_count (CobwebClass ROps) s) = INR (length (concat (map snd kl)))).
  { rewrite <- Hlen. destruct Hh as [Hh _]. simpl. by rewrite Hh. }
  assert (Hgen : Forall2 guess_rate (map snd kl) es /\
    wsum (CobwebClass ROps) (nofnat ROps (nc_count (CobwebClass ROps) s)) (map fst kl) es =
    Rsum (fun q : list inst * R => INR (length (fst q)) / INR (length (concat (map snd kl))) * snd q)%R (zip (map snd kl) es)).
  { rewrite Hcn. generalize (INR (length (concat (map snd kl)))) as d. intros d. clear Hp Hne Hne' Hc He Eg Hrate Hlen Hcn Hb.
    revert es Hg. induction kl as [|p kl IH]; intros es Hg.
    - inversion Hg; subst. by split; [constructor|].
    - apply Forall_cons in HF as [[Hp1 Hp2] HF]. inversion Hg as [|? e' ? es' He' Hg']; subst.
      destruct (IH HF (fun q Hq => Hsub q (elem_of_list_further _ _ _ Hq)) es' Hg') as [H1 H2].
      destruct (ecg_rate (fst p) (snd p) Hp1 Hp2) as (g' & Eg' & Hr').
      { intros i Hi. apply Hvis. apply (Hsub p); [left|done]. }
      change (nc_ecg (CobwebClass ROps) tt (fst p)) with (ns_ecg ROps (fst p)) in He'. assert (e' = g') as -> by congruence.
      split; [by constructor|]. cbn [map wsum zip zip_with Rsum fst snd]. rewrite H2. do 3 f_equal.
      destruct Hp1 as [Hp1 _]. simpl. by rewrite Hp1. }
  destruct Hgen as [H1 H2]. split; [done|]. change (nofnat ROps) with INR in H2. rewrite H2, !map_length. done.
Qed.

(** A table that counts the values of these instances. *)
Definition tabulates (tb : nsum) (h : list inst) : Prop :=
  ns_count tb = length h /\ forall a v, entry tb a v = occ h a v.
Lemma Hist_tabulates tb h : Hist tb h -> tabulates tb h.
Proof. intros (H1 & _ & H2). done. Qed.
Notation RC := (CobwebClass ROps).

Lemma history_all {N} {C : NodeClass N} (P : nc_inst C -> Prop) (evs : list (event C)) i : all_inst P evs -> i ∈ history evs -> P i.
Proof.
  unfold history, all_inst. intros H. assert (Hgen : forall l, Forall P l -> Forall P (fold_left hist_step evs l)).
  { induction H as [|e evs He _ IH]; intros l Hl; [done|]. cbn [fold_left]. apply IH.
    destruct e as [i' r|i' r| |]; cbn [hist_step]; [|done|done|by apply Forall_nil_2].
    apply Forall_app. split; [done|]. apply Forall_singleton. by apply He. }
  specialize (Hgen [] (Forall_nil_2 _)). rewrite Forall_forall in Hgen. apply Hgen.
Qed.

Section Trees.
  Context (rng : nat -> num ROps).

  (** ** C13, C14: the numbers themselves *)
  Theorem C13_guesses_value evs s id (tb : nsum) :
    reachable RC rng tt evs s -> all_inst (C:=RC) (fun i => good i /\ has_visible i) evs -> all_ok evs ->
    in_tree s id -> table_of s id tb -> history evs <> [] ->
    exists h g, h <> [] /\ (forall i, i ∈ h -> i ∈ history evs) /\ tabulates tb h /\ ns_ecg ROps tb = Ok g /\ guess_rate h g.
  Proof.
    intros Hr Hg Hao Hin Ht Hne.
    assert (Hgood : all_inst (C:=RC) good evs).
    { unfold all_inst in *. eapply Forall_impl; [exact Hg|]. intros e He i Hi. by destruct (He i Hi). }
    destruct (reachable_tinv RC rng Hist LeafV good (hist_laws ROps) tt evs s Hr Hgood Hao) as (t & Hok & Htt).
    destruct (proj1 (in_tree_sub RC s t id Hok) Hin) as (v & Hu & <-).
    rewrite (table_of_det _ _ _ _ _ Ht (sub_table _ _ _ _ Hok Hu)). clear tb Ht.
    destruct (tinv_sub RC Hist LeafV good (hist_laws ROps) t _ v Htt Hu) as (lu & Htu & Hsub & Hnl).
    assert (Hlu : lu <> []).
    { destruct Hnl as [-> |]; [|done]. intros ->. apply tinv_summ in Htt, Htu. destruct Htt as [H1 _], Htu as [H2 _].
      rewrite H1 in H2. simpl in H2. by destruct (history evs). }
    apply tinv_summ in Htu. destruct (ecg_rate (tsum v) lu Htu Hlu) as (g & E & Hrate).
    { intros i Hi. apply Hsub in Hi. by apply (history_all _ _ _ Hg) in Hi as [_ Hi]. }
    exists lu, g. split; [done|]. split; [done|]. split; [by apply Hist_tabulates|]. done.
  Qed.

  Theorem C14_utility_value evs s p l :
    reachable RC rng tt evs s -> all_inst (C:=RC) (fun i => good i /\ has_visible i) evs -> all_ok evs ->
    in_tree s p -> children_of s p l -> l <> [] ->
    exists parts u tb, Forall2 (fun c h => h <> [] /\ exists tb, table_of s c tb /\ tabulates tb h) l parts /\
      table_of s p tb /\ tabulates tb (concat parts) /\ (forall i, i ∈ concat parts -> i ∈ history evs) /\
      fst (mcategory_utility RC p s) = Ok u /\ partition_utility parts u.
  Proof.
    intros Hr Hg Hao Hin Hch Hne.
    assert (Hgood : all_inst (C:=RC) good evs).
    { unfold all_inst in *. eapply Forall_impl; [exact Hg|]. intros e He i Hi. by destruct (He i Hi). }
    destruct (reachable_tinv RC rng Hist LeafV good (hist_laws ROps) tt evs s Hr Hgood Hao) as (t & Hok & Ht).
    destruct (proj1 (in_tree_sub RC s t p Hok) Hin) as (v & Hu & <-).
    destruct (tinv_sub RC Hist LeafV good (hist_laws ROps) t _ v Ht Hu) as (lu & Htu & Hsub & _).
    rewrite (children_of_det _ _ _ _ _ Hch (sub_children _ _ _ _ Hok Hu)) in *. clear l Hch.
    rewrite (view_cu RC s (tid v) (tsum v) (kview RC v) (sub_view RC s t v Hok Hu)). cbn [fst].
    pose proof (sub_table _ _ _ _ Hok Hu) as Htb.
    assert (Hkt : forall k, k ∈ tkids v -> table_of s (tid k) (tsum k)).
    { intros k Hk. apply (sub_table _ _ _ _ Hok). eapply sub_kid_of; [exact Hu|done]. }
    destruct Htu as [id sm l Hs Hl|id sm kids ls l H2 HF Hnl Hp Hs]; [done|]. cbn [tkids tid tsum] in *.
    destruct (cu_partition sm l (zip (map tsum kids) ls) Hs) as (u & E & Hpu & _).
    - destruct kids as [|k kids]; [done|]. by inversion HF.
    - clear -HF Hnl. induction HF as [|k lk kids ls Hk HF IH]; [constructor|].
      apply Forall_cons in Hnl as [Hn Hnl]. simpl. constructor; [|by apply IH].
      split; [|done]. by apply tinv_summ in Hk.
    - rewrite Hp. apply Forall2_length in HF. change (map snd (zip (map tsum kids) ls)) with ((zip (map tsum kids) ls).*2).
      rewrite snd_zip; [done|]. rewrite map_length. lia.
    - intros i Hi. apply Hsub in Hi. by apply (history_all _ _ _ Hg) in Hi as [_ Hi].
    - pose proof (Forall2_length _ _ _ HF) as Hlen.
      assert (Hz1 : map fst (zip (map tsum kids) ls) = map tsum kids) by (apply fst_zip; rewrite map_length; lia).
      assert (Hz2 : map snd (zip (map tsum kids) ls) = ls) by (apply snd_zip; rewrite map_length; lia).
      assert (E' : category_utility RC tt sm (map tsum kids) = Ok u) by (rewrite <- Hz1; exact E).
      assert (Hpu' : partition_utility ls u) by (exact (eq_ind _ (fun z => partition_utility z u) Hpu _ Hz2)). exists ls, u, sm. split; [|split; [done|split; [|split; [|split; [|done]]]]].
      + clear -HF Hnl Hkt. induction HF as [|k lk kids ls Hk HF IH]; [constructor|].
        apply Forall_cons in Hnl as [Hn Hnl]. constructor.
        * split; [done|]. exists (tsum k). split; [apply Hkt; left|]. apply tinv_summ in Hk. by apply Hist_tabulates.
        * apply IH; [done|]. intros k' Hk'. apply Hkt. by right.
      + apply Hist_tabulates. by eapply Hist_perm.
      + intros i Hi. apply Hsub. by rewrite Hp.
      + unfold kview. cbn [tkids]. rewrite map_map. simpl. destruct (st_ctx s). exact E'.
  Qed.
End Trees.

(** ** C85: the heuristic CU *)

(** The instances of the leaves that are labelled [c]; [held] are those of each
    leaf. *)
Definition part {I} (labels : list nat) (held : list (list I)) (c : nat) : list I :=
  concat (map snd (filter (fun p => fst p = c) (zip labels held))).

Section Comparable.
  Context {N : NumOps} (C : NodeClass N).
  Lemma desc_comparable (s : st C) t a b j : state_ok C s t -> in_tree s a -> in_tree s b -> desc s a j -> desc s b j -> desc s a b \/ desc s b a.
  Proof.
    intros Hok Ha Hb Hd. induction Hd as [|p q Hd IH Hpq]; intros Hbj; [by right|].
    apply desc_last in Hbj as [->|(p' & Hbp & Hc)]; [left; by eapply desc_child|].
    assert (Hp : in_tree s p) by (exact (desc_trans C s _ _ _ Ha Hd)). assert (Hp' : in_tree s p') by (exact (desc_trans C s _ _ _ Hb Hbp)).
    assert (Epp : p' = p); [|subst p'; by apply IH].
    assert (Hpar : forall x, in_tree s x -> child_of s x q -> parent_of s q (Some x)).
    { intros x Hx (l & Hl & Hql). apply (in_tree_sub _ _ _ _ Hok) in Hx as (v & Hv & <-).
      rewrite (children_of_det _ _ _ _ _ Hl (sub_children _ _ _ _ Hok Hv)) in Hql.
      apply elem_of_list_fmap in Hql as (k & -> & Hk). by eapply sub_parent. }
    destruct (Hpar p Hp Hpq) as (n & Hn & E1), (Hpar p' Hp' Hc) as (n' & Hn' & E2). congruence.
  Qed.
End Comparable.

Section Value.
  Context {N : NumOps} (C : NodeClass N) (H : nc_sum C -> list (nc_inst C) -> Prop).
  Hypothesis Hempty : H (nc_empty C) [].
  Hypothesis Hadd : forall s1 s2 l1 l2, H s1 l1 -> H s2 l2 -> exists s', tadd C s1 s2 = Ok s' /\ H s' (l1 ++ l2).

  Lemma collect_value s t c (labs0 : list nat) : state_ok C s t -> in_tree s c -> c ∈ labs0 ->
    (forall a b, a ∈ labs0 -> b ∈ labs0 -> desc s a b -> a = b) ->
    forall leaves labels held acc la,
    Forall2 (fun leaf lab => in_tree s lab /\ desc s lab leaf) leaves labels -> (forall x, x ∈ labels -> x ∈ labs0) ->
    Forall2 (fun j h => exists tb, table_of s j tb /\ H tb h) leaves held -> H acc la ->
    exists t', collect C c leaves acc s = (Ok t', s) /\ H t' (la ++ part labels held c).
  Proof using Hadd.
    intros Hok Hc Hc0 Hanti leaves. induction leaves as [|j leaves IH]; intros labels held acc la H1 Hlab H2 Hacc.
    { inversion H1; inversion H2; subst. exists acc. split; [done|]. unfold part. simpl. by rewrite app_nil_r. }
    inversion H1 as [|? lab ? labels' [Hl1 Hl2] H1']; subst. inversion H2 as [|? h ? held' (tb & Htb & Hh) H2']; subst. cbn [collect].
    assert (Hj : in_tree s j) by (by eapply desc_trans).
    destruct (is_parent_desc C s t c j Hok Hc Hj) as (b & Eb & Hb). rewrite (mbind_ok C _ _ _ _ _ Eb).
    assert (Hbl : b = true <-> lab = c).
    { rewrite Hb. split; [|by intros <-]. intros Hcj.
      destruct (desc_comparable C s t c lab j Hok Hc Hl1 Hcj Hl2) as [Hd|Hd]; [symmetry|]; apply Hanti; try done; apply Hlab; left. }
    assert (Hrest : forall x, x ∈ labels' -> x ∈ labs0) by (intros x Hx; apply Hlab; by right).
    unfold part. cbn [zip zip_with]. rewrite filter_cons. destruct b.
    - destruct Htb as (n & Hn & <-). rewrite (mbind_ok C _ _ _ _ _ (mget_ok C _ s n Hn)).
      destruct (Hadd _ _ _ _ Hacc Hh) as (acc' & Eacc & Hacc'). unfold mbind at 1, mlift at 1. rewrite Eacc.
      destruct (IH labels' held' acc' _ H1' Hrest H2' Hacc') as (t' & Et & Ht'). exists t'. split; [done|].
      rewrite decide_True by (by apply Hbl). cbn [map concat snd]. by rewrite app_assoc.
    - destruct (IH labels' held' acc _ H1' Hrest H2' Hacc) as (t' & Et & Ht'). exists t'. split; [done|].
      rewrite decide_False; [done|]. intros E. cbn [fst] in E. apply Hbl in E. done.
  Qed.

  Theorem CU_value setord s t leaves labels held : (forall l x, x ∈ setord l <-> x ∈ l) ->
    state_ok C s t -> clustering s leaves labels -> labels <> [] ->
    Forall2 (fun j h => exists tb, table_of s j tb /\ H tb h) leaves held ->
    exists root kids, H root (concat (map (part labels held) (setord labels))) /\
      Forall2 (fun c k => H k (part labels held c)) (setord labels) kids /\
      fst (CU C setord labels leaves s) = rbind (category_utility C (st_ctx s) root kids) (fun u => Ok (nneg N u)).
  Proof using Hempty Hadd.
    intros Hset Hok [Hcl Hanti] Hne Hheld. unfold CU. destruct labels as [|c0 l0] eqn:El; [done|]. rewrite <- El in *. clear c0 l0 El.
    assert (Hlab : forall c, c ∈ setord labels -> in_tree s c /\ c ∈ labels).
    { intros c Hc. apply (proj1 (Hset _ c)) in Hc. split; [|done]. apply elem_of_list_lookup in Hc as (k & Hc).
      by destruct (Forall2_lookup_r _ _ _ _ _ Hcl Hc) as (j & Hj & Hx & Hd). }
    unfold mbind at 1, mamb at 1, atemps at 1.
    assert (Hkids : forall cs s1, (forall c, c ∈ cs -> in_tree s c /\ c ∈ labels) -> frame C s s1 ->
      exists kids s2, mmapM C (fun c => mbind C (mamb C (fun _ => atemps 1)) (fun _ => collect C c leaves (nc_empty C))) cs s1 = (Ok kids, s2) /\
        frame C s s2 /\ Forall2 (fun c k => H k (part labels held c)) cs kids).
    { clear Hlab Hne. intros cs. induction cs as [|c cs IH]; intros s1 Hcs Hf; cbn [mmapM].
      { exists [], s1. split; [done|]. split; [exact Hf|constructor]. }
      unfold mbind at 1. unfold mbind at 1, mamb at 1, atemps at 1.
      set (s1' := St (st_heap s1) (st_root s1) (Amb (am_ctr (st_amb s1) + 1) (am_rpos (st_amb s1))) (st_ctx s1)).
      assert (Hf' : frame C s s1'). { destruct Hf as (F1 & F2 & F3 & F4). split; [done|]. split; [done|]. split; [done|]. simpl. lia. }
      assert (Es1 : s1' = St (st_heap s) (st_root s) (st_amb s1') (st_ctx s)).
      { destruct Hf as (F1 & F2 & F3 & F4). unfold s1'. simpl. by rewrite F1, F2, F3. }
      assert (Hok1 : state_ok C s1' t). { rewrite Es1. apply state_ok_amb; [done|apply Hf']. }
      assert (Hch : forall p q, child_of s p q <-> child_of s1' p q). { intros p q. rewrite Es1. done. }
      assert (Hdesc : forall a b, desc s a b <-> desc s1' a b).
      { intros a b. split; intros Hd; (induction Hd as [|b c' Hd IHd Hc']; [constructor|]); (eapply desc_child; [done|by apply Hch]). }
      assert (Hin1 : forall x, in_tree s x -> in_tree s1' x). { intros x Hx. unfold in_tree in *. destruct Hf' as (_ & -> & _). by apply Hdesc. }
      destruct (Hcs c ltac:(left)) as (Hc & Hcl0).
      destruct (collect_value s1' t c labels Hok1 (Hin1 c Hc) Hcl0) with (leaves := leaves) (labels := labels) (held := held) (acc := nc_empty C) (la := @nil (nc_inst C)) as (t' & Et & HV).
      - intros a b Ha Hb Hd. apply Hanti; [done|done|]. by apply Hdesc.
      - eapply Forall2_impl; [exact Hcl|]. intros x y [Hx Hy]. split; [by apply Hin1|by apply Hdesc].
      - done.
      - eapply Forall2_impl; [exact Hheld|]. intros x y (tb & Htb & Hy). exists tb. split; [|done]. rewrite Es1. exact Htb.
      - done.
      - rewrite Et. destruct (IH s1' (fun c' Hc' => Hcs c' (elem_of_list_further _ _ _ Hc')) Hf') as (kids & s2 & E2 & Hf2 & HF).
        exists (t' :: kids), s2. rewrite (mbind_ok C _ _ _ _ _ E2). split; [done|]. split; [done|]. by constructor. }
    edestruct (Hkids (setord labels)) as (kids & s2 & Ek & Hf2 & HF); [exact Hlab| |].
    2: { unfold mbind at 1. rewrite Ek.
      assert (Hroot : forall cs kids acc la, H acc la -> Forall2 (fun c k => H k (part labels held c)) cs kids ->
        exists rt, rfold (tadd C) acc kids = Ok rt /\ H rt (la ++ concat (map (part labels held) cs))).
      { clear -Hadd. intros cs kids. revert cs. induction kids as [|k kids IH]; intros cs acc la Ha HF; inversion HF as [|c ? cs' ? Hk HF']; subst; cbn [rfold map concat].
        { exists acc. split; [done|]. by rewrite app_nil_r. }
        destruct (Hadd _ _ _ _ Ha Hk) as (acc' & -> & Hacc'). cbn [rbind].
        destruct (IH cs' acc' _ Hacc' HF') as (rt & E & Hrt). exists rt. split; [done|]. by rewrite app_assoc. }
      destruct (Hroot (setord labels) kids (nc_empty C) [] Hempty HF) as (rt & Er & Hrt).
      exists rt, kids. split; [done|]. split; [done|].
      unfold mbind at 1, mlift at 1. rewrite Er. unfold mbind at 1, mamb at 1.
      destruct Hf2 as (F1 & F2 & F3 & F4). rewrite F3. unfold alift.
      by destruct (category_utility C (st_ctx s) rt kids). }
    split; [done|]. split; [done|]. split; [done|]. simpl. lia.
  Qed.
End Value.

Lemma part_elem {I} labels (held : list (list I)) c i : i ∈ part labels held c <-> exists n h, labels !! n = Some c /\ held !! n = Some h /\ i ∈ h.
Proof.
  unfold part. rewrite elem_of_list_In, in_concat. split.
  - intros (h & Hh & Hi). apply elem_of_list_In in Hh, Hi. apply elem_of_list_fmap in Hh as ([c' h'] & -> & Hp).
    apply elem_of_list_filter in Hp as [Hc Hp]. simpl in *. subst c'. apply elem_of_list_lookup in Hp as (n & Hn).
    apply lookup_zip_with_Some in Hn as (x & y & [= <- <-] & H1 & H2). by exists n, h'.
  - intros (n & h & H1 & H2 & Hi). exists h. rewrite <- !elem_of_list_In. split; [|done].
    apply elem_of_list_fmap. exists (c, h). split; [done|]. apply elem_of_list_filter. split; [done|].
    apply elem_of_list_lookup. exists n. apply lookup_zip_with_Some. by exists c, h.
Qed.

(** CU of a labeling is minus the category utility of the partition of the
    instances of the labelled leaves; [s]: the tree after some splits. *)
Section CUCobweb.
  Context (rng : nat -> num ROps) (setord : list nat -> list nat).
  Hypothesis Hset : forall l x, x ∈ setord l <-> x ∈ l.

  Theorem C85_CU_value evs s0 s leaves labels :
    reachable RC rng tt evs s0 -> all_inst (C:=RC) (fun i => good i /\ has_visible i) evs -> all_ok evs -> history evs <> [] ->
    split_from RC s0 s -> clustering s leaves labels -> labels <> [] ->
    exists held u,
      Forall2 (fun j h => h <> [] /\ (forall i, i ∈ h -> i ∈ history evs) /\ exists tb, table_of s j tb /\ tabulates tb h) leaves held /\
      fst (CU RC setord labels leaves s) = Ok (- u)%R /\
      partition_utility (map (part labels held) (setord labels)) u /\ (0 <= u < 1 / INR (length (setord labels)))%R.
  Proof using Hset.
    intros Hr Hg Hao Hh Hsp Hcl Hne.
    assert (Hgood : all_inst (C:=RC) good evs).
    { unfold all_inst in *. eapply Forall_impl; [exact Hg|]. intros e He i Hi. by destruct (He i Hi). }
    destruct (reachable_tinv RC rng Hist LeafV good (hist_laws ROps) tt evs s0 Hr Hgood Hao) as (t0 & Hok0 & Ht0).
    set (P := fun tb : nsum => exists h, h <> [] /\ (forall i, i ∈ h -> i ∈ history evs) /\ Hist tb h).
    assert (Hall0 : tall RC P t0).
    { assert (Hgen : forall (u : tree RC) lu, tinv RC Hist LeafV u lu -> lu <> [] -> (forall i, i ∈ lu -> i ∈ history evs) -> tall RC P u).
      { clear. intros u. induction u as [id sm kids IH] using (tree_ind' RC). intros lu Ht Hne Hsub.
        inversion Ht as [? ? ? Hs Hl|? ? ? ls l H2 HF Hnl Hp Hs]; subst.
        - constructor; [by exists lu|constructor].
        - constructor; [by exists lu|].
          assert (Hsub' : forall h, h ∈ ls -> forall i, i ∈ h -> i ∈ history evs).
          { intros h Hh i Hi. apply Hsub. rewrite Hp, elem_of_list_In, in_concat. exists h. by rewrite <- !elem_of_list_In. }
          clear -IH HF Hnl Hsub'. induction HF as [|k lk kids ls Hk HF IH2]; [constructor|].
          apply Forall_cons in IH as [IH1 IH]. apply Forall_cons in Hnl as [Hn Hnl]. constructor.
          + apply (IH1 lk Hk Hn). apply Hsub'. left.
          + apply IH2; [done|done|]. intros h Hh'. apply Hsub'. by right. }
      by eapply Hgen. }
    destruct (split_from_tall RC P s0 t0 s Hok0 Hall0 Hsp) as (Hx & t & Hok & Hall).
    assert (Hheld : exists held, Forall2 (fun j h => h <> [] /\ (forall i, i ∈ h -> i ∈ history evs) /\ exists tb, table_of s j tb /\ Hist tb h) leaves held).
    { destruct Hcl as [Hcl _]. clear -Hcl Hok Hall. induction Hcl as [|j lab leaves labels [Hl1 Hl2] Hcl (held & IH)]; [by exists []; constructor|].
      assert (Hj : in_tree s j) by (exact (desc_trans RC s _ _ _ Hl1 Hl2)).
      apply (in_tree_sub _ _ _ _ Hok) in Hj as (v & Hv & <-).
      destruct (tall_sub RC P t v Hall Hv) as (h & H1 & H2 & H3). exists (h :: held). constructor; [|done].
      split; [done|]. split; [done|]. exists (tsum v). split; [by apply (sub_table _ _ _ _ Hok)|done]. }
    destruct Hheld as (held & Hheld).
    assert (Hval : exists (root : nsum) (kids : list nsum), Hist root (concat (map (part labels held) (setord labels))) /\
      Forall2 (fun c (k : nsum) => Hist k (part labels held c)) (setord labels) kids /\
      fst (CU RC setord labels leaves s) = rbind (category_utility RC (st_ctx s) root kids) (fun u => Ok (nneg ROps u))).
    { apply (CU_value RC Hist Hist_empty) with (t := t); try done.
      - intros s1 s2 l1 l2 H1 H2. eexists. split; [done|]. by apply Hist_add.
      - eapply Forall2_impl; [exact Hheld|]. intros j h (_ & _ & H). exact H. }
    destruct Hval as (root & kids & Hroot & Hkids & Ecu).
    pose proof (Forall2_length _ _ _ Hkids) as Hlen.
    set (parts := map (part labels held) (setord labels)) in *.
    assert (Hlp : length parts = length kids) by (unfold parts; by rewrite map_length).
    assert (Hz1 : map fst (zip kids parts) = kids) by (apply fst_zip; rewrite Hlp; apply Nat.le_refl).
    assert (Hz2 : map snd (zip kids parts) = parts) by (apply snd_zip; rewrite Hlp; apply Nat.le_refl).
    assert (Hhist : forall i, i ∈ concat parts -> i ∈ history evs).
    { intros i Hi. rewrite elem_of_list_In, in_concat in Hi. destruct Hi as (h & Hp & Hi). apply elem_of_list_In in Hp, Hi.
      apply elem_of_list_fmap in Hp as (c & -> & _). apply part_elem in Hi as (n & h & _ & Hn & Hi).
      destruct (Forall2_lookup_r _ _ _ _ _ Hheld Hn) as (j & _ & _ & Hsub & _). by apply Hsub. }
    assert (Hlab : labels <> [] /\ setord labels <> []).
    { split; [done|]. destruct labels as [|c l]; [done|]. intros E. assert (Hc : c ∈ setord (c :: l)) by (apply Hset; left). rewrite E in Hc. by apply elem_of_nil in Hc. }
    destruct (cu_partition root (concat parts) (zip kids parts)) as (u & E & Hpu & Hb).
    - done.
    - intros E. destruct Hlab as [_ Hl]. assert (Hk : kids = []) by (rewrite <- Hz1, E; done). rewrite Hk in Hlen. by destruct (setord labels).
    - apply Forall_forall. intros [k p] Hkp. apply elem_of_list_lookup in Hkp as (n & Hn).
      apply lookup_zip_with_Some in Hn as (k' & p' & [= <- <-] & Hk & Hp). unfold parts in Hp.
      change (map (part labels held) (setord labels)) with (part labels held <$> setord labels) in Hp.
      apply list_lookup_fmap_Some in Hp as (c & Hc & ->). cbn [fst snd].
      destruct (Forall2_lookup_l _ _ _ _ _ Hkids Hc) as (k' & Hk' & Hh'). assert (k' = k) as -> by congruence. split; [done|].
      assert (Hcl' : c ∈ labels). { apply Hset. by eapply elem_of_list_lookup_2. }
      apply elem_of_list_lookup in Hcl' as (m & Hm). destruct Hcl as [Hcl _].
      destruct (Forall2_lookup_r _ _ _ _ _ Hcl Hm) as (j & Hj & _).
      destruct (Forall2_lookup_l _ _ _ _ _ Hheld Hj) as (h & Hhm & Hhn & _). destruct h as [|i h]; [done|].
      intros E. assert (Hi : i ∈ part labels held c) by (apply part_elem; exists m, (i :: h); split; [done|]; split; [done|left]).
      rewrite E in Hi. by apply elem_of_nil in Hi.
    - by rewrite Hz2.
    - intros i Hi. apply Hhist in Hi. by apply (history_all _ _ _ Hg) in Hi as [_ Hi].
    - rewrite Hz1 in E. destruct (st_ctx s). rewrite E in Ecu. cbn [rbind] in Ecu.
      exists held, u. split; [|split; [|split]].
      + eapply Forall2_impl; [exact Hheld|]. intros j h (H1 & H2 & tb & H3 & H4). split; [done|]. split; [done|]. exists tb. split; [done|]. by apply Hist_tabulates.
      + rewrite Ecu. f_equal. unfold nneg. change (nofnat ROps 0) with 0%R. change (nsub ROps) with Rminus. lra.
      + by rewrite Hz2 in Hpu.
      + replace (length (setord labels)) with (length (zip kids parts)); [done|]. rewrite <- (map_length fst), Hz1. by rewrite Hlen.
  Qed.
End CUCobweb.

(** The hypotheses are met: a tree with two children, each a cluster. *)
Lemma ex_C85 : exists evs s labels, reachable RC ex_draws tt evs s /\ all_inst (C:=RC) (fun i => good i /\ has_visible i) evs /\ all_ok evs /\
  length (history evs) = 3%nat /\ split_from RC s s /\ clustering s labels labels /\ length labels = 2%nat.
Proof.
  pose proof (exec_reachable RC ex_draws tt
    [@CFit _ RC [(AStr "a", NStr "x")]; @CFit _ RC [(AStr "a", NStr "x")]; @CFit _ RC [(AStr "a", NStr "y")]] 0 0) as Hr.
  match type of Hr with reachable _ _ _ ?evs ?s =>
    assert (Hev : evs = [@EFit _ RC [(AStr "a", NStr "x")] (Ok 1%nat); @EFit _ RC [(AStr "a", NStr "x")] (Ok 1%nat); @EFit _ RC [(AStr "a", NStr "y")] (Ok 3%nat)])
      by (vm_compute; reflexivity);
    assert (Hroot : st_root s = 2%nat) by (vm_compute; reflexivity);
    assert (Hch : option_map nd_children (st_heap s !! 2%nat) = Some [1; 3]%nat) by (vm_compute; reflexivity);
    rewrite Hev in Hr; clear Hev; revert Hr Hroot Hch; generalize s
  end.
  intros s Hr Hroot Hch. eexists _, s, [1; 3]%nat. split; [exact Hr|].
  assert (Hv : forall v, good [(AStr "a", v)] /\ has_visible [(AStr "a", v)]).
  { intros v. split; [split; [apply NoDup_singleton|by repeat constructor]|]. exists (AStr "a"). split; [done|]. left. }
  split; [|split; [|split; [done|split; [constructor|split; [|done]]]]].
  { repeat (apply Forall_cons_2; [intros i ->; apply Hv|]). apply Forall_nil_2. }
  { repeat (apply Forall_cons_2; [by eexists|]). apply Forall_nil_2. }
  assert (Hc : children_of s (st_root s) [1; 3]%nat).
  { rewrite Hroot. destruct (st_heap s !! 2%nat) as [n|] eqn:E; [|done]. injection Hch as Hch. by exists n. }
  assert (Hk : forall c, c ∈ [1; 3]%nat -> child_of s (st_root s) c) by (intros c Hc'; by exists [1; 3]%nat).
  assert (Hin : forall c, c ∈ [1; 3]%nat -> in_tree s c).
  { intros c Hc'. eapply (desc_child RC); [constructor|by apply Hk]. }
  split.
  - assert (Hf : forall l : list nat, (forall c, c ∈ l -> in_tree s c) -> Forall2 (fun leaf lab => in_tree s lab /\ desc s lab leaf) l l).
    { clear. induction l as [|c l IH]; intros H; [constructor|]. constructor; [|apply IH; intros; apply H; by right].
      split; [apply H; left|constructor]. }
    by apply Hf.
  - intros a b Ha Hb Hd. apply desc_last in Hd as [->|(p & Hp & Hpb)]; [done|]. exfalso.
    pose proof (C04_proper_tree ex_draws _ s Hr) as Hh.
    assert (Hpin : in_tree s p) by (exact (desc_trans RC s _ _ _ (Hin a Ha) Hp)).
    pose proof (hi_parent _ _ Hh p b Hpin Hpb) as (n1 & Hn1 & E1).
    pose proof (hi_parent _ _ Hh (st_root s) b ltac:(constructor) (Hk b Hb)) as (n2 & Hn2 & E2).
    assert (p = st_root s) as -> by congruence.
    exact (hi_acyclic _ _ Hh (st_root s) a ltac:(constructor) (Hk a Ha) Hp).
Qed.

Print Assumptions C13_guesses_value.
Print Assumptions C14_utility_value.
Print Assumptions C85_CU_value.
