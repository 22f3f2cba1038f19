(** * What expected_correct_guesses, category_utility and the heuristic CU of a
    Cobweb3Tree compute, in terms of the instances (C92); exact arithmetic. *)
From Coq Require Import Reals Lra.
From stdpp Require Import base decidable tactics list gmap strings.
From Coq Require Import ZArith.
From Verif Require Import Base Num TreeModel TreeFun TreeScore TreeRefine TreeSorts TreeInv
  SpecTree SpecCluster TreeState TreeTotal TreeLeaf TreeGen RSum Nominal ScoreR CV CVFacts C4Facts Cobweb3 C3Facts C3Scales C3R C3Tree C3Total
  Query Query3 QueryLinks Cluster ClusterFacts ClusterLoop ClusterCU PropsTotal ScoreHeap ScoreStep PropsC3 PropsC3R PropsC3E PropsCU.
Set Default Proof Using "Type".
Open Scope list_scope.
Notation C3 := (Cobweb3Class ROps).
Notation I3 := (inst3 ROps).

(** ** The specification *)

(** The estimated standard deviation of some numbers: that of the sample,
    corrected by c4 (C29, C30); 0 for fewer than two numbers. *)
Definition deviation (xs : list R) : R :=
  if decide (length xs < 2)%nat then 0%R
  else match c4 ROps (Z.of_nat (length xs)) with
       | Ok k => (R_sqrt.sqrt (Rsum (fun x => (x - Rmean xs) * (x - Rmean xs)) xs / INR (length xs - 1)) / k)%R
       | Err _ => 0%R
       end.
(** The unit of an attribute's numbers in a tree that has been fitted [hist]:
    their deviation over the tree, divided by the parameter [scaling]; 1 without
    scaling (None or 0) and when all of them are equal. *)
Definition unit_of (sc : option R) (inner : bool) (hist : list I3) (a : attr) : R :=
  match sc with
  | Some k =>
      let u := (deviation (inner_nums (N:=ROps) inner hist (inner_of inner a)) / k)%R in
      if Req_EM_T k 0 then 1%R else if Rle_dec u 0 then 1%R else u
  | None => 1%R
  end.
(** The chance of guessing a number that is normally distributed with the
    deviation [sd], measured with a noise of deviation 1/(2 sqrt pi). *)
Definition number_guess (sd : R) : R := (1 / (2 * R_sqrt.sqrt PI * R_sqrt.sqrt (sd * sd + 1 / (4 * PI))))%R.

(** The expected number of values guessed right, per attribute: [vals] are the
    visible nominal attribute values that occur, [numeric] the visible
    attributes with numbers, [attrs] the visible attributes. *)
Definition guess_rate3 (unit : attr -> R) (l : list I3) (g : R) : Prop :=
  exists (attrs numeric : list attr) (vals : list (attr * nom)), NoDup attrs /\ NoDup numeric /\ NoDup vals /\
    (forall a, a ∈ attrs <-> visible a = true /\ exists i, i ∈ l /\ a ∈ dkeys i) /\
    (forall a, a ∈ numeric <-> visible a = true /\ exists i x, i ∈ l /\ dget a i = Some (VNum x)) /\
    (forall a v, (a, v) ∈ vals <-> visible a = true /\ exists i, i ∈ l /\ dget a i = Some (VNom v)) /\
    g = ((Rsum (fun q => (INR (occ3 l (fst q) (snd q)) / INR (length l)) ^ 2) vals +
          Rsum (fun a => (INR (length (nums l a)) / INR (length l)) ^ 2 * number_guess (deviation (nums l a) / unit a)) numeric)
         / INR (length attrs))%R.
Definition partition_utility3 (unit : attr -> R) (parts : list (list I3)) (u : R) : Prop :=
  exists g gs, guess_rate3 unit (concat parts) g /\ Forall2 (guess_rate3 unit) parts gs /\
    u = ((Rsum (fun q : list I3 * R => INR (length (fst q)) / INR (length (concat parts)) * snd q) (zip parts gs) - g) / INR (length parts))%R.
(** A table that summarises these instances. *)
Definition tabulates3 (tb : nsum3 ROps) (h : list I3) : Prop :=
  n3_count tb = length h /\ (forall a v, count_of tb a v = occ3 h a v) /\
  forall a, numeric_of tb a = summary_of (nums h a).

Lemma deviation_ustd xs : ustd (summ xs) = deviation xs.
Proof.
  unfold deviation. case_decide as Hd.
  - unfold ustd, cv_unbiased_std. cbn [cv_num summ]. by rewrite decide_True.
  - destruct (c4_range (Z.of_nat (length xs))) as (k & Hk & Hr); [lia|]. rewrite Hk. unfold ustd.
    rewrite (unbiased_formula (summ xs) k); [done|simpl; lia|apply ssd_nonneg|done].
Qed.
Lemma deviation_perm xs ys : Permutation xs ys -> deviation xs = deviation ys.
Proof. intros Hp. by rewrite <- !deviation_ustd, (summ_perm _ _ Hp). Qed.

Lemma guess_rate3_det unit l g g' : guess_rate3 unit l g -> guess_rate3 unit l g' -> g = g'.
Proof.
  intros (at1 & n1 & v1 & Na1 & Nn1 & Nv1 & Ha1 & Hn1 & Hv1 & ->) (at2 & n2 & v2 & Na2 & Nn2 & Nv2 & Ha2 & Hn2 & Hv2 & ->).
  assert (Hp : Permutation at1 at2). { apply NoDup_Permutation; [done|done|]. intros a. by rewrite Ha1, Ha2. }
  assert (Hn : Permutation n1 n2). { apply NoDup_Permutation; [done|done|]. intros a. by rewrite Hn1, Hn2. }
  assert (Hq : Permutation v1 v2). { apply NoDup_Permutation; [done|done|]. intros [a v]. by rewrite Hv1, Hv2. }
  f_equal; [f_equal; by apply Rsum_perm|]. f_equal. by rewrite Hp.
Qed.
Lemma guess_rate3_perm unit l l' g : Permutation l l' -> guess_rate3 unit l g -> guess_rate3 unit l' g.
Proof.
  intros Hp (at1 & n1 & v1 & Na1 & Nn1 & Nv1 & Ha1 & Hn1 & Hv1 & ->). exists at1, n1, v1. do 3 (split; [done|]). split; [|split; [|split]].
  - intros a. rewrite Ha1. by setoid_rewrite Hp.
  - intros a. rewrite Hn1. by setoid_rewrite Hp.
  - intros a v. rewrite Hv1. by setoid_rewrite Hp.
  - f_equal. f_equal; apply Rsum_ext; intros q _.
    + by rewrite (occ3_perm _ _ _ _ Hp), (Permutation_length Hp).
    + pose proof (nums_perm (N:=ROps) _ _ q Hp) as Hq. by rewrite (Permutation_length Hq), (Permutation_length Hp), (deviation_perm _ _ Hq).
Qed.

(** ** Tables *)
Definition noms (d : list (nom * cell ROps)) : list nom := List.filter (fun v => bool_decide (v <> cv_key)) (dkeys d).
Definition gvals (s : nsum3 ROps) : list (attr * nom) :=
  concat (map (fun p : attr * list (nom * cell ROps) => map (pair (fst p)) (noms (snd p))) (vis3 s)).
Definition gnums (l : list I3) (s : nsum3 ROps) : list attr :=
  List.filter (fun a => negb (bool_decide (nums l a = []))) (map fst (vis3 s)).

Lemma NoDup_filterb {X} (f : X -> bool) l : NoDup l -> NoDup (List.filter f l).
Proof.
  induction 1 as [|x l Hx _ IH]; simpl; [constructor|]. destruct (f x); [|done]. constructor; [|done].
  intros H. apply elem_of_filterb in H as [H _]. done.
Qed.
Lemma Rsum_filterb {X} (g : X -> R) (f : X -> bool) l : Rsum g (List.filter f l) = Rsum (fun x => if f x then g x else 0%R) l.
Proof. induction l as [|x l IH]; simpl; [done|]. destruct (f x); simpl; rewrite IH; lra. Qed.

Lemma vis3_in s a d : dwf (n3_av s) -> (a, d) ∈ vis3 s <-> visible a = true /\ dget a (n3_av s) = Some d.
Proof.
  intros Hwf. unfold vis3, dfilter. rewrite elem_of_filterb. cbn [fst]. split.
  - intros [Hp Ha]. split; [done|]. by apply In_dget.
  - intros [Ha Hd]. split; [by apply dget_In|done].
Qed.

(** One attribute. *)
Lemma cells_sum (d : list (nom * cell ROps)) f xs sc n : cells_ok summarises d f xs ->
  Rsum (fun q => contrib sc n (snd q)) d =
  (Rsum (fun v => (INR (f v) / INR n) ^ 2) (noms d) +
   if bool_decide (xs = []) then 0 else (INR (length xs) / INR n) ^ 2 * number_guess (deviation xs / eff_scale sc))%R.
Proof.
  intros (Hwf & H0 & Hn & Hc).
  set (K := ((INR (length xs) / INR n) ^ 2 * number_guess (deviation xs / eff_scale sc))%R).
  assert (Hcell : forall q, q ∈ d -> contrib sc n (snd q) = if decide (fst q = cv_key) then K else ((INR (f (fst q)) / INR n) ^ 2)%R).
  { intros [v q] Hq. apply (In_dget v q d Hwf) in Hq. cbn [fst snd]. destruct (decide (v = cv_key)) as [->|Hv].
    - destruct xs as [|x xs]; [congruence|]. destruct Hc as (c & E & Hx). unfold summarises in Hx. assert (q = CVc c) as -> by congruence. subst c.
      unfold contrib, K. cbn [weight cv_num summ]. rewrite <- (deviation_ustd (x :: xs)).
      change (guess (summ (x :: xs)) sc) with (number_guess (ustd (summ (x :: xs)) / eff_scale sc)). unfold Rpow_def.pow. by rewrite Rmult_1_r.
    - rewrite (Hn v Hv) in Hq. case_decide; [done|]. injection Hq as <-. unfold contrib. simpl. lra. }
  assert (Hkey : cv_key ∈ dkeys d <-> xs <> []).
  { split.
    - intros Hk ->. apply dget_key_Some in Hk as (q & Hq). congruence.
    - intros Hx. destruct xs as [|x xs]; [done|]. destruct Hc as (c & E & _). by eapply dget_Some_key. }
  transitivity (Rsum (fun v => (INR (f v) / INR n) ^ 2)%R (noms d) + (if bool_decide (cv_key ∈ dkeys d) then K else 0))%R.
  - clear Hn Hc Hkey. rewrite (Rsum_ext _ _ _ Hcell). clear Hcell. unfold noms. rewrite Rsum_filterb. unfold dwf in Hwf. unfold dkeys in *.
    induction d as [|[v q] d IH]; [cbn [map Rsum]; rewrite bool_decide_eq_false_2 by (apply not_elem_of_nil); lra|].
    cbn [map] in Hwf. apply NoDup_cons in Hwf as [Hni Hwf]. specialize (IH Hwf). cbn [map Rsum fst] in *. rewrite IH. clear IH.
    destruct (decide (v = cv_key)) as [->|Hv].
    + rewrite (bool_decide_eq_false_2 (cv_key <> cv_key)) by (by intros ?). rewrite (bool_decide_eq_false_2 _ Hni).
      rewrite bool_decide_eq_true_2 by left. lra.
    + rewrite (bool_decide_eq_true_2 _ Hv).
      rewrite (bool_decide_ext (cv_key ∈ v :: map fst d) (cv_key ∈ map fst d)); [lra|].
      rewrite elem_of_cons. split; [|by right]. intros [E|?]; [by destruct Hv|done].
  - f_equal. destruct (decide (xs = [])) as [Hx|Hx].
    + rewrite (bool_decide_eq_true_2 _ Hx), bool_decide_eq_false_2; [done|]. rewrite Hkey. by intros ?.
    + rewrite (bool_decide_eq_false_2 _ Hx), bool_decide_eq_true_2; [done|]. by apply Hkey.
Qed.

Lemma nums_none (l : list I3) a : nums l a <> [] <-> exists i x, i ∈ l /\ dget a i = Some (VNum x).
Proof.
  split.
  - intros H. destruct (nums l a) as [|x xs] eqn:E; [done|]. assert (Hx : x ∈ nums l a) by (rewrite E; left).
    apply nums_in in Hx as (i & Hi & Hx). by exists i, x.
  - intros (i & x & Hi & Hx) E. assert (Hn : x ∈ nums l a) by (apply nums_in; by exists i). rewrite E in Hn. by apply elem_of_nil in Hn.
Qed.

Lemma ecg3_rate_some (unit : attr -> R) x s l : HistR s l -> scales_ok x -> (exists i, i ∈ l /\ has_visible3 i) ->
  (forall a, unit a = eff_scale (escale x a)) -> exists g, n3_ecg x s = Ok g /\ guess_rate3 unit l g.
Proof.
  intros HH Hx (i0 & Hi0 & a0 & Ha0 & Hai0) Hu. pose proof HH as (Hc & Hwf & Hne & Hcells).
  assert (Hkey : forall a, a ∈ map fst (vis3 s) <-> visible a = true /\ exists i, i ∈ l /\ a ∈ dkeys i).
  { intros a. rewrite <- (Hist3_key summarises s l a HH). split.
    - intros Ha. apply elem_of_list_fmap in Ha as ([b d] & -> & Hp). apply vis3_in in Hp as [Hb Hd]; [|done]. split; [done|]. by eapply dget_Some_key.
    - intros [Ha Hk]. apply dget_key_Some in Hk as (d & Hd). apply elem_of_list_fmap. exists (a, d). split; [done|]. by apply vis3_in. }
  assert (Hvis : vis3 s <> []).
  { intros E. assert (H : a0 ∈ map fst (vis3 s)) by (apply Hkey; split; [done|]; by exists i0). rewrite E in H. by apply elem_of_nil in H. }
  assert (Hnd : NoDup (map fst (vis3 s))) by (by apply (dwf_dfilter visible)).
  eexists. split; [apply n3_ecg_ok; [done|by eapply HistR_all_fine| |done]|].
  { rewrite Hc. destruct l; simpl; [by apply elem_of_nil in Hi0|lia]. }
  exists (map fst (vis3 s)), (gnums l s), (gvals s). split; [done|]. split; [by apply NoDup_filterb|]. split; [|split; [done|split; [|split]]].
  - assert (Hd : forall p, p ∈ vis3 s -> NoDup (noms (snd p))).
    { intros [a d] Hp. apply NoDup_filterb. apply vis3_in in Hp as [_ Hd]; [|done]. specialize (Hcells a). rewrite Hd in Hcells. apply Hcells. }
    clear -Hnd Hd. unfold gvals. induction (vis3 s) as [|[a d] av IH]; simpl; [apply NoDup_nil_2|].
    cbn [map fst] in Hnd. apply NoDup_cons in Hnd as [Hni Hnd]. apply NoDup_app. split; [|split].
    + apply NoDup_fmap; [by intros ? ? [= ->]|]. apply (Hd (a, d)). left.
    + intros [b v] Hb Hin. apply elem_of_list_fmap in Hb as (w & [= -> ->] & _).
      apply elem_of_list_In, in_concat in Hin as (k & Hk & Hin). apply in_map_iff in Hk as ([c e] & <- & Hk).
      apply in_map_iff in Hin as (w' & [= <- <-] & _). apply Hni. apply elem_of_list_fmap. exists (c, e). split; [done|]. by apply elem_of_list_In.
    + apply IH; [done|]. intros p Hp. apply Hd. by right.
  - intros a. unfold gnums. rewrite elem_of_filterb, Hkey, negb_true_iff, bool_decide_eq_false. rewrite nums_none. split; [by intros [[? _] ?]|].
    intros [Ha (i & y & Hi & Hy)]. split; [|by exists i, y]. split; [done|]. exists i. split; [done|]. by eapply dget_Some_key.
  - intros a v. rewrite <- occ3_pos. unfold gvals. rewrite elem_of_list_In, in_concat. split.
    + intros (k & Hk & Hin). apply in_map_iff in Hk as ([b d] & <- & Hp). apply in_map_iff in Hin as (w & [= <- <-] & Hw).
      cbn [fst snd] in *. apply elem_of_list_In in Hp, Hw. apply vis3_in in Hp as [Hb Hd]; [|done]. split; [done|].
      unfold noms in Hw. apply elem_of_filterb in Hw as [Hw Hcv]. apply bool_decide_eq_true in Hcv.
      specialize (Hcells b). rewrite Hd in Hcells. simpl in Hcells. destruct Hcells as (_ & _ & Hn & _).
      apply dget_key_Some in Hw as (q & Hq). rewrite (Hn w Hcv) in Hq. case_decide; [done|]. lia.
    + intros [Ha Ho]. pose proof (Hcells a) as (_ & H0 & Hn & _).
      assert (Hcv : v <> cv_key) by (intros ->; lia). specialize (Hn v Hcv). rewrite decide_False in Hn by lia.
      destruct (dget a (n3_av s)) as [d|] eqn:Hd; [|done]. simpl in Hn.
      exists (map (pair a) (noms d)). split.
      * apply in_map_iff. exists (a, d). split; [done|]. apply elem_of_list_In, vis3_in; done.
      * apply in_map_iff. exists v. split; [done|]. apply elem_of_list_In, elem_of_filterb. split; [by eapply dget_Some_key|]. by apply bool_decide_eq_true.
  - rewrite map_length. f_equal. unfold guesses3. rewrite Hc. unfold gvals, gnums. rewrite Rsum_concat, Rsum_filterb, Rsum_map, <- Rsum_plus.
    apply Rsum_ext. intros [a d] Hp. apply vis3_in in Hp as [_ Hd]; [|done]. specialize (Hcells a). rewrite Hd in Hcells. cbn [fst snd].
    rewrite (cells_sum d _ _ (escale x a) (length l) Hcells), Rsum_map. cbn [fst snd]. rewrite <- Hu. f_equal.
    destruct (decide (nums l a = [])) as [E|E].
    + by rewrite (bool_decide_eq_true_2 _ E).
    + by rewrite (bool_decide_eq_false_2 _ E).
Qed.
Lemma ecg3_rate (unit : attr -> R) x s l : HistR s l -> l <> [] -> scales_ok x -> (forall i, i ∈ l -> good3 i /\ has_visible3 i) ->
  (forall a, unit a = eff_scale (escale x a)) -> exists g, n3_ecg x s = Ok g /\ guess_rate3 unit l g.
Proof.
  intros HH Hl Hx Hv Hu. apply ecg3_rate_some; [done|done| |done]. destruct l as [|i l]; [done|].
  exists i. split; [left|]. apply Hv. left.
Qed.

Lemma cu_partition3 (unit : attr -> R) x s l (kl : list (nsum3 ROps * list I3)) :
  HistR s l -> kl <> [] -> Forall (fun p => HistR (fst p) (snd p) /\ snd p <> []) kl -> scales_ok x ->
  Permutation l (concat (map snd kl)) -> (forall i, i ∈ l -> good3 i /\ has_visible3 i) ->
  (forall a, unit a = eff_scale (escale x a)) ->
  exists u, category_utility C3 x s (map fst kl) = Ok u /\ partition_utility3 unit (map snd kl) u.
Proof.
  intros Hh Hne HF Hx Hp Hvis Hu.
  assert (Hsub : forall p, p ∈ kl -> forall i, i ∈ snd p -> i ∈ l).
  { intros p Hpk i Hi. rewrite Hp, elem_of_list_In, in_concat. exists (snd p).
    rewrite <- !elem_of_list_In. split; [|done]. apply elem_of_list_fmap. eauto. }
  assert (Hl : l <> []).
  { rewrite Forall_forall in HF. destruct kl as [|p kl]; [done|]. destruct (HF p) as [_ Hpl]; [left|].
    destruct (snd p) as [|i l'] eqn:E; [done|]. intros ->.
    assert (Hi : i ∈ ([] : list I3)) by (apply (Hsub p); [left|rewrite E; left]). inversion Hi. }
  destruct (ecg3_rate unit x s l Hh Hl Hx Hvis Hu) as (g & Eg & Hrate).
  assert (Hlen : length l = length (concat (map snd kl))) by (by rewrite Hp).
  assert (Hcn : nc_count C3 s = length (concat (map snd kl))). { rewrite <- Hlen. by destruct Hh as [Hh _]. }
  assert (Hgen : exists es, Forall2 (fun k e => nc_ecg C3 x k = Ok e) (map fst kl) es /\ Forall2 (guess_rate3 unit) (map snd kl) es /\
    forall d, wsum C3 d (map fst kl) es = Rsum (fun q : list I3 * R => INR (length (fst q)) / d * snd q)%R (zip (map snd kl) es)).
  { clear Hp Hne Eg Hrate Hlen Hcn. induction kl as [|p kl IH].
    - exists []. split; [constructor|]. split; [constructor|]. done.
    - apply Forall_cons in HF as [[Hp1 Hp2] HF].
      destruct (IH HF (fun q Hq => Hsub q (elem_of_list_further _ _ _ Hq))) as (es & H1 & H2 & H3).
      destruct (ecg3_rate unit x (fst p) (snd p) Hp1 Hp2 Hx) as (e & Ee & Hr'); [|done|].
      { intros i Hi. apply Hvis. apply (Hsub p); [left|done]. }
      exists (e :: es). split; [by constructor|]. split; [by constructor|]. intros d. cbn [map wsum zip zip_with Rsum fst snd]. rewrite H3. do 3 f_equal.
      destruct Hp1 as [Hp1 _]. simpl. by rewrite Hp1. }
  destruct Hgen as (es & H1 & H2 & H3). eexists. split.
  - apply cu_ok; [by destruct kl|]. split.
    + rewrite Hcn, <- Hlen. apply not_0_INR. by destruct l.
    + exists es, g. split; [exact H1|]. split; [exact Eg|]. reflexivity.
  - exists g, es. split; [by eapply guess_rate3_perm|]. split; [done|]. rewrite H3, Hcn, !map_length. done.
Qed.

Lemma HistR_tabulates tb h : HistR tb h -> tabulates3 tb h.
Proof.
  intros Hh. split; [by destruct Hh|]. split; intros a.
  - intros v. by apply (hist_count summarises).
  - by apply hist_summary.
Qed.

Section Trees3.
  Context (rng : nat -> num ROps) (sc : option R) (inner : bool).
  Notation x0 := (@new_ctx ROps sc inner).

  Lemma unit_eff evs s a : reachable C3 rng x0 evs s -> unit_of sc inner (history evs) a = eff_scale (escale (st_ctx s) a).
  Proof.
    intros Hr. pose proof (C38_scales_exact (N:=ROps) rng sc inner evs s (inner_of inner a) Hr) as Hs.
    assert (Hx : x_inner (st_ctx s) = inner /\ x_scaling (st_ctx s) = sc).
    { rewrite (reachable_ctx C3 rng x0 evs s Hr).
      destruct (scales_fold (history evs) x0 (fun _ => []) (fun _ => eq_refl)) as (H1 & H2 & _). done. }
    destruct Hx as [Hi Hk].
    assert (Hin : inner_attr (st_ctx s) a = inner_of inner a) by (rewrite <- Hi; by destruct a as [|[]|]).
    unfold escale, scaling_on. rewrite Hk, Hin, Hs. unfold unit_of. destruct sc as [k|].
    2: { unfold eff_scale. destruct (Rle_dec 1 0); [lra|done]. }
    change (neqb ROps k (nofnat ROps 0)) with (Reqb k 0).
    destruct (Req_EM_T k 0) as [->|Hk0].
    { replace (Reqb 0 0) with true by (symmetry; by apply Reqb_true). unfold eff_scale. destruct (Rle_dec 1 0); [lra|done]. }
    replace (Reqb k 0) with false by (symmetry; by apply Reqb_false).
    destruct (inner_nums inner (history evs) (inner_of inner a)) as [|y ys] eqn:Ey.
    { unfold eff_scale, deviation. rewrite decide_True by (simpl; lia). destruct (Rle_dec 1 0); [lra|].
      destruct (Rle_dec (0 / k) 0) as [|H]; [done|]. destruct H. unfold Rdiv. lra. }
    rewrite <- summ_nil, batch_summ. cbn [app]. rewrite <- (deviation_ustd (y :: ys)). unfold eff_scale.
    replace (1 / k * ustd (summ (y :: ys)))%R with (ustd (summ (y :: ys)) / k)%R by (unfold Rdiv; ring). done.
  Qed.

  Lemma fits_good evs : all_inst (C:=C3) (fits3 (N:=ROps)) evs -> all_inst (C:=C3) (good3 (N:=ROps)) evs.
  Proof. intros Hg. unfold all_inst in *. eapply Forall_impl; [exact Hg|]. intros e He i Hi. by destruct (He i Hi). Qed.

  (** ** C92: expected_correct_guesses of every concept *)
  Theorem C92_guesses_value evs s id (tb : nsum3 ROps) :
    reachable C3 rng x0 evs s -> all_inst (C:=C3) (fits3 (N:=ROps)) evs -> all_ok evs ->
    in_tree s id -> table_of s id tb -> history evs <> [] ->
    exists h g, h <> [] /\ (forall i, i ∈ h -> i ∈ history evs) /\ tabulates3 tb h /\
      n3_ecg (st_ctx s) tb = Ok g /\ guess_rate3 (unit_of sc inner (history evs)) h g.
  Proof.
    intros Hr Hg Hao Hin Ht Hne. pose proof (fits_good evs Hg) as Hgood.
    destruct (reachable_tinv C3 rng _ _ _ histR_laws x0 evs s Hr Hgood Hao) as (t & Hok & Htt).
    destruct (proj1 (in_tree_sub C3 s t id Hok) Hin) as (v & Hu & <-).
    rewrite (table_of_det _ _ _ _ _ Ht (sub_table _ _ _ _ Hok Hu)). clear tb Ht.
    destruct (tinv_sub C3 HistR LeafR good3 histR_laws t _ v Htt Hu) as (lu & Htu & Hsub & Hnl).
    assert (Hlu : lu <> []).
    { destruct Hnl as [-> |]; [|done]. intros ->. apply tinv_summ in Htt, Htu. destruct Htt as [H1 _], Htu as [H2 _].
      rewrite H1 in H2. simpl in H2. by destruct (history evs). }
    apply tinv_summ in Htu.
    destruct (ecg3_rate (unit_of sc inner (history evs)) (st_ctx s) (tsum v) lu Htu Hlu) as (g & E & Hrate).
    { by eapply reach_scales_ok. }
    { intros i Hi. apply Hsub in Hi. by apply (history_all _ _ _ Hg) in Hi. }
    { intros a. by eapply unit_eff. }
    exists lu, g. split; [done|]. split; [done|]. split; [by apply HistR_tabulates|]. done.
  Qed.

  (** category_utility of every concept with children *)
  Theorem C92_utility_value evs s p l :
    reachable C3 rng x0 evs s -> all_inst (C:=C3) (fits3 (N:=ROps)) evs -> all_ok evs ->
    in_tree s p -> children_of s p l -> l <> [] ->
    exists parts u tb, Forall2 (fun c h => h <> [] /\ exists tb, table_of s c tb /\ tabulates3 tb h) l parts /\
      table_of s p tb /\ tabulates3 tb (concat parts) /\ (forall i, i ∈ concat parts -> i ∈ history evs) /\
      fst (mcategory_utility C3 p s) = Ok u /\ partition_utility3 (unit_of sc inner (history evs)) parts u.
  Proof.
    intros Hr Hg Hao Hin Hch Hne. pose proof (fits_good evs Hg) as Hgood.
    destruct (reachable_tinv C3 rng _ _ _ histR_laws x0 evs s Hr Hgood Hao) as (t & Hok & Ht).
    destruct (proj1 (in_tree_sub C3 s t p Hok) Hin) as (v & Hu & <-).
    destruct (tinv_sub C3 HistR LeafR good3 histR_laws t _ v Ht Hu) as (lu & Htu & Hsub & _).
    rewrite (children_of_det _ _ _ _ _ Hch (sub_children _ _ _ _ Hok Hu)) in *. clear l Hch.
    rewrite (view_cu C3 s (tid v) (tsum v) (kview C3 v) (sub_view C3 s t v Hok Hu)). cbn [fst].
    pose proof (sub_table _ _ _ _ Hok Hu) as Htb.
    assert (Hkt : forall k, k ∈ tkids v -> table_of s (tid k) (tsum k)).
    { intros k Hk. apply (sub_table _ _ _ _ Hok). eapply sub_kid_of; [exact Hu|done]. }
    destruct Htu as [id sm l Hs Hl|id sm kids ls l H2 HF Hnl Hp Hs]; [done|]. cbn [tkids tid tsum] in *.
    destruct (cu_partition3 (unit_of sc inner (history evs)) (st_ctx s) sm l (zip (map tsum kids) ls) Hs) as (u & E & Hpu).
    - destruct kids as [|k kids]; [done|]. by inversion HF.
    - clear -HF Hnl. induction HF as [|k lk kids ls Hk HF IH]; [constructor|].
      apply Forall_cons in Hnl as [Hn Hnl]. simpl. constructor; [|by apply IH].
      split; [|done]. by apply tinv_summ in Hk.
    - by eapply reach_scales_ok.
    - rewrite Hp. apply Forall2_length in HF. change (map snd (zip (map tsum kids) ls)) with ((zip (map tsum kids) ls).*2).
      rewrite snd_zip; [done|]. rewrite map_length. lia.
    - intros i Hi. apply Hsub in Hi. by apply (history_all _ _ _ Hg) in Hi.
    - intros a. by eapply unit_eff.
    - pose proof (Forall2_length _ _ _ HF) as Hlen.
      assert (Hz1 : map fst (zip (map tsum kids) ls) = map tsum kids) by (apply fst_zip; rewrite map_length; lia).
      assert (Hz2 : map snd (zip (map tsum kids) ls) = ls) by (apply snd_zip; rewrite map_length; lia).
      assert (E' : category_utility C3 (st_ctx s) sm (map tsum kids) = Ok u) by (rewrite <- Hz1; exact E).
      assert (Hpu' : partition_utility3 (unit_of sc inner (history evs)) ls u) by (exact (eq_ind _ (fun z => partition_utility3 _ z u) Hpu _ Hz2)).
      exists ls, u, sm. split; [|split; [done|split; [|split; [|split; [|done]]]]].
      + clear -HF Hnl Hkt. induction HF as [|k lk kids ls Hk HF IH]; [constructor|].
        apply Forall_cons in Hnl as [Hn Hnl]. constructor.
        * split; [done|]. exists (tsum k). split; [apply Hkt; left|]. apply tinv_summ in Hk. by apply HistR_tabulates.
        * apply IH; [done|]. intros k' Hk'. apply Hkt. by right.
      + apply HistR_tabulates. by eapply (Hist3_perm summarises eq summarises_laws).
      + intros i Hi. apply Hsub. by rewrite Hp.
      + unfold kview. cbn [tkids]. rewrite map_map. simpl. exact E'.
  Qed.

  (** The heuristic CU of a labeling; [s]: the tree after some splits. *)
  Context (setord : list nat -> list nat).
  Hypothesis Hset : forall l x, x ∈ setord l <-> x ∈ l.

  Theorem C92_CU_value evs s0 s leaves labels :
    reachable C3 rng x0 evs s0 -> all_inst (C:=C3) (fits3 (N:=ROps)) evs -> all_ok evs -> history evs <> [] ->
    split_from C3 s0 s -> clustering s leaves labels -> labels <> [] ->
    exists held u,
      Forall2 (fun j h => h <> [] /\ (forall i, i ∈ h -> i ∈ history evs) /\ exists tb, table_of s j tb /\ tabulates3 tb h) leaves held /\
      fst (CU C3 setord labels leaves s) = Ok (- u)%R /\
      partition_utility3 (unit_of sc inner (history evs)) (map (part labels held) (setord labels)) u.
  Proof using Hset.
    intros Hr Hg Hao Hh Hsp Hcl Hne. pose proof (fits_good evs Hg) as Hgood.
    destruct (reachable_tinv C3 rng _ _ _ histR_laws x0 evs s0 Hr Hgood Hao) as (t0 & Hok0 & Ht0).
    set (P := fun tb : nsum3 ROps => exists h, h <> [] /\ (forall i, i ∈ h -> i ∈ history evs) /\ HistR tb h).
    assert (Hall0 : tall C3 P t0).
    { assert (Hgen : forall (u : tree C3) lu, tinv C3 HistR LeafR u lu -> lu <> [] -> (forall i, i ∈ lu -> i ∈ history evs) -> tall C3 P u).
      { clear. intros u. induction u as [id sm kids IH] using (tree_ind' C3). intros lu Ht Hne Hsub.
        inversion Ht as [? ? ? Hs Hl|? ? ? ls l H2 HF Hnl Hp Hs]; subst.
        - constructor; [by exists lu|constructor].
        - constructor; [by exists lu|].
          assert (Hsub' : forall h, h ∈ ls -> forall i, i ∈ h -> i ∈ history evs).
          { intros h Hh i Hi. apply Hsub. rewrite Hp, elem_of_list_In, in_concat. exists h. by rewrite <- !elem_of_list_In. }
          clear -IH HF Hnl Hsub'. induction HF as [|k lk kids ls Hk HF IH2]; [constructor|].
          apply Forall_cons in IH as [IH1 IH]. apply Forall_cons in Hnl as [Hn Hnl]. constructor.
          + apply (IH1 lk Hk Hn). apply Hsub'. left.
          + apply IH2; [done|done|]. intros h Hh'. apply Hsub'. by right. }
      by eapply Hgen. }
    destruct (split_from_tall C3 P s0 t0 s Hok0 Hall0 Hsp) as (Hx & t & Hok & Hall).
    assert (Hheld : exists held, Forall2 (fun j h => h <> [] /\ (forall i, i ∈ h -> i ∈ history evs) /\ exists tb, table_of s j tb /\ HistR tb h) leaves held).
    { destruct Hcl as [Hcl _]. clear -Hcl Hok Hall. induction Hcl as [|j lab leaves labels [Hl1 Hl2] Hcl (held & IH)]; [by exists []; constructor|].
      assert (Hj : in_tree s j) by (exact (desc_trans C3 s _ _ _ Hl1 Hl2)).
      apply (in_tree_sub _ _ _ _ Hok) in Hj as (v & Hv & <-).
      destruct (tall_sub C3 P t v Hall Hv) as (h & H1 & H2 & H3). exists (h :: held). constructor; [|done].
      split; [done|]. split; [done|]. exists (tsum v). split; [by apply (sub_table _ _ _ _ Hok)|done]. }
    destruct Hheld as (held & Hheld).
    assert (Hval : exists (root : nsum3 ROps) (kids : list (nsum3 ROps)), HistR root (concat (map (part labels held) (setord labels))) /\
      Forall2 (fun c (k : nsum3 ROps) => HistR k (part labels held c)) (setord labels) kids /\
      fst (CU C3 setord labels leaves s) = rbind (category_utility C3 (st_ctx s) root kids) (fun u => Ok (nneg ROps u))).
    { apply (CU_value C3 HistR (Hist3_empty summarises)) with (t := t); try done.
      - intros s1 s2 l1 l2 H1 H2. destruct (Hist3_add summarises eq summarises_laws s1 s2 l1 l2 H1 H2) as (s' & E & Hs').
        exists s'. split; [|done]. unfold tadd. simpl. by rewrite E.
      - eapply Forall2_impl; [exact Hheld|]. intros j h (_ & _ & H). exact H. }
    destruct Hval as (root & kids & Hroot & Hkids & Ecu).
    pose proof (Forall2_length _ _ _ Hkids) as Hlen.
    set (parts := map (part labels held) (setord labels)) in *.
    assert (Hlp : length parts = length kids) by (unfold parts; by rewrite map_length).
    assert (Hz1 : map fst (zip kids parts) = kids) by (apply fst_zip; rewrite Hlp; apply Nat.le_refl).
    assert (Hz2 : map snd (zip kids parts) = parts) by (apply snd_zip; rewrite Hlp; apply Nat.le_refl).
    assert (Hhist : forall i, i ∈ concat parts -> i ∈ history evs).
    { intros i Hi. rewrite elem_of_list_In, in_concat in Hi. destruct Hi as (h & Hp & Hi). apply elem_of_list_In in Hp, Hi.
      apply elem_of_list_fmap in Hp as (c & -> & _). apply part_elem in Hi as (n & h & _ & Hn & Hi).
      destruct (Forall2_lookup_r _ _ _ _ _ Hheld Hn) as (j & _ & _ & Hsub & _). by apply Hsub. }
    assert (Hlab : setord labels <> []).
    { destruct labels as [|c l]; [done|]. intros E. assert (Hc : c ∈ setord (c :: l)) by (apply Hset; left). rewrite E in Hc. by apply elem_of_nil in Hc. }
    destruct (cu_partition3 (unit_of sc inner (history evs)) (st_ctx s) root (concat parts) (zip kids parts)) as (u & E & Hpu).
    - done.
    - intros E. assert (Hk : kids = []) by (rewrite <- Hz1, E; done). rewrite Hk in Hlen. by destruct (setord labels).
    - apply Forall_forall. intros [k p] Hkp. apply elem_of_list_lookup in Hkp as (n & Hn).
      apply lookup_zip_with_Some in Hn as (k' & p' & [= <- <-] & Hk & Hp). unfold parts in Hp.
      change (map (part labels held) (setord labels)) with (part labels held <$> setord labels) in Hp.
      apply list_lookup_fmap_Some in Hp as (c & Hc & ->). cbn [fst snd].
      destruct (Forall2_lookup_l _ _ _ _ _ Hkids Hc) as (k' & Hk' & Hh'). assert (k' = k) as -> by congruence. split; [done|].
      assert (Hcl' : c ∈ labels). { apply Hset. by eapply elem_of_list_lookup_2. }
      apply elem_of_list_lookup in Hcl' as (m & Hm). destruct Hcl as [Hcl _].
      destruct (Forall2_lookup_r _ _ _ _ _ Hcl Hm) as (j & Hj & _).
      destruct (Forall2_lookup_l _ _ _ _ _ Hheld Hj) as (h & Hhm & Hhn & _). destruct h as [|i h]; [done|].
      intros E. assert (Hi : i ∈ part labels held c) by (apply part_elem; exists m, (i :: h); split; [done|]; split; [done|left]).
      rewrite E in Hi. by apply elem_of_nil in Hi.
    - rewrite Hx. by eapply reach_scales_ok.
    - by rewrite Hz2.
    - intros i Hi. apply Hhist in Hi. by apply (history_all _ _ _ Hg) in Hi.
    - intros a. rewrite Hx. by eapply unit_eff.
    - rewrite Hz1 in E. rewrite E in Ecu. cbn [rbind] in Ecu.
      exists held, u. split; [|split].
      + eapply Forall2_impl; [exact Hheld|]. intros j h (H1 & H2 & tb & H3 & H4). split; [done|]. split; [done|]. exists tb. split; [done|]. by apply HistR_tabulates.
      + rewrite Ecu. f_equal. unfold nneg. change (nofnat ROps 0) with 0%R. change (nsub ROps) with Rminus. lra.
      + by rewrite Hz2 in Hpu.
  Qed.
End Trees3.

(** ** The hypotheses are met: a tree of four instances with mixed values, whose
    root's children are the clusters. *)
Lemma ex_C92 : exists evs s labels, reachable RC3 ex_draws (@new_ctx ROps (Some 0.5%R) true) evs s /\
  all_inst (C:=RC3) (fits3 (N:=ROps)) evs /\ all_ok evs /\ length (history evs) = 4%nat /\
  children_of s (st_root s) labels /\ labels <> [] /\ split_from RC3 s s /\ clustering s labels labels.
Proof.
  destruct ex_C31 as (evs & s & Hr & Hg & Hok & Hh). pose proof (fits_good evs Hg) as Hg'.
  destruct (reachable_tinv RC3 ex_draws _ _ _ histR_laws _ evs s Hr Hg' Hok) as (t & Hst & _).
  assert (Hc : children_of s (st_root s) (map tid (tkids t))).
  { rewrite (so_root _ _ _ Hst). apply (sub_children _ _ _ _ Hst), sub_refl. }
  exists evs, s, (map tid (tkids t)). split; [exact Hr|]. split; [exact Hg|]. split; [exact Hok|]. split; [by rewrite Hh|]. split; [exact Hc|].
  assert (Hne : map tid (tkids t) <> []).
  { intros E. rewrite E in Hc. destruct (C31_root_summaries ex_draws (Some 0.5%R) true evs s Hr Hg' Hok) as (tb & Htb & Hcnt & Hocc & _).
    assert (Hlf : is_leaf s (st_root s)) by (split; [constructor|exact Hc]).
    pose proof (Hocc (AStr "c") (NStr "q")) as Hq. pose proof (Hocc (AStr "c") (NStr "p")) as Hp. rewrite Hh in Hq, Hp.
    assert (E2 : occ3 [xci 1 "p"; xci 3 "q"; xci 1 "p"; xci 7 "q"] (AStr "c") (NStr "q") = 2%nat) by (by vm_compute).
    assert (E3 : occ3 [xci 1 "p"; xci 3 "q"; xci 1 "p"; xci 7 "q"] (AStr "c") (NStr "p") = 2%nat) by (by vm_compute).
    rewrite E2 in Hq. rewrite E3 in Hp. unfold count_of in Hq, Hp. destruct (dget (AStr "c") (n3_av tb)) as [d|] eqn:Ed; [|done].
    destruct (C35_leaves_pure ex_draws (Some 0.5%R) true evs s _ tb Hr Hg' Hlf Htb (AStr "c") d eq_refl Ed) as [_ (v & ->)].
    destruct v as [w|y].
    - simpl in Hq, Hp. destruct (decide (NStr "q" = w)) as [<-|]; [|done]. destruct (decide (NStr "p" = NStr "q")); done.
    - done. }
  split; [exact Hne|]. split; [constructor|].
  assert (Hk : forall c, c ∈ map tid (tkids t) -> child_of s (st_root s) c) by (intros c Hc'; by exists (map tid (tkids t))).
  assert (Hin : forall c, c ∈ map tid (tkids t) -> in_tree s c).
  { intros c Hc'. eapply (desc_child RC3); [constructor|by apply Hk]. }
  split.
  - assert (Hf : forall l : list nat, (forall c, c ∈ l -> in_tree s c) -> Forall2 (fun leaf lab => in_tree s lab /\ desc s lab leaf) l l).
    { clear. induction l as [|c l IH]; intros H; [constructor|]. constructor; [|apply IH; intros; apply H; by right].
      split; [apply H; left|constructor]. }
    by apply Hf.
  - intros a b Ha Hb Hd. apply desc_last in Hd as [->|(p & Hp & Hpb)]; [done|]. exfalso.
    assert (Hpin : in_tree s p) by (exact (desc_trans RC3 s _ _ _ (Hin a Ha) Hp)).
    pose proof (C62_proper_tree (N:=ROps) ex_draws (Some 0.5%R) true evs s Hr Hg') as Hi.
    pose proof (hi_parent _ _ Hi p b Hpin Hpb) as (n1 & Hn1 & E1).
    pose proof (hi_parent _ _ Hi (st_root s) b ltac:(constructor) (Hk b Hb)) as (n2 & Hn2 & E2).
    assert (p = st_root s) as -> by congruence.
    exact (hi_acyclic _ _ Hi (st_root s) a ltac:(constructor) (Hk a Ha) Hp).
Qed.

(** The rates are right where they can be read off: a number that never varies
    is always guessed. *)
Lemma ex_number_guess_0 : number_guess 0 = 1%R.
Proof.
  unfold number_guess. pose proof PI_RGT_0 as Hpi. pose proof (sqrt_lt_R0 PI Hpi) as Hs.
  replace (0 * 0 + 1 / (4 * PI))%R with (1 / (2 * R_sqrt.sqrt PI) * (1 / (2 * R_sqrt.sqrt PI)))%R.
  - rewrite R_sqrt.sqrt_square; [field; lra|]. apply Rlt_le, Rdiv_lt_0_compat; lra.
  - pose proof (R_sqrt.sqrt_sqrt PI ltac:(lra)) as Hss.
    replace (1 / (2 * R_sqrt.sqrt PI) * (1 / (2 * R_sqrt.sqrt PI)))%R with (1 / (4 * (R_sqrt.sqrt PI * R_sqrt.sqrt PI)))%R by (field; lra).
    rewrite Hss. lra.
Qed.
Lemma ex_guess_rate3 (unit : attr -> R) : unit (AStr "x") = 1%R ->
  guess_rate3 unit [xci 1 "p"; xci 1 "q"] (3 / 4)%R.
Proof.
  intros Hu. exists [AStr "x"; AStr "c"], [AStr "x"], [(AStr "c", NStr "p"); (AStr "c", NStr "q")].
  split; [apply (bool_decide_unpack _); by vm_compute|]. split; [apply NoDup_singleton|]. split; [apply (bool_decide_unpack _); by vm_compute|].
  assert (Hd : forall a (i : I3), i ∈ [xci 1 "p"; xci 1 "q"] -> a ∈ dkeys i -> a = AStr "x" \/ a = AStr "c" \/ a = AStr "_id").
  { intros a i Hi Ha. rewrite !elem_of_cons, elem_of_nil in Hi. destruct Hi as [->|[->|[]]]; cbn in Ha;
      rewrite !elem_of_cons, elem_of_nil in Ha; naive_solver. }
  split; [|split; [|split]].
  - intros a. rewrite !elem_of_cons, elem_of_nil. split.
    + intros [->|[->|[]]]; (split; [done|]); exists (xci 1 "p"); (split; [left|]); cbn; [left|right; left].
    + intros [Hv (i & Hi & Ha)]. destruct (Hd a i Hi Ha) as [->|[->| ->]]; [by left|right; by left|done].
  - intros a. rewrite !elem_of_cons, elem_of_nil. split.
    + intros [->|[]]. split; [done|]. exists (xci 1 "p"), 1%R. split; [left|done].
    + intros [Hv (i & y & Hi & Hy)]. destruct (Hd a i Hi (dget_Some_key _ _ _ Hy)) as [->|[->| ->]]; [by left| |done].
      rewrite !elem_of_cons, elem_of_nil in Hi. by destruct Hi as [->|[->|[]]].
  - intros a v. rewrite !elem_of_cons, elem_of_nil. split.
    + intros [[= -> ->]|[[= -> ->]|[]]]; (split; [done|]); [exists (xci 1 "p")|exists (xci 1 "q")]; (split; [|done]); [left|right; left].
    + intros [Hv (i & Hi & Hy)]. destruct (Hd a i Hi (dget_Some_key _ _ _ Hy)) as [->|[->| ->]]; [|  |done];
        rewrite !elem_of_cons, elem_of_nil in Hi; destruct Hi as [->|[->|[]]]; cbn in Hy; try done; injection Hy as <-; [by left|right; by left].
  - cbn [Rsum fst snd].
    assert (E1 : occ3 [xci 1 "p"; xci 1 "q"] (AStr "c") (NStr "p") = 1%nat) by (by vm_compute).
    assert (E2 : occ3 [xci 1 "p"; xci 1 "q"] (AStr "c") (NStr "q") = 1%nat) by (by vm_compute).
    assert (E3 : nums [xci 1 "p"; xci 1 "q"] (AStr "x") = [1; 1]%R) by done.
    rewrite E1, E2, E3, Hu.
    assert (E4 : deviation [1; 1]%R = 0%R).
    { unfold deviation. rewrite decide_False by (simpl; lia). destruct (c4 ROps _); [|done].
      assert (E : Rmean [1; 1]%R = 1%R) by (unfold Rmean, Rsum; simpl; lra). rewrite E. unfold Rsum.
      replace ((1 - 1) * (1 - 1) + ((1 - 1) * (1 - 1) + 0))%R with 0%R by lra. simpl.
      replace (0 / 1)%R with 0%R by lra. rewrite R_sqrt.sqrt_0. unfold Rdiv. apply Rmult_0_l. }
    rewrite E4. replace (0 / 1)%R with 0%R by lra. rewrite ex_number_guess_0. cbn [length]. simpl. lra.
Qed.

Print Assumptions C92_guesses_value.
Print Assumptions C92_utility_value.
Print Assumptions C92_CU_value.
