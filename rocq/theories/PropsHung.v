(** * C100: the mapping that flat_match starts from is the best one for the costs
    of single components.  Exact arithmetic. *)
From Coq Require Import Reals Lra.
From stdpp Require Import base decidable tactics list list_numbers strings.
From Coq Require Import ZArith.
From Verif Require Import Base Num RSum PyVal Preproc StructMap StructFacts PropsStruct PropsSearch.
Set Default Proof Using "Type".
Open Scope list_scope.
Open Scope nat_scope.

(** ** Specification *)

(** The cost of mapping one component and no other. *)
Definition pair_cost (cost : list (attr * attr) -> res R) (e : attr * attr) : res R :=
  if decide (snd e = fst e) then cost [] else cost [e].
(** The sum of these costs for the components of a mapping. *)
Definition apart (cost : list (attr * attr) -> res R) (m : list (attr * attr)) (t : R) : Prop :=
  exists cs, Forall2 (fun e c => pair_cost cost e = Ok c) m cs /\ t = Rsum id cs.

(** The entry of a matrix, and the cost of an assignment without infinite
    entries. *)
Definition entry (rows : list (list (option R))) (rc : nat * nat) : option R :=
  match rows !! fst rc with
  | Some r => match r !! snd rc with Some e => e | None => None end
  | None => None
  end.
Definition priced (rows : list (list (option R))) (l : list (nat * nat)) (t : R) : Prop :=
  exists cs, Forall2 (fun rc c => entry rows rc = Some c) l cs /\ t = Rsum id cs.
(** Munkres.compute returns a cheapest assignment if there is one of finite
    cost. *)
Definition munkres_best (orc : oracle R) : Prop := forall rows w l t,
  Forall (fun r => List.length r = w) rows -> List.length rows <= w ->
  assignment (List.length rows) w l -> priced rows l t ->
  exists t0, priced rows (o_munkres orc rows) t0 /\ (t0 <= t)%R.

(** ** Sums *)
Section Sums.
  Context {U : Type} (P : U -> R -> Prop) (f : U -> R).
  Lemma total_eq l cs : (forall u c, u ∈ l -> P u c -> f u = c) -> Forall2 P l cs -> Rsum id cs = Rsum f l.
  Proof.
    intros Hf. induction 1 as [|u c l cs Hu H IH]; [done|]. simpl. rewrite (Hf u c) by (done || left).
    rewrite IH; [done|]. intros v d Hv. apply Hf. by right.
  Qed.
  Lemma total_list l : (forall u, u ∈ l -> P u (f u)) -> Forall2 P l (map f l).
  Proof.
    induction l as [|u l IH]; intros H; simpl; constructor; [apply H; left|]. apply IH. intros v Hv. apply H. by right.
  Qed.
  Lemma Rsum_id_map l : Rsum id (map f l) = Rsum f l.
  Proof. induction l as [|u l IH]; [done|]. simpl. by rewrite IH. Qed.
End Sums.
Definition rval (r : res R) : R := match r with Ok x => x | Err _ => 0%R end.
Lemma apart_perm cost m m' t : Permutation m m' -> apart cost m t -> apart cost m' t.
Proof.
  intros Hp (cs & HF & ->). exists (map (fun e => rval (pair_cost cost e)) m'). split.
  - apply total_list. intros e He. rewrite <- Hp in He. apply elem_of_list_lookup in He as (i & Hi).
    destruct (Forall2_lookup_l _ _ _ _ _ HF Hi) as (c & _ & Ec). by rewrite Ec.
  - rewrite Rsum_id_map, <- (Rsum_perm _ _ _ Hp). apply (total_eq (fun e c => pair_cost cost e = Ok c)); [|done].
    intros e c _ Ec. by rewrite Ec.
Qed.
Lemma apart_fun cost m t t' : apart cost m t -> apart cost m t' -> t = t'.
Proof.
  intros (cs & HF & ->) (cs' & HF' & ->).
  assert (H : forall l, Forall2 (fun e c => pair_cost cost e = Ok c) m l -> Rsum id l = Rsum (fun e => rval (pair_cost cost e)) m).
  { intros l Hl. apply (total_eq (fun e c => pair_cost cost e = Ok c)); [|done]. intros e c _ Ec. by rewrite Ec. }
  by rewrite (H cs HF), (H cs' HF').
Qed.

(** ** The matrix *)
Lemma rmapM_lookup {U V} (f : U -> res V) l l' : rmapM f l = Ok l' ->
  forall i x, l !! i = Some x -> exists y, l' !! i = Some y /\ f x = Ok y.
Proof.
  revert l'. induction l as [|u l IH]; intros l' E i x Hi; [done|]. simpl in E.
  destruct (f u) as [v|] eqn:Eu; [|done]. simpl in E. destruct (rmapM f l) as [vs|] eqn:El; [|done]. injection E as <-.
  destruct i as [|i]; simpl in *; [injection Hi as <-; by exists v|]. by apply (IH vs).
Qed.

Lemma NoDup_map_in {U V} (f : U -> V) l : (forall u u', u ∈ l -> u' ∈ l -> f u = f u' -> u = u') -> NoDup l -> NoDup (map f l).
Proof.
  intros Hf Hl. induction Hl as [|u l Hu Hl IH]; simpl; [constructor|]. constructor.
  - intros (u' & E & Hu')%elem_of_list_fmap. apply Hf in E as ->; [done|left|by right].
  - apply IH. intros v v' Hv Hv'. apply Hf; by right.
Qed.

Section Best.
  Context (cost : list (attr * attr) -> res R).
  Context (cl il : list attr) (Nc : NoDup cl) (Ni : NoDup il) (Hdisj : forall o, o ∈ il -> o ∉ cl).
  Context (rows : list (list (option R))) (Er : rmapM (hungarian_row cost cl il) il = Ok rows).
  Notation n := (List.length cl).

  Definition iname (i : nat) : attr := default (AStr "") (il !! i).
  Definition tg (rc : nat * nat) : attr * attr :=
    (iname (fst rc), if n <=? snd rc then iname (fst rc) else default (AStr "") (cl !! snd rc)).

  Lemma iname_at i o : il !! i = Some o -> iname i = o.
  Proof. intros E. unfold iname. by rewrite E. Qed.

  Lemma entry_mapped i j o c : il !! i = Some o -> cl !! j = Some c -> exists x, entry rows (i, j) = Some x /\ cost [(o, c)] = Ok x.
  Proof using Er.
    intros Hi Hj. destruct (rmapM_lookup _ _ _ Er i o Hi) as (r & Hr & E). unfold entry. cbn [fst snd]. rewrite Hr.
    unfold hungarian_row in E. destruct (rmapM (fun c => cost [(o, c)]) cl) as [xs|] eqn:Ex; [|done]. cbn [rbind] in E.
    destruct (cost []) as [u|]; [|done]. cbn [rbind] in E. injection E as <-.
    destruct (rmapM_lookup _ _ _ Ex j c Hj) as (x & Hx & Ec). exists x. split; [|done].
    rewrite lookup_app_l by (rewrite map_length; by eapply lookup_lt_Some). rewrite list_lookup_fmap, Hx. done.
  Qed.
  Lemma entry_unmapped i k o o' : il !! i = Some o -> il !! k = Some o' ->
    exists u, cost [] = Ok u /\ entry rows (i, n + k) = if decide (o' = o) then Some u else None.
  Proof using Er.
    intros Hi Hk. destruct (rmapM_lookup _ _ _ Er i o Hi) as (r & Hr & E). unfold entry. cbn [fst snd]. rewrite Hr.
    unfold hungarian_row in E. destruct (rmapM (fun c => cost [(o, c)]) cl) as [xs|] eqn:Ex; [|done]. cbn [rbind] in E.
    destruct (cost []) as [u|]; [|done]. cbn [rbind] in E. injection E as <-. exists u. split; [done|].
    rewrite lookup_app_r by (rewrite map_length, (rmapM_length _ _ _ Ex); lia).
    rewrite map_length, (rmapM_length _ _ _ Ex). replace (n + k - n) with k by lia.
    rewrite list_lookup_fmap, Hk. done.
  Qed.

  (** A finite entry is the cost of the pair it stands for. *)
  Lemma entry_pair i j x : i < List.length il -> j < n + List.length il -> entry rows (i, j) = Some x -> pair_cost cost (tg (i, j)) = Ok x.
  Proof using Er Hdisj.
    intros Hi Hj E. destruct (lookup_lt_is_Some_2 il i Hi) as (o & Eo). unfold tg, pair_cost. cbn [fst snd]. rewrite (iname_at i o Eo).
    destruct (n <=? j) eqn:Ej.
    - apply Nat.leb_le in Ej. destruct (lookup_lt_is_Some_2 il (j - n) ltac:(lia)) as (o' & Eo').
      destruct (entry_unmapped i (j - n) o o' Eo Eo') as (u & Hu & En). replace (n + (j - n)) with j in En by lia.
      rewrite decide_True by done. rewrite En in E. destruct (decide (o' = o)); [|done]. by injection E as <-.
    - apply Nat.leb_gt in Ej. destruct (lookup_lt_is_Some_2 cl j Ej) as (c & Ec). rewrite Ec. simpl.
      destruct (entry_mapped i j o c Eo Ec) as (y & Hy & Hc). rewrite decide_False.
      + rewrite Hy in E. by injection E as <-.
      + intros ->. apply (Hdisj o); [by eapply elem_of_list_lookup_2|by eapply elem_of_list_lookup_2].
  Qed.

  Lemma Forall2_in {U V} (P Q : U -> V -> Prop) (l : list U) k : (forall u v, u ∈ l -> P u v -> Q u v) -> Forall2 P l k -> Forall2 Q l k.
  Proof.
    intros H. induction 1 as [|u v l k Hu HF IH]; constructor; [apply H; [left|done]|].
    apply IH. intros u' v' Hu'. apply H. by right.
  Qed.
  Lemma priced_apart l t : assignment (List.length il) (n + List.length il) l -> priced rows l t -> apart cost (map tg l) t.
  Proof using Er Hdisj.
    intros (_ & A2 & _ & A4) (cs & HF & ->). exists cs. split; [|done]. apply Forall2_fmap_l.
    eapply Forall2_in; [|exact HF]. intros [i j] x Hin E. change (pair_cost cost (tg (i, j)) = Ok x). apply entry_pair; [| |done].
    - apply A2, elem_of_list_fmap. by exists (i, j).
    - apply A4, elem_of_list_fmap. by exists (i, j).
  Qed.

  (** What hungarian_mapping makes of the answer. *)
  Lemma entries_of l : forall m, NoDup (map fst l) -> (forall i j, (i, j) ∈ l -> i < List.length il /\ j < n + List.length il) ->
    (forall i j, (i, j) ∈ l -> iname i ∉ dkeys m) -> rfold (hungarian_entry cl il) m l = Ok (m ++ map tg l).
  Proof using Ni.
    induction l as [|[i j] l IH]; intros m Hd Hb Hm; [by rewrite app_nil_r|].
    simpl in Hd. apply NoDup_cons in Hd as [Hi Hd]. destruct (Hb i j ltac:(left)) as [Bi Bj].
    destruct (lookup_lt_is_Some_2 il i Bi) as (o & Eo). pose proof (iname_at i o Eo) as En.
    assert (Hf : o ∉ dkeys m) by (rewrite <- En; apply (Hm i j); left).
    assert (E : hungarian_entry cl il m (i, j) = Ok (m ++ [tg (i, j)])).
    { unfold hungarian_entry, tg. cbn [fst snd]. rewrite Eo, En. destruct (n <=? j) eqn:Ej; [by rewrite dset_fresh|].
      apply Nat.leb_gt in Ej. destruct (lookup_lt_is_Some_2 cl j Ej) as (c & ->). simpl. by rewrite dset_fresh. }
    cbn [rfold]. rewrite E. cbn [rbind]. rewrite IH; [by rewrite <- app_assoc|done| |].
    - intros i' j' H. apply Hb. by right.
    - intros i' j' H. unfold dkeys. rewrite map_app. intros [H1|H1]%elem_of_app; [by apply (Hm i' j'); [right|]|].
      apply elem_of_list_singleton in H1. unfold tg in H1. cbn [fst snd] in H1. rewrite En in H1.
      destruct (Hb i' j' ltac:(by right)) as [Bi' _]. destruct (lookup_lt_is_Some_2 il i' Bi') as (o' & Eo').
      rewrite (iname_at i' o' Eo') in H1. subst o'. apply Hi.
      rewrite (NoDup_lookup _ _ _ _ Ni Eo Eo'). apply elem_of_list_fmap. by exists (i', j').
  Qed.

  (** The assignment of a mapping. *)
  Definition col (m : list (attr * attr)) (i : nat) : nat :=
    match list_find (fun c => c = img m (iname i)) cl with Some (j, _) => j | None => n + i end.
  Definition asg (m : list (attr * attr)) : list (nat * nat) := map (fun i => (i, col m i)) (seq 0 (List.length il)).

  Lemma col_spec K cn m i o : mapping_between K cn m -> (forall c, c ∈ cn -> c ∈ cl) -> il !! i = Some o -> o ∈ K ->
    (exists j, cl !! j = Some (img m o) /\ col m i = j) \/ (img m o = o /\ col m i = n + i).
  Proof using Hdisj.
    intros Hm Hcn Eo Ho. unfold col. rewrite (iname_at i o Eo). destruct (list_find _ cl) as [[j c]|] eqn:E.
    - apply list_find_Some in E as (Ej & -> & _). left. by exists j.
    - apply list_find_None in E. right. split; [|done].
      assert (Hin : (o, img m o) ∈ m) by (by apply (between_img K cn m)).
      destruct (mb_to _ _ _ Hm _ _ Hin) as [?|Hc]; [done|]. apply Hcn in Hc. rewrite Forall_forall in E. by destruct (E _ Hc).
  Qed.
  Lemma asg_ok K cn m : mapping_between K cn m -> (forall c, c ∈ cn -> c ∈ cl) -> (forall o, o ∈ il <-> o ∈ K) ->
    assignment (List.length il) (n + List.length il) (asg m) /\ Permutation (map tg (asg m)) m.
  Proof using Hdisj Ni.
    intros Hm Hcn HK. unfold asg.
    assert (E1 : map fst (map (fun i => (i, col m i)) (seq 0 (List.length il))) = seq 0 (List.length il)).
    { rewrite map_map. simpl. apply map_id. }
    assert (E2 : map snd (map (fun i => (i, col m i)) (seq 0 (List.length il))) = map (col m) (seq 0 (List.length il))) by (by rewrite map_map).
    assert (Hcol : forall i, i < List.length il -> exists o, il !! i = Some o /\ o ∈ K /\
      ((exists j, cl !! j = Some (img m o) /\ col m i = j) \/ (img m o = o /\ col m i = n + i))).
    { intros i Hi. destruct (lookup_lt_is_Some_2 il i Hi) as (o & Eo). exists o. split; [done|].
      assert (Ho : o ∈ K) by (apply HK; by eapply elem_of_list_lookup_2). split; [done|]. by apply (col_spec K cn). }
    assert (Hinj : forall i i', i < List.length il -> i' < List.length il -> col m i = col m i' -> i = i').
    { intros i i' Hi Hi' E. destruct (Hcol i Hi) as (o & Eo & Ho & C). destruct (Hcol i' Hi') as (o' & Eo' & Ho' & C').
      destruct C as [(j & Ej & C)|[Ei C]]; destruct C' as [(j' & Ej' & C')|[Ei' C']].
      - assert (o = o').
        { apply (mb_inj _ _ _ Hm o o' (img m o)); apply (between_img K cn m); [done|done|done|].
          split; [done|]. replace j' with j in Ej' by lia. congruence. }
        subst o'. by eapply NoDup_lookup.
      - apply lookup_lt_Some in Ej. lia.
      - apply lookup_lt_Some in Ej'. lia.
      - lia. }
    split; [split; [|split; [|split]]|].
    - rewrite E1. apply NoDup_ListNoDup, seq_NoDup.
    - intros i. rewrite E1, elem_of_list_In, in_seq. lia.
    - rewrite E2. assert (Hs : forall i, i ∈ seq 0 (List.length il) -> i < List.length il) by (intros i Hi; apply elem_of_list_In, in_seq in Hi; lia).
      apply NoDup_map_in; [|apply NoDup_ListNoDup, seq_NoDup]. intros i i' Hi Hi'. apply Hinj; by apply Hs.
    - intros j. rewrite E2. intros (i & -> & Hi)%elem_of_list_fmap. apply elem_of_list_In, in_seq in Hi.
      destruct (Hcol i ltac:(lia)) as (o & _ & _ & [(j & Ej & ->)|[_ ->]]); [apply lookup_lt_Some in Ej; lia|lia].
    - assert (Et : map tg (map (fun i => (i, col m i)) (seq 0 (List.length il))) = map (fun o => (o, img m o)) il).
      { rewrite map_map. apply list_eq. intros i. rewrite !list_lookup_fmap.
        destruct (decide (i < List.length il)) as [Hi|Hi].
        - rewrite (lookup_seq_lt 0 _ i Hi). simpl. destruct (Hcol i Hi) as (o & Eo & Ho & C). rewrite Eo. simpl. f_equal.
          unfold tg. cbn [fst snd]. rewrite (iname_at i o Eo). f_equal. destruct C as [(j & Ej & ->)|[Ei ->]].
          + pose proof (lookup_lt_Some _ _ _ Ej) as Hj. apply Nat.leb_gt in Hj. by rewrite Hj, Ej.
          + assert (Hl : (n <=? n + i) = true) by (apply Nat.leb_le; lia). by rewrite Hl.
        - rewrite (lookup_seq_ge 0 (List.length il) i) by lia. by rewrite (lookup_ge_None_2 il) by lia. }
      rewrite Et. apply NoDup_Permutation.
      + apply NoDup_fmap_2; [|done]. by intros o o' [= -> _].
      + apply (NoDup_fmap_1 fst). apply (mb_dict _ _ _ Hm).
      + intros [o c]. rewrite (between_img K cn m o c Hm). split.
        * intros (o' & [= -> ->] & Ho)%elem_of_list_fmap. split; [by apply HK|done].
        * intros [Ho <-]. apply elem_of_list_fmap. exists o. split; [done|by apply HK].
  Qed.
  Lemma apart_priced K cn m t : mapping_between K cn m -> (forall c, c ∈ cn -> c ∈ cl) -> (forall o, o ∈ il <-> o ∈ K) ->
    apart cost m t -> priced rows (asg m) t.
  Proof using Er Hdisj Ni.
    intros Hm Hcn HK Ha. destruct (asg_ok K cn m Hm Hcn HK) as [_ Hp].
    apply (apart_perm _ _ _ _ (Permutation_sym Hp)) in Ha. destruct Ha as (cs & HF & ->). exists cs. split; [|done].
    apply Forall2_fmap_l in HF. eapply Forall2_in; [|exact HF]. intros [i j] x Hin E. change (pair_cost cost (tg (i, j)) = Ok x) in E.
    unfold asg in Hin. apply elem_of_list_fmap in Hin as (i' & [= -> ->] & Hi%elem_of_list_In%in_seq).
    destruct (lookup_lt_is_Some_2 il i' ltac:(lia)) as (o & Eo).
    assert (Ho : o ∈ K) by (apply HK; by eapply elem_of_list_lookup_2).
    unfold tg, pair_cost in E. cbn [fst snd] in E. rewrite (iname_at i' o Eo) in E.
    destruct (col_spec K cn m i' o Hm Hcn Eo Ho) as [(j & Ej & C)|[Ei C]]; rewrite C in *.
    - pose proof (lookup_lt_Some _ _ _ Ej) as Hj. apply Nat.leb_gt in Hj. rewrite Hj, Ej in E. simpl in E.
      destruct (entry_mapped i' j o _ Eo Ej) as (y & Hy & Hc). rewrite decide_False in E.
      + rewrite Hy. rewrite Hc in E. by injection E as <-.
      + intros Heq. apply (Hdisj o); [by eapply elem_of_list_lookup_2|]. rewrite <- Heq. by eapply elem_of_list_lookup_2.
    - assert (Hl : (n <=? n + i') = true) by (apply Nat.leb_le; lia). rewrite Hl, decide_True in E by done.
      destruct (entry_unmapped i' i' o o Eo Eo) as (u & Hu & En). rewrite decide_True in En by done. rewrite En. congruence.
  Qed.
End Best.

(** ** C100 *)
Theorem C100_start_is_best cost orc inames cnames m0 : oracle_ok orc -> munkres_best orc ->
  NoDup inames -> NoDup cnames -> (forall o, o ∈ inames -> o ∉ cnames) ->
  hungarian_mapping cost orc inames cnames = Ok m0 ->
  mapping_between inames cnames m0 /\
  exists t0, apart cost m0 t0 /\
    forall m t, mapping_between inames cnames m -> apart cost m t -> (t0 <= t)%R.
Proof.
  intros Ho Hb Ni Nc Hd E.
  destruct (hungarian_ok cost orc Ho inames cnames Ni Nc Hd m0 E) as (G1 & G2 & G3 & G4).
  assert (Hm0 : mapping_between inames cnames m0).
  { split; [exact G1|exact G2| |].
    - intros o c Hin. apply G3. by apply In_dget.
    - intros o o' c H1 H2. apply (G4 o o' c); by apply In_dget. }
  split; [done|]. unfold hungarian_mapping in E.
  set (cl := o_enum orc cnames) in *. set (il := o_enum orc inames) in *.
  assert (Pc : Permutation cl cnames) by apply (oo_enum _ Ho).
  assert (Pi : Permutation il inames) by apply (oo_enum _ Ho).
  assert (Nc' : NoDup cl) by (by rewrite Pc). assert (Ni' : NoDup il) by (by rewrite Pi).
  assert (Hdl : forall o, o ∈ il -> o ∉ cl) by (intros o; rewrite Pi, Pc; apply Hd).
  assert (Hcn : forall c, c ∈ cnames -> c ∈ cl) by (intros c; by rewrite Pc).
  assert (HK : forall o, o ∈ il <-> o ∈ inames) by (intros o; by rewrite Pi).
  destruct (rmapM (hungarian_row cost cl il) il) as [rows|] eqn:Er; [|done]. cbn [rbind] in E.
  assert (Hw : Forall (fun r => List.length r = List.length cl + List.length il) rows).
  { eapply rmapM_Forall; [exact Er|]. intros o r _ Hr. unfold hungarian_row in Hr.
    destruct (rmapM (fun c => cost [(o, c)]) cl) as [x|] eqn:Ex; [|done]. cbn [rbind] in Hr.
    destruct (cost []); [|done]. cbn [rbind] in Hr. injection Hr as <-.
    rewrite List.app_length, !List.map_length. by rewrite (rmapM_length _ _ _ Ex). }
  pose proof (rmapM_length _ _ _ Er) as Hlen.
  assert (Hle : List.length rows <= List.length cl + List.length il) by lia.
  pose proof (oo_munkres _ Ho rows _ Hw Hle) as Ha. rewrite Hlen in Ha.
  assert (Em : m0 = map (tg cl il) (o_munkres orc rows)).
  { destruct Ha as (A1 & A2 & A3 & A4). rewrite (entries_of cl il Ni' (o_munkres orc rows) []) in E.
    - by injection E as <-.
    - done.
    - intros i j Hin. split; [apply A2|apply A4]; apply elem_of_list_fmap; by exists (i, j).
    - intros i j _. apply not_elem_of_nil. }
  assert (Hbest : forall m t, mapping_between inames cnames m -> apart cost m t -> exists t0, apart cost m0 t0 /\ (t0 <= t)%R).
  { intros m t Hm Hap. pose proof (apart_priced cost cl il Ni' Hdl rows Er inames cnames m t Hm Hcn HK Hap) as Hpr.
    destruct (asg_ok cl il Ni' Hdl inames cnames m Hm Hcn HK) as [Has _].
    destruct (Hb rows _ (asg cl il m) t Hw Hle ltac:(by rewrite Hlen) Hpr) as (t0 & Hp0 & Ht). exists t0. split; [|done].
    rewrite Em. by apply (priced_apart cost cl il Hdl rows Er). }
  (* leaving every component alone has a cost *)
  assert (Hid : exists t, apart cost (map (fun o => (o, o)) inames) t).
  { exists (Rsum id (map (fun e => rval (pair_cost cost e)) (map (fun o => (o, o)) inames))).
    eexists. split; [|done]. apply total_list. intros e (o & -> & Hin)%elem_of_list_fmap. unfold pair_cost. cbn [fst snd].
    rewrite decide_True by done. apply HK, elem_of_list_lookup in Hin as (i & Hi).
    destruct (entry_unmapped cost cl il rows Er i i o o Hi Hi) as (u & -> & _). done. }
  assert (Hmid : mapping_between inames cnames (map (fun o => (o, o)) inames)).
  { assert (Ef : map fst (map (fun o : attr => (o, o)) inames) = inames) by (rewrite map_map; apply map_id). split.
    - by rewrite Ef.
    - by rewrite Ef.
    - intros o c (o' & [= -> ->] & _)%elem_of_list_fmap. by left.
    - intros o o' c (? & [= -> ->] & _)%elem_of_list_fmap (? & [= -> ->] & _)%elem_of_list_fmap. done. }
  destruct Hid as (t & Hid). destruct (Hbest _ t Hmid Hid) as (t0 & H0 & _). exists t0. split; [done|].
  intros m t' Hm Hap. destruct (Hbest m t' Hm Hap) as (t1 & H1 & Hl). by rewrite (apart_fun _ _ _ _ H0 H1).
Qed.

(** [m] was found by the hill climbing that started with [m0]. *)
Definition climb_from (cost : list (attr * attr) -> res R) (orc : oracle R) (cnames : list attr) (m0 m : list (attr * attr)) : Prop :=
  exists s, climb cost (o_path orc) (start_state m0 cnames) = Ok s /\ fst s = m.
(** So it is in every call of flat_match without an initial mapping. *)
Theorem C100_flat_match cost orc tkeys bkeys m : oracle_ok orc -> munkres_best orc ->
  flat_match cost orc None tkeys bkeys = Ok m -> (exists o, component tkeys o) -> (exists c, component bkeys c) ->
  exists inames cnames m0 t0, (forall o, o ∈ inames <-> component tkeys o) /\ (forall c, c ∈ cnames <-> component bkeys c) /\
    hungarian_mapping cost orc inames cnames = Ok m0 /\ climb_from cost orc cnames m0 m /\
    apart cost m0 t0 /\ forall m' t, mapping_between inames cnames m' -> apart cost m' t -> (t0 <= t)%R.
Proof.
  intros Ho Hb Em (o1 & H1) (c1 & H2). unfold flat_match in Em.
  destruct (comp_names tkeys) as [inn|] eqn:Ei; [|done]. destruct (comp_names bkeys) as [cn|] eqn:Ec; [|done].
  cbn [rbind] in Em. destruct (comp_names_spec _ _ Ei) as [Ni Si]. destruct (comp_names_spec _ _ Ec) as [Nc Sc].
  assert (Ci : forall o, o ∈ inn <-> component tkeys o) by (intros o; rewrite Si; symmetry; apply component_kvars).
  assert (Cc : forall o, o ∈ cn <-> component bkeys o) by (intros o; rewrite Sc; symmetry; apply component_kvars).
  rewrite !bool_decide_eq_false_2 in Em.
  2: { intros ->. apply Cc in H2. by apply elem_of_nil in H2. }
  2: { intros ->. apply Ci in H1. by apply elem_of_nil in H1. }
  cbn [orb] in Em. destruct (existsb _ inn) eqn:Ee; [done|].
  assert (Hdisj : forall x, x ∈ inn -> x ∉ cn).
  { intros x Hx Hc. assert (existsb (fun o => bool_decide (o ∈ cn)) inn = true); [|congruence].
    apply existsb_exists. exists x. split; [by apply elem_of_list_In|]. by apply bool_decide_eq_true. }
  destruct (hungarian_mapping cost orc inn cn) as [m0|] eqn:Eh; [|done]. cbn [rbind] in Em.
  destruct (C100_start_is_best cost orc inn cn m0 Ho Hb Ni Nc Hdisj Eh) as (_ & t0 & Ht0 & Hbest).
  exists inn, cn, m0, t0. split; [done|]. split; [done|]. split; [done|]. split; [|done].
  destruct (cost m0); [|done]. cbn [rbind] in Em.
  destruct (climb cost (o_path orc) (start_state m0 cn)) as [s|] eqn:Es; [|done]. injection Em as <-. by exists s.
Qed.

Print Assumptions C100_start_is_best.
Print Assumptions C100_flat_match.
