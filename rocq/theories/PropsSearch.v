(** * C95: the space the structure mapper searches *)
From stdpp Require Import base decidable list strings sets.
From Coq Require Import Ascii String ZArith.
From Verif Require Import Base PyVal Preproc PreStd StructMap StructFacts PropsStruct.
Set Default Proof Using "Type".
Open Scope list_scope.

(** ** Specification *)

(** A mapping from the components [K] of the target to the components [cn] of
    the base: every component keeps its name or gets one of the base, no two
    the same. *)
Record mapping_between (K cn : list attr) (m : list (attr * attr)) : Prop := {
  mb_dict : NoDup (map fst m);
  mb_from : forall o, o ∈ map fst m <-> o ∈ K;
  mb_to : forall o c, (o, c) ∈ m -> c = o \/ c ∈ cn;
  mb_inj : forall o o' c, (o, c) ∈ m -> (o', c) ∈ m -> o = o';
}.
(** How many components are mapped to a component of the base. *)
Definition matched (m : list (attr * attr)) : nat :=
  List.length (List.filter (fun e => negb (bool_decide (snd e = fst e))) m).
(** The same dictionary. *)
Definition same_map (m m' : list (attr * attr)) : Prop := forall o c, (o, c) ∈ m <-> (o, c) ∈ m'.

(** [m'] is [m] with the partners of [o1] and [o2] exchanged, where a
    component that keeps its name has no partner. *)
Definition has_partner (m : list (attr * attr)) (o : attr) (p : option attr) : Prop :=
  match p with Some c => (o, c) ∈ m /\ c <> o | None => (o, o) ∈ m end.
Definition exchanged (o1 o2 : attr) (m m' : list (attr * attr)) : Prop :=
  (forall o c, o <> o1 -> o <> o2 -> (o, c) ∈ m <-> (o, c) ∈ m') /\
  (forall p, has_partner m o1 p -> has_partner m' o2 p) /\
  (forall p, has_partner m o2 p -> has_partner m' o1 p).
(** [m'] is [m] with [o] mapped to [c]. *)
Definition reassigned (o c : attr) (m m' : list (attr * attr)) : Prop :=
  (forall o' c', o' <> o -> (o', c') ∈ m <-> (o', c') ∈ m') /\ (o, c) ∈ m'.

(** ** Counting *)
Definition cnt (P : attr -> bool) (l : list attr) : nat := List.length (List.filter P l).
Lemma cnt_cons P x l : cnt P (x :: l) = (if P x then 1 else 0) + cnt P l.
Proof. unfold cnt. simpl. by destruct (P x). Qed.
Lemma cnt_ext P Q l : (forall x, x ∈ l -> P x = Q x) -> cnt P l = cnt Q l.
Proof.
  induction l as [|x l IH]; intros H; [done|]. rewrite !cnt_cons, (H x) by left. f_equal. apply IH. intros y Hy. apply H. by right.
Qed.
Lemma cnt_perm P l l' : Permutation l l' -> cnt P l = cnt P l'.
Proof.
  induction 1 as [|x l l' H IH|x y l|l1 l2 l3 H1 IH1 H2 IH2]; [done| | |congruence].
  - by rewrite !cnt_cons, IH.
  - rewrite !cnt_cons. lia.
Qed.
Lemma cnt_le P Q l : (forall x, x ∈ l -> P x = true -> Q x = true) -> cnt P l <= cnt Q l.
Proof.
  induction l as [|x l IH]; intros H; [done|]. rewrite !cnt_cons.
  assert (cnt P l <= cnt Q l) by (apply IH; intros y Hy; apply H; by right).
  assert (Hx := H x (elem_of_list_here _ _)). destruct (P x), (Q x); first [lia|by specialize (Hx eq_refl)].
Qed.
Lemma cnt_lt P Q l x : (forall x, x ∈ l -> P x = true -> Q x = true) -> x ∈ l -> P x = false -> Q x = true ->
  cnt P l < cnt Q l.
Proof.
  intros H Hx HP HQ. induction l as [|y l IH]; [by apply elem_of_nil in Hx|]. rewrite !cnt_cons.
  apply elem_of_cons in Hx as [<-|Hx].
  - rewrite HP, HQ. assert (cnt P l <= cnt Q l) by (apply cnt_le; intros z Hz; apply H; by right). lia.
  - assert (cnt P l < cnt Q l) by (apply IH; [intros z Hz; apply H; by right|done]).
    assert (Hy := H y (elem_of_list_here _ _)). destruct (P y), (Q y); first [lia|by specialize (Hy eq_refl)].
Qed.
Lemma cnt_exists P l : cnt P l <> 0 -> exists x, x ∈ l /\ P x = true.
Proof.
  induction l as [|x l IH]; [done|]. rewrite cnt_cons. destruct (P x) eqn:E; [intros _; exists x; split; [left|done]|].
  intros H. destruct (IH H) as (y & Hy & Ey). exists y. split; [by right|done].
Qed.
Lemma cnt_two P Q l o1 o2 : NoDup l -> o1 ∈ l -> o2 ∈ l -> o1 <> o2 ->
  (forall x, x <> o1 -> x <> o2 -> P x = Q x) ->
  cnt P l + (if Q o1 then 1 else 0) + (if Q o2 then 1 else 0) =
  cnt Q l + (if P o1 then 1 else 0) + (if P o2 then 1 else 0).
Proof.
  intros Hnd H1 H2 Hne He.
  apply elem_of_Permutation in H1 as (l1 & E1). rewrite E1 in H2, Hnd.
  apply elem_of_cons in H2 as [->|H2]; [done|]. apply elem_of_Permutation in H2 as (l2 & E2). rewrite E2 in Hnd, E1.
  rewrite !(cnt_perm _ _ _ E1), !cnt_cons.
  apply NoDup_cons in Hnd as [N1 Hnd]. apply NoDup_cons in Hnd as [N2 _].
  rewrite (cnt_ext P Q l2); [lia|]. intros x Hx. apply He; intros ->; [apply N1; by right|done].
Qed.
Lemma cnt_one P Q l o1 : NoDup l -> o1 ∈ l -> (forall x, x <> o1 -> P x = Q x) ->
  cnt P l + (if Q o1 then 1 else 0) = cnt Q l + (if P o1 then 1 else 0).
Proof.
  intros Hnd H1 He. apply elem_of_Permutation in H1 as (l1 & E1). rewrite E1 in Hnd.
  rewrite !(cnt_perm _ _ _ E1), !cnt_cons.
  apply NoDup_cons in Hnd as [N1 _].
  rewrite (cnt_ext P Q l1); [lia|]. intros x Hx. apply He. by intros ->.
Qed.

(** ** The moves *)
Section Moves.
  Context (K cn : list attr) (HK : NoDup K) (Hdisj : forall x, x ∈ K -> x ∉ cn).
  Notation inv := (sm_inv cn K).

  Definition mt (m : list (attr * attr)) : nat := cnt (fun o => negb (bool_decide (img m o = o))) K.

  Lemma matched_mt m : dwf m -> (forall o, o ∈ dkeys m <-> o ∈ K) -> matched m = mt m.
  Proof using HK.
    intros Hw Hd. unfold mt. rewrite <- (cnt_perm _ (dkeys m)).
    2: { apply NoDup_Permutation; [exact Hw|exact HK|exact Hd]. }
    clear Hd. unfold matched, cnt.
    assert (H : forall l, (forall e, e ∈ l -> e ∈ m) ->
      List.length (List.filter (fun e => negb (bool_decide (snd e = fst e))) l) =
      List.length (List.filter (fun o => negb (bool_decide (img m o = o))) (map fst l))).
    { induction l as [|[o c] l IH]; intros Hl; [done|]. simpl.
      assert (E : img m o = c).
      { unfold img. rewrite (In_dget o c m Hw); [done|]. apply Hl. left. }
      rewrite E. assert (IHl := IH (fun e He => Hl e (elem_of_list_further _ _ _ He))).
      destruct (negb _); simpl; by rewrite IHl. }
    by apply H.
  Qed.

  (** The two kinds of successors. *)
  Lemma pairs_all x y (l : list attr) : x ∈ l -> y ∈ l -> x <> y -> (x, y) ∈ pairs l \/ (y, x) ∈ pairs l.
  Proof using Type.
    induction l as [|z l IH]; [by intros ?%elem_of_nil|]. intros Hx Hy Hne. simpl. rewrite !elem_of_app.
    apply elem_of_cons in Hx as [->|Hx]; apply elem_of_cons in Hy as [->|Hy]; [done| | |].
    - left. left. apply elem_of_list_fmap. by exists y.
    - right. left. apply elem_of_list_fmap. by exists x.
    - destruct (IH Hx Hy Hne) as [H|H]; auto.
  Qed.
  Lemma succ_two s o1 o2 : inv s -> o1 ∈ K -> o2 ∈ K -> o1 <> o2 ->
    ~ (img (fst s) o1 = o1 /\ img (fst s) o2 = o2) ->
    exists s', s' ∈ successors s /\ forall o, dget o (fst s') =
      if decide (o = o2) then Some (if decide (img (fst s) o1 = o1) then o2 else img (fst s) o1)
      else if decide (o = o1) then Some (if decide (img (fst s) o2 = o2) then o1 else img (fst s) o2)
      else dget o (fst s).
  Proof using Type.
    intros Hs H1 H2 Hne Hm. apply Hs in H1, H2.
    assert (Hb : forall a b, a <> b -> ~ (img (fst s) a = a /\ img (fst s) b = b) ->
      (bool_decide (a = b) || (bool_decide (img (fst s) a = a) && bool_decide (img (fst s) b = b))) = false).
    { intros a b Hab Hn. rewrite bool_decide_eq_false_2 by done. cbn [orb].
      destruct (decide (img (fst s) a = a)) as [Ea|Ea]; [rewrite (bool_decide_eq_true_2 _ Ea)|by rewrite (bool_decide_eq_false_2 _ Ea)].
      destruct (decide (img (fst s) b = b)) as [Eb|Eb]; [by destruct Hn|by rewrite (bool_decide_eq_false_2 _ Eb)]. }
    assert (Hin : forall a b, (a, b) ∈ pairs (dkeys (fst s)) -> a <> b -> ~ (img (fst s) a = a /\ img (fst s) b = b) ->
      swap_two a b s ∈ successors s).
    { intros a b Hp Hab Hn. unfold successors. apply elem_of_app. left.
      apply elem_of_list_In, in_flat_map. exists (a, b). split; [by apply elem_of_list_In|]. cbn [fst snd].
      rewrite (Hb a b Hab Hn). by left. }
    destruct (pairs_all o1 o2 _ H1 H2 Hne) as [Hp|Hp].
    - exists (swap_two o1 o2 s). split; [by apply Hin|]. intros o. by apply swap_two_get.
    - exists (swap_two o2 o1 s). split; [apply Hin; [done|congruence|tauto]|]. intros o. rewrite swap_two_get by (done || congruence).
      destruct (decide (o = o1)) as [->|N1]; [by destruct (decide (o1 = o2))|].
      by destruct (decide (o = o2)) as [->|N2].
  Qed.
  Lemma succ_un s o c : inv s -> o ∈ K -> c ∈ snd s ->
    swap_unnamed o c s ∈ successors s /\
    forall o', dget o' (fst (swap_unnamed o c s)) = if decide (o' = o) then Some c else dget o' (fst s).
  Proof using Type.
    intros Hs Ho Hc. apply Hs in Ho. split.
    - unfold successors. apply elem_of_app. right. apply elem_of_list_In, in_flat_map. exists o.
      split; [by apply elem_of_list_In|]. apply in_map_iff. exists c. split; [done|by apply elem_of_list_In].
    - intros o'. unfold swap_unnamed. cbn [fst].
      destruct (decide (o' = o)) as [->|]; [by rewrite dget_dset_eq|by rewrite dget_dset_ne].
  Qed.
  (** Every successor is one of these. *)
  Lemma succ_inv s s' : inv s -> s' ∈ successors s ->
    (exists o1 o2, o1 ∈ K /\ o2 ∈ K /\ o1 <> o2 /\ ~ (img (fst s) o1 = o1 /\ img (fst s) o2 = o2) /\ s' = swap_two o1 o2 s) \/
    (exists o c, o ∈ K /\ c ∈ snd s /\ s' = swap_unnamed o c s).
  Proof using Type.
    intros Hs Hin. unfold successors in Hin. apply elem_of_app in Hin as [H|H].
    - left. apply elem_of_list_In, in_flat_map in H as ([x y] & H & H').
      apply elem_of_list_In in H. apply pairs_in in H as (Hx & Hy & Hne); [|apply Hs].
      cbn [fst snd] in H'. destruct (_ || _) eqn:Eb in H'; [done|].
      destruct H' as [<-|[]]. exists x, y. split; [by apply Hs|]. split; [by apply Hs|]. split; [done|]. split; [|done].
      intros [E1 E2]. apply orb_false_iff in Eb as [_ Eb]. by rewrite !bool_decide_eq_true_2 in Eb by done.
    - right. apply elem_of_list_In, in_flat_map in H as (o & Ho & H').
      apply in_map_iff in H' as (c & <- & H2).
      apply elem_of_list_In in Ho, H2. exists o, c. split; [by apply Hs|]. done.
  Qed.

  Lemma img_of m o c : dget o m = Some c -> img m o = c.
  Proof using Type. intros E. unfold img. by rewrite E. Qed.
  Lemma inv_get s o : inv s -> o ∈ K -> dget o (fst s) = Some (img (fst s) o).
  Proof using Type. intros Hs Ho. apply img_get. by apply Hs. Qed.

  Lemma mt_two (s s' : smstate) o1 o2 : inv s -> o1 ∈ K -> o2 ∈ K -> o1 <> o2 ->
    (forall o, dget o (fst s') =
      if decide (o = o2) then Some (if decide (img (fst s) o1 = o1) then o2 else img (fst s) o1)
      else if decide (o = o1) then Some (if decide (img (fst s) o2 = o2) then o1 else img (fst s) o2)
      else dget o (fst s)) -> mt (fst s') = mt (fst s).
  Proof using HK Hdisj.
    intros Hs H1 H2 Hne Hg. unfold mt.
    assert (E1 : img (fst s') o1 = if decide (img (fst s) o2 = o2) then o1 else img (fst s) o2).
    { apply img_of. rewrite Hg. rewrite decide_False by done. by rewrite decide_True. }
    assert (E2 : img (fst s') o2 = if decide (img (fst s) o1 = o1) then o2 else img (fst s) o1).
    { apply img_of. rewrite Hg. by rewrite decide_True. }
    assert (Hn : forall o o', o ∈ K -> o' ∈ K -> img (fst s) o <> o -> img (fst s) o <> o').
    { intros o o' Ho Ho' Hm E. destruct (si_img _ _ _ Hs o _ (inv_get s o Hs Ho)) as [|Hc]; [done|]. rewrite E in Hc. by apply (Hdisj _ Ho'). }
    pose proof (cnt_two (fun o => negb (bool_decide (img (fst s') o = o))) (fun o => negb (bool_decide (img (fst s) o = o)))
      K o1 o2 HK H1 H2 Hne) as H. cbn beta in H. rewrite E1, E2 in H.
    assert (Hr : forall o o' : attr, o ∈ K -> o' ∈ K -> negb (bool_decide ((if decide (img (fst s) o = o) then o' else img (fst s) o) = o')) =
       negb (bool_decide (img (fst s) o = o))).
    { intros o o' Ho Ho'. f_equal. apply bool_decide_ext. destruct (decide (img (fst s) o = o)) as [E|E]; [done|].
      split; [intros E'; by destruct (Hn o o' Ho Ho' E)|done]. }
    rewrite (Hr o2 o1), (Hr o1 o2) in H by done.
    assert (H' := H ltac:(intros x N1 N2; unfold img; by rewrite Hg, !decide_False by done)). lia.
  Qed.
  Lemma mt_un (s s' : smstate) o c : inv s -> o ∈ K -> c ∈ snd s ->
    (forall o', dget o' (fst s') = if decide (o' = o) then Some c else dget o' (fst s)) ->
    mt (fst s') = mt (fst s) + (if decide (img (fst s) o = o) then 1 else 0).
  Proof using HK Hdisj.
    intros Hs Ho Hc Hg. unfold mt.
    pose proof (cnt_one (fun o => negb (bool_decide (img (fst s') o = o))) (fun o => negb (bool_decide (img (fst s) o = o)))
      K o HK Ho) as H. cbn beta in H.
    assert (E : img (fst s') o = c) by (apply img_of; by rewrite Hg, decide_True).
    apply (si_rest _ _ _ Hs) in Hc as [Hc _].
    rewrite E in H. rewrite (bool_decide_eq_false_2 (c = o)) in H by (intros ->; by apply (Hdisj o)). cbn [negb] in H.
    assert (H' := H ltac:(intros x N1; unfold img; by rewrite Hg, decide_False by done)).
    destruct (decide (img (fst s) o = o)) as [Ei|Ei].
    - rewrite (bool_decide_eq_true_2 _ Ei) in H'. simpl in H'. lia.
    - rewrite (bool_decide_eq_false_2 _ Ei) in H'. simpl in H'. lia.
  Qed.

  Lemma mt_mono s s' : inv s -> visits s s' -> inv s' /\ mt (fst s) <= mt (fst s').
  Proof using HK Hdisj.
    intros Hs. induction 1 as [s|s s1 s2 Hv IH Hin]; [done|]. destruct (IH Hs) as [H1 Hle].
    split; [by apply (successors_inv K cn Hdisj K s1)|].
    destruct (succ_inv _ _ H1 Hin) as [(o1 & o2 & K1 & K2 & Hne & _ & ->)|(o & c & Ho & Hc & ->)].
    - rewrite (mt_two s1 (swap_two o1 o2 s1) o1 o2); try done. intros o. apply swap_two_get; [by apply H1|by apply H1|done].
    - rewrite (mt_un s1 (swap_unnamed o c s1) o c); try done; [lia|]. by apply succ_un.
  Qed.

  (** *** Reaching a mapping *)
  Context (m' : list (attr * attr)).
  Context (Hm1 : forall o, o ∈ K -> img m' o = o \/ img m' o ∈ cn).
  Context (Hm2 : forall o o', o ∈ K -> o' ∈ K -> img m' o = img m' o' -> o = o').
  Definition wrong (m : list (attr * attr)) : nat := cnt (fun o => negb (bool_decide (img m o = img m' o))) K.

  Lemma vis_trans s1 s2 s3 : s2 ∈ successors s1 -> visits s2 s3 -> visits s1 s3.
  Proof using Type.
    intros H Hv. induction Hv as [s|s s2' s3' Hv IH Hin].
    - apply (vi_move _ s1); [constructor|done].
    - eapply vi_move; [by apply IH|done].
  Qed.

  Lemma reach n : forall s, inv s -> wrong (fst s) <= n -> mt (fst s) <= mt m' ->
    exists s', visits s s' /\ forall o, o ∈ K -> img (fst s') o = img m' o.
  Proof using HK Hdisj Hm1 Hm2.
    induction n as [|n IH]; intros s Hs Hw Hm.
    - exists s. split; [constructor|]. intros o Ho. apply dec_stable. intros Hne.
      assert (0 < wrong (fst s)); [|lia]. unfold wrong.
      eapply Nat.le_lt_trans; [|apply (cnt_lt (fun _ => false) _ K o); [done|done|done|by rewrite bool_decide_eq_false_2]]. lia.
    - destruct (decide (Exists (fun o => img (fst s) o <> img m' o) K)) as [He|He].
      2: { exists s. split; [constructor|]. intros o Ho. apply dec_stable. intros Hne. apply He, Exists_exists. by exists o. }
      assert (Hs1 : exists o, o ∈ K /\ img (fst s) o <> img m' o /\ img m' o <> o).
      { apply Exists_exists in He as (o0 & Ho0 & Hne0).
        destruct (decide (Exists (fun o => img (fst s) o <> img m' o /\ img m' o <> o) K)) as [Hx|Hx].
        { apply Exists_exists in Hx as (o & ? & ?). by exists o. }
        exfalso. assert (mt m' < mt (fst s)); [|lia]. unfold mt.
        assert (Hall : forall x, x ∈ K -> img (fst s) x <> img m' x -> img m' x = x).
        { intros x Kx Nx. apply dec_stable. intros Nx'. apply Hx, Exists_exists. by exists x. }
        apply (cnt_lt _ _ K o0); [|done| |].
        - intros x Kx H. apply negb_true_iff, bool_decide_eq_false in H. apply negb_true_iff, bool_decide_eq_false.
          destruct (decide (img (fst s) x = img m' x)) as [->|N]; [done|]. by destruct H; apply Hall.
        - apply negb_false_iff, bool_decide_eq_true. by apply Hall.
        - apply negb_true_iff, bool_decide_eq_false. intros E. apply Hne0. rewrite E. symmetry. by apply Hall. }
      destruct Hs1 as (o & Ho & Hne & Hmo). set (c := img m' o) in *.
      assert (Hc : c ∈ cn) by (by destruct (Hm1 o Ho)).
      (* exchanging [o] with [p] *)
      assert (Hex : forall p, p ∈ K -> p <> o -> ~ (img (fst s) o = o /\ img (fst s) p = p) ->
        img (fst s) p <> img m' p ->
        ((if decide (img (fst s) p = p) then o else img (fst s) p) = img m' o \/
         (if decide (img (fst s) o = o) then p else img (fst s) o) = img m' p) ->
        exists s', visits s s' /\ forall o, o ∈ K -> img (fst s') o = img m' o).
      { intros p Hp Hpo Hnb Hpw Hright.
        destruct (succ_two s o p Hs Ho Hp (fun E => Hpo (eq_sym E)) Hnb) as (s1 & Hin & Hg).
        assert (I1 : inv s1) by (by apply (successors_inv K cn Hdisj K s)).
        assert (M1 : mt (fst s1) = mt (fst s)) by (by apply (mt_two s s1 o p)).
        assert (W1 : wrong (fst s1) < wrong (fst s)).
        { unfold wrong.
          pose proof (cnt_two (fun x => negb (bool_decide (img (fst s1) x = img m' x))) (fun x => negb (bool_decide (img (fst s) x = img m' x)))
            K o p HK Ho Hp (fun E => Hpo (eq_sym E))) as H. cbn beta in H.
          assert (H' := H ltac:(intros x N1 N2; unfold img at 1 3; by rewrite Hg, !decide_False by done)). clear H.
          rewrite (bool_decide_eq_false_2 (img (fst s) o = img m' o)) in H' by done.
          rewrite (bool_decide_eq_false_2 (img (fst s) p = img m' p)) in H' by done.
          assert (E1 : img (fst s1) o = if decide (img (fst s) p = p) then o else img (fst s) p).
          { apply img_of. rewrite Hg. rewrite decide_False by done. by rewrite decide_True. }
          assert (E2 : img (fst s1) p = if decide (img (fst s) o = o) then p else img (fst s) o).
          { apply img_of. rewrite Hg. by rewrite decide_True. }
          rewrite E1, E2 in H'. cbn [negb] in H'.
          destruct Hright as [Hr|Hr].
          - rewrite (bool_decide_eq_true_2 _ Hr) in H'. cbn [negb] in H'. destruct (negb _) in H'; lia.
          - rewrite (bool_decide_eq_true_2 _ Hr) in H'. cbn [negb] in H'. destruct (negb _) in H'; lia. }
        destruct (IH s1 I1 ltac:(lia) ltac:(lia)) as (s' & Hv & Hs'). exists s'. split; [by eapply vis_trans|done]. }
      destruct (decide (Exists (fun p => img (fst s) p = c) K)) as [Hu|Hu].
      + (* the wanted name is taken: exchange *)
        apply Exists_exists in Hu as (p & Hp & Ep).
        assert (Hpo : p <> o) by (intros ->; by apply Hne).
        assert (Hpp : img (fst s) p <> p) by (rewrite Ep; intros ->; by apply (Hdisj p)).
        apply (Hex p Hp Hpo); [tauto| |left; rewrite decide_False by done; exact Ep].
        rewrite Ep. intros E. apply Hpo. symmetry. by apply Hm2.
      + assert (Hcs : c ∈ snd s).
        { apply (si_rest _ _ _ Hs). split; [done|]. intros p Hg. apply Hu, Exists_exists. exists p. split; [|by apply img_of].
          apply (si_dom _ _ _ Hs). by eapply dget_Some_key. }
        destruct (decide (img (fst s) o = o /\ mt (fst s) = mt m')) as [[Eo Em]|Hok].
        * (* some other component has to give up its partner *)
          assert (Hp : exists p, p ∈ K /\ img (fst s) p <> p /\ img m' p = p).
          { destruct (decide (Exists (fun p => img (fst s) p <> p /\ img m' p = p) K)) as [Hx|Hx].
            { apply Exists_exists in Hx as (p & ? & ?). by exists p. }
            exfalso. assert (mt (fst s) < mt m'); [|lia]. unfold mt. apply (cnt_lt _ _ K o); [|done| |].
            - intros x Kx H. apply negb_true_iff, bool_decide_eq_false in H. apply negb_true_iff, bool_decide_eq_false.
              intros E. apply Hx, Exists_exists. by exists x.
            - by apply negb_false_iff, bool_decide_eq_true.
            - by apply negb_true_iff, bool_decide_eq_false. }
          destruct Hp as (p & Hp & Np & Mp).
          apply (Hex p Hp); [by intros ->|tauto|by rewrite Mp|right; by rewrite decide_True].
        * destruct (succ_un s o c Hs Ho Hcs) as [Hin Hg].
          assert (I1 := successors_inv K cn Hdisj K s _ (fun x H => H) Hs Hin).
          assert (M1 := mt_un s _ o c Hs Ho Hcs Hg).
          assert (W1 : wrong (fst (swap_unnamed o c s)) < wrong (fst s)).
          { unfold wrong.
            pose proof (cnt_one (fun x => negb (bool_decide (img (fst (swap_unnamed o c s)) x = img m' x))) (fun x => negb (bool_decide (img (fst s) x = img m' x)))
              K o HK Ho) as H. cbn beta in H.
            assert (H' := H ltac:(intros x N1; unfold img at 1 3; by rewrite Hg, decide_False by done)). clear H.
            rewrite (bool_decide_eq_false_2 (img (fst s) o = img m' o)) in H' by done.
            rewrite (bool_decide_eq_true_2 (img (fst (swap_unnamed o c s)) o = img m' o)) in H'; [cbn [negb] in H'; lia|].
            apply img_of. by rewrite Hg, decide_True. }
          destruct (IH _ I1 ltac:(lia)) as (s' & Hv & Hs').
          { rewrite M1. destruct (decide (img (fst s) o = o)) as [Eo|]; [|lia].
            assert (mt (fst s) <> mt m') by (intros ?; by apply Hok). lia. }
          exists s'. split; [by eapply vis_trans|done].
  Qed.
End Moves.

(** ** C95 *)
Lemma between_inv K cn m : mapping_between K cn m -> sm_inv cn K (start_state m cn).
Proof.
  intros [Hd Hf Ht Hi]. apply start_inv; [exact Hd|exact Hf| |].
  - intros o c E. apply Ht. by apply dget_In.
  - intros o o' c E1 E2. by apply (Hi o o' c); apply dget_In.
Qed.
Lemma between_img K cn m o c : mapping_between K cn m -> (o, c) ∈ m <-> o ∈ K /\ img m o = c.
Proof.
  intros [Hd Hf Ht Hi]. split.
  - intros Hin. split; [apply Hf, elem_of_list_fmap; by exists (o, c)|]. apply img_of. by apply In_dget.
  - intros [Ho <-]. apply dget_In, img_get. by apply Hf.
Qed.
Lemma inv_between K cn s : sm_inv cn K s -> mapping_between K cn (fst s).
Proof.
  intros [Hd Hf Ht Hi _]. split; [exact Hd|exact Hf| |].
  - intros o c E. apply Ht. by apply In_dget.
  - intros o o' c E1 E2. by apply (Hi o o' c); apply In_dget.
Qed.
Lemma between_nodup K cn m : mapping_between K cn m -> mapping_between (map fst m) cn m.
Proof. intros [Hd Hf Ht Hi]. by split. Qed.
Lemma between_ext K K' cn m : (forall o, o ∈ K <-> o ∈ K') -> mapping_between K cn m -> mapping_between K' cn m.
Proof. intros HK [Hd Hf Ht Hi]. split; try done. intros o. by rewrite Hf. Qed.
Lemma same_matched K cn m m' : mapping_between K cn m -> mapping_between K cn m' -> same_map m m' -> matched m = matched m'.
Proof.
  intros H1 H2 Hs. unfold matched. apply Permutation_length.
  assert (Hp : Permutation m m').
  { apply NoDup_Permutation; [eapply NoDup_fmap_1, H1|eapply NoDup_fmap_1, H2|]. intros [o c]. apply Hs. }
  clear -Hp. induction Hp as [|x l l' H IH|x y l|l1 l2 l3 H1 IH1 H2 IH2]; simpl.
  - done.
  - destruct (negb _); [by constructor|done].
  - destruct (negb (bool_decide (snd x = fst x))), (negb (bool_decide (snd y = fst y))); try done. constructor.
  - by etransitivity.
Qed.

(** The mappings the search can visit are exactly those that match at least as
    many components as the one it starts with. *)
Theorem C95_reachable K cn m m' : (forall x, x ∈ K -> x ∉ cn) ->
  mapping_between K cn m -> mapping_between K cn m' ->
  (exists s, visits (start_state m cn) s /\ same_map (fst s) m') <-> matched m <= matched m'.
Proof.
  intros Hdisj Hm0 Hm0'. pose (K' := map fst m). assert (HK : NoDup K') by apply Hm0.
  assert (He : forall o, o ∈ K <-> o ∈ K') by (intros o; symmetry; apply Hm0).
  assert (Hm : mapping_between K' cn m) by (by eapply between_ext).
  assert (Hm' : mapping_between K' cn m') by (by eapply between_ext).
  assert (Hdisj' : forall x, x ∈ K' -> x ∉ cn) by (intros x Hx; apply Hdisj; by apply He).
  clearbody K'. clear Hm0 Hm0' He Hdisj K.
  assert (E1 : matched m = mt K' m) by (apply matched_mt; [done|apply Hm|apply Hm]).
  assert (E2 : matched m' = mt K' m') by (apply matched_mt; [done|apply Hm'|apply Hm']).
  split.
  - intros (s & Hv & Hs). destruct (mt_mono K' cn HK Hdisj' _ _ (between_inv _ _ _ Hm) Hv) as [Hi Hle].
    rewrite E1. rewrite <- (same_matched K' cn (fst s) m' (inv_between _ _ _ Hi) Hm' Hs).
    rewrite (matched_mt K' HK (fst s)); [exact Hle|apply Hi|apply Hi].
  - intros Hle. rewrite E1, E2 in Hle.
    destruct (reach K' cn HK Hdisj' m') with (n := wrong K' m' m) (s := start_state m cn) as (s & Hv & Hs).
    + intros o Ho. apply (mb_to _ _ _ Hm'). by apply (between_img K' cn).
    + intros o o' Ho Ho' E. apply (mb_inj _ _ _ Hm' o o' (img m' o)); apply (between_img K' cn); try done.
    + by apply between_inv.
    + done.
    + done.
    + exists s. split; [done|]. destruct (mt_mono K' cn HK Hdisj' _ _ (between_inv _ _ _ Hm) Hv) as [Hi _].
      intros o c. rewrite (between_img K' cn (fst s) o c (inv_between _ _ _ Hi)), (between_img K' cn m' o c Hm').
      split; intros [Ho E]; (split; [done|]); [by rewrite <- Hs|by rewrite Hs].
Qed.

(** *** What a successor is *)
Theorem C95_successors K cn m m' : (forall x, x ∈ K -> x ∉ cn) -> mapping_between K cn m -> mapping_between K cn m' ->
  (exists s, s ∈ successors (start_state m cn) /\ same_map (fst s) m') <->
  (exists o1 o2, o1 ∈ K /\ o2 ∈ K /\ o1 <> o2 /\ ~ ((o1, o1) ∈ m /\ (o2, o2) ∈ m) /\ exchanged o1 o2 m m') \/
  (exists o c, o ∈ K /\ c ∈ cn /\ (forall o', (o', c) ∉ m) /\ reassigned o c m m').
Proof.
  intros Hdisj Hm Hm'. pose proof (between_inv _ _ _ Hm) as Hi.
  assert (Hself : forall o, o ∈ K -> ((o, o) ∈ m <-> img m o = o)).
  { intros o Ho. rewrite (between_img K cn m o o Hm). tauto. }
  (* a mapping is determined by the images *)
  assert (Hsame : forall s, s ∈ successors (start_state m cn) ->
    (same_map (fst s) m' <-> forall o, o ∈ K -> img (fst s) o = img m' o)).
  { intros s Hs. pose proof (successors_inv K cn Hdisj K _ _ (fun x H => H) Hi Hs) as His. apply inv_between in His.
    split.
    - intros H o Ho. symmetry. apply (between_img K cn m' o _ Hm'), H, (between_img K cn _ o _ His). done.
    - intros H o c. rewrite (between_img K cn _ o c His), (between_img K cn m' o c Hm').
      split; intros [Ho E]; (split; [done|]); [by rewrite <- H|by rewrite H]. }
  assert (Hinm' : forall o c, (o, c) ∈ m' <-> o ∈ K /\ img m' o = c) by (intros o c; by apply (between_img K cn)).
  assert (Hinm : forall o c, (o, c) ∈ m <-> o ∈ K /\ img m o = c) by (intros o c; by apply (between_img K cn)).
  assert (Hnoto : forall o o', o ∈ K -> o' ∈ K -> img m o <> o -> img m o <> o').
  { intros o o' Ho Ho' Hne E. destruct (mb_to _ _ _ Hm o (img m o)) as [?|Hc]; [by apply Hinm|done|].
    rewrite E in Hc. by apply (Hdisj o'). }
  assert (Hkey : forall o1 o2, o1 ∈ K -> o2 ∈ K -> o1 <> o2 ->
    (exchanged o1 o2 m m' <-> forall o, o ∈ K -> img m' o =
      if decide (o = o2) then (if decide (img m o1 = o1) then o2 else img m o1)
      else if decide (o = o1) then (if decide (img m o2 = o2) then o1 else img m o2) else img m o)).
  { intros o1 o2 H1 H2 Hne.
    assert (Hp : forall o p, o ∈ K -> (has_partner m o p <-> p = if decide (img m o = o) then None else Some (img m o))).
    { intros o p Ho. unfold has_partner. destruct (decide (img m o = o)) as [E|E]; destruct p as [c|]; rewrite ?Hinm.
      - split; [|done]. intros [[_ <-] ?]. done.
      - split; [done|]. intros _. done.
      - split; [intros [[_ <-] _]; done|]. intros [= ->]. done.
      - split; [|done]. intros [_ ?]. done. }
    assert (Hp' : forall o p, o ∈ K -> (has_partner m' o p <-> p = if decide (img m' o = o) then None else Some (img m' o))).
    { intros o p Ho. unfold has_partner. destruct (decide (img m' o = o)) as [E|E]; destruct p as [c|]; rewrite ?Hinm'.
      - split; [|done]. intros [[_ <-] ?]. done.
      - split; [done|]. intros _. done.
      - split; [intros [[_ <-] _]; done|]. intros [= ->]. done.
      - split; [|done]. intros [_ ?]. done. }
    split.
    - intros (Hoth & Ha & Hb) o Ho. destruct (decide (o = o2)) as [->|N2].
      + assert (H := Ha _ (proj2 (Hp o1 _ H1) eq_refl)). apply Hp' in H; [|done].
        destruct (decide (img m o1 = o1)), (decide (img m' o2 = o2)); congruence.
      + destruct (decide (o = o1)) as [->|N1].
        * assert (H := Hb _ (proj2 (Hp o2 _ H2) eq_refl)). apply Hp' in H; [|done].
          destruct (decide (img m o2 = o2)), (decide (img m' o1 = o1)); congruence.
        * assert (H := proj1 (Hoth o (img m o) N1 N2)). rewrite Hinm, Hinm' in H. by apply H.
    - intros H. split; [|split].
      + intros o c N1 N2. rewrite Hinm, Hinm'. split; intros [Ho E]; (split; [done|]).
        * by rewrite (H o Ho), !decide_False by done.
        * by rewrite (H o Ho), !decide_False in E by done.
      + intros p Hq. apply Hp in Hq; [|done]. apply Hp'; [done|]. rewrite (H o2 H2), (decide_True (P:=o2 = o2)) by done. subst p.
        destruct (decide (img m o1 = o1)) as [E|E]; [by rewrite decide_True|]. rewrite decide_False; [done|]. by apply Hnoto.
      + intros p Hq. apply Hp in Hq; [|done]. apply Hp'; [done|]. rewrite (H o1 H1). rewrite (decide_False (P:=o1 = o2)), (decide_True (P:=o1 = o1)) by done. subst p.
        destruct (decide (img m o2 = o2)) as [E|E]; [by rewrite decide_True|]. rewrite decide_False; [done|]. by apply Hnoto. }
  split.
  - intros (s & Hs & Hsm). pose proof (proj1 (Hsame s Hs) Hsm) as Him. clear Hsm. rename Him into Hsm.
    destruct (succ_inv K cn _ _ Hi Hs) as [(o1 & o2 & H1 & H2 & Hne & Hn & ->)|(o & c & Ho & Hc & ->)].
    + left. exists o1, o2. cbn [start_state fst] in Hn. rewrite !Hself by done. do 4 (split; [done|]). apply Hkey; [done..|].
      intros o Ho. rewrite <- (Hsm o Ho). apply img_of. rewrite swap_two_get; [|by apply Hi|by apply Hi|done].
      cbn [start_state fst]. destruct (decide (o = o2)); [done|]. destruct (decide (o = o1)); [done|].
      apply img_get. by apply Hm.
    + right. exists o, c. apply (si_rest _ _ _ Hi) in Hc as Hc'. destruct Hc' as [Hc1 Hc2]. cbn [start_state fst] in Hc2.
      split; [done|]. split; [done|]. split.
      { intros o' Hin. apply (Hc2 o'). apply In_dget; [apply Hm|done]. }
      destruct (succ_un K cn _ o c Hi Ho Hc) as [_ Hg]. cbn [start_state fst] in Hg. split.
      * intros o' c' Hne. rewrite Hinm, Hinm'. split; intros [Ho' E]; (split; [done|]).
        -- rewrite <- (Hsm o' Ho'). apply img_of. rewrite Hg, decide_False by done. rewrite <- E. apply img_get. by apply Hm.
        -- rewrite <- (Hsm o' Ho') in E. unfold img in E. change (dget o' (fst (swap_unnamed o c (start_state m cn)))) with (dget o' (fst (swap_unnamed o c (start_state m cn)))) in E.
           rewrite Hg, decide_False in E by done. by unfold img.
      * apply Hinm'. split; [done|]. rewrite <- (Hsm o Ho). apply img_of. by rewrite Hg, decide_True.
  - intros [(o1 & o2 & H1 & H2 & Hne & Hn & Hx)|(o & c & Ho & Hc & Hfree & Hx1 & Hx2)].
    + rewrite !Hself in Hn by done. destruct (succ_two K cn _ o1 o2 Hi H1 H2 Hne Hn) as (s & Hs & Hg). exists s. split; [done|].
      apply Hsame; [done|]. intros o Ho. rewrite (proj1 (Hkey o1 o2 H1 H2 Hne) Hx o Ho). apply img_of. rewrite Hg.
      cbn [start_state fst]. destruct (decide (o = o2)); [done|]. destruct (decide (o = o1)); [done|]. apply img_get. by apply Hm.
    + assert (Hcs : c ∈ snd (start_state m cn)).
      { apply (si_rest _ _ _ Hi). split; [done|]. intros o' E. apply (Hfree o'). by apply dget_In. }
      destruct (succ_un K cn _ o c Hi Ho Hcs) as [Hs Hg]. eexists. split; [exact Hs|]. apply Hsame; [done|]. intros o' Ho'.
      apply img_of. rewrite Hg. cbn [start_state fst]. destruct (decide (o' = o)) as [->|Hne].
      * f_equal. symmetry. by apply Hinm'.
      * rewrite img_get by (by apply Hm). f_equal. symmetry. apply Hinm', Hx1; [done|]. by apply Hinm.
Qed.

(** *** Mappings supplied by the caller *)
(** No component is ever added to the mapping the search starts with. *)
Theorem C95_keys s s' : NoDup (map fst (fst s)) -> visits s s' -> map fst (fst s') = map fst (fst s).
Proof.
  intros Hw. induction 1 as [s|s s1 s2 Hv IH Hin]; [done|]. specialize (IH Hw).
  rewrite <- IH. clear IH Hv. unfold successors in Hin.
  assert (Hk : forall o c (m : list (attr * attr)), o ∈ dkeys m -> dkeys (dset o c m) = dkeys m) by (intros o c m Ho; rewrite dkeys_dset; by rewrite decide_True).
  apply elem_of_app in Hin as [H|H].
  - apply elem_of_list_In, in_flat_map in H as ([x y] & H & H').
    destruct (_ || _) in H'; [done|]. destruct H' as [<-|[]]. cbn [fst snd] in *.
    assert (Hxy : x ∈ dkeys (fst s1) /\ y ∈ dkeys (fst s1)).
    { apply elem_of_list_In in H. clear -H. induction (dkeys (fst s1)) as [|z l IH]; simpl in H; [by apply elem_of_nil in H|].
      apply elem_of_app in H as [H|H]; [|destruct (IH H); split; by right].
      apply elem_of_list_fmap in H as (w & [= -> ->] & H). split; [left|by right]. }
    unfold swap_two. cbn [fst]. change (dkeys (dset y (if decide (img (fst s1) x = x) then y else img (fst s1) x) (dset x (if decide (img (fst s1) y = y) then x else img (fst s1) y) (fst s1))) = dkeys (fst s1)).
    destruct Hxy as [Hx Hy]. rewrite Hk; [by apply Hk|]. by rewrite Hk.
  - apply elem_of_list_In, in_flat_map in H as (o & Ho & H'). apply in_map_iff in H' as (c & <- & _).
    unfold swap_unnamed. cbn [fst]. apply Hk. by apply elem_of_list_In.
Qed.

(** What [flat_match] returns was reached from the assignment it started with,
    so it matches at least as many components. *)
Theorem C95_never_unmatched {F} (cost : list (attr * attr) -> res F) orc tkeys bkeys m :
  oracle_ok orc -> flat_match cost orc None tkeys bkeys = Ok m ->
  (exists o, component tkeys o) -> (exists c, component bkeys c) ->
  exists inames cnames m0, (forall o, o ∈ inames <-> component tkeys o) /\ (forall c, c ∈ cnames <-> component bkeys c) /\
    hungarian_mapping cost orc inames cnames = Ok m0 /\
    mapping_between inames cnames m0 /\ mapping_between inames cnames m /\ matched m0 <= matched m.
Proof.
  intros Ho Em (o1 & H1) (c1 & H2). unfold flat_match in Em.
  destruct (comp_names tkeys) as [inn|] eqn:Ei; [|done]. destruct (comp_names bkeys) as [cn|] eqn:Ec; [|done].
  cbn [rbind] in Em. destruct (comp_names_spec _ _ Ei) as [Ni Si]. destruct (comp_names_spec _ _ Ec) as [Nc Sc].
  assert (Ci : forall o, o ∈ inn <-> component tkeys o) by (intros o; rewrite Si; symmetry; apply component_kvars).
  assert (Cc : forall o, o ∈ cn <-> component bkeys o) by (intros o; rewrite Sc; symmetry; apply component_kvars).
  rewrite !bool_decide_eq_false_2 in Em.
  2: { intros ->. apply Cc in H2. by apply elem_of_nil in H2. }
  2: { intros ->. apply Ci in H1. by apply elem_of_nil in H1. }
  cbn [orb] in Em. destruct (existsb _ inn) eqn:Ee; [done|].
  assert (Hdisj : forall x, x ∈ inn -> x ∉ cn).
  { intros x Hx Hc. assert (existsb (fun o => bool_decide (o ∈ cn)) inn = true); [|congruence].
    apply existsb_exists. exists x. split; [by apply elem_of_list_In|]. by apply bool_decide_eq_true. }
  destruct (hungarian_mapping cost orc inn cn) as [m0|] eqn:Eh; [|done]. cbn [rbind] in Em.
  destruct (cost m0); [|done]. cbn [rbind] in Em.
  destruct (climb cost (o_path orc) (start_state m0 cn)) as [s|] eqn:Es; [|done]. injection Em as <-.
  destruct (hungarian_ok cost orc Ho inn cn Ni Nc Hdisj m0 Eh) as (G1 & G2 & G3 & G4).
  assert (Hi : sm_inv cn inn (start_state m0 cn)) by (by apply start_inv).
  assert (Hb : mapping_between inn cn m0) by exact (inv_between _ _ _ Hi).
  exists inn, cn, m0. split; [done|]. split; [done|]. split; [done|]. split; [done|].
  apply climb_visits in Es. destruct (mt_mono inn cn Ni Hdisj _ _ Hi Es) as [His _].
  split; [by apply inv_between|]. apply (C95_reachable inn cn m0 (fst s) Hdisj Hb (inv_between _ _ _ His)).
  exists s. split; [done|]. intros o c. done.
Qed.

(** [flat_match] with a dictionary for [initial_mapping], as its documentation
    asks for: the loop [for a, v in initial_mapping] (206) runs over the keys
    and unpacks each of them - a string into its characters. *)
Definition unpack2 (k : attr) : res (attr * attr) :=
  match k with
  | AStr (String c1 (String c2 EmptyString)) => Ok (AStr (String c1 EmptyString), AStr (String c2 EmptyString))
  | AStr _ => Err ValueError
  | ATup [a; b] => Ok (a, b)
  | ATup _ => Err ValueError
  | ANum _ => Err TypeError
  end.
(** [flat_match] (173-224); the tests before the loop are those of
    [StructMap.flat_match], which repeats them. *)
Definition flat_match_dict {F} (cost : list (attr * attr) -> res F) (orc : oracle F) (init : list (attr * attr))
    (tkeys bkeys : list attr) : res (list (attr * attr)) :=
  let? inames := comp_names tkeys in
  let? cnames := comp_names bkeys in
  if bool_decide (inames = []) || bool_decide (cnames = []) then Ok []
  else if existsb (fun o => bool_decide (o ∈ cnames)) inames then Err OtherException
  else
    let? l := rmapM unpack2 (dkeys init) in
    flat_match cost orc (Some l) tkeys bkeys.

(** With a dictionary from components of the target the call raises
    ValueError, unless all their names have two characters; then the
    dictionary is ignored, and so is every component: nothing is mapped. *)
Theorem C95_dict_initial {F} (cost : list (attr * attr) -> res F) orc init tkeys bkeys c0 :
  Forall (fun a => readable a = true) tkeys -> Forall (fun a => readable a = true) bkeys ->
  (exists o, component tkeys o) -> (exists c, component bkeys c) ->
  (forall o, component tkeys o -> ~ component bkeys o) ->
  (forall o, o ∈ map fst init -> exists v, o = AStr v) -> cost [] = Ok c0 ->
  flat_match_dict cost orc init tkeys bkeys =
    if forallb (fun e => match fst e with AStr v => Nat.eqb (String.length v) 2 | _ => false end) init
    then Ok [] else Err ValueError.
Proof.
  intros Ht Hb (o1 & H1) (c1 & H2) Hd Hk Hc0.
  destruct (readable_comp_names _ Ht) as [inn Ei]. destruct (readable_comp_names _ Hb) as [cn Ec].
  destruct (comp_names_spec _ _ Ei) as [Ni Si]. destruct (comp_names_spec _ _ Ec) as [Nc Sc].
  assert (Ci : forall o, o ∈ inn <-> component tkeys o) by (intros o; rewrite Si; symmetry; apply component_kvars).
  assert (Cc : forall o, o ∈ cn <-> component bkeys o) by (intros o; rewrite Sc; symmetry; apply component_kvars).
  unfold flat_match_dict, flat_match. rewrite Ei, Ec. cbn [rbind].
  assert (N1 : inn <> []). { intros ->. apply Ci in H1. by apply elem_of_nil in H1. }
  assert (N2 : cn <> []). { intros ->. apply Cc in H2. by apply elem_of_nil in H2. }
  rewrite (bool_decide_eq_false_2 _ N1), (bool_decide_eq_false_2 _ N2). cbn [orb].
  destruct (existsb (fun o => bool_decide (o ∈ cn)) inn) eqn:Ee.
  { apply existsb_exists in Ee as (x & Hx & Hx'). apply bool_decide_eq_true in Hx'. apply elem_of_list_In in Hx.
    apply Ci in Hx. apply Cc in Hx'. by destruct (Hd x). }
  assert (HR : rmapM unpack2 (dkeys init) =
    if forallb (fun e => match fst e with AStr v => Nat.eqb (String.length v) 2 | _ => false end) init
    then Ok (map (fun e => match fst e with AStr (String a (String b EmptyString)) => (AStr (String a EmptyString), AStr (String b EmptyString)) | _ => (fst e, fst e) end) init)
    else Err ValueError).
  { clear -Hk. induction init as [|[k w] init IH]; [done|].
    destruct (Hk k ltac:(left)) as (v & ->). cbn [dkeys map fst] in *. cbn [rmapM forallb].
    unfold dkeys in IH. rewrite IH by (intros o Ho; apply Hk; by right). clear IH Hk. cbn [fst].
    destruct v as [|a [|b [|c v]]]; cbn [unpack2 rbind String.length Nat.eqb andb]; try done.
    by destruct (forallb _ init). }
  rewrite HR. destruct (forallb _ init); [|done]. cbn [rbind].
  assert (Hf : List.filter (fun e : attr * attr => bool_decide (fst e ∈ inn) && bool_decide (snd e ∈ cn))
     (map (fun e : attr * attr => match fst e with AStr (String a (String b EmptyString)) => (AStr (String a EmptyString), AStr (String b EmptyString)) | _ => (fst e, fst e) end) init) = []).
  { clear -Ci Cc Hd. induction init as [|[k w] init IH]; [done|]. cbn [map List.filter].
    match goal with |- (if ?b then _ else _) = _ => destruct b eqn:E end; [|exact IH]. exfalso.
    apply andb_true_iff in E as [E1 E2]. apply bool_decide_eq_true in E1, E2. apply Ci in E1. apply Cc in E2.
    assert (Hx : forall x, component tkeys x -> component bkeys x -> False) by (intros x A B; exact (Hd x A B)).
    cbn [fst] in E1, E2.
    destruct k as [v|l|z]; cbn [fst snd] in E1, E2; try exact (Hx _ E1 E2).
    destruct v as [|a [|b [|c v]]]; cbn [fst snd] in E1, E2; try exact (Hx _ E1 E2).
    assert (a = "?"%char) as ->.
    { destruct E1 as (u & ? & [= <-] & Hu & _). unfold is_var, head_is in Hu. cbn in Hu. by apply Ascii.eqb_eq in Hu. }
    assert (b = "?"%char) as ->.
    { destruct E2 as (u & ? & [= <-] & Hu & _). unfold is_var, head_is in Hu. cbn in Hu. by apply Ascii.eqb_eq in Hu. }
    exact (Hx _ E1 E2). }
  rewrite Hf, Hc0. cbn [rbind].
  assert (Hcl : climb cost (o_path orc) (start_state [] cn) = Ok (start_state [] cn)).
  { clear. assert (Hs : successors (start_state [] cn) = []) by done.
    destruct (o_path orc) as [|k path]; [done|]. cbn [climb]. rewrite Hs. cbn [rmapM rbind]. by rewrite lookup_nil. }
  by rewrite Hcl.
Qed.

(** ** Examples *)
Open Scope string_scope.
Definition sx_K : list attr := [AStr "?x"; AStr "?y"].
Definition sx_cn : list attr := [AStr "?o1"; AStr "?o2"].
Definition sx_map (c d : string) : list (attr * attr) := [(AStr "?x", AStr c); (AStr "?y", AStr d)].
Lemma sx_between c d : c <> d -> c = "?x" \/ c = "?o1" \/ c = "?o2" -> d = "?y" \/ d = "?o1" \/ d = "?o2" ->
  mapping_between sx_K sx_cn (sx_map c d).
Proof.
  intros Hne Hc Hd. split.
  - by apply (bool_decide_unpack (NoDup [AStr "?x"; AStr "?y"])); vm_compute.
  - intros o. done.
  - intros o e. unfold sx_map, sx_cn. rewrite !elem_of_cons, !elem_of_nil. intros [[= -> ->]|[[= -> ->]|[]]].
    + destruct Hc as [->|[->| ->]]; auto.
    + destruct Hd as [->|[->| ->]]; auto.
  - intros o o' e. unfold sx_map. rewrite !elem_of_cons, !elem_of_nil.
    intros [E1|[E1|[]]] [E2|[E2|[]]]; inversion E1; inversion E2; subst; congruence.
Qed.

(** Both components matched, then exchanged: reachable; one of them unmatched
    again: never. *)
Lemma ex_C95_reachable :
  (forall x, x ∈ sx_K -> x ∉ sx_cn) /\
  mapping_between sx_K sx_cn (sx_map "?x" "?o2") /\ mapping_between sx_K sx_cn (sx_map "?o2" "?o1") /\
  exists s, visits (start_state (sx_map "?x" "?o2") sx_cn) s /\ same_map (fst s) (sx_map "?o2" "?o1").
Proof.
  assert (Hd : forall x, x ∈ sx_K -> x ∉ sx_cn).
  { intros x. unfold sx_K, sx_cn. rewrite !elem_of_cons, !elem_of_nil. intros [->|[->|[]]]; intros [E|[E|[]]]; discriminate E. }
  assert (H1 : mapping_between sx_K sx_cn (sx_map "?x" "?o2")) by (apply sx_between; auto; discriminate).
  assert (H2 : mapping_between sx_K sx_cn (sx_map "?o2" "?o1")) by (apply sx_between; auto; discriminate).
  split; [done|]. split; [done|]. split; [done|]. apply (C95_reachable sx_K sx_cn); [done..|]. vm_compute. lia.
Qed.
Theorem C95_unmatch_refuted : exists K cn m m', (forall x, x ∈ K -> x ∉ cn) /\
  mapping_between K cn m /\ mapping_between K cn m' /\
  ~ exists s, visits (start_state m cn) s /\ same_map (fst s) m'.
Proof.
  destruct ex_C95_reachable as (Hd & H1 & H2 & _). exists sx_K, sx_cn, (sx_map "?o2" "?o1"), (sx_map "?x" "?o2").
  split; [done|]. split; [done|]. split; [done|]. rewrite (C95_reachable sx_K sx_cn) by done. vm_compute. lia.
Qed.

(** A successor of each kind. *)
Lemma ex_C95_successors :
  exchanged (AStr "?x") (AStr "?y") (sx_map "?x" "?o2") (sx_map "?o2" "?y") /\
  reassigned (AStr "?x") (AStr "?o1") (sx_map "?x" "?o2") (sx_map "?o1" "?o2") /\
  map fst (successors (start_state (sx_map "?x" "?o2") sx_cn)) =
    [sx_map "?o2" "?y"; sx_map "?o1" "?o2"; sx_map "?x" "?o1"].
Proof.
  assert (Hin : forall (o c : attr) a b, (o, c) ∈ sx_map a b <-> (o = AStr "?x" /\ c = AStr a) \/ (o = AStr "?y" /\ c = AStr b)).
  { intros o c a b. unfold sx_map. rewrite !elem_of_cons, elem_of_nil. split.
    - intros [[= -> ->]|[[= -> ->]|[]]]; auto.
    - intros [[-> ->]|[-> ->]]; auto. }
  split; [|split; [|reflexivity]].
  - split; [|split].
    + intros o c N1 N2. rewrite !Hin. tauto.
    + intros [c|]; simpl; rewrite !Hin; [|auto]. intros [[[_ ->]|[[=] _]] H]; done.
    + intros [c|]; simpl; rewrite !Hin.
      * intros [[[[=] _]|[_ ->]] H]. split; [auto|discriminate].
      * intros [[[=] _]|[_ [=]]].
  - split.
    + intros o c N1. rewrite !Hin. tauto.
    + rewrite Hin. auto.
Qed.

Lemma ex_C95_never_unmatched :
  oracle_ok ex_oracle /\ flat_match (fun _ => Ok 0) ex_oracle None (map fst ex_target) ex_base =
    Ok [(AStr "?x", AStr "?o2"); (AStr "?y", AStr "?o3")] /\
  component (map fst ex_target) (AStr "?x") /\ component ex_base (AStr "?o1").
Proof.
  destruct ex_C49 as (H1 & _ & H2 & _). split; [done|]. split; [done|]. split.
  - exists "?x", (rel_a "?x"). split; [done|]. split; [done|]. split; [left|]. by apply avars_mentions; left.
  - exists "?o1", (rel_a "?o1"). split; [done|]. split; [done|]. split; [left|]. by apply avars_mentions; left.
Qed.

Lemma ex_C95_dict_initial :
  flat_match_dict (fun _ => Ok 0) ex_oracle [(AStr "?x", AStr "?o1")] (map fst ex_target) ex_base = Ok [] /\
  flat_match_dict (fun _ => Ok 0) ex_oracle [(AStr "?ball", AStr "?o1")] [rel_a "?ball"] ex_base = Err ValueError /\
  flat_match (fun _ => Ok 0) id_oracle (Some [(AStr "?x", AStr "?o1")]) (map fst ex_target) ex_base = Ok [(AStr "?x", AStr "?o1")].
Proof. split; [reflexivity|]. split; reflexivity. Qed.
