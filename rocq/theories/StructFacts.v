(** * Facts about the structure mapper *)
From stdpp Require Import base decidable list strings sets.
From Coq Require Import Ascii String ZArith.
From Verif Require Import Base PyVal Preproc PreStd StructMap.
Set Default Proof Using "Type".
Open Scope list_scope.

(** ** The search states *)
Section States.
  (** The components of the target and of the base. *)
  Context (K cn : list attr) (Hdisj : forall x, x ∈ K -> x ∉ cn).

  (** A state of the search: the mapping is defined on exactly the components
      [K] of the target, keeps their name or takes one of the base, never the
      same name twice; what is unmapped is exactly the rest of the base. *)
  Record sm_inv (dom : list attr) (s : smstate) : Prop := {
    si_wf : dwf (fst s);
    si_dom : forall o, o ∈ dkeys (fst s) <-> o ∈ dom;
    si_img : forall o c, dget o (fst s) = Some c -> c = o \/ c ∈ cn;
    si_inj : forall o o' c, dget o (fst s) = Some c -> dget o' (fst s) = Some c -> o = o';
    si_rest : forall c, c ∈ snd s <-> c ∈ cn /\ forall o, dget o (fst s) <> Some c;
  }.

  Lemma img_get m o : o ∈ dkeys m -> dget o m = Some (img m o).
  Proof using Type. intros H. unfold img. destruct (dget_key_Some o m H) as [c E]. by rewrite E. Qed.

  Lemma swap_two_get o1 o2 s o : o1 ∈ dkeys (fst s) -> o2 ∈ dkeys (fst s) -> o1 <> o2 ->
    dget o (fst (swap_two o1 o2 s)) =
    if decide (o = o2) then Some (if decide (img (fst s) o1 = o1) then o2 else img (fst s) o1)
    else if decide (o = o1) then Some (if decide (img (fst s) o2 = o2) then o1 else img (fst s) o2)
    else dget o (fst s).
  Proof using Type.
    intros H1 H2 Hne. unfold swap_two. cbn [fst snd].
    destruct (decide (o = o2)) as [->|H].
    - by rewrite dget_dset_eq.
    - rewrite dget_dset_ne by done. destruct (decide (o = o1)) as [->|H'].
      + by rewrite dget_dset_eq.
      + by rewrite dget_dset_ne by done.
  Qed.
  Lemma dset_dom {V} (o : attr) (c : V) m x : o ∈ dkeys m -> x ∈ dkeys (dset o c m) <-> x ∈ dkeys m.
  Proof using Type.
    intros Ho. rewrite elem_of_dkeys_dset. split; [|tauto]. intros [->|?]; done.
  Qed.

  Lemma swap_two_inv dom o1 o2 s : (forall x, x ∈ dom -> x ∈ K) ->
    sm_inv dom s -> o1 ∈ dom -> o2 ∈ dom -> o1 <> o2 -> sm_inv dom (swap_two o1 o2 s).
  Proof using Hdisj.
    intros Hdom [Hwf Hd Hi Hj Hr] H1 H2 Hne.
    assert (G1 := proj2 (Hd o1) H1). assert (G2 := proj2 (Hd o2) H2).
    assert (E1 := img_get _ _ G1). assert (E2 := img_get _ _ G2).
    set (c1 := img (fst s) o1) in *. set (c2 := img (fst s) o2) in *.
    assert (Hg : forall o, dget o (fst (swap_two o1 o2 s)) =
      if decide (o = o2) then Some (if decide (c1 = o1) then o2 else c1)
      else if decide (o = o1) then Some (if decide (c2 = o2) then o1 else c2)
      else dget o (fst s)) by (intros o; by apply swap_two_get).
    assert (Hc12 : c1 <> c2) by (intros E; apply Hne, (Hj o1 o2 c1); [done|by rewrite E]).
    assert (K1 : o1 ∈ K) by auto. assert (K2 : o2 ∈ K) by auto.
    assert (N1 : o1 ∉ cn) by auto. assert (N2 : o2 ∉ cn) by auto.
    assert (Hoth : forall o c, o <> o1 -> o <> o2 -> dget o (fst s) = Some c ->
              c <> o1 /\ c <> o2 /\ c <> c1 /\ c <> c2).
    { intros o c Ho1 Ho2 E. repeat split; intros ->.
      - destruct (Hi _ _ E); congruence.
      - destruct (Hi _ _ E); congruence.
      - apply Ho1, (Hj o o1 c1); done.
      - apply Ho2, (Hj o o2 c2); done. }
    assert (I1 := Hi _ _ E1). assert (I2 := Hi _ _ E2).
    split.
    - unfold swap_two. simpl. by repeat apply dset_wf.
    - intros o. unfold swap_two. cbn [fst]. rewrite dset_dom; [by rewrite dset_dom|].
      by rewrite dset_dom.
    - intros o c. rewrite Hg. destruct (decide (o = o2)) as [->|]; [|destruct (decide (o = o1)) as [->|]].
      + intros [= <-]. destruct (decide (c1 = o1)); [by left|]. right. tauto.
      + intros [= <-]. destruct (decide (c2 = o2)); [by left|]. right. tauto.
      + apply Hi.
    - intros o o' c. rewrite !Hg.
      destruct (decide (o = o2)) as [->|Ho2]; [|destruct (decide (o = o1)) as [->|Ho1]];
      (destruct (decide (o' = o2)) as [->|Ho2']; [|destruct (decide (o' = o1)) as [->|Ho1']]); try done.
      + intros [= <-] [= E]. exfalso. clear Hg.
        destruct (decide (c1 = o1)), (decide (c2 = o2)); destruct I1, I2; congruence.
      + intros [= <-] E. exfalso. destruct (Hoth _ _ Ho1' Ho2' E) as (? & ? & ? & ?).
        by destruct (decide (c1 = o1)).
      + intros [= <-] [= E]. exfalso. clear Hg.
        destruct (decide (c1 = o1)), (decide (c2 = o2)); destruct I1, I2; congruence.
      + intros [= <-] E. exfalso. destruct (Hoth _ _ Ho1' Ho2' E) as (? & ? & ? & ?).
        by destruct (decide (c2 = o2)).
      + intros E [= E']. exfalso. destruct (Hoth _ _ Ho1 Ho2 E) as (? & ? & ? & ?).
        destruct (decide (c1 = o1)); congruence.
      + intros E [= E']. exfalso. destruct (Hoth _ _ Ho1 Ho2 E) as (? & ? & ? & ?).
        destruct (decide (c2 = o2)); congruence.
      + apply Hj.
    - intros c. change (snd (swap_two o1 o2 s)) with (snd s). rewrite Hr. clear Hr.
      split; intros [Hc Hn]; (split; [done|]); intros o E.
      + rewrite Hg in E. destruct (decide (o = o2)) as [->|]; [|destruct (decide (o = o1)) as [->|]].
        * injection E as <-. destruct (decide (c1 = o1)); [done|]. by apply (Hn o1).
        * injection E as <-. destruct (decide (c2 = o2)); [done|]. by apply (Hn o2).
        * by apply (Hn o).
      + destruct (decide (o = o1)) as [->|]; [|destruct (decide (o = o2)) as [->|]].
        * rewrite E1 in E. injection E as <-. apply (Hn o2). rewrite Hg.
          rewrite decide_True by done. rewrite decide_False; [done|]. intros E0. congruence.
        * rewrite E2 in E. injection E as <-. apply (Hn o1). rewrite Hg.
          rewrite decide_False by done. rewrite decide_True by done. rewrite decide_False; [done|]. intros E0. congruence.
        * apply (Hn o). rewrite Hg. by rewrite !decide_False.
  Qed.

  Lemma swap_unnamed_inv dom o1 o2 s : (forall x, x ∈ dom -> x ∈ K) ->
    sm_inv dom s -> o1 ∈ dom -> o2 ∈ snd s -> sm_inv dom (swap_unnamed o1 o2 s).
  Proof using Hdisj.
    intros Hdom [Hwf Hd Hi Hj Hr] H1 H2.
    assert (G1 := proj2 (Hd o1) H1). assert (E1 := img_get _ _ G1).
    set (c1 := img (fst s) o1) in *.
    assert (N1 : o1 ∉ cn) by auto. apply Hr in H2 as [C2 F2].
    assert (I1 := Hi _ _ E1).
    assert (Hg : forall o, dget o (fst (swap_unnamed o1 o2 s)) = if decide (o = o1) then Some o2 else dget o (fst s)).
    { intros o. unfold swap_unnamed. cbn [fst]. destruct (decide (o = o1)) as [->|]; [by rewrite dget_dset_eq|by rewrite dget_dset_ne]. }
    split.
    - unfold swap_unnamed. cbn [fst]. by apply dset_wf.
    - intros o. unfold swap_unnamed. cbn [fst]. by rewrite dset_dom.
    - intros o c. rewrite Hg. destruct (decide (o = o1)) as [->|]; [intros [= <-]; by right|apply Hi].
    - intros o o' c. rewrite !Hg. destruct (decide (o = o1)) as [->|], (decide (o' = o1)) as [->|]; try done.
      + intros [= <-] E. by destruct (F2 _ E).
      + intros E [= <-]. by destruct (F2 _ E).
      + apply Hj.
    - intros c. unfold swap_unnamed. cbn [snd fst]. fold c1.
      assert (Hf : forall c, c ∈ List.filter (fun c => bool_decide (c <> o2)) (snd s) <-> c <> o2 /\ c ∈ snd s).
      { intros x. rewrite elem_of_list_In, List.filter_In, <- elem_of_list_In, bool_decide_eq_true. tauto. }
      assert (Hc : c ∈ (if decide (c1 = o1) then List.filter (fun c => bool_decide (c <> o2)) (snd s)
                        else c1 :: List.filter (fun c => bool_decide (c <> o2)) (snd s)) <->
                   (c <> o2 /\ c ∈ snd s) \/ (c = c1 /\ c1 <> o1)).
      { destruct (decide (c1 = o1)) as [e|n].
        - rewrite Hf. split; [by left|]. intros [?|[_ ?]]; done.
        - rewrite elem_of_cons, Hf. tauto. }
      rewrite Hc, Hr. clear Hc Hf Hr. split.
      + intros [[Hne [Hc Hn]]|[-> Hn]].
        * split; [done|]. intros o. change (dset o1 o2 (fst s)) with (fst (swap_unnamed o1 o2 s)).
          rewrite Hg. destruct (decide (o = o1)); [congruence|apply Hn].
        * destruct I1 as [?|I1]; [done|]. split; [done|]. intros o.
          change (dset o1 o2 (fst s)) with (fst (swap_unnamed o1 o2 s)). rewrite Hg.
          destruct (decide (o = o1)) as [->|Ho].
          -- intros [= ->]. by apply (F2 o1).
          -- intros E. by apply Ho, (Hj o o1 c1).
      + intros [Hc Hn].
        assert (Hne : c <> o2).
        { intros ->. apply (Hn o1). by rewrite dget_dset_eq. }
        destruct (decide (c = c1)) as [->|Hc1].
        * right. split; [done|]. intros E. by rewrite E in Hc.
        * left. split; [done|]. split; [done|]. intros o E. destruct (decide (o = o1)) as [->|Ho].
          -- congruence.
          -- apply (Hn o). by rewrite dget_dset_ne.
  Qed.

  Lemma pairs_in x y (l : list attr) : NoDup l -> (x, y) ∈ pairs l -> x ∈ l /\ y ∈ l /\ x <> y.
  Proof using Type.
    induction 1 as [|z l Hz Hl IH]; simpl; [by intros ?%elem_of_nil|].
    intros [H|H]%elem_of_app.
    - apply elem_of_list_fmap in H as (w & [= -> ->] & H). split; [left|]. split; [by right|]. by intros ->.
    - destruct (IH H) as (? & ? & ?). repeat split; try done; by right.
  Qed.

  Lemma successors_inv dom s s' : (forall x, x ∈ dom -> x ∈ K) -> sm_inv dom s -> s' ∈ successors s -> sm_inv dom s'.
  Proof using Hdisj.
    intros Hdom Hs Hin. unfold successors in Hin. apply elem_of_app in Hin as [H|H].
    - apply elem_of_list_In, in_flat_map in H as ([x y] & H & H').
      apply elem_of_list_In in H. apply pairs_in in H as (Hx & Hy & Hne); [|apply Hs].
      cbn [fst snd] in H'. destruct (_ || _) eqn:Eb in H'; [done|].
      destruct H' as [<-|[]]. apply swap_two_inv; try done; by apply Hs.
    - apply elem_of_list_In, in_flat_map in H as (o & Ho & H').
      apply in_map_iff in H' as (o2 & <- & H2).
      apply elem_of_list_In in Ho, H2. apply swap_unnamed_inv; try done. by apply Hs.
  Qed.

  Lemma climb_inv {F} (cost : list (attr * attr) -> res F) dom path : (forall x, x ∈ dom -> x ∈ K) ->
    forall s s', sm_inv dom s -> climb cost path s = Ok s' -> sm_inv dom s'.
  Proof using Hdisj.
    intros Hdom. induction path as [|k path IH]; intros s s' Hs E; simpl in E.
    - by injection E as <-.
    - destruct (rmapM _ _) as [cs|]; [|done]. cbn [rbind] in E.
      destruct (successors s !! k) as [s1|] eqn:E1; [|by injection E as <-].
      apply (IH s1); [|done]. eapply successors_inv; [done|done|]. by eapply elem_of_list_lookup_2.
  Qed.

  (** The starting state for an injective assignment. *)
  Lemma start_inv dom m : dwf m -> (forall o, o ∈ dkeys m <-> o ∈ dom) ->
    (forall o c, dget o m = Some c -> c = o \/ c ∈ cn) ->
    (forall o o' c, dget o m = Some c -> dget o' m = Some c -> o = o') ->
    sm_inv dom (start_state m cn).
  Proof using Type.
    intros Hw Hd Hi Hj. split; try done. intros c. unfold start_state. cbn [fst snd].
    rewrite elem_of_list_In, List.filter_In, <- elem_of_list_In, bool_decide_eq_true.
    split; intros [Hc Hn]; (split; [done|]).
    - intros o E. apply Hn. apply dget_In in E. unfold dvals. apply elem_of_list_fmap. by exists (o, c).
    - intros Hin. unfold dvals in Hin. apply elem_of_list_fmap in Hin as ([o c'] & E & Hin). simpl in E. subst c'.
      apply (Hn o). by apply In_dget.
  Qed.
End States.

(** ** What the oracles may answer *)
(** A complete assignment for a cost matrix with [r] rows of [w] columns:
    every row once, no column twice. *)
Definition assignment (r w : nat) (l : list (nat * nat)) : Prop :=
  NoDup (map fst l) /\ (forall i, i ∈ map fst l <-> i < r) /\
  NoDup (map snd l) /\ (forall j, j ∈ map snd l -> j < w).
Record oracle_ok {F} (orc : oracle F) : Prop := {
  oo_enum : forall l, Permutation (o_enum orc l) l;
  oo_munkres : forall (rows : list (list (option F))) w,
    Forall (fun r => List.length r = w) rows -> List.length rows <= w ->
    assignment (List.length rows) w (o_munkres orc rows);
}.

Lemma rmapM_length {A B} (f : A -> res B) l l' : rmapM f l = Ok l' -> List.length l' = List.length l.
Proof.
  revert l'. induction l as [|x l IH]; intros l' E; simpl in E.
  - by injection E as <-.
  - destruct (f x); [|done]. simpl in E. destruct (rmapM f l) as [ys|]; [|done]. simpl in E.
    injection E as <-. simpl. by rewrite (IH ys).
Qed.
Lemma rmapM_Forall {A B} (f : A -> res B) (P : B -> Prop) l l' :
  rmapM f l = Ok l' -> (forall x y, x ∈ l -> f x = Ok y -> P y) -> Forall P l'.
Proof.
  revert l'. induction l as [|x l IH]; intros l' E H; simpl in E.
  - injection E as <-. constructor.
  - destruct (f x) as [y|] eqn:Ef; [|done]. simpl in E. destruct (rmapM f l) as [ys|]; [|done]. simpl in E.
    injection E as <-. constructor; [apply (H x); [left|done]|]. apply IH; [done|].
    intros z w Hz. apply H. by right.
Qed.

Section Hung.
  Context {F : Type} (cost : list (attr * attr) -> res F) (orc : oracle F) (Horc : oracle_ok orc).
  Context (K cn : list attr) (HK : NoDup K) (Hcn : NoDup cn) (Hdisj : forall x, x ∈ K -> x ∉ cn).

  Lemma hungarian_ok m : hungarian_mapping cost orc K cn = Ok m ->
    dwf m /\ (forall o, o ∈ dkeys m <-> o ∈ K) /\
    (forall o c, dget o m = Some c -> c = o \/ c ∈ cn) /\
    (forall o o' c, dget o m = Some c -> dget o' m = Some c -> o = o').
  Proof using Horc HK Hcn Hdisj.
    unfold hungarian_mapping. intros E.
    set (cl := o_enum orc cn) in *. set (il := o_enum orc K) in *.
    assert (Pc : Permutation cl cn) by apply (oo_enum _ Horc).
    assert (Pi : Permutation il K) by apply (oo_enum _ Horc).
    assert (Nc : NoDup cl) by (by rewrite Pc). assert (Ni : NoDup il) by (by rewrite Pi).
    destruct (rmapM (hungarian_row cost cl il) il) as [rows|] eqn:Er; [|done]. cbn [rbind] in E.
    assert (Ha : assignment (List.length rows) (List.length cl + List.length il) (o_munkres orc rows)).
    { apply (oo_munkres _ Horc).
      - eapply rmapM_Forall; [exact Er|]. intros o r _ Hr. unfold hungarian_row in Hr.
        destruct (rmapM (fun c => cost [(o, c)]) cl) as [x|] eqn:Ex; [|done]. cbn [rbind] in Hr.
        destruct (cost []); [|done]. cbn [rbind] in Hr. injection Hr as <-.
        rewrite List.app_length, !List.map_length. by rewrite (rmapM_length _ _ _ Ex).
      - rewrite (rmapM_length _ _ _ Er). lia. }
    rewrite (rmapM_length _ _ _ Er) in Ha. clear Er. destruct Ha as (A1 & A2 & A3 & A4).
    revert E. generalize dependent (o_munkres orc rows). intros l A1 A2 A3 A4 E. clear rows.
    (* walk along the assignment *)
    assert (Hgen : forall l m0 m, NoDup (map fst l) -> NoDup (map snd l) ->
      rfold (hungarian_entry cl il) m0 l = Ok m -> dwf m0 ->
      (forall i j o, (i, j) ∈ l -> il !! i = Some o -> o ∉ dkeys m0) ->
      (forall o c, dget o m0 = Some c -> o ∈ K /\ (c = o \/ c ∈ cn)) ->
      (forall i j c o, (i, j) ∈ l -> cl !! j = Some c -> dget o m0 <> Some c) ->
      (forall o o' c, dget o m0 = Some c -> dget o' m0 = Some c -> o = o') ->
      dwf m /\ (forall o, o ∈ dkeys m <-> o ∈ dkeys m0 \/ exists i j, (i, j) ∈ l /\ il !! i = Some o) /\
      (forall o c, dget o m = Some c -> o ∈ K /\ (c = o \/ c ∈ cn)) /\
      (forall o o' c, dget o m = Some c -> dget o' m = Some c -> o = o')).
    { clear A1 A2 A3 A4 E m l. induction l as [|[i j] l IH]; intros m0 m L1 L2 E W0 D0 I0 U0 J0.
      - injection E as <-. repeat split; try done.
        + intros H. by left.
        + intros [H|(? & ? & H & _)]; [done|by apply elem_of_nil in H].
        + by destruct (I0 o c H).
        + by destruct (I0 o c H).
      - apply NoDup_cons in L1 as [L1 L1']. apply NoDup_cons in L2 as [L2 L2'].
        cbn [rfold] in E. unfold hungarian_entry in E at 1. cbn [fst snd] in *.
        destruct (il !! i) as [o|] eqn:Eo; [|done].
        assert (Ho : o ∉ dkeys m0) by (apply (D0 i j o); [left|done]).
        assert (HoK : o ∈ K). { rewrite <- Pi. by eapply elem_of_list_lookup_2. }
        set (c := if (List.length cl <=? j)%nat then o else match cl !! j with Some c => c | None => o end).
        assert (Ec : rfold (hungarian_entry cl il) (dset o c m0) l = Ok m /\ (c = o \/ (cl !! j = Some c /\ c ∈ cn))).
        { unfold c. destruct (Nat.leb_spec (List.length cl) j) as [Hj|Hj]; cbn [rbind] in E; [by split; [|left]|].
          destruct (cl !! j) as [c0|] eqn:Ej; [|done]. cbn [rbind] in E. split; [done|]. right. split; [done|].
          rewrite <- Pc. by eapply elem_of_list_lookup_2. }
        destruct Ec as [Ef Hc].
        assert (Hfree : forall o', dget o' m0 <> Some c).
        { intros o' Eo'. destruct Hc as [->|[Ej Hc]].
          - destruct (I0 _ _ Eo') as [_ [->|Hx]]; [|by apply (Hdisj o)].
            apply Ho. by eapply dget_Some_key.
          - apply (U0 i j c o'); [left|done|done]. }
        destruct (IH (dset o c m0) m L1' L2' Ef) as (R1 & R2 & R3 & R4).
        + by apply dset_wf.
        + intros i' j' o' Hin Eo' Hk. apply elem_of_dkeys_dset in Hk as [->|Hk].
          * apply L1. apply elem_of_list_fmap. exists (i', j'). split; [|done]. simpl.
            eapply (NoDup_lookup il); [done|exact Eo|exact Eo'].
          * apply (D0 i' j' o'); [by right|done|done].
        + intros o' c' Eo'. destruct (decide (o' = o)) as [->|Hne].
          * rewrite dget_dset_eq in Eo'. injection Eo' as <-. split; [done|]. destruct Hc as [->|[_ ?]]; [by left|by right].
          * rewrite dget_dset_ne in Eo' by done. by apply I0.
        + intros i' j' c' o' Hin Ec' Eo'. destruct (decide (o' = o)) as [->|Hne].
          * rewrite dget_dset_eq in Eo'. injection Eo' as ->. destruct Hc as [->|[Ej Hc]].
            -- apply (Hdisj o); [done|]. rewrite <- Pc. by eapply elem_of_list_lookup_2.
            -- apply L2. apply elem_of_list_fmap. exists (i', j'). split; [|done]. simpl.
               eapply (NoDup_lookup cl); [done|exact Ej|exact Ec'].
          * rewrite dget_dset_ne in Eo' by done. apply (U0 i' j' c' o'); [by right|done|done].
        + intros o1 o2 c' E1 E2.
          destruct (decide (o1 = o)) as [->|N1], (decide (o2 = o)) as [->|N2]; try done.
          * rewrite dget_dset_eq in E1. injection E1 as <-. rewrite dget_dset_ne in E2 by done. by destruct (Hfree o2).
          * rewrite dget_dset_eq in E2. injection E2 as <-. rewrite dget_dset_ne in E1 by done. by destruct (Hfree o1).
          * rewrite dget_dset_ne in E1, E2 by done. by apply (J0 o1 o2 c').
        + split; [done|]. split; [|done]. intros o'. rewrite R2, elem_of_dkeys_dset. split.
          * intros [[->|H]|(i' & j' & Hin & Eo')].
            -- right. exists i, j. split; [left|done].
            -- by left.
            -- right. exists i', j'. split; [by right|done].
          * intros [H|(i' & j' & Hin & Eo')].
            -- left. by right.
            -- apply elem_of_cons in Hin as [[= -> ->]|Hin].
               ++ left. left. congruence.
               ++ right. by exists i', j'. }
    destruct (Hgen l [] m A1 A3 E) as (R1 & R2 & R3 & R4).
    - apply dwf_nil.
    - by intros i j o _ _ ?%elem_of_nil.
    - done.
    - done.
    - done.
    - split; [done|]. split; [|split; [|done]].
      + intros o. rewrite R2. split.
        * intros [H|(i & j & _ & H)]; [by apply elem_of_nil in H|]. rewrite <- Pi. by eapply elem_of_list_lookup_2.
        * intros H. right. rewrite <- Pi in H. apply elem_of_list_lookup in H as (i & Hi).
          assert (Hin : i ∈ map fst l) by (apply A2; by eapply lookup_lt_Some).
          apply elem_of_list_fmap in Hin as ([i' j] & E' & Hin). simpl in E'. subst i'. by exists i, j.
      + intros o c H. by destruct (R3 o c H).
  Qed.
End Hung.

(** ** Component names *)
Lemma attr_comps_inv a cs : attr_comps a = Ok cs ->
  Forall (fun b => exists v, b = AStr v /\ is_var v = true) cs /\ (forall v, AStr v ∈ cs <-> v ∈ avars a) /\
  match a with AStr s => s <> ""%string | _ => tup_ok a = true end.
Proof.
  destruct a as [s|l|z]; intros E; [| |done].
  - destruct s as [|c s]; [done|]. simpl in E. injection E as <-. unfold is_var, head_is. simpl.
    destruct (Ascii.eqb c "?") eqn:Ec.
    + split; [|split; [|done]].
      * constructor; [|constructor]. eexists. split; [done|]. simpl. by rewrite Ec.
      * intros v. rewrite !elem_of_list_singleton. split; [by intros [= ->]|by intros ->].
    + split; [constructor|]. split; [|done]. intros v. split; by intros ?%elem_of_nil.
  - assert (Ht : tup_ok (ATup l) = true).
    { assert (H : forall a, (forall cs, attr_comps a = Ok cs -> match a with ATup _ => tup_ok a = true | _ => True end)).
      { clear. intros a. induction a as [v|l IH|z] using attr_ind'; try done.
        intros cs. revert cs. induction IH as [|a l Ha Hl IHl]; intros cs E; [done|].
        cbn [attr_comps] in E.
        destruct (match a with ATup _ => attr_comps a | AStr s => Ok (if is_var s then [a] else []) | ANum _ => Err TypeError end) as [c|] eqn:E1; [|done].
        cbn [rbind] in E.
        match type of E with (let? _ := ?x in _) = _ => destruct x as [r|] eqn:E2; [|done] end.
        specialize (IHl r). cbn [attr_comps] in IHl. specialize (IHl E2). simpl in IHl |- *. rewrite IHl, andb_true_r.
        destruct a as [s|m|z]; [done| |done]. by apply (Ha c). }
      by apply (H (ATup l) cs). }
    destruct (attr_comps_ok l Ht) as (cs' & E' & H1 & H2). rewrite E' in E. injection E as <-. done.
Qed.

(** The variables of the attributes. *)
Definition kvars (keys : list attr) (v : string) : Prop := exists a, a ∈ keys /\ v ∈ avars a.

Lemma comp_names_spec keys ns : comp_names keys = Ok ns ->
  NoDup ns /\ (forall b, b ∈ ns <-> exists v, b = AStr v /\ kvars keys v).
Proof.
  unfold comp_names. destruct (rmapM attr_comps keys) as [l|] eqn:E; [|done]. cbn [rbind]. intros [= <-].
  split; [apply NoDup_remove_dups|]. intros b. rewrite elem_of_remove_dups.
  revert l E. induction keys as [|a keys IH]; intros l E; simpl in E.
  - injection E as <-. simpl. split; [by intros ?%elem_of_nil|]. intros (v & _ & a & H & _). by apply elem_of_nil in H.
  - destruct (attr_comps a) as [cs|] eqn:Ea; [|done]. simpl in E.
    destruct (rmapM attr_comps keys) as [ls|]; [|done]. simpl in E. injection E as <-.
    cbn [List.concat]. rewrite elem_of_app, (IH ls eq_refl). destruct (attr_comps_inv a cs Ea) as (H1 & H2 & _).
    split.
    + intros [H|(v & -> & a' & Ha' & Hv)].
      * rewrite Forall_forall in H1. destruct (H1 b H) as (v & -> & _). exists v. split; [done|].
        exists a. split; [left|]. by apply H2.
      * exists v. split; [done|]. exists a'. split; [by right|done].
    + intros (v & -> & a' & Ha' & Hv). apply elem_of_cons in Ha' as [->|Ha'].
      * left. by apply H2.
      * right. exists v. split; [done|]. by exists a'.
Qed.

Lemma kvars_var keys v : kvars keys v -> is_var v = true.
Proof.
  intros (a & _ & Hv). induction a as [s|l IH|z] using attr_ind'; simpl in Hv.
  - destruct (is_var s) eqn:E; [|by apply elem_of_nil in Hv]. by apply elem_of_list_singleton in Hv as ->.
  - apply elem_of_list_In, in_flat_map in Hv as (x & Hx & Hv). apply elem_of_list_In in Hx, Hv.
    rewrite Forall_forall in IH. by apply (IH x).
  - by apply elem_of_nil in Hv.
Qed.

(** ** The mapping that is returned *)
(** A mapping of variables to variables, injective on the target's, to
    themselves or to the base's. *)
Record map_ok (T B : string -> Prop) (m : list (attr * attr)) : Prop := {
  mo_wf : dwf m;
  mo_get : forall o c, dget o m = Some c -> exists v w, o = AStr v /\ c = AStr w /\ T v /\ (w = v \/ B w);
  mo_inj : forall o o' c, dget o m = Some c -> dget o' m = Some c -> o = o';
}.

Lemma flat_match_ok {F} (cost : list (attr * attr) -> res F) orc tkeys bkeys m : oracle_ok orc ->
  flat_match cost orc None tkeys bkeys = Ok m ->
  map_ok (kvars tkeys) (kvars bkeys) m /\
  (m = [] \/ (forall v, kvars tkeys v -> ~ kvars bkeys v) /\ (forall v, kvars tkeys v -> AStr v ∈ dkeys m)) /\
  ((exists v w, kvars tkeys v /\ kvars bkeys w) -> forall v, kvars tkeys v -> AStr v ∈ dkeys m).
Proof.
  intros Ho. unfold flat_match.
  destruct (comp_names tkeys) as [inn|] eqn:Ei; [|done]. destruct (comp_names bkeys) as [cn|] eqn:Ec; [|done].
  cbn [rbind]. destruct (comp_names_spec _ _ Ei) as [Ni Si]. destruct (comp_names_spec _ _ Ec) as [Nc Sc].
  destruct (bool_decide (inn = []) || bool_decide (cn = [])) eqn:Eb.
  { intros [= <-]. split; [split; [apply dwf_nil|done|done]|]. split; [by left|].
    intros (v & w & Hv & Hw). apply orb_true_iff in Eb as [Eb|Eb]; apply bool_decide_eq_true in Eb; subst.
    - assert (H : AStr v ∈ @nil attr) by (apply Si; eauto). by apply elem_of_nil in H.
    - assert (H : AStr w ∈ @nil attr) by (apply Sc; eauto). by apply elem_of_nil in H. }
  destruct (existsb _ inn) eqn:Ee; [done|].
  assert (Hdisj : forall x, x ∈ inn -> x ∉ cn).
  { intros x Hx Hc. assert (existsb (fun o => bool_decide (o ∈ cn)) inn = true); [|congruence].
    apply existsb_exists. exists x. split; [by apply elem_of_list_In|]. by apply bool_decide_eq_true. }
  destruct (hungarian_mapping cost orc inn cn) as [m0|] eqn:Em; [|done]. cbn [rbind].
  destruct (cost m0); [|done]. cbn [rbind].
  destruct (climb cost (o_path orc) (start_state m0 cn)) as [s|] eqn:Es; [|done]. cbn [rbind]. intros [= <-].
  destruct (hungarian_ok cost orc Ho inn cn Ni Nc Hdisj m0 Em) as (H1 & H2 & H3 & H4).
  assert (Hs : sm_inv cn inn s).
  { eapply (climb_inv inn cn Hdisj cost); [done| |exact Es]. by apply start_inv. }
  assert (Hdom : forall v, kvars tkeys v -> AStr v ∈ dkeys (fst s)).
  { intros v Hv. apply (si_dom _ _ _ Hs). apply Si. eauto. }
  split; [|split; [right; split; [|done]|done]].
  - split; [apply Hs| |apply Hs]. intros o c E.
    assert (Hk : o ∈ inn) by (apply (si_dom _ _ _ Hs); by eapply dget_Some_key).
    apply Si in Hk as (v & -> & Hv). destruct (si_img _ _ _ Hs _ _ E) as [->|Hc].
    + exists v, v. auto.
    + apply Sc in Hc as (w & -> & Hw). exists v, w. auto.
  - intros v Hv Hw. apply (Hdisj (AStr v)); [apply Si|apply Sc]; eauto.
Qed.

(** ** Renaming *)
Section Rename.
  Context (m : list (attr * attr)) (Hs : forall o c, dget o m = Some c -> exists v w, o = AStr v /\ c = AStr w /\ is_var v = true).

  Lemma ren_elem_fm a : ren_elem m a = arename (fm m) a.
  Proof using Hs.
    induction a as [v|l IH|z] using attr_ind'; simpl.
    - unfold fm. destruct (dget (AStr v) m) as [c|] eqn:E.
      + destruct (Hs _ _ E) as (v' & w & [= <-] & -> & ->). done.
      + by destruct (is_var v).
    - destruct (dget (ATup l) m) as [c|] eqn:E; [by destruct (Hs _ _ E) as (? & ? & ? & _)|].
      f_equal. clear E. induction IH as [|a l Ha Hl IHl]; simpl; [done|]. by rewrite Ha, IHl.
    - destruct (dget (ANum z) m) as [c|] eqn:E; [by destruct (Hs _ _ E) as (? & ? & ? & _)|done].
  Qed.
  Lemma flat_name_fm a : flat_name m a = arename (fm m) a.
  Proof using Hs.
    unfold flat_name. destruct a as [v|l|z]; simpl.
    - unfold fm. destruct (dget (AStr v) m) as [c|] eqn:E.
      + destruct (Hs _ _ E) as (v' & w & [= <-] & -> & ->). done.
      + by destruct (is_var v).
    - destruct (dget (ATup l) m) as [c|] eqn:E; [by destruct (Hs _ _ E) as (? & ? & ? & _)|].
      f_equal. apply map_ext. apply ren_elem_fm.
    - destruct (dget (ANum z) m) as [c|] eqn:E; [by destruct (Hs _ _ E) as (? & ? & ? & _)|done].
  Qed.
  Lemma rename_flat_map {V} (d : list (attr * V)) : NoDup (map (arename (fm m)) (dkeys d)) ->
    rename_flat m d = map (fun e => (arename (fm m) (fst e), snd e)) d.
  Proof using Hs.
    intros Hn. unfold rename_flat.
    rewrite (fold_dset_app (flat_name m) snd d []).
    - simpl. apply map_ext. intros [a v]. simpl. by rewrite flat_name_fm.
    - simpl. unfold dkeys in Hn. rewrite map_map in Hn. erewrite map_ext; [exact Hn|].
      intros [a v]. simpl. apply flat_name_fm.
  Qed.
End Rename.

Lemma arename_comp f g a : (forall v, v ∈ avars a -> is_var (f v) = true) ->
  arename g (arename f a) = arename (fun v => g (f v)) a.
Proof.
  induction a as [v|l IH|z] using attr_ind'; intros Hv; simpl; [|f_equal|done].
  - simpl in Hv. destruct (is_var v) eqn:E; simpl; [|by rewrite E]. by rewrite (Hv v ltac:(left)).
  - induction IH as [|a l Ha Hl IHl]; simpl in *; [done|]. f_equal.
    + apply Ha. intros v Hin. apply Hv. apply elem_of_app. by left.
    + apply IHl. intros v Hin. apply Hv. apply elem_of_app. by right.
Qed.
Lemma arename_id_on f a : (forall v, v ∈ avars a -> f v = v) -> arename f a = a.
Proof.
  induction a as [v|l IH|z] using attr_ind'; intros Hv; simpl; [|f_equal|done].
  - simpl in Hv. destruct (is_var v) eqn:E; [|done]. by rewrite (Hv v ltac:(left)).
  - induction IH as [|a l Ha Hl IHl]; simpl in *; [done|]. f_equal.
    + apply Ha. intros v Hin. apply Hv. apply elem_of_app. by left.
    + apply IHl. intros v Hin. apply Hv. apply elem_of_app. by right.
Qed.
Lemma avars_arename f a v : (forall u, u ∈ avars a -> is_var (f u) = true) ->
  v ∈ avars (arename f a) <-> exists u, u ∈ avars a /\ v = f u.
Proof.
  induction a as [s|l IH|z] using attr_ind'; intros Hf; simpl.
  - simpl in Hf. destruct (is_var s) eqn:E; simpl.
    + rewrite (Hf s ltac:(left)). rewrite elem_of_list_singleton. split.
      * intros ->. exists s. split; [left|done].
      * intros (u & Hu & ->). by apply elem_of_list_singleton in Hu as ->.
    + rewrite E. split; [by intros ?%elem_of_nil|]. intros (u & Hu & _). by apply elem_of_nil in Hu.
  - induction IH as [|a l Ha Hl IHl]; simpl in *.
    + split; [by intros ?%elem_of_nil|]. intros (u & Hu & _). by apply elem_of_nil in Hu.
    + rewrite elem_of_app, Ha, IHl.
      * split.
        -- intros [(u & Hu & ->)|(u & Hu & ->)]; exists u; rewrite elem_of_app; auto.
        -- intros (u & Hu & ->). apply elem_of_app in Hu as [Hu|Hu]; eauto.
      * intros u Hu. apply Hf. apply elem_of_app. by right.
      * intros u Hu. apply Hf. apply elem_of_app. by left.
  - split; [by intros ?%elem_of_nil|]. intros (u & Hu & _). by apply elem_of_nil in Hu.
Qed.

(** The reverse mapping. *)
Lemma reverse_get m : dwf m -> (forall o o' c, dget o m = Some c -> dget o' m = Some c -> o = o') ->
  reverse_mapping m = map (fun e => (snd e, fst e)) m /\
  dwf (reverse_mapping m) /\ forall o c, dget c (reverse_mapping m) = Some o <-> dget o m = Some c.
Proof.
  intros Hw Hj.
  assert (Hn : NoDup (map snd m)).
  { clear -Hw Hj. induction m as [|[o c] m IH]; [constructor|]. apply dwf_cons in Hw as [Ho Hw]. simpl.
    apply NoDup_cons. split.
    - intros Hin. apply elem_of_list_fmap in Hin as ([o' c'] & E & Hin). simpl in E. subst c'.
      assert (Hin' : dget o' m = Some c) by (by apply In_dget).
      assert (o' <> o). { intros ->. apply Ho. by eapply dget_Some_key. }
      assert (o = o'); [|congruence]. apply (Hj o o' c); simpl; [by rewrite decide_True|by rewrite decide_False].
    - apply IH; [done|]. intros a b x Ea Eb. apply (Hj a b x); simpl; rewrite decide_False; try done.
      + intros ->. apply Ho. by eapply dget_Some_key.
      + intros ->. apply Ho. by eapply dget_Some_key. }
  assert (E : reverse_mapping m = map (fun e => (snd e, fst e)) m) by (by apply swap_map).
  assert (Hr : dwf (map (fun e : attr * attr => (snd e, fst e)) m)).
  { unfold dwf, dkeys. by rewrite map_map. }
  split; [done|]. rewrite E. split; [done|]. intros o c. split; intros H.
  - apply dget_In in H. apply elem_of_list_fmap in H as ([o' c'] & [= -> ->] & H). by apply In_dget.
  - apply In_dget; [done|]. apply elem_of_list_fmap. exists (o, c). split; [done|]. by apply dget_In.
Qed.

Section RoundTrip.
  Context (T B : string -> Prop) (m : list (attr * attr)) (Hm : map_ok T B m).
  Context (HT : forall v, T v -> is_var v = true) (HB : forall v, B v -> is_var v = true).
  (** The target's names stay clear of the base's, unless nothing is renamed. *)
  Context (Hdisj : m = [] \/ (forall v, T v -> ~ B v) /\ (forall v, T v -> AStr v ∈ dkeys m)).

  Lemma map_strs : forall o c, dget o m = Some c -> exists v w, o = AStr v /\ c = AStr w /\ is_var v = true.
  Proof using Hm HT. intros o c E. destruct (mo_get _ _ _ Hm _ _ E) as (v & w & -> & -> & Hv & _). eauto 10. Qed.
  Lemma rev_strs : forall o c, dget o (reverse_mapping m) = Some c -> exists v w, o = AStr v /\ c = AStr w /\ is_var v = true.
  Proof using Hm HT HB.
    intros o c E. apply (reverse_get m (mo_wf _ _ _ Hm) (mo_inj _ _ _ Hm)) in E.
    destruct (mo_get _ _ _ Hm _ _ E) as (v & w & -> & -> & Hv & Hw). exists w, v.
    split; [done|]. split; [done|]. destruct Hw as [->|?]; auto.
  Qed.
  Lemma fm_target v : T v -> is_var (fm m v) = true /\ fm (reverse_mapping m) (fm m v) = v /\
    (fm m v = v \/ B (fm m v)).
  Proof using Hm HT HB Hdisj.
    intros Hv. destruct (reverse_get m (mo_wf _ _ _ Hm) (mo_inj _ _ _ Hm)) as (Er & Hrw & Hr).
    destruct Hdisj as [->|[Hd Hk]].
    - simpl. split; [|split; [done|by left]]. by apply HT.
    - destruct (dget_key_Some _ _ (Hk v Hv)) as [c E].
      destruct (mo_get _ _ _ Hm _ _ E) as (v' & w & [= <-] & -> & _ & Hw).
      assert (Ef : fm m v = w) by (unfold fm; by rewrite E). rewrite Ef. split; [|split; [|done]].
      + destruct Hw as [->|?]; auto.
      + unfold fm. apply Hr in E. by rewrite E.
  Qed.
  Lemma fm_inj_T u v : T u -> T v -> fm m u = fm m v -> u = v.
  Proof using Hm HT HB Hdisj.
    intros Hu Hv E. destruct (fm_target u Hu) as (_ & E1 & _). destruct (fm_target v Hv) as (_ & E2 & _).
    rewrite <- E1, <- E2. by rewrite E.
  Qed.

  Lemma rename_target {V} (d : list (attr * V)) : dwf d -> (forall a v, a ∈ dkeys d -> v ∈ avars a -> T v) ->
    rename_flat m d = map (fun e => (arename (fm m) (fst e), snd e)) d /\ dwf (rename_flat m d).
  Proof using Hm HT HB Hdisj.
    intros Hd Ht.
    assert (Hn : NoDup (map (arename (fm m)) (dkeys d))).
    { apply NoDup_map_inj_on; [done|]. intros a b Ha Hb. apply arename_inj.
      - intros u v Hu Hv. apply fm_inj_T; eauto.
      - intros u Hu. destruct (fm_target u) as (? & _); eauto.
      - intros u Hu. destruct (fm_target u) as (? & _); eauto. }
    assert (E : rename_flat m d = map (fun e => (arename (fm m) (fst e), snd e)) d).
    { apply rename_flat_map; [apply map_strs|done]. }
    split; [done|]. rewrite E. unfold dwf, dkeys in *. rewrite map_map in *. done.
  Qed.

  (** Undoing a renamed target, in whatever order its attributes come. *)
  Lemma undo_target {V} (d e : list (attr * V)) : dwf d -> (forall a v, a ∈ dkeys d -> v ∈ avars a -> T v) ->
    Permutation e (rename_flat m d) -> Permutation (rename_flat (reverse_mapping m) e) d.
  Proof using Hm HT HB Hdisj.
    intros Hd Ht HP. destruct (rename_target d Hd Ht) as [E Hw]. rewrite E in HP.
    apply Permutation_map_inv in HP as (d' & -> & HP).
    assert (Ht' : forall a v, a ∈ dkeys d' -> v ∈ avars a -> T v).
    { intros a v Ha. apply Ht. unfold dkeys in *. by rewrite HP. }
    assert (Hd' : dwf d'). { unfold dwf, dkeys in *. by rewrite <- HP. }
    assert (Hb : forall a, a ∈ dkeys d' -> arename (fm (reverse_mapping m)) (arename (fm m) a) = a).
    { intros a Ha. rewrite arename_comp.
      - apply arename_id_on. intros v Hv. destruct (fm_target v) as (_ & ? & _); eauto.
      - intros v Hv. destruct (fm_target v) as (? & _); eauto. }
    rewrite rename_flat_map.
    - rewrite map_map. simpl. rewrite HP.
      assert (Em : map (fun x : attr * V => (arename (fm (reverse_mapping m)) (arename (fm m) x.1), x.2)) d' = d').
      { rewrite <- (map_id d') at 2. apply map_ext_in. intros [a v] Hin. simpl. f_equal. apply Hb.
        apply elem_of_list_In in Hin. unfold dkeys. apply elem_of_list_fmap. by exists (a, v). }
      by rewrite Em.
    - apply rev_strs.
    - unfold dkeys. rewrite !map_map. simpl.
      assert (Em : map (fun x : attr * V => arename (fm (reverse_mapping m)) (arename (fm m) x.1)) d' = dkeys d').
      { unfold dkeys. apply map_ext_in. intros [a v] Hin. simpl. apply Hb.
        apply elem_of_list_In in Hin. unfold dkeys. apply elem_of_list_fmap. by exists (a, v). }
      by rewrite Em.
  Qed.
  Lemma undo_target_eq {V} (d : list (attr * V)) : dwf d -> (forall a v, a ∈ dkeys d -> v ∈ avars a -> T v) ->
    rename_flat (reverse_mapping m) (rename_flat m d) = d.
  Proof using Hm HT HB Hdisj.
    intros Hd Ht. destruct (rename_target d Hd Ht) as [E Hw].
    assert (Hb : forall a, a ∈ dkeys d -> arename (fm (reverse_mapping m)) (arename (fm m) a) = a).
    { intros a Ha. rewrite arename_comp.
      - apply arename_id_on. intros v Hv. destruct (fm_target v) as (_ & ? & _); eauto.
      - intros v Hv. destruct (fm_target v) as (? & _); eauto. }
    assert (Em : map (fun x : attr * V => (arename (fm (reverse_mapping m)) (arename (fm m) x.1), x.2)) d = d).
    { rewrite <- (map_id d) at 2. apply map_ext_in. intros [a v] Hin. simpl. f_equal. apply Hb.
      apply elem_of_list_In in Hin. unfold dkeys. apply elem_of_list_fmap. by exists (a, v). }
    rewrite E, rename_flat_map.
    - by rewrite map_map.
    - apply rev_strs.
    - unfold dkeys. rewrite !map_map. simpl.
      assert (Ek : map (fun x : attr * V => arename (fm (reverse_mapping m)) (arename (fm m) x.1)) d = dkeys d).
      { unfold dkeys. apply map_ext_in. intros [a v] Hin. simpl. apply Hb.
        apply elem_of_list_In in Hin. unfold dkeys. apply elem_of_list_fmap. by exists (a, v). }
      by rewrite Ek.
  Qed.
End RoundTrip.
