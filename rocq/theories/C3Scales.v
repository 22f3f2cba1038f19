(** * Cobweb3Tree for any arithmetic: histories and scales. *)
From stdpp Require Import base decidable list gmap strings.
From Verif Require Import Base Num TreeModel TreeFun TreeScore TreeRefine TreeSorts TreeInv
  SpecTree TreeState TreeTotal TreeRel TreeSim TreeLeaf TreeGen Nominal NominalFacts
  CV Cobweb3 C3Facts.

(** ** Any arithmetic *)
Section Any.
  Context {N : NumOps} (cvP : cval N -> list (num N) -> Prop) (eqv : num N -> num N -> Prop).
  Hypothesis CL : cv_laws N cvP eqv.
  Notation C := (Cobweb3Class N).

  (** Tables that summarise instances of [h]. *)
  Definition from (h : list (inst3 N)) (s : nsum3 N) : Prop :=
    exists l, Hist3 cvP s l /\ forall i, i ∈ l -> i ∈ h.

  Lemma from_closed h i : good3 i -> closed C (from (h ++ [i])) i.
  Proof.
    intros Hg. split; simpl.
    - exists []. split; [apply Hist3_empty|]. intros j Hj. inversion Hj.
    - intros s (l & Hl & Hh). destruct (Hist3_inc cvP eqv CL s l i Hl Hg) as (s' & E & Hs').
      exists s'. split; [done|]. exists (i :: l). split; [done|]. intros j Hj.
      apply elem_of_cons in Hj as [->|Hj]; [|auto]. apply elem_of_app. right. by left.
    - intros s1 s2 (l1 & H1 & Hh1) (l2 & H2 & Hh2).
      destruct (Hist3_add cvP eqv CL s1 s2 l1 l2 H1 H2) as (s' & E & Hs').
      exists s'. split; [done|]. exists (l1 ++ l2). split; [done|]. intros j Hj.
      apply elem_of_app in Hj as [Hj|Hj]; auto.
  Qed.

  Lemma reachable_from (rng : nat -> num N) x0 evs s :
    reachable C rng x0 evs s -> all_inst (C:=C) good3 evs ->
    exists t, state_ok C s t /\ tall C (from (history evs)) t.
  Proof.
    apply (reachable_hist C rng from good3).
    - intros h. exists []. split; [apply Hist3_empty|]. intros j Hj. inversion Hj.
    - intros h i tb (l & Hl & Hh). exists l. split; [done|]. intros j Hj. apply elem_of_app. left. auto.
    - apply from_closed.
  Qed.

  Definition some3 (s : nsum3 N) : Prop := exists l, Hist3 cvP s l.
  Definition leaf3 (s : nsum3 N) : Prop := exists l, Hist3 cvP s l /\ LeafV3 eqv l.

  Lemma some3_closed i : good3 i -> closed C some3 i.
  Proof.
    intros Hg. split; simpl.
    - exists []. apply Hist3_empty.
    - intros s [l Hl]. destruct (Hist3_inc cvP eqv CL s l i Hl Hg) as (s' & E & Hs').
      exists s'. split; [done|]. by exists (i :: l).
    - intros s1 s2 [l1 H1] [l2 H2]. destruct (Hist3_add cvP eqv CL s1 s2 l1 l2 H1 H2) as (s' & E & Hs').
      exists s'. split; [done|]. by exists (l1 ++ l2).
  Qed.
  Lemma some3_empty : some3 (nc_empty C).
  Proof. exists []. apply Hist3_empty. Qed.
  Lemma leaf3_empty : leaf3 (nc_empty C).
  Proof. exists []. split; [apply Hist3_empty|]. intros i j Hi. inversion Hi. Qed.
  Lemma leaf3_inc i s s' : good3 i -> nc_inc C s i = (s', None) -> some3 s -> leaf3 s ->
    s = nc_empty C \/ nc_exact C s i = Ok true \/ nc_count C s = 0 -> leaf3 s'.
  Proof.
    simpl. intros Hg E _ (l & Hl & Hv) Hc. exists (i :: l). split.
    { destruct (Hist3_inc cvP eqv CL s l i Hl Hg) as (s2 & E2 & Hs'). congruence. }
    assert (Hnil : l = [] -> LeafV3 eqv (i :: l)).
    { intros -> a b ->%elem_of_list_singleton ->%elem_of_list_singleton. eapply same_refl; exact CL. }
    destruct Hc as [->|[Hx|Hz]].
    - apply Hnil. destruct Hl as [Hc _]. destruct l; [done|simpl in Hc; lia].
    - by eapply LeafV3_exact.
    - apply Hnil. destruct Hl as [Hc _]. destruct l; [done|simpl in Hc; lia].
  Qed.
End Any.

(** ** Scales *)
Section Scales.
  Context {N : NumOps}.
  Notation C := (Cobweb3Class N).

  (** The numbers that were fitted under the inner attribute [b], in order. *)
  Definition inner_of (inner : bool) (a : attr) : attr :=
    match a with ATup (h :: _) => if inner then h else a | _ => a end.
  Definition under (inner : bool) (b : attr) (p : attr * val3 N) : list (num N) :=
    match snd p with
    | VNum y => if decide (inner_of inner (fst p) = b) then [y] else []
    | VNom _ => []
    end.
  Definition inner_nums (inner : bool) (l : list (inst3 N)) (b : attr) : list (num N) :=
    concat (map (fun i => concat (map (under inner b) i)) l).

  Lemma inner_nums_in inner l b y : y ∈ inner_nums inner l b <->
    exists i a, i ∈ l /\ (a, VNum y) ∈ i /\ inner_of inner a = b.
  Proof.
    unfold inner_nums. rewrite elem_of_list_In, in_concat. split.
    - intros (ys & Hys & Hy). apply in_map_iff in Hys as (i & <- & Hi).
      apply in_concat in Hy as (zs & Hzs & Hy). apply in_map_iff in Hzs as ([a v] & <- & Hp).
      unfold under in Hy. simpl in Hy. destruct v as [v|z]; [done|]. case_decide as Hd; [|done].
      destruct Hy as [->|[]]. exists i, a. rewrite !elem_of_list_In. done.
    - intros (i & a & Hi & Hp & Hd). exists (concat (map (under inner b) i)). split.
      + apply in_map_iff. exists i. split; [done|]. by apply elem_of_list_In.
      + apply in_concat. exists [y]. split; [|by left]. apply in_map_iff. exists (a, VNum y).
        split; [|by apply elem_of_list_In]. unfold under. simpl. by rewrite decide_True.
  Qed.

  Definition scale_of (ys : list (num N)) : option (cval N) :=
    match ys with [] => None | _ => Some (cv_update_batch (cv_new N) ys) end.

  Lemma scale_snoc ys y : scale_of (ys ++ [y]) = Some (cv_update (default (cv_new N) (scale_of ys)) y).
  Proof.
    unfold scale_of. destruct ys as [|z ys]; [done|]. simpl app.
    unfold cv_update_batch. change (z :: ys ++ [y]) with ((z :: ys) ++ [y]). by rewrite fold_left_app.
  Qed.

  Lemma update_scales_spec (x : ctx3 N) (i : inst3 N) (ys : attr -> list (num N)) :
    (forall b, dget b (x_scales x) = scale_of (ys b)) ->
    x_inner (update_scales x i) = x_inner x /\ x_scaling (update_scales x i) = x_scaling x /\
    forall b, dget b (x_scales (update_scales x i)) =
              scale_of (ys b ++ concat (map (under (x_inner x) b) i)).
  Proof.
    intros Hx. split; [done|]. split; [done|]. unfold update_scales. cbn [x_scales].
    generalize dependent ys. generalize (x_scales x) as sc.
    induction i as [|[a v] i IH]; intros sc ys Hys b.
    - simpl. by rewrite app_nil_r.
    - cbn [fold_left map concat]. destruct v as [v|y]; cbn [fst snd].
      + rewrite (IH sc ys Hys b). done.
      + assert (Hin : inner_attr x a = inner_of (x_inner x) a) by (by destruct a as [|[]|]).
        rewrite (IH _ (fun b => ys b ++ under (x_inner x) b (a, VNum y))).
        * by rewrite <- app_assoc.
        * intros b'. rewrite dget_dset, Hin. unfold under. cbn [fst snd].
          destruct (decide (b' = inner_of (x_inner x) a)) as [->|Hne].
          -- rewrite decide_True by done. rewrite scale_snoc, Hys. done.
          -- rewrite decide_False by done. by rewrite app_nil_r.
  Qed.

  Lemma scales_fold l : forall (x : ctx3 N) (ys : attr -> list (num N)),
    (forall b, dget b (x_scales x) = scale_of (ys b)) ->
    let x' := fold_left update_scales l x in
    x_inner x' = x_inner x /\ x_scaling x' = x_scaling x /\
    forall b, dget b (x_scales x') = scale_of (ys b ++ inner_nums (x_inner x) l b).
  Proof.
    induction l as [|i l IH]; intros x ys Hys; simpl.
    - split; [done|]. split; [done|]. intros b. unfold inner_nums. simpl. by rewrite app_nil_r.
    - destruct (update_scales_spec x i ys Hys) as (Hi & Hs & Hb).
      destruct (IH (update_scales x i) (fun b => ys b ++ concat (map (under (x_inner x) b) i)) Hb)
        as (Hi' & Hs' & Hb').
      rewrite Hi in *. split; [done|]. split; [by rewrite Hs'|]. intros b. rewrite Hb'.
      rewrite <- app_assoc. done.
  Qed.
End Scales.

Lemma c4_no_key N n : c4 N n <> Err KeyError.
Proof.
  unfold c4. case_decide as H1; [done|]. case_decide as H2; [|done].
  assert (Hn : (2 <= Z.to_nat n <= 29)%nat) by lia.
  assert (Hd : forall k, (2 <= k <= 29)%nat -> exists m, dget k c4_digits = Some m).
  { intros k Hk. do 30 (destruct k as [|k]; [first [lia|eexists; reflexivity]|]). lia. }
  destruct (Hd _ Hn) as [m ->]. done.
Qed.
