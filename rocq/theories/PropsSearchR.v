(** * C95, continued: matching more components of a nominal instance never makes a
    mapping worse, so the best mapping can be visited; with numbers it can be
    out of reach.  Exact arithmetic. *)
From Coq Require Import Reals Lra.
From stdpp Require Import base decidable tactics list gmap strings.
From Coq Require Import ZArith.
From Verif Require Import Base Num TreeModel TreeFun TreeScore TreeRefine TreeSorts TreeInv
  SpecTree TreeState TreeTotal TreeLeaf TreeGen RSum Nominal NominalFacts ScoreR CV CVFacts Cobweb3 C3Facts C3Scales C3R C3Tree C3Total
  Query Query3 PyVal Preproc PreStd StructMap StructFacts PropsStruct StructTab
  Trestle TrestleFacts PropsTotal PropsC3 PropsC3R PropsC3E PropsCU PropsCU3 PropsStructTab PropsSearch.
Set Default Proof Using "Type".
Open Scope list_scope.
Open Scope nat_scope.

(** ** Specification *)

(** Every visible value of the instance is nominal. *)
Definition nominal_inst (i : I3) : Prop := forall a x, dget a i = Some (VNum x) -> visible a = false.
(** [m'] keeps the matches of [m]. *)
Definition more_matched (m m' : list (attr * attr)) : Prop := forall o c, (o, c) ∈ m -> c <> o -> (o, c) ∈ m'.

(** ** The rate after one more instance *)
Definition vis_vals (j : I3) : list (attr * nom) :=
  omap (fun a => match dget a j with Some (VNom v) => Some (a, v) | _ => None end) (List.filter visible (dkeys j)).
Definition vis_nums (j : I3) : list attr :=
  omap (fun a => match dget a j with Some (VNum _) => Some a | _ => None end) (List.filter visible (dkeys j)).

Lemma elem_filterb {A} (p : A -> bool) l x : x ∈ List.filter p l <-> x ∈ l /\ p x = true.
Proof. rewrite !elem_of_list_In. apply filter_In. Qed.
Lemma NoDup_filterb {A} (p : A -> bool) l : NoDup l -> NoDup (List.filter p l).
Proof.
  induction 1 as [|x l Hx Hl IH]; simpl; [constructor|]. destruct (p x); [|done]. constructor; [|done].
  intros [H _]%elem_filterb. done.
Qed.
Lemma vis_vals_in j a v : (a, v) ∈ vis_vals j <-> visible a = true /\ dget a j = Some (VNom v).
Proof.
  unfold vis_vals. rewrite elem_of_list_omap. split.
  - intros (b & [Hk Hv]%elem_filterb & E). destruct (dget b j) as [[w|x]|] eqn:Eb; try done. injection E as <- <-. done.
  - intros [Hv E]. exists a. split; [|by rewrite E]. apply elem_filterb. split; [by eapply dget_Some_key|done].
Qed.
Lemma vis_nums_in j a : a ∈ vis_nums j <-> visible a = true /\ exists x, dget a j = Some (VNum x).
Proof.
  unfold vis_nums. rewrite elem_of_list_omap. split.
  - intros (b & [Hk Hv]%elem_filterb & E). destruct (dget b j) as [[w|x]|] eqn:Eb; try done. injection E as <-. split; [done|by exists x].
  - intros [Hv [x E]]. exists a. split; [|by rewrite E]. apply elem_filterb. split; [by eapply dget_Some_key|done].
Qed.
Lemma vis_vals_nodup j : dwf j -> NoDup (map fst (vis_vals j)).
Proof.
  intros Hw. unfold vis_vals. assert (H : NoDup (List.filter visible (dkeys j))) by (by apply NoDup_filterb).
  induction H as [|a l Ha Hl IH]; simpl; [constructor|]. destruct (dget a j) as [[v|x]|]; try done. simpl. constructor; [|done].
  intros ([b w] & -> & Hin)%elem_of_list_fmap. apply elem_of_list_omap in Hin as (c & Hc & E).
  destruct (dget c j) as [[w'|x]|]; try done. injection E as <- _. done.
Qed.
Lemma occ3_in (l : list I3) a v : occ3 l a v <> 0 -> exists i, i ∈ l /\ dget a i = Some (VNom v).
Proof.
  induction l as [|i l IH]; simpl; [done|]. intros H.
  assert (Hr : occ3 l a v <> 0 -> exists j, j ∈ i :: l /\ dget a j = Some (VNom v)).
  { intros Hl. destruct (IH Hl) as (j & Hj & Ej). exists j. split; [by right|done]. }
  destruct (dget a i) as [[w|x]|] eqn:E; [|by apply Hr..]. destruct (decide (w = v)) as [->|]; [|by apply Hr].
  exists i. split; [left|done].
Qed.

(** The lists of the definition, for the instances of the base. *)
Definition h_attrs (h : list I3) : list attr := remove_dups (List.concat (map (fun j => List.filter visible (dkeys j)) h)).
Definition h_vals (h : list I3) : list (attr * nom) := remove_dups (List.concat (map vis_vals h)).
Definition h_nums (h : list I3) : list attr := remove_dups (List.concat (map vis_nums h)).
Lemma in_concat_map {A B} (f : A -> list B) l y : y ∈ List.concat (map f l) <-> exists x, x ∈ l /\ y ∈ f x.
Proof.
  rewrite elem_of_list_In, in_concat. split.
  - intros (ys & H & Hy). apply in_map_iff in H as (x & <- & Hx). exists x. split; by apply elem_of_list_In.
  - intros (x & Hx & Hy). exists (f x). rewrite in_map_iff. apply elem_of_list_In in Hx, Hy. eauto.
Qed.
Lemma h_attrs_in h a : a ∈ h_attrs h <-> visible a = true /\ exists i, i ∈ h /\ a ∈ dkeys i.
Proof.
  unfold h_attrs. rewrite elem_of_remove_dups, in_concat_map. setoid_rewrite elem_filterb. naive_solver.
Qed.
Lemma h_vals_in h a v : (a, v) ∈ h_vals h <-> visible a = true /\ exists i, i ∈ h /\ dget a i = Some (VNom v).
Proof.
  unfold h_vals. rewrite elem_of_remove_dups, in_concat_map. setoid_rewrite vis_vals_in. naive_solver.
Qed.
Lemma h_nums_in h a : a ∈ h_nums h <-> visible a = true /\ exists i x, i ∈ h /\ dget a i = Some (VNum x).
Proof.
  unfold h_nums. rewrite elem_of_remove_dups, in_concat_map. setoid_rewrite vis_nums_in. naive_solver.
Qed.

Definition fresh_attrs (h : list I3) (j : I3) : list attr :=
  List.filter (fun a => negb (bool_decide (a ∈ h_attrs h))) (List.filter visible (dkeys j)).

Lemma rate_cons unit (h : list I3) (j : I3) : dwf j -> nominal_inst j ->
  let n := INR (S (List.length h)) in
  guess_rate3 unit (j :: h)
    ((((Rsum (fun q => INR (occ3 h (fst q) (snd q)) ^ 2) (h_vals h) + Rsum (fun q => 2 * INR (occ3 h (fst q) (snd q)) + 1) (vis_vals j)) / n ^ 2
      + Rsum (fun a => (INR (List.length (nums h a)) / n) ^ 2 * number_guess (deviation (nums h a) / unit a)) (h_nums h))
     / INR (List.length (h_attrs h) + List.length (fresh_attrs h j)))%R).
Proof.
  intros Hw Hnom n. assert (Hn : (n <> 0)%R) by (apply not_0_INR; lia).
  pose (news := List.filter (fun q => negb (bool_decide (q ∈ h_vals h))) (vis_vals j)).
  assert (Hnews : forall q, q ∈ news <-> q ∈ vis_vals j /\ q ∉ h_vals h).
  { intros q. unfold news. rewrite elem_filterb. by rewrite negb_true_iff, bool_decide_eq_false. }
  assert (Hnv : NoDup (vis_vals j)) by (eapply NoDup_fmap_1, vis_vals_nodup; exact Hw).
  exists (h_attrs h ++ fresh_attrs h j), (h_nums h), (h_vals h ++ news).
  split; [|split; [|split; [|split; [|split; [|split]]]]].
  - apply NoDup_app. split; [apply NoDup_remove_dups|]. split.
    + intros a Ha [_ Hf]%elem_filterb. by rewrite bool_decide_eq_true_2 in Hf.
    + by apply NoDup_filterb, NoDup_filterb.
  - apply NoDup_remove_dups.
  - apply NoDup_app. split; [apply NoDup_remove_dups|]. split; [|by apply NoDup_filterb].
    intros q Hq [_ Hf]%Hnews. done.
  - intros a. rewrite elem_of_app, h_attrs_in. unfold fresh_attrs. rewrite !elem_filterb, negb_true_iff, bool_decide_eq_false, h_attrs_in.
    setoid_rewrite elem_of_cons. split.
    + intros [[Hv (i & Hi & Hk)]|[[Hk Hv] _]]; (split; [done|]); eauto.
    + intros [Hv (i & [->|Hi] & Hk)]; [|left; eauto].
      destruct (decide (a ∈ h_attrs h)) as [H|H]; [left; by apply h_attrs_in|right]. split; [done|]. by rewrite <- h_attrs_in.
  - intros a. rewrite h_nums_in. setoid_rewrite elem_of_cons. split.
    + intros [Hv (i & x & Hi & E)]. split; [done|]. eauto 6.
    + intros [Hv (i & x & [->|Hi] & E)]; [by rewrite (Hnom a x E) in Hv|]. eauto 6.
  - intros a v. rewrite elem_of_app, Hnews, h_vals_in, vis_vals_in. setoid_rewrite elem_of_cons. split.
    + intros [[Hv (i & Hi & E)]|[[Hv E] _]]; (split; [done|]); eauto.
    + intros [Hv (i & [->|Hi] & E)]; [|left; eauto].
      destruct (decide ((a, v) ∈ h_vals h)) as [H|H]; [left; by apply h_vals_in|right]. split; [done|]. by rewrite <- h_vals_in.
  - rewrite app_length. f_equal. change (length (j :: h)) with (S (length h)). fold n. f_equal.
    + pose (ind := fun q : attr * nom => if bool_decide (q ∈ vis_vals j) then 1%R else 0%R).
      assert (Ho : forall q, q ∈ h_vals h ++ news -> INR (occ3 (j :: h) (fst q) (snd q)) = (INR (occ3 h (fst q) (snd q)) + ind q)%R).
      { intros [a v] Hq. cbn [occ3 fst snd]. rewrite plus_INR, Rplus_comm. f_equal. unfold ind.
        assert (Hva : visible a = true) by (apply elem_of_app in Hq as [[Hv _]%h_vals_in|[[Hv _]%vis_vals_in _]%Hnews]; done).
        destruct (decide ((a, v) ∈ vis_vals j)) as [H|H].
        - rewrite bool_decide_eq_true_2 by done. apply vis_vals_in in H as [_ ->]. by rewrite decide_True.
        - rewrite bool_decide_eq_false_2 by done. destruct (dget a j) as [[w|x]|] eqn:E; try done.
          destruct (decide (w = v)) as [->|]; [|done]. destruct H. by apply vis_vals_in. }
      symmetry. rewrite (Rsum_ext _ (fun q => / n ^ 2 * (INR (occ3 h (fst q) (snd q)) ^ 2 + ind q * (2 * INR (occ3 h (fst q) (snd q)) + 1)))%R).
      2: { intros q Hq. rewrite (Ho q Hq). unfold ind. destruct (bool_decide _); field; exact Hn. }
      rewrite Rsum_scal, Rsum_plus.
      assert (E1 : Rsum (fun q => INR (occ3 h (fst q) (snd q)) ^ 2)%R (h_vals h ++ news) = Rsum (fun q => INR (occ3 h (fst q) (snd q)) ^ 2)%R (h_vals h)).
      { rewrite Rsum_app, (Rsum_zero _ news); [lra|]. intros [a v] [H1 H2]%Hnews. cbn [fst snd].
        destruct (decide (occ3 h a v = 0)) as [E|E]; [rewrite E; simpl; lra|]. destruct H2.
        apply vis_vals_in in H1 as [Hv _]. apply h_vals_in. split; [done|]. by apply occ3_in. }
      assert (E2 : Rsum (fun q => ind q * (2 * INR (occ3 h (fst q) (snd q)) + 1))%R (h_vals h ++ news) = Rsum (fun q => 2 * INR (occ3 h (fst q) (snd q)) + 1)%R (vis_vals j)).
      { rewrite (Rsum_superset _ (vis_vals j)).
        - apply Rsum_ext. intros q Hq. unfold ind. rewrite bool_decide_eq_true_2 by done. lra.
        - done.
        - intros q Hq. apply elem_of_app. destruct (decide (q ∈ h_vals h)); [by left|]. right. by apply Hnews.
        - apply NoDup_app. split; [apply NoDup_remove_dups|]. split; [|by apply NoDup_filterb]. by intros q Hq [_ Hf]%Hnews.
        - intros q _ Hq. unfold ind. rewrite bool_decide_eq_false_2 by done. lra. }
      rewrite E1, E2. unfold Rdiv. apply Rmult_comm.
    + apply Rsum_ext. intros a [Hv _]%h_nums_in. cbn [nums].
      destruct (dget a j) as [[w|x]|] eqn:E; try done. by rewrite (Hnom a x E) in Hv.
Qed.

(** ** Two renamings of the same instance *)
Lemma visible_rename f a : (forall u, is_var u = true -> is_var (f u) = true) -> visible (rename_in f a) = visible a.
Proof.
  intros Hf. destruct (visible a) eqn:E; [by apply rename_visible|]. unfold visible in *. apply negb_false_iff in E. apply negb_false_iff.
  destruct a as [[|c s]|[|x l]|z]; try done.
  - cbn [rename_in]. simpl in E. apply Ascii.eqb_eq in E as ->. done.
  - cbn [hidden] in E. apply bool_decide_eq_true in E as ->. done.
Qed.
Lemma filter_map_comm {A B} (g : A -> B) p q l : (forall x, q (g x) = p x) -> List.filter q (map g l) = map g (List.filter p l).
Proof. intros H. induction l as [|x l IH]; [done|]. simpl. rewrite H, IH. by destruct (p x). Qed.
Lemma vis_vals_rename f (i : I3) : inj_on f (dkeys i) -> (forall u, is_var u = true -> is_var (f u) = true) ->
  vis_vals (rename_all f i) = map (fun q => (rename_in f (fst q), snd q)) (vis_vals i).
Proof.
  intros Hi Hv. unfold vis_vals. rewrite rename_all_keys, (filter_map_comm (rename_in f) visible visible) by (intros; by apply visible_rename).
  assert (Hl : forall l, (forall a, a ∈ l -> a ∈ dkeys i) ->
    omap (fun a => match dget a (rename_all f i) with Some (VNom v) => Some (a, v) | _ => None end) (map (rename_in f) l) =
    map (fun q => (rename_in f (fst q), snd q)) (omap (fun a => match dget a i with Some (VNom v) => Some (a, v) | _ => None end) l)).
  { induction l as [|a l IH]; intros Hl; [done|]. cbn [map omap list_omap].
    rewrite rename_all_dget by (intros b Hb; apply Hi; [done|apply Hl; left]).
    specialize (IH (fun b Hb => Hl b (elem_of_list_further _ _ _ Hb))). destruct (dget a i) as [[v|x]|]; simpl; by rewrite <- IH. }
  apply Hl. by intros a [Ha _]%elem_filterb.
Qed.
Lemma nominal_rename f (i : I3) : inj_on f (dkeys i) -> (forall u, is_var u = true -> is_var (f u) = true) ->
  nominal_inst i -> nominal_inst (rename_all f i).
Proof.
  intros Hi Hv Hn b x E. pose proof (dget_Some_key _ _ _ E) as Hk. rewrite rename_all_keys in Hk. apply elem_of_list_fmap in Hk as (a & -> & Ha).
  rewrite rename_all_dget in E by (intros c Hc; by apply Hi). rewrite visible_rename by done. by eapply Hn.
Qed.
Lemma number_guess_pos sd : (0 < number_guess sd)%R.
Proof.
  unfold number_guess. pose proof PI_RGT_0 as Hp. apply Rdiv_lt_0_compat; [lra|]. apply Rmult_lt_0_compat.
  - pose proof (sqrt_lt_R0 PI Hp). lra.
  - apply sqrt_lt_R0. assert (0 < 1 / (4 * PI))%R by (apply Rdiv_lt_0_compat; lra). nra.
Qed.
Lemma Rdiv_mono a a' b b' : (0 <= a -> a <= a' -> 0 < b' -> b' <= b -> a / b <= a' / b')%R.
Proof.
  intros H1 H2 H3 H4. unfold Rdiv. apply Rmult_le_compat; [done| |done|].
  - left. apply Rinv_0_lt_compat. lra.
  - apply Rinv_le_contravar; [done|lra].
Qed.

Lemma rate_compare unit (h : list I3) (i : I3) f f' g g' : fits3 i -> nominal_inst i ->
  inj_on f (dkeys i) -> inj_on f' (dkeys i) ->
  (forall u, is_var u = true -> is_var (f u) = true) -> (forall u, is_var u = true -> is_var (f' u) = true) ->
  dwf (rename_all f i) -> dwf (rename_all f' i) ->
  (forall a j, a ∈ dkeys i -> j ∈ h -> rename_in f a ∈ dkeys j -> rename_in f' a = rename_in f a) ->
  guess_rate3 unit (rename_all f i :: h) g -> guess_rate3 unit (rename_all f' i :: h) g' -> (g <= g')%R.
Proof.
  intros [Hg (a0 & Hv0 & Hk0)] Hnom Hi Hi' Hf Hf' Hw Hw' Hsame Hr Hr'.
  rewrite (guess_rate3_det _ _ _ _ Hr (rate_cons unit h _ Hw (nominal_rename f i Hi Hf Hnom))).
  rewrite (guess_rate3_det _ _ _ _ Hr' (rate_cons unit h _ Hw' (nominal_rename f' i Hi' Hf' Hnom))).
  clear Hr Hr' g g'. rewrite !vis_vals_rename by done. rewrite !Rsum_map. cbn [fst snd].
  set (n := INR (S (List.length h))). assert (Hn : (0 < n)%R) by (apply lt_0_INR; lia).
  set (T0 := Rsum _ (h_nums h)). set (S0 := Rsum _ (h_vals h)).
  assert (HT : (0 <= T0)%R).
  { apply Rsum_nonneg. intros a _. apply Rmult_le_pos; [apply pow2_ge_0|left; apply number_guess_pos]. }
  assert (HS : (0 <= S0)%R) by (apply Rsum_nonneg; intros q _; apply pow2_ge_0).
  set (A := Rsum _ (vis_vals i)). set (A' := Rsum _ (vis_vals i)).
  assert (HA : (0 <= A)%R).
  { apply Rsum_nonneg. intros q _. pose proof (pos_INR (occ3 h (rename_in f q.1) q.2)). lra. }
  assert (HAA : (A <= A')%R).
  { apply Rsum_le. intros [a v] Hin. cbn [fst snd]. apply vis_vals_in in Hin as [_ E].
    apply dget_Some_key in E. destruct (decide (occ3 h (rename_in f a) v = 0)) as [E0|E0].
    - rewrite E0. pose proof (pos_INR (occ3 h (rename_in f' a) v)). simpl. lra.
    - apply occ3_in in E0 as (j & Hj & Ej). rewrite (Hsame a j E Hj); [lra|]. by eapply dget_Some_key. }
  assert (Hn2 : (0 < / n ^ 2)%R) by (apply Rinv_0_lt_compat, pow_lt, Hn).
  assert (HF : List.length (fresh_attrs h (rename_all f' i)) <= List.length (fresh_attrs h (rename_all f i))).
  { unfold fresh_attrs. rewrite !rename_all_keys, !(filter_map_comm _ visible visible) by (intros; by apply visible_rename).
    assert (Hl : forall l, (forall a, a ∈ l -> a ∈ dkeys i) ->
      List.length (List.filter (fun a => negb (bool_decide (a ∈ h_attrs h))) (map (rename_in f') l)) <=
      List.length (List.filter (fun a => negb (bool_decide (a ∈ h_attrs h))) (map (rename_in f) l))).
    { induction l as [|a l IH]; intros Hl; [done|]. simpl. specialize (IH (fun b Hb => Hl b (elem_of_list_further _ _ _ Hb))).
      destruct (decide (rename_in f a ∈ h_attrs h)) as [H|H].
      - pose proof H as H'. apply h_attrs_in in H' as [_ (j & Hj & Hk)]. rewrite (Hsame a j (Hl a ltac:(left)) Hj Hk).
        rewrite (bool_decide_eq_true_2 _ H). simpl. done.
      - rewrite (bool_decide_eq_false_2 _ H). simpl. destruct (negb _); simpl; lia. }
    apply Hl. by intros a [Ha _]%elem_filterb. }
  assert (HD : 0 < List.length (h_attrs h) + List.length (fresh_attrs h (rename_all f' i))).
  { destruct (decide (rename_in f' a0 ∈ h_attrs h)) as [H|H].
    - destruct (h_attrs h); [by apply elem_of_nil in H|simpl; lia].
    - assert (Hin : rename_in f' a0 ∈ fresh_attrs h (rename_all f' i)).
      { unfold fresh_attrs. rewrite !elem_filterb, rename_all_keys. split; [split|].
        - apply elem_of_list_fmap. by exists a0.
        - by rewrite visible_rename.
        - by rewrite bool_decide_eq_false_2. }
      destruct (fresh_attrs h (rename_all f' i)); [by apply elem_of_nil in Hin|simpl; lia]. }
  apply Rdiv_mono.
  - apply Rplus_le_le_0_compat; [|done]. unfold Rdiv. apply Rmult_le_pos; lra.
  - apply Rplus_le_compat_r. unfold Rdiv. apply Rmult_le_compat_r; lra.
  - apply lt_0_INR. exact HD.
  - apply le_INR. lia.
Qed.

(** What [more_matched] means for the renamed attributes. *)
Lemma arename_eq_on f f' a : (forall u, u ∈ avars a -> f u = f' u) -> (forall u, is_var u = false -> f u = u /\ f' u = u) -> arename f a = arename f' a.
Proof.
  intros H Hn. induction a as [s|l IH|z] using attr_ind'; simpl in *; [|f_equal|done].
  - destruct (is_var s) eqn:E; [|done]. by rewrite (H s ltac:(left)).
  - induction IH as [|b l Hb Hl IHl]; simpl in *; [done|]. f_equal.
    + apply Hb. intros u Hu. apply H, elem_of_app. by left.
    + apply IHl. intros u Hu. apply H, elem_of_app. by right.
Qed.
Lemma more_same tkeys bkeys m m' f f' a : separates tkeys bkeys m -> separates tkeys bkeys m' -> stands_for m f -> stands_for m' f' ->
  (forall o, component tkeys o -> ~ component bkeys o) -> more_matched m m' ->
  a ∈ tkeys -> rename_in f a ∈ bkeys -> rename_in f' a = rename_in f a.
Proof.
  intros Hm Hm' Hf Hf' Hd Hmore Ha Hb. destruct (separates_inj _ _ _ _ Hm Hf Hd) as [_ Hv].
  rewrite !rename_in_arename in *. symmetry. apply arename_eq_on.
  - intros u Hu. assert (Cu : component tkeys (AStr u)) by (apply component_kvars; exists u; split; [done|]; by exists a).
    assert (Cf : component bkeys (AStr (f u))).
    { apply component_kvars. exists (f u). split; [done|]. exists (arename f a). split; [done|].
      apply avars_arename; [intros w Hw; apply Hv; by eapply avars_mentions|]. by exists u. }
    destruct (dget (AStr u) m) as [c|] eqn:E.
    + apply dget_In in E. destruct (proj1 Hf _ _ E) as (u' & [= <-] & ->).
      assert (Hne : AStr (f u) <> AStr u) by (intros E'; rewrite E' in Cf; by apply (Hd _ Cu)).
      destruct (proj1 Hf' _ _ (Hmore _ _ E Hne)) as (u' & [= <-] & [= E']). done.
    + exfalso. rewrite (proj2 Hf u) in Cf; [by apply (Hd _ Cu)|].
      intros c Hc. apply (In_dget _ _ _ (sp_dict _ _ _ Hm)) in Hc. congruence.
  - intros u Hu. assert (H : forall m f, separates tkeys bkeys m -> stands_for m f -> f u = u).
    { intros m0 f0 S0 F0. apply (proj2 F0). intros c Hc. destruct (sp_from _ _ _ S0 _ _ Hc) as (w & b & [= <-] & Hw & _). congruence. }
    split; [exact (H m f Hm Hf)|exact (H m' f' Hm' Hf')].
Qed.

(** A mapping can be extended until it matches as many components as another. *)
Definition partners (K : list attr) (m : list (attr * attr)) : list attr := map (img m) (List.filter (fun o => negb (bool_decide (img m o = o))) K).
Lemma partners_length K m : List.length (partners K m) = mt K m.
Proof. unfold partners, mt, cnt. by rewrite map_length. Qed.
Lemma partners_in K m c : c ∈ partners K m <-> exists o, o ∈ K /\ img m o = c /\ c <> o.
Proof.
  unfold partners. rewrite elem_of_list_fmap. split.
  - intros (o & -> & [Ho H]%elem_filterb). exists o. apply negb_true_iff, bool_decide_eq_false in H. done.
  - intros (o & Ho & <- & Hne). exists o. split; [done|]. apply elem_filterb. split; [done|]. by apply negb_true_iff, bool_decide_eq_false.
Qed.
Lemma partners_nodup K cn m : NoDup K -> mapping_between K cn m -> NoDup (partners K m).
Proof.
  intros HK Hm. unfold partners.
  assert (Hl : forall l, NoDup l -> (forall o, o ∈ l -> o ∈ K) -> NoDup (map (img m) (List.filter (fun o => negb (bool_decide (img m o = o))) l))).
  { induction 1 as [|o l Ho Hl IH]; intros Hs; simpl; [constructor|].
    specialize (IH (fun x Hx => Hs x (elem_of_list_further _ _ _ Hx))).
    destruct (negb _); [|done]. simpl. constructor; [|done]. intros (o' & E & [Ho' _]%elem_filterb)%elem_of_list_fmap.
    assert (o = o') as ->; [|done]. apply (mb_inj _ _ _ Hm o o' (img m o)).
    - apply (between_img K cn m o _ Hm). split; [apply Hs; left|done].
    - apply (between_img K cn m o' _ Hm). split; [apply Hs; by right|done]. }
  by apply Hl.
Qed.
Lemma extend K cn m : NoDup K -> (forall x, x ∈ K -> x ∉ cn) -> mapping_between K cn m -> forall k m', mt K m - mt K m' <= k -> mapping_between K cn m' ->
  exists m'', mapping_between K cn m'' /\ more_matched m' m'' /\ mt K m <= mt K m''.
Proof.
  intros HK Hdisj Hm. induction k as [|k IH]; intros m' Hk Hm'.
  { exists m'. split; [done|]. split; [by intros o c H _|lia]. }
  destruct (decide (mt K m <= mt K m')) as [Hle|Hlt].
  { exists m'. split; [done|]. split; [by intros o c H _|lia]. }
  assert (Ho : exists o, o ∈ K /\ img m' o = o).
  { destruct (decide (Exists (fun o => img m' o = o) K)) as [He|He]; [by apply Exists_exists in He|]. exfalso. apply Hlt. unfold mt.
    apply cnt_le. intros o Ho _. apply negb_true_iff, bool_decide_eq_false. intros E. apply He, Exists_exists. by exists o. }
  assert (Hc : exists c, c ∈ partners K m /\ c ∉ partners K m').
  { destruct (decide (Exists (fun c => c ∉ partners K m') (partners K m))) as [He|He]; [by apply Exists_exists in He|]. exfalso. apply Hlt.
    rewrite <- !partners_length. apply submseteq_length, NoDup_submseteq; [by apply (partners_nodup K cn)|].
    intros c Hc. apply dec_stable. intros Hn. apply He, Exists_exists. by exists c. }
  destruct Ho as (o & Ho & Eo). destruct Hc as (c & Hc & Hnc).
  assert (Hcn : c ∈ cn).
  { apply partners_in in Hc as (q & Hq & E & Hne). destruct (mb_to _ _ _ Hm q c) as [->|]; [|done|done]. apply (between_img K cn m q c Hm). done. }
  pose proof (between_inv _ _ _ Hm') as Hs. set (s := start_state m' cn) in *.
  assert (Hcs : c ∈ snd s).
  { apply (si_rest _ _ _ Hs). split; [done|]. intros q Hg. change (fst s) with m' in Hg. apply dget_In in Hg. apply Hnc, partners_in.
    apply (between_img K cn m' q c Hm') in Hg as [Hq E]. exists q. split; [done|]. split; [done|]. intros ->. by apply (Hdisj q). }
  destruct (succ_un K cn s o c Hs Ho Hcs) as [Hin Hg].
  pose proof (successors_inv K cn Hdisj K s _ (fun x H => H) Hs Hin) as Hs1.
  pose proof (mt_un K cn HK Hdisj s _ o c Hs Ho Hcs Hg) as Hmt. change (fst s) with m' in Hmt, Hg. rewrite decide_True in Hmt by done.
  set (s1 := swap_unnamed o c s) in *. pose proof (inv_between _ _ _ Hs1) as Hm1.
  destruct (IH (fst s1) ltac:(lia) Hm1) as (m'' & Hb & Hmore & Hle). exists m''. split; [done|]. split; [|done].
  intros q e Hq Hne. apply Hmore; [|done]. apply dget_In. rewrite Hg.
  apply (In_dget _ _ _ (mb_dict _ _ _ Hm')) in Hq. rewrite decide_False; [done|]. intros ->. apply Hne.
  unfold img in Eo. by rewrite Hq in Eo.
Qed.

(** ** C95 *)
Section Best.
  Context (rng : nat -> num ROps) (sc : option R) (inner : bool).
  Notation x0 := (@new_ctx ROps sc inner).
  Context (evs : list (event C3)) (s : st C3) (id : nat) (base : nsum3 ROps) (d : inst (val3 ROps)) (i : I3).
  Context (Hr : reachable C3 rng x0 evs s) (Hg : all_inst (C:=C3) (fits3 (N:=ROps)) evs) (Hao : all_ok evs).
  Context (Hin : in_tree s id) (Ht : table_of s id base) (Hdi : is_instance d i) (Hfit : fits3 i).
  Context (Hd : forall o, component (map fst i) o -> ~ component (map fst (n3_av base)) o).

  (** Matching one more component (or several) to the base never raises the cost. *)
  Theorem C95_matching_helps m m' : nominal_inst i ->
    separates (map fst i) (map fst (n3_av base)) m -> separates (map fst i) (map fst (n3_av base)) m' -> more_matched m m' ->
    exists c c', mapping_cost (st_ctx s) base d m = Ok c /\ mapping_cost (st_ctx s) base d m' = Ok c' /\ (c' <= c)%R.
  Proof using Hr Hg Hao Hin Ht Hdi Hfit Hd.
    intros Hnom Hm Hm' Hmore. destruct (concept_hist rng sc inner evs s id base Hr Hg Hao Hin Ht) as (h & Hh & Hsub & _).
    destruct (separates_stands _ _ _ Hm) as (f & Hf). destruct (separates_stands _ _ _ Hm') as (f' & Hf').
    assert (Hx : scales_ok (st_ctx s)) by (by eapply reach_scales_ok).
    assert (Hu : forall a, unit_of sc inner (history evs) a = eff_scale (escale (st_ctx s) a)) by (intros a; by eapply unit_eff).
    destruct (inst_cost _ _ base h d i m f Hh Hx Hdi Hfit Hm Hf Hd Hu) as (g & E & Hrate).
    destruct (inst_cost _ _ base h d i m' f' Hh Hx Hdi Hfit Hm' Hf' Hd Hu) as (g' & E' & Hrate').
    exists (- g)%R, (- g')%R. split; [done|]. split; [done|].
    destruct (separates_inj _ _ _ _ Hm Hf Hd) as [Hi Hv]. destruct (separates_inj _ _ _ _ Hm' Hf' Hd) as [Hi' Hv'].
    assert (Hw : dwf i) by apply Hfit.
    assert (H : (g <= g')%R); [|lra].
    eapply (rate_compare _ h i f f'); try done.
    - by eapply (rename_flat_all (dkeys (n3_av base)) m f i Hw Hm Hf Hd).
    - by eapply (rename_flat_all (dkeys (n3_av base)) m' f' i Hw Hm' Hf' Hd).
    - intros a j Ha Hj Hk. eapply (more_same _ _ m m' f f' a Hm Hm' Hf Hf' Hd Hmore Ha).
      change (map fst (n3_av base)) with (dkeys (n3_av base)).
      apply (Hist3_key summarises base h _ Hh). by exists j.
  Qed.

  (** So the search can visit a mapping as good as any other, whatever complete
      mapping it starts with. *)
  Theorem C95_optimum_reachable K cn m m' : nominal_inst i ->
    (forall o, o ∈ K <-> component (map fst i) o) -> (forall c, c ∈ cn <-> component (map fst (n3_av base)) c) ->
    mapping_between K cn m -> mapping_between K cn m' ->
    exists q c c', visits (start_state m cn) q /\
      mapping_cost (st_ctx s) base d (fst q) = Ok c /\ mapping_cost (st_ctx s) base d m' = Ok c' /\ (c <= c')%R.
  Proof using Hr Hg Hao Hin Ht Hdi Hfit Hd.
    intros Hnom HK Hcn Hm Hm'.
    assert (Hdisj : forall x, x ∈ K -> x ∉ cn) by (intros x Hx Hc; apply HK in Hx; apply Hcn in Hc; by apply (Hd x)).
    assert (Hsep : forall m0, mapping_between K cn m0 -> separates (map fst i) (map fst (n3_av base)) m0).
    { intros m0 [H1 H2 H3 H4]. split; [done| | |done].
      - intros o c Ho. apply HK, H2, elem_of_list_fmap. by exists (o, c).
      - intros o c Ho. destruct (H3 _ _ Ho) as [->|H]; [by left|right; by apply Hcn]. }
    pose (K' := map fst m). assert (HK' : NoDup K') by apply Hm.
    assert (He : forall o, o ∈ K <-> o ∈ K') by (intros o; symmetry; apply Hm).
    assert (Hdisj' : forall x, x ∈ K' -> x ∉ cn) by (intros x Hx; apply Hdisj; by apply He).
    destruct (extend K' cn m HK' Hdisj' (between_ext _ _ _ _ He Hm) _ m' (le_n _) (between_ext _ _ _ _ He Hm')) as (m2 & Hm2 & Hmore & Hle).
    assert (Hm2K : mapping_between K cn m2) by (eapply between_ext; [|exact Hm2]; intros o; by rewrite He).
    destruct (proj2 (C95_reachable K cn m m2 Hdisj Hm Hm2K)) as (q & Hv & Hq).
    { rewrite (matched_mt K' HK' m), (matched_mt K' HK' m2); [done|apply Hm2|apply Hm2|apply Hm|done]. }
    assert (Hqb : mapping_between K cn (fst q)).
    { eapply between_ext; [intros o; symmetry; apply He|]. apply inv_between.
      apply (mt_mono K' cn HK' Hdisj' (start_state m cn) q); [|done]. apply between_inv. by eapply between_ext. }
    destruct (C95_matching_helps m' (fst q) Hnom (Hsep _ Hm') (Hsep _ Hqb)) as (c & c' & E & E' & Hle').
    { intros o e Ho Hne. apply Hq. by apply Hmore. }
    exists q, c', c. done.
  Qed.
End Best.

(** With numbers the best mapping can be out of reach: two components whose
    numbers lie far apart are better left unmatched, but if the initial mapping
    matches them no search gives the match up. *)
Definition far (v : string) (y : R) : I3 := [(rel_a v, @VNum ROps y)].
Lemma far_fits v y : fits3 (far v y).
Proof.
  split; [split; [apply NoDup_singleton|split; [by repeat constructor|]]|].
  - intros b E. cbn in E. case_decide; [|done]. by injection E.
  - exists (rel_a v). split; [done|]. left.
Qed.
Lemma rel_a_inj v w : rel_a v = rel_a w -> v = w.
Proof. unfold rel_a. congruence. Qed.
Lemma far_dget v y a x : dget a (far v y) = Some (@VNum ROps x) -> a = rel_a v /\ x = y.
Proof. unfold far. cbn [dget]. destruct (decide (a = rel_a v)) as [->|]; [|done]. intros E. by injection E as <-. Qed.
Lemma far_nom v y a w : dget a (far v y) <> Some (VNom w).
Proof. unfold far. cbn [dget]. by destruct (decide (a = rel_a v)). Qed.
Lemma far_self v y : dget (rel_a v) (far v y) = Some (@VNum ROps y).
Proof. unfold far. cbn [dget]. by rewrite decide_True. Qed.
Lemma far_key v y a : a ∈ dkeys (far v y) <-> a = rel_a v.
Proof. apply elem_of_list_singleton. Qed.

Lemma far_rate_same unit y z : guess_rate3 unit [far "?o1" y; far "?o1" z] (number_guess (deviation [y; z] / unit (rel_a "?o1")))%R.
Proof.
  exists [rel_a "?o1"], [rel_a "?o1"], [].
  split; [apply NoDup_singleton|]. split; [apply NoDup_singleton|]. split; [constructor|]. split; [|split; [|split]].
  - intros a. rewrite elem_of_list_singleton. split.
    + intros ->. split; [done|]. exists (far "?o1" y). split; [left|by apply far_key].
    + intros [_ (i & Hi & Ha)]. rewrite !elem_of_cons, elem_of_nil in Hi. destruct Hi as [->|[->|[]]]; by apply far_key in Ha.
  - intros a. rewrite elem_of_list_singleton. split.
    + intros ->. split; [done|]. exists (far "?o1" y), y. split; [left|apply far_self].
    + intros [_ (i & x & Hi & Ha)]. rewrite !elem_of_cons, elem_of_nil in Hi. destruct Hi as [->|[->|[]]]; by apply far_dget in Ha as [-> _].
  - intros a v. split; [by intros ?%elem_of_nil|]. intros [_ (i & Hi & Ha)].
    rewrite !elem_of_cons, elem_of_nil in Hi. destruct Hi as [->|[->|[]]]; by apply far_nom in Ha.
  - cbn [Rsum nums]. rewrite !far_self. cbn [length]. simpl. field.
Qed.
Lemma far_rate_apart unit y z : guess_rate3 unit [far "?x" y; far "?o1" z] (1 / 4)%R.
Proof.
  assert (Hne : rel_a "?x" <> rel_a "?o1") by done.
  assert (E1 : dget (rel_a "?x") (far "?o1" z) = None) by (unfold far; cbn [dget]; by rewrite decide_False).
  assert (E2 : dget (rel_a "?o1") (far "?x" y) = None) by (unfold far; cbn [dget]; by rewrite decide_False).
  assert (Hnd : NoDup [rel_a "?x"; rel_a "?o1"]).
  { apply NoDup_cons. split; [|apply NoDup_singleton]. by rewrite elem_of_list_singleton. }
  exists [rel_a "?x"; rel_a "?o1"], [rel_a "?x"; rel_a "?o1"], [].
  split; [done|]. split; [done|]. split; [constructor|]. split; [|split; [|split]].
  - intros a. rewrite !elem_of_cons, elem_of_nil. split.
    + intros [->|[->|[]]]; (split; [done|]); [exists (far "?x" y)|exists (far "?o1" z)]; (split; [|by apply far_key]); [left|right; left].
    + intros [_ (i & Hi & Ha)]. rewrite !elem_of_cons, elem_of_nil in Hi. destruct Hi as [->|[->|[]]]; apply far_key in Ha; auto.
  - intros a. rewrite !elem_of_cons, elem_of_nil. split.
    + intros [->|[->|[]]]; (split; [done|]); [exists (far "?x" y), y|exists (far "?o1" z), z]; (split; [|apply far_self]); [left|right; left].
    + intros [_ (i & x & Hi & Ha)]. rewrite !elem_of_cons, elem_of_nil in Hi. destruct Hi as [->|[->|[]]]; apply far_dget in Ha as [-> _]; auto.
  - intros a v. split; [by intros ?%elem_of_nil|]. intros [_ (i & Hi & Ha)].
    rewrite !elem_of_cons, elem_of_nil in Hi. destruct Hi as [->|[->|[]]]; by apply far_nom in Ha.
  - cbn [Rsum nums]. rewrite !far_self, E1, E2. cbn [length].
    assert (Hdev : forall w : R, deviation [w] = 0%R) by (intros w; unfold deviation; by rewrite decide_True by (cbn; lia)).
    assert (Hng : forall w : R, number_guess (0 / w) = 1%R) by (intros w; unfold Rdiv; rewrite Rmult_0_l; apply ex_number_guess_0).
    rewrite !Hdev, !Hng. simpl. field.
Qed.
Lemma far_guess : (number_guess (deviation [100; 0] / 1) < 1 / 4)%R.
Proof.
  assert (Hd : (deviation [100; 0] * deviation [100; 0] >= 5000)%R).
  { unfold deviation. rewrite decide_False by (cbn; lia). cbn [length].
    destruct (c4_range (Z.of_nat 2)) as (k & -> & Hk); [lia|].
    assert (E : (Rsum (fun x => (x - Rmean [100; 0]) * (x - Rmean [100; 0])) [100; 0] / INR (2 - 1) = 5000)%R).
    { unfold Rmean. cbn [Rsum length]. simpl. field. }
    rewrite E. assert (Hs : (R_sqrt.sqrt 5000 * R_sqrt.sqrt 5000 = 5000)%R) by (apply sqrt_sqrt; lra).
    replace (R_sqrt.sqrt 5000 / k * (R_sqrt.sqrt 5000 / k))%R with (5000 * (/ k * / k))%R by (rewrite <- Hs at 1; unfold Rdiv; ring).
    assert (1 <= / k)%R by (rewrite <- Rinv_1; apply Rinv_le_contravar; lra). nra. }
  set (sd := deviation _) in *. unfold number_guess. pose proof PI_RGT_0 as Hpi. pose proof PI2_1 as Hp2.
  replace (sd / 1)%R with sd by field.
  assert (H1 : (1 <= R_sqrt.sqrt PI)%R) by (rewrite <- sqrt_1; apply sqrt_le_1; lra).
  assert (H0 : (0 < 1 / (4 * PI))%R) by (apply Rdiv_lt_0_compat; lra).
  assert (H2 : (70 <= R_sqrt.sqrt (sd * sd + 1 / (4 * PI)))%R).
  { replace 70%R with (R_sqrt.sqrt (70 * 70)) by (apply sqrt_square; lra). apply sqrt_le_1; lra. }
  set (p := R_sqrt.sqrt PI) in *. set (q := R_sqrt.sqrt (sd * sd + _)) in *.
  assert (H3 : (140 <= 2 * p * q)%R) by (pose proof (Rmult_le_compat 1 p 70 q ltac:(lra) ltac:(lra) H1 H2); lra).
  apply Rle_lt_trans with (1 / 140)%R; [|lra]. unfold Rdiv. rewrite !Rmult_1_l. apply Rinv_le_contravar; lra.
Qed.
Lemma far_unit a : unit_of (Some 0.5%R) true [far "?o1" 0] a = 1%R.
Proof.
  unfold unit_of. assert (Hl : length (inner_nums (N:=ROps) true [far "?o1" 0] (inner_of true a)) < 2).
  { unfold inner_nums, far. cbn [map concat]. rewrite !app_nil_r. unfold under. cbn. destruct (decide _); simpl; lia. }
  unfold deviation. rewrite decide_True by exact Hl. destruct (Req_EM_T 0.5 0); [done|].
  destruct (Rle_dec (0 / 0.5) 0) as [|Hn]; [done|]. destruct Hn. lra.
Qed.

Definition far_target : inst (val3 ROps) := [(rel_a "?x", PX (@VNum ROps 100%R))].
Theorem C95_stuck_refuted : exists (evs : list (event RC3)) s (base : nsum3 ROps),
  reachable RC3 ex_draws (@new_ctx ROps (Some 0.5%R) true) evs s /\ all_inst (C:=RC3) (fits3 (N:=ROps)) evs /\ all_ok evs /\
  table_of s (st_root s) base /\ is_instance far_target (far "?x" 100) /\ fits3 (far "?x" 100) /\
  let cost := mapping_cost (st_ctx s) base far_target in
  separates (map fst far_target) (map fst (n3_av base)) [(AStr "?x", AStr "?x")] /\
  separates (map fst far_target) (map fst (n3_av base)) x_to_o1 /\
  (forall orc, oracle_ok orc -> flat_match cost orc (Some x_to_o1) (map fst far_target) (map fst (n3_av base)) = Ok x_to_o1) /\
  exists c c', cost x_to_o1 = Ok c /\ cost [(AStr "?x", AStr "?x")] = Ok c' /\ (c' < c)%R.
Proof.
  destruct (ex_C3_run (Some 0.5%R) true [far "?o1" 0]) as (evs & s & Hr & Hg & Hao & Hh).
  { apply Forall_cons_2; [apply far_fits|apply Forall_nil_2]. }
  destruct (reachable_tinv RC3 ex_draws _ _ _ histR_laws _ evs s Hr (fits_good evs Hg) Hao) as (t & Hok & Htt).
  apply tinv_summ in Htt. rewrite Hh in Htt. set (tb := tsum t) in *.
  assert (Ht : table_of s (st_root s) tb). { rewrite (so_root _ _ _ Hok). apply (sub_table _ _ _ _ Hok), sub_refl. }
  assert (Hk : map fst (n3_av tb) = [rel_a "?o1"]).
  { change (map fst (n3_av tb)) with (dkeys (n3_av tb)).
    pose proof (fun x => Hist3_key summarises _ _ x Htt) as Hk. pose proof Htt as (_ & Hw & _). unfold dwf in Hw.
    assert (Hp : Permutation [rel_a "?o1"] (dkeys (n3_av tb))).
    { apply NoDup_Permutation; [apply NoDup_singleton|done|]. intros x. rewrite Hk, elem_of_list_singleton. split.
      - intros ->. exists (far "?o1" 0). split; [left|by apply far_key].
      - intros (i & ->%elem_of_list_singleton & Hx). by apply far_key in Hx. }
    by apply Permutation_length_1_inv in Hp. }
  assert (Hun : forall a, unit_of (Some 0.5%R) true (history evs) a = eff_scale (escale (st_ctx s) a)) by (intros a; by eapply unit_eff).
  assert (Hx : scales_ok (st_ctx s)) by (by eapply reach_scales_ok).
  clearbody tb. exists evs, s, tb.
  assert (Hdi : is_instance far_target (far "?x" 100)) by (by repeat constructor).
  assert (Hsep0 : separates [rel_a "?x"] [rel_a "?o1"] [(AStr "?x", AStr "?x")]).
  { split; [apply NoDup_singleton|..].
    - intros o c [= -> ->]%elem_of_list_singleton. apply component_kvars. exists "?x"%string. split; [done|]. exists (rel_a "?x"). split; [left|]. by left.
    - intros o c [= -> ->]%elem_of_list_singleton. by left.
    - intros o o' c H1%elem_of_list_singleton H2%elem_of_list_singleton. congruence. }
  split; [done|]. split; [done|]. split; [done|]. split; [done|]. split; [done|]. split; [apply far_fits|]. cbv zeta.
  change (map fst far_target) with [rel_a "?x"].
  assert (Hcost : forall m f, separates [rel_a "?x"] [rel_a "?o1"] m -> stands_for m f ->
    exists g, mapping_cost (st_ctx s) tb far_target m = Ok (- g)%R /\ guess_rate3 (unit_of (Some 0.5%R) true [far "?o1" 0]) [rename_all f (far "?x" 100); far "?o1" 0] g).
  { intros m f Hm Hf. rewrite <- Hh. rewrite Hh. rewrite Hh in Hun.
    apply (inst_cost _ (st_ctx s) tb [far "?o1" 0] far_target (far "?x" 100) m f Htt Hx Hdi (far_fits _ _)); try done.
    - unfold dkeys. by rewrite Hk.
    - unfold dkeys. rewrite Hk. apply red_apart. }
  destruct (Hcost _ _ x_to_o1_separates x_to_o1_stands) as (g & E & Hrate).
  destruct (Hcost [(AStr "?x", AStr "?x")] (fun u => u) Hsep0) as (g' & E' & Hrate').
  { split; [|done]. intros o c [= -> ->]%elem_of_list_singleton. by exists "?x"%string. }
  rewrite Hk. split; [done|]. split; [apply x_to_o1_separates|]. split.
  - intros orc _. unfold flat_match.
    change (comp_names [rel_a "?x"]) with (Ok [AStr "?x"]). change (comp_names [rel_a "?o1"]) with (Ok [AStr "?o1"]). cbn [rbind].
    change (bool_decide ([AStr "?x"] = []) || bool_decide ([AStr "?o1"] = [])) with false. cbv iota.
    change (existsb (fun o => bool_decide (o ∈ [AStr "?o1"])) [AStr "?x"]) with false. cbv iota.
    change (List.filter (fun e => bool_decide (fst e ∈ [AStr "?x"]) && bool_decide (snd e ∈ [AStr "?o1"])) x_to_o1) with x_to_o1. cbn [rbind].
    rewrite E. cbn [rbind].
    change (start_state x_to_o1 [AStr "?o1"]) with (x_to_o1, @nil attr).
    assert (Es : successors (x_to_o1, @nil attr) = []) by reflexivity.
    destruct (o_path orc) as [|k p]; [done|]. cbn [climb]. rewrite Es. done.
  - exists (- g)%R, (- g')%R. split; [done|]. split; [done|].
    assert (g' = 1 / 4)%R as ->. { eapply guess_rate3_det; [exact Hrate'|]. change (rename_all (fun u => u) (far "?x" 100)) with (far "?x" 100). apply far_rate_apart. }
    assert (g = number_guess (deviation [100; 0] / 1))%R as ->.
    { eapply guess_rate3_det; [exact Hrate|]. change (rename_all f_x_o1 (far "?x" 100)) with (far "?o1" 100).
      pose proof (far_rate_same (unit_of (Some 0.5%R) true [far "?o1" 0]) 100 0) as H. by rewrite far_unit in H. }
    pose proof far_guess. lra.
Qed.

(** The hypotheses of the positive results are met: the component ?x, unmatched
    or matched to ?o1. *)
Definition x_to_x : list (attr * attr) := [(AStr "?x", AStr "?x")].
Lemma ex_C95_optimum : exists (evs : list (event RC3)) s (base : nsum3 ROps) d,
  reachable RC3 ex_draws (@new_ctx ROps (Some 0.5%R) true) evs s /\ all_inst (C:=RC3) (fits3 (N:=ROps)) evs /\ all_ok evs /\
  in_tree s (st_root s) /\ table_of s (st_root s) base /\ is_instance d (red "?x") /\ fits3 (red "?x") /\ nominal_inst (red "?x") /\
  (forall o, component (map fst (red "?x")) o -> ~ component (map fst (n3_av base)) o) /\
  (forall o, o ∈ [AStr "?x"] <-> component (map fst (red "?x")) o) /\ (forall c, c ∈ [AStr "?o1"] <-> component (map fst (n3_av base)) c) /\
  mapping_between [AStr "?x"] [AStr "?o1"] x_to_x /\ mapping_between [AStr "?x"] [AStr "?o1"] x_to_o1 /\
  separates (map fst (red "?x")) (map fst (n3_av base)) x_to_x /\ separates (map fst (red "?x")) (map fst (n3_av base)) x_to_o1 /\
  more_matched x_to_x x_to_o1.
Proof.
  destruct (red_run ["?o1"; "?o1"]%string) as (evs & s & Hr & Hg & Hao & Hh). cbn [map] in Hh.
  destruct (red_root evs s _ Hr Hg Hao Hh "?o1") as (tb & Ht & HH & Hk); [done| |].
  { intros i Hi. rewrite !elem_of_cons, elem_of_nil in Hi. by destruct Hi as [->|[->|[]]]. }
  assert (Hd : is_instance (N:=ROps) [(rel_a "?x", PStr "red")] (red "?x")) by (repeat constructor).
  exists evs, s, tb, [(rel_a "?x", PStr "red")]. rewrite Hk.
  assert (Hc : forall v : string, is_var v = true -> forall o, o ∈ [AStr v] <-> component [rel_a v] o).
  { intros v Hv o. rewrite elem_of_list_singleton. split.
    - intros ->. apply component_kvars. exists v. split; [done|]. exists (rel_a v). split; [left|]. unfold rel_a. cbn. rewrite Hv. by left.
    - intros Ho. assert (exists w, o = AStr w) as (w & ->) by (apply component_kvars in Ho as (w & -> & _); eauto).
      by rewrite (red_component v w Ho Hv). }
  split; [done|]. split; [done|]. split; [done|]. split; [constructor|]. split; [done|]. split; [done|]. split; [apply red_fits|].
  split; [intros a x E; unfold red in E; cbn [dget] in E; by destruct (decide _)|].
  split; [apply red_apart|]. split; [by apply Hc|]. split; [by apply Hc|].
  assert (Hb : forall c, c = AStr "?x" \/ c = AStr "?o1" -> mapping_between [AStr "?x"] [AStr "?o1"] [(AStr "?x", c)]).
  { intros c Hcc. split; [apply NoDup_singleton|done| |].
    - intros o e [= -> ->]%elem_of_list_singleton. destruct Hcc as [->| ->]; [by left|right; left].
    - intros o o' e H1%elem_of_list_singleton H2%elem_of_list_singleton. congruence. }
  split; [apply Hb; by left|]. split; [apply Hb; by right|]. split; [|split; [apply x_to_o1_separates|]].
  - split; [apply NoDup_singleton|..].
    + intros o c [= -> ->]%elem_of_list_singleton. apply Hc; [done|left].
    + intros o c [= -> ->]%elem_of_list_singleton. by left.
    + intros o o' c H1%elem_of_list_singleton H2%elem_of_list_singleton. congruence.
  - intros o c [= -> ->]%elem_of_list_singleton. done.
Qed.

Print Assumptions C95_matching_helps.
Print Assumptions C95_optimum_reachable.
Print Assumptions C95_stuck_refuted.
