(** * C87: matching an attribute against a concept's attribute under a partial
    mapping (is_partial_match, bind_flat_attr and contains_component). *)
From stdpp Require Import base decidable list strings.
From Coq Require Import Ascii String ZArith Lia.
From Verif Require Import Base PyVal Preproc StructMap.
Set Default Proof Using "Type".
Open Scope string_scope.
Open Scope list_scope.

(** ** The claim *)
(** The names that occur in an attribute, from left to right. *)
Fixpoint leaves (a : attr) : list attr :=
  match a with
  | ATup l => List.concat (map leaves l)
  | _ => [a]
  end.
Definition variable (a : attr) : Prop := exists s, a = AStr s /\ is_var s = true.
(** The names are non-empty strings. *)
Definition well_named (a : attr) : Prop := forall x, x ∈ leaves a -> exists s, x = AStr s /\ s <> "".
(** A mapping gives names to variables; [m'] completes [m] if it gives names of
    variables to more variables. *)
Definition is_mapping (m : list (attr * attr)) : Prop :=
  forall x b, dget x m = Some b -> variable x /\ exists t, b = AStr t.
Definition completes (m m' : list (attr * attr)) : Prop :=
  is_mapping m' /\ (forall x b, dget x m = Some b -> dget x m' = Some b) /\
  (forall x b, dget x m = None -> dget x m' = Some b -> variable b).
(** No unmapped variable occurs twice. *)
Definition linear (m : list (attr * attr)) (a : attr) : Prop :=
  NoDup (List.filter (fun x => bool_decide (dget x m = None) && match x with AStr s => is_var s | _ => false end) (leaves a)).

(** ** Proofs *)
(** An element of an attribute after [bind_flat_attr]. *)
Definition bel (m : list (attr * attr)) (e : attr) : attr :=
  match e with
  | ATup _ => bind_flat_attr m e
  | _ => match dget e m with Some b => b | None => e end
  end.
Lemma bind_tup m l : bind_flat_attr m (ATup l) = ATup (map (bel m) l).
Proof. done. Qed.
Lemma bel_tup m l : bel m (ATup l) = ATup (map (bel m) l).
Proof. done. Qed.

Fixpoint ipm_list (m : list (attr * attr)) (l k : list attr) : res bool :=
  match l, k with
  | x :: l, y :: k => rbind (is_partial_match m x y) (fun b : bool => if b then ipm_list m l k else Ok false)
  | _, _ => Ok true
  end.
Lemma ipm_tup m l k : is_partial_match m (ATup l) (ATup k) =
  if (List.length l =? List.length k)%nat then ipm_list m l k else Ok false.
Proof.
  simpl. destruct (List.length l =? List.length k)%nat; [|done].
  revert k. induction l as [|x l IH]; intros [|y k]; [done..|]. simpl.
  destruct (is_partial_match m x y) as [[]|]; try done. simpl. apply IH.
Qed.

Lemma well_named_tup l : well_named (ATup l) -> Forall well_named l.
Proof.
  intros H. apply Forall_forall. intros a Ha x Hx. apply H. simpl.
  apply elem_of_list_In, in_concat. exists (leaves a). split; [|by apply elem_of_list_In].
  apply in_map. by apply elem_of_list_In.
Qed.
Lemma well_named_str s : well_named (AStr s) -> s <> "".
Proof. intros H. destruct (H (AStr s)) as (t & [= <-] & Ht); [left|done]. Qed.
Lemma well_named_num z : ~ well_named (ANum z).
Proof. intros H. destruct (H (ANum z)) as (t & E & _); [left|done]. Qed.

(** It always answers. *)
Lemma ipm_answers m i : well_named i -> forall c, well_named c -> exists b, is_partial_match m i c = Ok b.
Proof.
  induction i as [s|l IH|z] using attr_ind'; intros Hi c Hc.
  - destruct c as [t|k|w]; [|by eexists..]. simpl.
    apply well_named_str in Hi, Hc. destruct s; [done|]. destruct (is_var _); [|by eexists].
    destruct (dget _ m); [by eexists|]. destruct t; [done|]. destruct (is_var _); by eexists.
  - destruct c as [t|k|w]; [by eexists| |by eexists]. rewrite ipm_tup.
    destruct (_ =? _)%nat; [|by eexists]. apply well_named_tup in Hi, Hc.
    revert k Hc. induction l as [|x l IHl]; intros [|y k] Hc; try (by eexists). simpl.
    apply Forall_cons in IH as [IHx IH]. apply Forall_cons in Hi as [Hx Hi]. apply Forall_cons in Hc as [Hy Hc].
    destruct (IHx Hx y Hy) as [b ->]. simpl. destruct b; [by apply IHl|by eexists].
  - by apply well_named_num in Hi.
Qed.

Lemma is_mapping_str m s : is_mapping m -> is_var s = false -> dget (AStr s) m = None.
Proof.
  intros Hm Hs. destruct (dget (AStr s) m) eqn:E; [|done].
  destruct (Hm _ _ E) as ((t & [= <-] & Ht) & _). congruence.
Qed.

Lemma ipm_complete m m' i : is_mapping m -> completes m m' -> well_named i -> forall c, well_named c ->
  bel m' i = c -> is_partial_match m i c = Ok true.
Proof.
  intros Hm (Hm' & Hext & Hnew). induction i as [s|l IH|z] using attr_ind'; intros Hi c Hc E.
  - simpl in E. apply well_named_str in Hi. destruct (is_var s) eqn:Ev.
    + destruct (dget (AStr s) m) as [b|] eqn:Eb.
      * rewrite (Hext _ _ Eb) in E. subst c. destruct (Hm _ _ Eb) as (_ & t & ->). simpl.
        destruct s; [done|]. rewrite Ev, Eb. by rewrite bool_decide_true.
      * assert (exists t, c = AStr t /\ is_var t = true) as (t & -> & Ht).
        { destruct (dget (AStr s) m') as [b|] eqn:Eb'; [|subst c; by exists s].
          subst b. apply (Hnew _ _ Eb Eb'). }
        simpl. destruct s; [done|]. rewrite Ev, Eb. destruct t; [done|]. by rewrite Ht.
    + rewrite (is_mapping_str m' s Hm' Ev) in E. subst c. simpl. destruct s; [done|]. rewrite Ev.
      by rewrite bool_decide_true.
  - rewrite bel_tup in E. subst c. rewrite ipm_tup, map_length, Nat.eqb_refl.
    apply well_named_tup in Hi, Hc.
    induction l as [|x l IHl]; [done|]. simpl.
    apply Forall_cons in IH as [IHx IH]. apply Forall_cons in Hi as [Hx Hi]. apply Forall_cons in Hc as [Hy Hc].
    rewrite (IHx Hx _ Hy eq_refl). simpl. by apply IHl.
  - by apply well_named_num in Hi.
Qed.

Definition uvars (m : list (attr * attr)) (a : attr) : list attr :=
  List.filter (fun x => bool_decide (dget x m = None) && match x with AStr s => is_var s | _ => false end) (leaves a).

Lemma ipm_sound m i : is_mapping m -> forall c, is_partial_match m i c = Ok true ->
  exists bs, map fst bs = uvars m i /\ (forall e, e ∈ bs -> variable (fst e) /\ variable (snd e)) /\
    forall m', (forall x b, dget x m = Some b -> dget x m' = Some b) -> is_mapping m' ->
      (forall e, e ∈ bs -> dget (fst e) m' = Some (snd e)) -> bel m' i = c.
Proof.
  intros Hm. induction i as [s|l IH|z] using attr_ind'; intros c E.
  - destruct c as [t|k|w]; [|done..]. simpl in E. destruct s as [|ch s]; [done|]. set (S := String ch s) in *.
    destruct (is_var S) eqn:Ev.
    + destruct (dget (AStr S) m) as [b|] eqn:Eb.
      * exists []. split; [|split].
        -- unfold uvars. cbn [leaves List.filter]. rewrite Eb. by rewrite bool_decide_false.
        -- intros e He. inversion He.
        -- intros m' Hext _ _. cbn [bel]. rewrite (Hext _ _ Eb). injection E as E. by apply bool_decide_eq_true in E.
      * assert (Ht : is_var t = true).
        { destruct t as [|ch' t]; [done|]. destruct (is_var (String ch' t)) eqn:Et; [done|].
          injection E as E. apply bool_decide_eq_true in E. injection E as E1 E2. unfold S in Ev. congruence. }
        exists [(AStr S, AStr t)]. split; [|split].
        -- unfold uvars. cbn [leaves List.filter]. rewrite Eb, Ev. by rewrite bool_decide_true.
        -- intros e ->%elem_of_list_singleton. split; [by exists S|by exists t].
        -- intros m' _ _ Hb. specialize (Hb (AStr S, AStr t) ltac:(left)). cbn [bel fst snd] in Hb |- *. by rewrite Hb.
    + injection E as E. apply bool_decide_eq_true in E. exists []. split; [|split].
      * unfold uvars. cbn [leaves List.filter]. rewrite Ev. by rewrite andb_false_r.
      * intros e He. inversion He.
      * intros m' _ Hm' _. cbn [bel]. by rewrite (is_mapping_str m' S Hm' Ev).
  - destruct c as [t|k|w]; [done| |done]. rewrite ipm_tup in E.
    destruct (Nat.eqb_spec (List.length l) (List.length k)) as [Hl|]; [|done].
    assert (exists bs, map fst bs = uvars m (ATup l) /\ (forall e, e ∈ bs -> variable (fst e) /\ variable (snd e)) /\
      forall m', (forall x b, dget x m = Some b -> dget x m' = Some b) -> is_mapping m' ->
        (forall e, e ∈ bs -> dget (fst e) m' = Some (snd e)) -> map (bel m') l = k) as (bs & H1 & H2 & H3).
    { revert k E Hl. induction l as [|x l IHl]; intros [|y k] E Hl; try done.
      - exists []. split; [done|]. split; [|done]. intros e He. inversion He.
      - apply Forall_cons in IH as [IHx IH]. simpl in E.
        destruct (is_partial_match m x y) as [[]|] eqn:Ex; try done. simpl in E.
        destruct (IHx y Ex) as (b1 & A1 & A2 & A3). destruct (IHl IH k E) as (b2 & B1 & B2 & B3); [by injection Hl|].
        exists (b1 ++ b2). split; [|split].
        + rewrite map_app, A1, B1. unfold uvars. cbn [leaves map List.concat]. by rewrite List.filter_app.
        + intros e [He|He]%elem_of_app; auto.
        + intros m' Hext Hm' Hb. simpl. f_equal.
          * apply A3; [done|done|]. intros e He. apply Hb. apply elem_of_app. by left.
          * apply B3; [done|done|]. intros e He. apply Hb. apply elem_of_app. by right. }
    exists bs. split; [done|]. split; [done|]. intros m' Hext Hm' Hb. rewrite bel_tup. f_equal. by apply H3.
  - by destruct c.
Qed.

(** ** The theorems *)
(** A relation matches if some completion of the mapping makes it the
    concept's attribute. *)
Theorem C87_match_complete m m' l c : is_mapping m -> completes m m' -> well_named (ATup l) -> well_named c ->
  bind_flat_attr m' (ATup l) = c -> is_partial_match m (ATup l) c = Ok true.
Proof. intros Hm Hc Hl Hw E. by apply (ipm_complete m m'). Qed.

(** Conversely, if every unmapped variable occurs once. *)
Theorem C87_match_sound m l c : is_mapping m -> linear m (ATup l) ->
  is_partial_match m (ATup l) c = Ok true -> exists m', completes m m' /\ bind_flat_attr m' (ATup l) = c.
Proof.
  intros Hm Hlin E. destruct (ipm_sound m (ATup l) Hm c E) as (bs & H1 & H2 & H3).
  assert (Hnd : NoDup (dkeys bs)) by (unfold dkeys; rewrite H1; exact Hlin).
  assert (Hno : forall e, e ∈ bs -> dget (fst e) m = None).
  { intros e He. assert (Hin : fst e ∈ uvars m (ATup l)).
    { rewrite <- H1. by apply elem_of_list_fmap_1. }
    unfold uvars in Hin. apply elem_of_list_In, filter_In in Hin as [_ Hb]. apply andb_true_iff in Hb as [Hb _].
    by apply bool_decide_eq_true in Hb. }
  assert (Hmap : is_mapping (m ++ bs)).
  { intros x b Hx. rewrite dget_app in Hx. destruct (dget x m) as [b'|] eqn:Ex; [injection Hx as ->; by apply (Hm x)|].
    apply dget_In in Hx. destruct (H2 _ Hx) as [Hv (t & Et & _)]. split; [done|]. by exists t. }
  exists (m ++ bs). split; [split; [done|split]|].
  - intros x b Hx. by rewrite dget_app, Hx.
  - intros x b Hx Hb. rewrite dget_app, Hx in Hb. apply dget_In in Hb. by destruct (H2 _ Hb).
  - apply H3; [intros x b Hx; by rewrite dget_app, Hx|done|].
    intros e He. rewrite dget_app, (Hno e He). apply In_dget; [done|]. by destruct e.
Qed.
Theorem C87_match_answers m i c : well_named i -> well_named c -> exists b, is_partial_match m i c = Ok b.
Proof. intros Hi Hc. by apply ipm_answers. Qed.

(** With a variable that occurs twice it answers True although no mapping
    makes the attributes equal. *)
Theorem C87_repeated_variable_refuted : exists l c, well_named (ATup l) /\ well_named c /\
  is_partial_match [] (ATup l) c = Ok true /\ forall m', bind_flat_attr m' (ATup l) <> c.
Proof.
  exists [AStr "<"; AStr "?x"; AStr "?x"], (ATup [AStr "<"; AStr "?a"; AStr "?b"]).
  assert (Hw : forall a b c, a <> "" -> b <> "" -> c <> "" -> well_named (ATup [AStr a; AStr b; AStr c])).
  { intros a b c Ha Hb Hc x Hx. simpl in Hx.
    apply elem_of_cons in Hx as [->|Hx]; [by exists a|]. apply elem_of_cons in Hx as [->|Hx]; [by exists b|].
    apply elem_of_list_singleton in Hx as ->. by exists c. }
  split; [by apply Hw|]. split; [by apply Hw|]. split; [done|].
  intros m' E. rewrite bind_tup in E. injection E as _ E1 E2. cbn [bel] in E1, E2. rewrite E1 in E2. discriminate E2.
Qed.

(** [contains_component] says whether the name occurs; binding a name that
    does not occur changes nothing. *)
Theorem C87_contains s a : contains_component (AStr s) a = true <-> AStr s ∈ leaves a.
Proof.
  induction a as [t|l IH|z] using attr_ind'.
  - cbn [contains_component leaves]. rewrite bool_decide_eq_true, elem_of_list_singleton. split; intros E; by symmetry.
  - change (contains_component (AStr s) (ATup l)) with
      (existsb (contains_component (AStr s)) l || bool_decide (ATup l = AStr s)).
    rewrite (bool_decide_false (ATup l = AStr s)) by done. rewrite orb_false_r. cbn [leaves].
    rewrite existsb_exists. rewrite Forall_forall in IH. split.
    + intros (x & Hx & Hc). apply elem_of_list_In in Hx. apply (IH x Hx) in Hc.
      apply elem_of_list_In, in_concat. exists (leaves x). split; [apply in_map|]; by apply elem_of_list_In.
    + intros Hin. apply elem_of_list_In, in_concat in Hin as (ll & Hll & Hin).
      apply in_map_iff in Hll as (x & <- & Hx). exists x. split; [done|]. apply (IH x); by apply elem_of_list_In.
  - cbn [contains_component leaves]. rewrite bool_decide_eq_true, elem_of_list_singleton. split; intros E; by symmetry.
Qed.
Theorem C87_absent s b m l : contains_component (AStr s) (ATup l) = false ->
  bind_flat_attr (dset (AStr s) b m) (ATup l) = bind_flat_attr m (ATup l).
Proof.
  intros Hc. assert (H : AStr s ∉ leaves (ATup l)).
  { intros Hin. apply C87_contains in Hin. congruence. }
  clear Hc. change (bel (dset (AStr s) b m) (ATup l) = bel m (ATup l)). revert H.
  generalize (ATup l). clear l. intros a. induction a as [t|l IH|z] using attr_ind'; intros H.
  - simpl. rewrite dget_dset_ne; [done|]. intros E. apply H. rewrite E. left.
  - rewrite !bel_tup. f_equal. simpl in H. induction l as [|x l IHl]; [done|]. simpl in *.
    apply Forall_cons in IH as [Hx IH]. f_equal.
    + apply Hx. intros Hin. apply H. apply elem_of_app. by left.
    + apply IHl; [done|]. intros Hin. apply H. apply elem_of_app. by right.
  - simpl. by rewrite dget_dset_ne.
Qed.

(** ** The documentation's example (structure_mapper.py:460-462): the
    completion maps the variable that is left. *)
Lemma ex_C87 : exists m', completes [(AStr "?o1", AStr "?c1")] m' /\
  bind_flat_attr m' (ATup [AStr "<"; ATup [AStr "a"; AStr "?o2"]; ATup [AStr "a"; AStr "?o1"]]) =
  ATup [AStr "<"; ATup [AStr "a"; AStr "?c2"]; ATup [AStr "a"; AStr "?c1"]].
Proof.
  apply C87_match_sound.
  - intros x b Hx. simpl in Hx. destruct (decide _) as [->|]; [|done]. injection Hx as <-.
    split; [by exists "?o1"|by exists "?c1"].
  - unfold linear. apply (bool_decide_unpack _). vm_compute. exact I.
  - vm_compute. reflexivity.
Qed.

Print Assumptions C87_match_complete.
Print Assumptions C87_match_sound.
Print Assumptions C87_repeated_variable_refuted.
