(** * Structure mapping: C48 and C49. *)
From stdpp Require Import base decidable list sets strings.
From Coq Require Import Ascii String ZArith.
From Verif Require Import Base PyVal Preproc PreStd StructMap StructFacts.
Set Default Proof Using "Type".
Open Scope list_scope.

(** ** Vocabulary *)
(** The name [v] is written somewhere in the attribute. *)
Inductive mentions (v : string) : attr -> Prop :=
| me_name : mentions v (AStr v)
| me_tup a l : a ∈ l -> mentions v a -> mentions v (ATup l).
(** The components of an instance or table with these attributes: the names
    beginning with a question mark that its attributes mention. *)
Definition component (keys : list attr) (o : attr) : Prop :=
  exists v a, o = AStr v /\ is_var v = true /\ a ∈ keys /\ mentions v a.

Lemma avars_mentions v a : v ∈ avars a <-> is_var v = true /\ mentions v a.
Proof.
  induction a as [s|l IH|z] using attr_ind'; simpl.
  - destruct (is_var s) eqn:E.
    + rewrite elem_of_list_singleton. split; [intros ->; split; [done|constructor]|].
      intros [_ H]. by inversion H.
    + split; [by intros ?%elem_of_nil|]. intros [Hv H]. inversion H; subst. congruence.
  - rewrite elem_of_list_In, in_flat_map. split.
    + intros (x & Hx & Hv). apply elem_of_list_In in Hx, Hv. rewrite Forall_forall in IH.
      apply (IH x Hx) in Hv as [? ?]. split; [done|]. by apply (me_tup _ x).
    + intros [Hv H]. inversion H as [|x l' Hx Hm]; subst. exists x. rewrite <- !elem_of_list_In.
      split; [done|]. rewrite Forall_forall in IH. by apply IH.
  - split; [by intros ?%elem_of_nil|]. intros [_ H]. inversion H.
Qed.
Lemma component_kvars keys o : component keys o <-> exists v, o = AStr v /\ kvars keys v.
Proof.
  split.
  - intros (v & a & -> & Hv & Ha & Hm). exists v. split; [done|]. exists a. split; [done|]. by apply avars_mentions.
  - intros (v & -> & a & Ha & Hv). apply avars_mentions in Hv as [? ?]. exists v, a. done.
Qed.

(** ** C48 *)
(** What is claimed of a mapping: a dictionary that sends different components
    of the target to different names, each to itself or to a component of the
    base. *)
Record separates (tkeys bkeys : list attr) (m : list (attr * attr)) : Prop := {
  sp_dict : NoDup (map fst m);
  sp_from : forall o c, (o, c) ∈ m -> component tkeys o;
  sp_to : forall o c, (o, c) ∈ m -> c = o \/ component bkeys c;
  sp_inj : forall o o' c, (o, c) ∈ m -> (o', c) ∈ m -> o = o';
}.

Lemma map_ok_separates tkeys bkeys m : map_ok (kvars tkeys) (kvars bkeys) m -> separates tkeys bkeys m.
Proof.
  intros [Hw Hg Hi]. split.
  - exact Hw.
  - intros o c Hin. apply (In_dget _ _ _ Hw) in Hin. destruct (Hg _ _ Hin) as (v & w & -> & -> & Hv & _).
    apply component_kvars. eauto.
  - intros o c Hin. apply (In_dget _ _ _ Hw) in Hin. destruct (Hg _ _ Hin) as (v & w & -> & -> & _ & [->|Hb]); [by left|].
    right. apply component_kvars. eauto.
  - intros o o' c H1 H2. apply (In_dget _ _ _ Hw) in H1, H2. by apply (Hi o o' c).
Qed.

(** C48, the mapping returned: for any cost function, any assignment solver
    that returns complete assignments, any enumeration of the sets and any
    trajectory of the hill climbing. *)
Theorem C48_never_merges {F} (cost : list (attr * attr) -> res F) orc tkeys bkeys m :
  oracle_ok orc -> flat_match cost orc None tkeys bkeys = Ok m ->
  separates tkeys bkeys m /\
  ((exists c, component bkeys c) -> forall o, component tkeys o -> o ∈ map fst m).
Proof.
  intros Ho E. destruct (flat_match_ok cost orc tkeys bkeys m Ho E) as (H1 & _ & H3).
  split; [by apply map_ok_separates|].
  intros (c & Hc) o Hc'. apply component_kvars in Hc as (w & -> & Hw). apply component_kvars in Hc' as (v & -> & Hv).
  apply H3; eauto.
Qed.

(** The states of the search.  [visits s0 s]: hill climbing from [s0] can be in
    state [s], after any number of moves to any of the successors. *)
Inductive visits : smstate -> smstate -> Prop :=
| vi_here s : visits s s
| vi_move s s1 s2 : visits s s1 -> s2 ∈ successors s1 -> visits s s2.

(** C48, the states: the second component of every state that is ever visited
    is exactly the set of base components that nothing is mapped to, and no
    state merges two components.  [m0] is the mapping the search starts with. *)
Theorem C48_states {F} (cost : list (attr * attr) -> res F) orc inames cnames m0 s :
  oracle_ok orc -> NoDup inames -> NoDup cnames -> (forall x, x ∈ inames -> x ∉ cnames) ->
  hungarian_mapping cost orc inames cnames = Ok m0 ->
  visits (start_state m0 cnames) s ->
  NoDup (map fst (fst s)) /\ (forall o, o ∈ map fst (fst s) <-> o ∈ inames) /\
  (forall o c, (o, c) ∈ fst s -> c = o \/ c ∈ cnames) /\
  (forall o o' c, (o, c) ∈ fst s -> (o', c) ∈ fst s -> o = o') /\
  (forall c, c ∈ snd s <-> c ∈ cnames /\ forall o, (o, c) ∉ fst s).
Proof.
  intros Ho Hi Hc Hd E Hv. destruct (hungarian_ok cost orc Ho inames cnames Hi Hc Hd m0 E) as (H1 & H2 & H3 & H4).
  assert (Hs : sm_inv cnames inames s).
  { clear E. remember (start_state m0 cnames) as s0 eqn:E0. induction Hv as [s|s s1 s2 Hv IH Hin].
    - subst s. by apply start_inv.
    - apply (successors_inv inames cnames Hd inames s1); auto. }
  destruct Hs as [Sw Sd Si Sj Sr]. split; [exact Sw|]. split; [exact Sd|]. split; [|split].
  - intros o c Hin. by apply Si, In_dget.
  - intros o o' c A B. apply (Sj o o' c); by apply In_dget.
  - intros c. rewrite Sr. split; intros [A B]; (split; [done|]); intros o Hin; apply (B o).
    + by apply In_dget.
    + by apply dget_In.
Qed.

(** The search of [flat_match] is one of these. *)
Lemma climb_visits {F} (cost : list (attr * attr) -> res F) path : forall s s',
  climb cost path s = Ok s' -> visits s s'.
Proof.
  assert (Htr : forall s1 s2 s3, s2 ∈ successors s1 -> visits s2 s3 -> visits s1 s3).
  { intros s1 s2 s3 H Hv. induction Hv as [s|s s2' s3' Hv IH Hin].
    - apply (vi_move _ s1); [constructor|done].
    - eapply vi_move; [by apply IH|done]. }
  induction path as [|k path IH]; intros s s' E; cbn [climb] in E.
  - injection E as <-. constructor.
  - destruct (rmapM _ _); [|done]. cbn [rbind] in E.
    destruct (successors s !! k) as [s1|] eqn:E1; [|injection E as <-; constructor].
    apply (Htr s s1); [by eapply elem_of_list_lookup_2|auto].
Qed.

(** A mapping supplied by the caller: the items that name components of both
    sides are kept; if they are the items of an injective dictionary the claim
    holds as before. *)
Theorem C48_initial_mapping {F} (cost : list (attr * attr) -> res F) orc init tkeys bkeys m :
  NoDup (map fst init) -> (forall o o' c, (o, c) ∈ init -> (o', c) ∈ init -> o = o') ->
  flat_match cost orc (Some init) tkeys bkeys = Ok m -> separates tkeys bkeys m.
Proof.
  intros Hw Hj. unfold flat_match.
  destruct (comp_names tkeys) as [inn|] eqn:Ei; [|done]. destruct (comp_names bkeys) as [cn|] eqn:Ec; [|done].
  cbn [rbind]. destruct (comp_names_spec _ _ Ei) as [Ni Si]. destruct (comp_names_spec _ _ Ec) as [Nc Sc].
  destruct (bool_decide (inn = []) || bool_decide (cn = [])) eqn:Eb.
  { intros [= <-]. split; [constructor|..]; intros *; by intros ?%elem_of_nil. }
  destruct (existsb _ inn) eqn:Ee; [done|].
  assert (Hdisj : forall x, x ∈ inn -> x ∉ cn).
  { intros x Hx Hc. assert (existsb (fun o => bool_decide (o ∈ cn)) inn = true); [|congruence].
    apply existsb_exists. exists x. split; [by apply elem_of_list_In|]. by apply bool_decide_eq_true. }
  cbn [rbind]. set (m0 := List.filter _ init). destruct (cost m0); [|done]. cbn [rbind].
  destruct (climb cost (o_path orc) (start_state m0 cn)) as [s|] eqn:Es; [|done]. cbn [rbind]. intros [= <-].
  assert (H0 : forall e, e ∈ m0 <-> e ∈ init /\ fst e ∈ inn /\ snd e ∈ cn).
  { intros e. unfold m0. rewrite elem_of_list_In, List.filter_In, <- elem_of_list_In, andb_true_iff, !bool_decide_eq_true. done. }
  assert (W0 : dwf m0).
  { unfold m0, dwf, dkeys in *. clear -Hw. induction init as [|e l IH]; simpl; [constructor|].
    simpl in Hw. apply NoDup_cons in Hw as [A B]. destruct (_ && _); simpl; [|auto].
    apply NoDup_cons. split; [|auto]. intros Hin. apply A.
    apply elem_of_list_fmap in Hin as (y & -> & Hy). apply elem_of_list_fmap. exists y. split; [done|].
    apply elem_of_list_In, List.filter_In in Hy as [Hy _]. by apply elem_of_list_In. }
  assert (Hs : sm_inv cn (dkeys m0) s).
  { eapply (climb_inv inn cn Hdisj cost); [|apply start_inv|exact Es]; try done.
    - intros x Hx. apply elem_of_list_fmap in Hx as (y & -> & Hy). by apply H0.
    - intros o c Hg. right. apply dget_In, H0 in Hg as (_ & _ & ?). done.
    - intros o o' c Hg Hg'. apply dget_In, H0 in Hg as (Hg & _). apply dget_In, H0 in Hg' as (Hg' & _).
      by apply (Hj o o' c). }
  destruct Hs as [Sw Sd Sg Sj Sr]. split.
  - exact Sw.
  - intros o c Hin. assert (Hk : o ∈ dkeys (fst s)) by (apply elem_of_list_fmap; by exists (o, c)).
    apply Sd in Hk. apply elem_of_list_fmap in Hk as (y & -> & Hy). apply component_kvars, Si. by apply H0.
  - intros o c Hin. destruct (Sg o c ltac:(by apply In_dget)) as [?|Hc]; [by left|]. right.
    apply component_kvars. by apply Sc.
  - intros o o' c A B. apply (Sj o o' c); by apply In_dget.
Qed.

(** Without that hypothesis it is false: the code keeps whatever the caller
    gives, and [flat_match] merges two components. *)
Definition id_oracle {F} : oracle F :=
  Oracle id (fun rows => imap (fun i _ => (i, i)) rows) [].
Lemma id_oracle_ok {F} : oracle_ok (id_oracle (F:=F)).
Proof.
  split; [done|]. intros rows w Hf Hl. simpl.
  assert (E : forall (l : list (list (option F))) k,
     map fst (imap (fun i _ => (k + i, k + i)) l) = seq k (List.length l) /\
     map snd (imap (fun i _ => (k + i, k + i)) l) = seq k (List.length l)).
  { induction l as [|x l IH]; intros k; [done|]. rewrite imap_cons. simpl. destruct (IH (S k)) as [E1 E2].
    rewrite Nat.add_0_r. split; f_equal.
    - etransitivity; [|exact E1]. f_equal. apply imap_ext. intros i y _. simpl. f_equal; lia.
    - etransitivity; [|exact E2]. f_equal. apply imap_ext. intros i y _. simpl. f_equal; lia. }
  destruct (E rows 0) as [E1 E2]. unfold assignment. simpl in E1, E2. rewrite E1, E2.
  split; [apply NoDup_ListNoDup, seq_NoDup|]. split; [intros i; rewrite elem_of_list_In, in_seq; lia|]. split; [apply NoDup_ListNoDup, seq_NoDup|].
  intros j. rewrite elem_of_list_In, in_seq. lia.
Qed.

Definition rel_a (v : string) : attr := ATup [AStr "a"; AStr v].
Theorem C48_initial_mapping_refuted : exists (cost : list (attr * attr) -> res nat) orc init tkeys bkeys m,
  oracle_ok orc /\ NoDup (map fst init) /\ NoDup tkeys /\
  flat_match cost orc (Some init) tkeys bkeys = Ok m /\
  ~ separates tkeys bkeys m /\
  (* two attributes of the target become one *)
  List.length (rename_flat m (map (fun a => (a, tt)) tkeys)) < List.length tkeys.
Proof.
  exists (fun _ => Ok 0), id_oracle,
    [(AStr "?x", AStr "?o1"); (AStr "?y", AStr "?o1")],
    [rel_a "?x"; rel_a "?y"], [rel_a "?o1"],
    [(AStr "?x", AStr "?o1"); (AStr "?y", AStr "?o1")].
  split; [apply id_oracle_ok|]. split; [|split; [|split; [|split]]].
  - apply (bool_decide_eq_true_1 _); vm_compute; reflexivity.
  - apply (bool_decide_eq_true_1 _); vm_compute; reflexivity.
  - by vm_compute.
  - intros [_ _ _ Hj]. assert (H : AStr "?x" = AStr "?y"); [|done]. apply (Hj _ _ (AStr "?o1")); set_solver.
  - vm_compute. lia.
Qed.

(** ** C49 *)
(** [renamed f d d']: [d'] lists the attributes of [d] in the same order, with
    the same values, every component [v] in an attribute replaced by [f v]. *)
Fixpoint rename_in (f : string -> string) (a : attr) : attr :=
  match a with
  | AStr s => if is_var s then AStr (f s) else a
  | ATup l => ATup (map (rename_in f) l)
  | ANum _ => a
  end.

Lemma rename_in_arename f a : rename_in f a = arename f a.
Proof.
  induction a as [s|l IH|z] using attr_ind'; [done| |done]. cbn [rename_in arename]. f_equal.
  induction IH as [|a l Ha Hl IHl]; simpl; [done|]. by rewrite Ha, IHl.
Qed.

Theorem C49_rename_and_undo {F V} (cost : list (attr * attr) -> res F) orc bkeys
    (target : list (attr * V)) target' rev :
  oracle_ok orc -> NoDup (map fst target) ->
  sm_transform cost orc None bkeys target = Ok (target', rev) ->
  (* no two attributes collide: one entry for each, in order, with its value *)
  NoDup (map fst target') /\ map snd target' = map snd target /\
  (exists f, map fst target' = map (rename_in f) (map fst target) /\
     (forall u v, component (map fst target) (AStr u) -> component (map fst target) (AStr v) -> f u = f v -> u = v) /\
     (forall u, component (map fst target) (AStr u) -> f u = u \/ component bkeys (AStr (f u)))) /\
  (* and undoing gives the target back *)
  sm_undo (Some rev) target' = Ok target.
Proof.
  intros Ho Hw. unfold sm_transform. destruct (flat_match cost orc None (dkeys target) bkeys) as [m|] eqn:E; [|done].
  cbn [rbind]. intros [= <- <-]. destruct (flat_match_ok cost orc _ _ m Ho E) as (H1 & H2 & _).
  assert (HT : forall v, kvars (dkeys target) v -> is_var v = true) by (intros v; apply kvars_var).
  assert (HB : forall v, kvars bkeys v -> is_var v = true) by (intros v; apply kvars_var).
  assert (Hk : forall a v, a ∈ dkeys target -> v ∈ avars a -> kvars (dkeys target) v) by (intros a v ??; by exists a).
  destruct (rename_target _ _ m H1 HT HB H2 target Hw Hk) as [Er Hd]. split; [exact Hd|]. split; [|split].
  - rewrite Er, map_map. done.
  - exists (fm m). split; [|split].
    + rewrite Er, !map_map. apply map_ext. intros e. simpl. symmetry. apply rename_in_arename.
    + intros u v (u' & [= <-] & Hu)%component_kvars (v' & [= <-] & Hv)%component_kvars.
      apply (fm_inj_T _ _ m H1 HT HB H2); done.
    + intros u (u' & [= <-] & Hu)%component_kvars.
      destruct (fm_target _ _ m H1 HT HB H2 u Hu) as (_ & _ & [?|?]); [by left|right].
      apply component_kvars. eauto.
  - unfold sm_undo. f_equal. by apply (undo_target_eq _ _ m H1 HT HB H2).
Qed.

(** Attributes the mapper can read: a non-empty name, or a tuple with no
    numbers in it. *)
Definition readable (a : attr) : bool :=
  match a with
  | AStr s => negb (String.eqb s "")
  | ATup _ => tup_ok a
  | ANum _ => false
  end.

Lemma readable_comps a : readable a = true -> exists cs, attr_comps a = Ok cs.
Proof.
  destruct a as [s|l|z]; simpl; intros H; [|by apply attr_comps_ok in H as (cs & ? & _); eauto|done].
  destruct s as [|c s]; [done|]. eauto.
Qed.
Lemma readable_comp_names keys : Forall (fun a => readable a = true) keys -> exists ns, comp_names keys = Ok ns.
Proof.
  intros H. unfold comp_names.
  assert (Hm : exists l, rmapM attr_comps keys = Ok l).
  { induction H as [|a keys Ha Hk [l IH]]; [by exists []|]. destruct (readable_comps a Ha) as [cs Ec].
    simpl. rewrite Ec. simpl. rewrite IH. simpl. eauto. }
  destruct Hm as [l ->]. simpl. eauto.
Qed.

Lemma rmapM_total {A B} (f : A -> res B) l : (forall x, x ∈ l -> exists y, f x = Ok y) -> exists ys, rmapM f l = Ok ys.
Proof.
  induction l as [|x l IH]; intros H; simpl; [eauto|].
  destruct (H x ltac:(left)) as [y ->]. simpl. destruct IH as [ys ->]; [intros z Hz; apply H; by right|]. simpl. eauto.
Qed.

Section Total.
  Context {F : Type} (cost : list (attr * attr) -> res F) (orc : oracle F) (Ho : oracle_ok orc).
  Context (tkeys bkeys inames cnames : list attr) (Ei : comp_names tkeys = Ok inames) (Ec : comp_names bkeys = Ok cnames).
  Context (Hd : forall x, x ∈ inames -> x ∉ cnames).
  Context (Hcost : forall m, separates tkeys bkeys m -> exists c, cost m = Ok c).

  Lemma inames_comp o : o ∈ inames <-> component tkeys o.
  Proof using Ei. destruct (comp_names_spec _ _ Ei) as [_ H]. rewrite H. symmetry. apply component_kvars. Qed.
  Lemma cnames_comp o : o ∈ cnames <-> component bkeys o.
  Proof using Ec. destruct (comp_names_spec _ _ Ec) as [_ H]. rewrite H. symmetry. apply component_kvars. Qed.

  Lemma hungarian_total : exists m, hungarian_mapping cost orc inames cnames = Ok m.
  Proof using Ho Ei Ec Hd Hcost.
    destruct (comp_names_spec _ _ Ei) as [Ni _]. destruct (comp_names_spec _ _ Ec) as [Nc _].
    unfold hungarian_mapping. set (cl := o_enum orc cnames). set (il := o_enum orc inames).
    assert (Pc : Permutation cl cnames) by apply (oo_enum _ Ho).
    assert (Pi : Permutation il inames) by apply (oo_enum _ Ho).
    assert (Hrow : forall o, o ∈ il -> exists r, hungarian_row cost cl il o = Ok r).
    { intros o Hin. unfold hungarian_row. rewrite Pi in Hin. apply inames_comp in Hin.
      destruct (rmapM_total (fun c => cost [(o, c)]) cl) as [r ->].
      { intros c Hc. rewrite Pc in Hc. apply cnames_comp in Hc. apply Hcost. split.
        - simpl. repeat constructor. by intros ?%elem_of_nil.
        - intros o' c' [= -> ->]%elem_of_list_singleton. done.
        - intros o' c' [= -> ->]%elem_of_list_singleton. by right.
        - intros o' o'' c' [= -> ->]%elem_of_list_singleton [= ->]%elem_of_list_singleton. done. }
      cbn [rbind]. destruct (Hcost []) as [u ->].
      { split; [constructor|..]; intros *; by intros ?%elem_of_nil. }
      cbn [rbind]. eauto. }
    destruct (rmapM_total _ _ Hrow) as [rows Er]. rewrite Er. cbn [rbind].
    assert (Hlen := rmapM_length _ _ _ Er).
    assert (Hw : Forall (fun r => List.length r = List.length cl + List.length il) rows).
    { eapply rmapM_Forall; [exact Er|]. intros o r Hin Eo. unfold hungarian_row in Eo.
      destruct (rmapM (fun c => cost [(o, c)]) cl) as [r0|] eqn:E0; [|done]. cbn [rbind] in Eo.
      destruct (cost []); [|done]. cbn [rbind] in Eo. injection Eo as <-.
      rewrite app_length, !map_length. by rewrite (rmapM_length _ _ _ E0). }
    destruct (oo_munkres _ Ho rows _ Hw ltac:(lia)) as (_ & A1 & _ & A2).
    assert (Hent : forall l m, (forall e, e ∈ l -> fst e < List.length il /\ snd e < List.length cl + List.length il) ->
      exists m', rfold (hungarian_entry cl il) m l = Ok m').
    { induction l as [|[i j] l IH]; intros m H; simpl; [eauto|].
      destruct (H (i, j) ltac:(left)) as [H1 H2]. cbn [fst snd] in H1, H2. unfold hungarian_entry at 1. cbn [fst snd].
      destruct (lookup_lt_is_Some_2 il i H1) as [o ->].
      destruct (List.length cl <=? j)%nat eqn:Ej; cbn [rbind].
      - apply IH. intros e He. apply H. by right.
      - apply Nat.leb_gt in Ej. destruct (lookup_lt_is_Some_2 cl j Ej) as [c ->]. cbn [rbind].
        apply IH. intros e He. apply H. by right. }
    apply Hent. intros [i j] He. split; cbn [fst snd].
    - rewrite <- Hlen. apply A1. apply elem_of_list_fmap. by exists (i, j).
    - apply A2. apply elem_of_list_fmap. by exists (i, j).
  Qed.

  Lemma sm_inv_separates s : sm_inv cnames inames s -> separates tkeys bkeys (fst s).
  Proof using Ei Ec.
    intros [Sw Sd Sg Sj Sr]. split.
    - exact Sw.
    - intros o c Hin. apply inames_comp, Sd. apply elem_of_list_fmap. by exists (o, c).
    - intros o c Hin. destruct (Sg o c ltac:(by apply In_dget)) as [?|?]; [by left|right]. by apply cnames_comp.
    - intros o o' c A B. apply (Sj o o' c); by apply In_dget.
  Qed.

  Lemma climb_total path : forall s, sm_inv cnames inames s -> exists s', climb cost path s = Ok s'.
  Proof using Ei Ec Hd Hcost.
    induction path as [|k path IH]; intros s Hs; cbn [climb]; [eauto|].
    assert (Hall : forall s', s' ∈ successors s -> sm_inv cnames inames s').
    { intros s' Hin. by apply (successors_inv inames cnames Hd inames s s'). }
    destruct (rmapM_total (fun s' : list (attr * attr) * list attr => cost (fst s')) (successors s)) as [ys ->].
    { intros s' Hin. by apply Hcost, sm_inv_separates, Hall. }
    cbn [rbind]. destruct (successors s !! k) as [s1|] eqn:E1; [|eauto].
    apply IH, Hall. by eapply elem_of_list_lookup_2.
  Qed.

  Lemma flat_match_total : exists m, flat_match cost orc None tkeys bkeys = Ok m.
  Proof using Ho Ei Ec Hd Hcost.
    unfold flat_match. rewrite Ei, Ec. cbn [rbind].
    destruct (bool_decide (inames = []) || bool_decide (cnames = [])); [eauto|].
    destruct (existsb _ inames) eqn:Ee.
    { apply existsb_exists in Ee as (x & Hx & Hc). apply bool_decide_eq_true in Hc. apply elem_of_list_In in Hx.
      by destruct (Hd x). }
    destruct hungarian_total as [m0 E0]. rewrite E0. cbn [rbind].
    destruct (comp_names_spec _ _ Ei) as [Ni _]. destruct (comp_names_spec _ _ Ec) as [Nc _].
    destruct (hungarian_ok cost orc Ho inames cnames Ni Nc Hd m0 E0) as (H1 & H2 & H3 & H4).
    assert (Hs : sm_inv cnames inames (start_state m0 cnames)) by (by apply start_inv).
    destruct (Hcost m0) as [u ->]; [by apply (sm_inv_separates _ Hs)|]. cbn [rbind].
    destruct (climb_total (o_path orc) _ Hs) as [s ->]. cbn [rbind]. eauto.
  Qed.
End Total.

(** C49, that it works: if the attributes can be read, the target and the base
    share no component, and the cost of every mapping that separates the
    components can be computed, then the transformation succeeds. *)
Theorem C49_succeeds {F V} (cost : list (attr * attr) -> res F) orc bkeys (target : list (attr * V)) :
  oracle_ok orc ->
  Forall (fun a => readable a = true) (map fst target) -> Forall (fun a => readable a = true) bkeys ->
  (forall o, component (map fst target) o -> ~ component bkeys o) ->
  (forall m, separates (map fst target) bkeys m -> exists c, cost m = Ok c) ->
  exists target' rev, sm_transform cost orc None bkeys target = Ok (target', rev).
Proof.
  intros Ho Ht Hb Hd Hc. destruct (readable_comp_names _ Ht) as [inn Ei]. destruct (readable_comp_names _ Hb) as [cn Ec].
  destruct (flat_match_total cost orc Ho _ _ inn cn Ei Ec) as [m Em]; [|done|].
  - intros x Hx Hx'. apply (inames_comp _ _ Ei) in Hx. apply (cnames_comp _ _ Ec) in Hx'. by apply (Hd x).
  - unfold sm_transform. change (dkeys target) with (map fst target). rewrite Em. cbn [rbind]. eauto.
Qed.

(** The hypothesis about shared components cannot be dropped: the mapper
    refuses such a pair. *)
Theorem C49_collision {F V} (cost : list (attr * attr) -> res F) orc init bkeys (target : list (attr * V)) o :
  Forall (fun a => readable a = true) (map fst target) -> Forall (fun a => readable a = true) bkeys ->
  component (map fst target) o -> component bkeys o ->
  sm_transform cost orc init bkeys target = Err OtherException.
Proof.
  intros Ht Hb H1 H2. destruct (readable_comp_names _ Ht) as [inn Ei]. destruct (readable_comp_names _ Hb) as [cn Ec].
  apply (inames_comp _ _ Ei) in H1. apply (cnames_comp _ _ Ec) in H2.
  unfold sm_transform, flat_match. change (dkeys target) with (map fst target). rewrite Ei, Ec. cbn [rbind].
  rewrite (bool_decide_eq_false_2 (inn = [])) by (intros ->; by apply elem_of_nil in H1).
  rewrite (bool_decide_eq_false_2 (cn = [])) by (intros ->; by apply elem_of_nil in H2).
  cbn [orb]. replace (existsb (fun x => bool_decide (x ∈ cn)) inn) with true; [done|].
  symmetry. apply existsb_exists. exists o. split; [by apply elem_of_list_In|]. by apply bool_decide_eq_true.
Qed.

(** ** A concrete case *)
(** Two components with a relation between them, against a base of three; the
    search makes two moves: it takes [?x] off [?o1] to the free [?o3], and
    then exchanges the two. *)
Definition ex_target : list (attr * nat) :=
  [(rel_a "?x", 1); (rel_a "?y", 2); (ATup [AStr "on"; AStr "?x"; AStr "?y"], 3); (AStr "size", 4)].
Definition ex_base : list attr :=
  [rel_a "?o1"; rel_a "?o2"; ATup [AStr "on"; AStr "?o2"; ATup [AStr "b"; AStr "?o3"]]; AStr "size"].
Definition ex_oracle : oracle nat := Oracle id (fun rows => imap (fun i _ => (i, i)) rows) [1; 0].

Lemma ex_C49 :
  oracle_ok ex_oracle /\ NoDup (map fst ex_target) /\
  flat_match (fun _ => Ok 0) ex_oracle None (map fst ex_target) ex_base =
    Ok [(AStr "?x", AStr "?o2"); (AStr "?y", AStr "?o3")] /\
  sm_transform (fun _ => Ok 0) ex_oracle None ex_base ex_target =
    Ok ([(rel_a "?o2", 1); (rel_a "?o3", 2); (ATup [AStr "on"; AStr "?o2"; AStr "?o3"], 3); (AStr "size", 4)],
        [(AStr "?o2", AStr "?x"); (AStr "?o3", AStr "?y")]) /\
  Forall (fun a => readable a = true) (map fst ex_target) /\ Forall (fun a => readable a = true) ex_base /\
  component (map fst ex_target) (AStr "?x") /\ component ex_base (AStr "?o3") /\
  (forall o, component (map fst ex_target) o -> ~ component ex_base o).
Proof.
  split; [destruct (@id_oracle_ok nat) as [A B]; split; [exact A|exact B]|].
  split; [apply (bool_decide_eq_true_1 _); vm_compute; reflexivity|].
  split; [vm_compute; reflexivity|].
  split; [vm_compute; reflexivity|].
  split; [repeat constructor|].
  split; [repeat constructor|].
  assert (Ei : comp_names (map fst ex_target) = Ok [AStr "?x"; AStr "?y"]) by (vm_compute; reflexivity).
  assert (Ec : comp_names ex_base = Ok [AStr "?o1"; AStr "?o2"; AStr "?o3"]) by (vm_compute; reflexivity).
  split; [apply (inames_comp _ _ Ei); set_solver|].
  split; [apply (cnames_comp _ _ Ec); set_solver|].
  intros o H1 H2. apply (inames_comp _ _ Ei) in H1. apply (cnames_comp _ _ Ec) in H2. set_solver.
Qed.
