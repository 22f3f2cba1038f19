(** * C110: hill climbing on mappings of components.

    py_search's hill_climbing is not part of the repository.  [StructMap.v] takes
    the moves it makes as given; here they are those of hill climbing: move to a
    cheaper successor as long as there is one. *)
From stdpp Require Import base decidable list strings sets.
From Coq Require Import Ascii String ZArith.
From Verif Require Import Base PyVal Preproc PreStd StructMap StructFacts PropsStruct PropsSearch.
Set Default Proof Using "Type".
Open Scope list_scope.

Section Hill.
  (** A strict order on costs. *)
  Context {F : Type} (lt : F -> F -> Prop) (Hirr : forall x, ~ lt x x) (Htr : forall x y z, lt x y -> lt y z -> lt x z).
  Context (cost : list (attr * attr) -> res F).

  (** The value of a search node is the cost of its mapping (node_value,
      structure_mapper.py:346-353); goal_test (340-344) is always False, so the
      search only ends where no successor is better. *)

  (** ** Specification *)
  Definition cheaper (m m' : list (attr * attr)) : Prop :=
    exists c c', cost m = Ok c /\ cost m' = Ok c' /\ lt c c'.
  (** The moves [path] lead from [s] to [s'], each to a cheaper mapping. *)
  Inductive descent : list nat -> smstate -> smstate -> Prop :=
  | de_stay s : descent [] s s
  | de_move k path (s s1 s2 : smstate) : successors s !! k = Some s1 -> cheaper (fst s1) (fst s) ->
      descent path s1 s2 -> descent (k :: path) s s2.
  (** No successor is cheaper. *)
  Definition no_better (s : smstate) : Prop := forall s', s' ∈ successors s -> ~ cheaper (fst s') (fst s).
  Definition hill_climb (path : list nat) (s s' : smstate) : Prop := descent path s s' /\ no_better s'.
  (** No exchange of partners, and no other use of an unused component of the
      base, makes the mapping cheaper. *)
  Definition locally_best (K cn : list attr) (m : list (attr * attr)) : Prop :=
    forall m', mapping_between K cn m' ->
      (exists o1 o2, o1 ∈ K /\ o2 ∈ K /\ o1 <> o2 /\ ~ ((o1, o1) ∈ m /\ (o2, o2) ∈ m) /\ exchanged o1 o2 m m') \/
      (exists o c, o ∈ K /\ c ∈ cn /\ (forall o', (o', c) ∉ m) /\ reassigned o c m m') ->
      exists m2, same_map m2 m' /\ ~ cheaper m2 m.

  (** ** Facts *)
  Lemma cheaper_trans m1 m2 m3 : cheaper m1 m2 -> cheaper m2 m3 -> cheaper m1 m3.
  Proof using Htr.
    intros (a & b & E1 & E2 & H) (b' & c & E3 & E4 & H'). rewrite E2 in E3. injection E3 as <-.
    exists a, c. split; [done|]. split; [done|]. by eapply Htr.
  Qed.
  Lemma cheaper_irr m : ~ cheaper m m.
  Proof using Hirr. intros (a & b & E1 & E2 & H). rewrite E1 in E2. injection E2 as <-. by apply (Hirr a). Qed.

  Lemma descent_visits path s s' : descent path s s' -> visits s s'.
  Proof.
    induction 1 as [s|k path s s1 s2 Hk _ _ IH]; [constructor|].
    apply elem_of_list_lookup_2 in Hk. eapply vis_trans; done.
  Qed.
  Lemma descent_cheaper path s s' : descent path s s' -> s' = s \/ cheaper (fst s') (fst s).
  Proof using Htr.
    induction 1 as [s|k path s s1 s2 _ Hc _ [->|IH]]; [by left|by right|]. right. by eapply cheaper_trans.
  Qed.
  Lemma climb_descent path s s' s2 : climb cost path s = Ok s' -> descent path s s2 -> s' = s2.
  Proof.
    intros E Hd. revert E. induction Hd as [s|k path s s1 s2 Hk _ _ IH]; cbn [climb]; [by intros [= <-]|].
    destruct (rmapM _ _); [|done]. cbn [rbind]. by rewrite Hk.
  Qed.

  (** The mappings with the keys [l]. *)
  Fixpoint all_maps (l cn : list attr) : list (list (attr * attr)) :=
    match l with
    | [] => [[]]
    | o :: l => flat_map (fun m => map (fun c => (o, c) :: m) (o :: cn)) (all_maps l cn)
    end.
  Lemma all_maps_length l cn : List.length (all_maps l cn) = (S (List.length cn)) ^ List.length l.
  Proof.
    induction l as [|o l IH]; [done|]. cbn [all_maps List.length Nat.pow]. rewrite <- IH. clear IH.
    induction (all_maps l cn) as [|m ms IH]; [simpl; lia|]. cbn [flat_map]. rewrite app_length, IH, map_length. simpl. lia.
  Qed.
  Lemma in_all_maps cn (m : list (attr * attr)) : (forall o c, (o, c) ∈ m -> c = o \/ c ∈ cn) -> m ∈ all_maps (map fst m) cn.
  Proof.
    induction m as [|[o c] m IH]; intros H; [left|]. cbn [map fst all_maps]. apply elem_of_list_In, in_flat_map.
    exists m. split.
    - apply elem_of_list_In, IH. intros o' c' Hin. apply H. by right.
    - apply (in_map (fun c => (o, c) :: m) (o :: cn) c), elem_of_list_In. destruct (H o c) as [->|Hc]; [left|left|by right].
  Qed.

  (** Every state passed has another mapping with the same keys. *)
  Lemma descent_states K cn path s s' : (forall x, x ∈ K -> x ∉ cn) -> sm_inv cn K s -> descent path s s' ->
    exists ms, List.length ms = S (List.length path) /\ NoDup ms /\
      (forall m, m ∈ ms -> (m = fst s \/ cheaper m (fst s)) /\ m ∈ all_maps (map fst (fst s)) cn).
  Proof using Hirr Htr.
    intros Hdisj Hi Hd. revert Hi. induction Hd as [s|k path s s1 s2 Hk Hc Hd IH]; intros Hi.
    - exists [fst s]. split; [done|]. split; [apply NoDup_singleton|]. intros m Hm. apply elem_of_list_singleton in Hm as ->.
      split; [by left|]. apply in_all_maps. apply (inv_between _ _ _ Hi).
    - apply elem_of_list_lookup_2 in Hk.
      pose proof (successors_inv K cn Hdisj K _ _ (fun x H => H) Hi Hk) as Hi1.
      destruct (IH Hi1) as (ms & Hl & Hn & Hms). exists (fst s :: ms). split; [simpl; by rewrite Hl|]. split.
      + apply NoDup_cons. split; [|done]. intros Hin. destruct (Hms _ Hin) as [[Heq|Hch] _].
        * rewrite <- Heq in Hc. by apply cheaper_irr in Hc.
        * apply (cheaper_irr (fst s)). by eapply cheaper_trans.
      + intros m Hm. apply elem_of_cons in Hm as [->|Hm].
        * split; [by left|]. apply in_all_maps. apply (inv_between _ _ _ Hi).
        * destruct (Hms _ Hm) as [Ho Ha].
          assert (Hkeys : map fst (fst s1) = map fst (fst s)).
          { apply C95_keys; [apply (inv_between _ _ _ Hi)|]. eapply vi_move; [constructor|done]. }
          rewrite <- Hkeys. split; [|done]. right. destruct Ho as [->|Ho]; [done|]. by eapply cheaper_trans.
  Qed.

  (** ** C110 *)
  (** The search makes fewer moves than there are mappings. *)
  Theorem C110_moves_bounded K cn m path s : (forall x, x ∈ K -> x ∉ cn) -> mapping_between K cn m ->
    descent path (start_state m cn) s -> List.length path < S (List.length cn) ^ List.length m.
  Proof using Hirr Htr.
    intros Hdisj Hm Hd. destruct (descent_states K cn path _ s Hdisj (between_inv _ _ _ Hm) Hd) as (ms & Hl & Hn & Hms).
    assert (Hs : List.length ms <= List.length (all_maps (map fst m) cn)).
    { apply submseteq_length, NoDup_submseteq; [done|]. intros x Hx. by apply Hms. }
    rewrite all_maps_length, map_length in Hs. lia.
  Qed.

  (** Where it stops nothing one step away is better. *)
  Theorem C110_locally_best K cn m path s : (forall x, x ∈ K -> x ∉ cn) -> mapping_between K cn m ->
    hill_climb path (start_state m cn) s ->
    mapping_between K cn (fst s) /\ (fst s = m \/ cheaper (fst s) m) /\ locally_best K cn (fst s).
  Proof using Htr.
    intros Hdisj Hm [Hd Hn].
    assert (Hi : sm_inv cn K s).
    { pose proof (between_inv _ _ _ Hm) as Hi0. apply descent_visits in Hd. revert Hi0 Hd.
      generalize (start_state m cn). intros s0 Hi0 Hv. clear -Hdisj Hi0 Hv. induction Hv as [|s0 s1 s2 Hv IH Hin]; [done|].
      exact (successors_inv K cn Hdisj K _ _ (fun x H => H) (IH Hi0) Hin). }
    split; [by apply inv_between|]. split.
    { destruct (descent_cheaper _ _ _ Hd) as [->|H]; [by left|by right]. }
    intros m' Hm' H. destruct (proj2 (C95_successors K cn (fst s) m' Hdisj (inv_between _ _ _ Hi) Hm') H) as (s1 & Hs1 & Hsame).
    assert (Hs2 : exists s2, s2 ∈ successors s /\ fst s2 = fst s1).
    { clear -Hi Hs1. unfold successors in *. apply elem_of_app in Hs1 as [H|H].
      - apply elem_of_list_In, in_flat_map in H as ([x y] & H & H'). cbn [fst snd] in *.
        exists (swap_two x y s). split.
        + apply elem_of_app. left. apply elem_of_list_In, in_flat_map. exists (x, y). split; [exact H|]. cbn [fst snd].
          change (fst (start_state (fst s) cn)) with (fst s) in H'.
          destruct (_ || _); [done|]. by left.
        + change (fst (start_state (fst s) cn)) with (fst s) in H'.
          destruct (_ || _); [done|]. destruct H' as [<-|[]]. done.
      - apply elem_of_list_In, in_flat_map in H as (o & H & H'). apply in_map_iff in H' as (c & <- & Hc).
        exists (swap_unnamed o c s). split; [|done]. apply elem_of_app. right. apply elem_of_list_In, in_flat_map.
        exists o. split; [exact H|]. apply in_map_iff. exists c. split; [done|]. apply elem_of_list_In.
        apply (si_rest _ _ _ Hi). apply elem_of_list_In in Hc. unfold start_state in Hc. cbn [snd] in Hc.
        apply elem_of_filterb in Hc as [Hc Hx]. split; [done|]. intros o' E. apply bool_decide_eq_true in Hx. apply Hx.
        apply elem_of_list_fmap. exists (o', c). split; [done|]. by apply dget_In. }
    destruct Hs2 as (s2 & Hs2 & E2). exists (fst s1). split; [done|]. rewrite <- E2. by apply Hn.
  Qed.

  (** Hill climbing ends, if costs can be computed and compared. *)
  Theorem C110_ends K cn m : (forall x, x ∈ K -> x ∉ cn) -> mapping_between K cn m ->
    (forall m', mapping_between K cn m' -> exists c, cost m' = Ok c) -> (forall x y, lt x y \/ ~ lt x y) ->
    exists path s, hill_climb path (start_state m cn) s.
  Proof using Hirr Htr.
    intros Hdisj Hm Hcost Hdec.
    assert (Hstep : forall s, sm_inv cn K s -> no_better s \/ exists k s1, successors s !! k = Some s1 /\ cheaper (fst s1) (fst s)).
    { intros s Hi. unfold no_better. destruct (Hcost (fst s) (inv_between _ _ _ Hi)) as (c & Ec).
      assert (H : forall l : list smstate, (forall s', s' ∈ l -> s' ∈ successors s) -> (forall s', s' ∈ l -> ~ cheaper (fst s') (fst s)) \/ exists k s1, l !! k = Some s1 /\ cheaper (fst s1) (fst s)).
      { induction l as [|s' l IH]; intros Hsub; [left; intros s' H; by apply elem_of_nil in H|].
        assert (Hs' : s' ∈ successors s) by (apply Hsub; left). specialize (IH (fun x H => Hsub x (elem_of_list_further _ _ _ H))).
        destruct (Hcost (fst s')) as (c' & Ec'); [exact (inv_between _ _ _ (successors_inv K cn Hdisj K _ _ (fun x H => H) Hi Hs'))|]. destruct (Hdec c' c) as [Hlt|Hlt].
        - right. exists 0, s'. split; [done|]. by exists c', c.
        - destruct IH as [IH|(k & s1 & Hk & Hs1)]; [|right; by exists (S k), s1].
          left. intros s2 H. apply elem_of_cons in H as [->|H]; [|by apply IH].
          intros (a & b & Ea & Eb & Hab). congruence. }
      by apply H. }
    assert (Hrun : forall n s0, sm_inv cn K s0 -> (exists path s, hill_climb path s0 s) \/ exists path s, descent path s0 s /\ List.length path = n).
    { induction n as [|n IH]; intros s0 Hi; [right; exists [], s0; split; [constructor|done]|].
      destruct (Hstep s0 Hi) as [H|(k & s1 & Hk & Hs1)]; [left; exists [], s0; split; [constructor|done]|].
      assert (Hi1 : sm_inv cn K s1).
      { exact (successors_inv K cn Hdisj K _ _ (fun x H => H) Hi (elem_of_list_lookup_2 _ _ _ Hk)). }
      destruct (IH s1 Hi1) as [(path & s & Hd & Hn)|(path & s & Hd & Hl)].
      - left. exists (k :: path), s. split; [by eapply de_move|done].
      - right. exists (k :: path), s. split; [by eapply de_move|]. simpl. by rewrite Hl. }
    destruct (Hrun (S (List.length cn) ^ List.length m) (start_state m cn) (between_inv _ _ _ Hm)) as [H|(path & s & Hd & Hl)]; [done|].
    pose proof (C110_moves_bounded K cn m path s Hdisj Hm Hd). lia.
  Qed.

  (** For [flat_match]: with hill climbing, the mapping it returns is the one it
      started from or cheaper, and locally best. *)
  Theorem C110_flat_match orc tkeys bkeys m :
    oracle_ok orc -> flat_match cost orc None tkeys bkeys = Ok m ->
    (exists o, component tkeys o) -> (exists c, component bkeys c) ->
    exists inames cnames m0, (forall o, o ∈ inames <-> component tkeys o) /\ (forall c, c ∈ cnames <-> component bkeys c) /\
      hungarian_mapping cost orc inames cnames = Ok m0 /\
      ((exists s, hill_climb (o_path orc) (start_state m0 cnames) s) ->
       (m = m0 \/ cheaper m m0) /\ locally_best inames cnames m).
  Proof using Htr.
    intros Ho Em (o1 & H1) (c1 & H2). pose proof Em as Em0. unfold flat_match in Em.
    destruct (comp_names tkeys) as [inn|] eqn:Ei; [|done]. destruct (comp_names bkeys) as [cn|] eqn:Ec; [|done].
    cbn [rbind] in Em. destruct (comp_names_spec _ _ Ei) as [Ni Si]. destruct (comp_names_spec _ _ Ec) as [Nc Sc].
    assert (Ci : forall o, o ∈ inn <-> component tkeys o) by (intros o; rewrite Si; symmetry; apply component_kvars).
    assert (Cc : forall o, o ∈ cn <-> component bkeys o) by (intros o; rewrite Sc; symmetry; apply component_kvars).
    rewrite !bool_decide_eq_false_2 in Em.
    2: { intros ->. apply Cc in H2. by apply elem_of_nil in H2. }
    2: { intros ->. apply Ci in H1. by apply elem_of_nil in H1. }
    cbn [orb] in Em. destruct (existsb _ inn) eqn:Ee; [done|].
    assert (Hdisj : forall x, x ∈ inn -> x ∉ cn).
    { intros x Hx Hc. assert (existsb (fun o => bool_decide (o ∈ cn)) inn = true); [|congruence].
      apply existsb_exists. exists x. split; [by apply elem_of_list_In|]. by apply bool_decide_eq_true. }
    destruct (hungarian_mapping cost orc inn cn) as [m0|] eqn:Eh; [|done]. cbn [rbind] in Em.
    destruct (cost m0); [|done]. cbn [rbind] in Em.
    destruct (climb cost (o_path orc) (start_state m0 cn)) as [s|] eqn:Es; [|done]. injection Em as <-.
    destruct (hungarian_ok cost orc Ho inn cn Ni Nc Hdisj m0 Eh) as (G1 & G2 & G3 & G4).
    assert (Hi : sm_inv cn inn (start_state m0 cn)) by (by apply start_inv).
    assert (Hb : mapping_between inn cn m0) by exact (inv_between _ _ _ Hi).
    exists inn, cn, m0. split; [done|]. split; [done|]. split; [done|]. intros (s' & Hh).
    pose proof (climb_descent _ _ _ _ Es (proj1 Hh)) as ->.
    exact (proj2 (C110_locally_best inn cn m0 _ s' Hdisj Hb Hh)).
  Qed.
End Hill.
