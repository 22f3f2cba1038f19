(** * C46: the list preprocessors and the way back. *)
From stdpp Require Import base decidable list strings pretty.
From Coq Require Import Ascii String ZArith Lia.
From Verif Require Import Base PyVal Preproc PreStd ListProc ListExt ListRel ListOrd.
Set Default Proof Using "Type".
Open Scope string_scope.
Open Scope list_scope.

(** There is no list at any depth. *)
Inductive list_free {X} : pv X -> Prop :=
  | lf_str s : list_free (PStr s)
  | lf_x x : list_free (PX x)
  | lf_dict d : Forall (fun e => list_free (snd e)) d -> list_free (PD d).

Section Props.
  Context {X : Type} (strl : list (pv X) -> string) (vtrue : pv X) (strx : X -> string) (keyx : X -> attr) (valk : attr -> pv X).

  (** The instances of the claim, when the generator has produced [c] names. *)
  Definition extractable (c : nat) (d : inst X) : Prop := listy false (key_ext c) (PD d).
  Definition processable (c : nat) (d : inst X) : Prop :=
    listy true (fun a v => key_ext c a v /\ key_rel a v) (PD d).

  (** ExtractListElements, undone, gives the instance back. *)
  Theorem extract_round_trip d c : extractable c d ->
    exists d1 c1 d2, extract strl d c = Ok (d1, c1) /\ undo_extract (PD d1) = Ok d2 /\ ieq d d2.
  Proof.
    intros H. destruct (extract_ok strl c False false (key_ext c)) with (d := d) (c := c)
      as (obj & c' & d2 & E & _ & _ & Hu & Hi); [done|done|done|done|].
    by exists obj, c', d2.
  Qed.

  (** ListProcessor, undone, gives the instance back. *)
  Theorem list_processor_round_trip d c : processable c d ->
    exists d1 c1 d2, lp_transform strl vtrue strx keyx d c = Ok (d1, c1) /\
      lp_undo valk d1 = Ok d2 /\ ieq d d2.
  Proof.
    intros H. destruct (extract_ok strl c True true (fun a v => key_ext c a v /\ key_rel a v)) with (d := d) (c := c)
      as (obj & c' & d2 & E & _ & Hro & Hu & Hi).
    { by intros a v [? _]. } { intros _. split; [done|]. by intros a v [_ ?]. } { done. } { done. }
    destruct (relations_round_trip vtrue strx keyx valk obj (Hro I)) as (d' & El & _ & Er).
    exists d', c', d2. unfold lp_transform, lp_undo. rewrite E. simpl. rewrite El. simpl. rewrite Er. done.
  Qed.

  (** The same when the attributes come back in another order, as they do from
      [infer_missing]: the elements are chained in both directions. *)
  Theorem list_processor_any_order d c : processable c d ->
    exists d1 c1, lp_transform strl vtrue strx keyx d c = Ok (d1, c1) /\
      forall d1', Permutation d1 d1' -> exists d2, lp_undo valk d1' = Ok d2 /\ ieq d d2.
  Proof.
    intros H. destruct (extract_ok strl c True true (fun a v => key_ext c a v /\ key_rel a v)) with (d := d) (c := c)
      as (obj & c' & d2 & E & Hwo & Hro & Hu & Hi).
    { by intros a v [? _]. } { intros _. split; [done|]. by intros a v [_ ?]. } { done. } { done. }
    specialize (Hro I).
    destruct (relations_round_trip vtrue strx keyx valk obj Hro) as (d' & El & _ & _).
    exists d', c'. split; [unfold lp_transform; rewrite E; simpl; by rewrite El|].
    intros d1' Hp. destruct (relations_any_order vtrue strx keyx valk obj d' d1' Hro El Hp) as (obj' & Er & Ho).
    inversion Hro as [| | |? Hw Hk Hr]; subst.
    destruct (undo_extract_any_order obj obj' d2 Hw Ho Hu) as (d3 & E3 & Hp3).
    exists d3. unfold lp_undo. rewrite Er. cbn [rbind]. split; [done|].
    apply (ieq_trans _ d2); [done|]. by apply ieq_perm.
  Qed.

  Lemma strip_free (v : pv X) : list_free (strip v).
  Proof.
    induction v as [s|x|l IH|d IH] using pv_ind'; simpl; try constructor.
    - constructor.
    - induction IH; constructor; done.
  Qed.

  (** What it makes has no lists, and distinct attributes: it can be given to TRESTLE. *)
  Theorem list_processor_removes_lists d c : processable c d -> list_free vtrue ->
    exists d1 c1, lp_transform strl vtrue strx keyx d c = Ok (d1, c1) /\ list_free (PD d1) /\ dwf d1.
  Proof.
    intros H Ht. destruct (extract_ok strl c True true (fun a v => key_ext c a v /\ key_rel a v)) with (d := d) (c := c)
      as (obj & c' & d2 & E & _ & Hro & Hu & Hi).
    { by intros a v [? _]. } { intros _. split; [done|]. by intros a v [_ ?]. } { done. } { done. }
    specialize (Hro I). pose proof (items_wf vtrue obj Hro) as Hw.
    exists (items vtrue obj), c'. unfold lp_transform. rewrite E. simpl.
    inversion Hro as [| | |? Hw' Hk Hr]; subst.
    rewrite ltr_dupd by done. simpl. rewrite dupd_app by done. split; [done|]. split; [|done].
    constructor. rewrite (items_perm vtrue obj). apply Forall_app. split.
    - unfold stripd. apply Forall_map. apply Forall_true. intros e. apply strip_free.
    - apply Forall_forall. intros [k v] He. apply elem_of_list_In, in_concat in He as (ll & Hll & Hin).
      apply in_map_iff in Hll as ([ln names] & <- & _). simpl in Hin |- *.
      clear - Hin Ht. induction names as [|e [|e' names] IH]; simpl in Hin; [done|..].
      + destruct Hin as [E|[]]. by injection E as _ <-.
      + destruct Hin as [E|[E|Hin]]; [by injection E as _ <-..|]. by apply IH.
  Qed.
End Props.

(** ** A nested instance of the class: lists of strings with a repeated
    element, of a number, a list and a component with a list of its own. *)
Section Examples.
  Let strl : list (pv Z) -> string := fun _ => "[...]".
  Let vtrue : pv Z := PX 1%Z.
  Let strx : Z -> string := pretty.
  Let keyx : Z -> attr := ANum.
  Let valk : attr -> pv Z := fun _ => PX 0%Z.
  Notation tr := (lp_transform strl vtrue strx keyx).
  Notation un := (lp_undo valk).

  Definition exl : inst Z :=
    [(AStr "tta", PStr "alpha"); (ATup [AStr "on"; AStr "x"; AStr "y"], PX 1%Z);
     (AStr "ttb", PD [(AStr "tlist", PL [PStr "a"; PX 12%Z; PStr "a"; PL [PStr "w"; PStr "x"];
        PD [(AStr "sub", PD [(AStr "s", PStr "d"); (AStr "l", PL [PStr "y"])])]])])].
  Lemma ex_processable : processable 0 exl.
  Proof.
    assert (Hg : forall n s, AStr s = AStr (gensym_name n) -> head_is "?" s = true) by (by intros n s [= ->]).
    assert (HK : forall s v, head_is "?" s = false -> head_is "_" s = false -> s <> "" ->
       key_ext 0 (AStr s) v /\ @key_rel Z (AStr s) v).
    { intros s v H1 H2 H3. split; [split|].
      - intros n _ E. apply Hg in E. congruence.
      - destruct v; try done. destruct s as [|ch s]; [done|]. split; [done|]. exact H2.
      - destruct v; simpl; try (by eexists); by intros l E. }
    unfold processable, exl.
    repeat first [apply HK; done | apply ly_str | apply ly_x
      | apply ly_dict | apply ly_list | apply List.Forall_nil | apply List.Forall_cons | (intros; discriminate)
      | (split; [split; [intros; discriminate|exact I]|intros l [= <-]; done])
      | (unfold dwf; apply (bool_decide_unpack _); vm_compute; exact I) | exact I
      | (unfold no_val; apply (bool_decide_unpack _); vm_compute; exact I) ].
  Qed.
  Lemma ex_list_round_trip : exists d1 c1 d2, tr exl 0 = Ok (d1, c1) /\ un d1 = Ok d2 /\ ieq exl d2.
  Proof. apply list_processor_round_trip, ex_processable. Qed.
  (** It is not the identity: eight objects are made. *)
  Lemma ex_list_transform : exists d1, tr exl 0 = Ok (d1, 8) /\ List.length d1 = 16.
  Proof. eexists. split; vm_compute; reflexivity. Qed.

  (** Read backwards, every list but its last element is chained to the front. *)
  Lemma ex_list_backwards : exists d1 c1 d2, tr exl 0 = Ok (d1, c1) /\ un (rev d1) = Ok d2 /\ ieq exl d2.
  Proof.
    destruct (list_processor_any_order strl vtrue strx keyx valk exl 0 ex_processable) as (d1 & c1 & E & H).
    destruct (H (rev d1) (Permutation_rev d1)) as (d2 & E2 & Hi). exists d1, c1, d2.
    exact (conj E (conj E2 Hi)).
  Qed.
  Lemma ex_front_chain : rtl valk
    [(has_element (AStr "l") (AStr "c"), vtrue); (ordered (AStr "l") "b" "c", vtrue);
     (has_element (AStr "l") (AStr "b"), vtrue); (ordered (AStr "l") "a" "b", vtrue);
     (has_element (AStr "l") (AStr "a"), vtrue); (AStr "l", PD [])] = Ok [(AStr "l", PL [PStr "a"; PStr "b"; PStr "c"])].
  Proof. vm_compute. reflexivity. Qed.

  (** ** What is not given back *)
  Definition broken (d : inst Z) : Prop :=
    exists d1 c1 d2, tr d 0 = Ok (d1, c1) /\ un d1 = Ok d2 /\ ~ ieq d d2.

  (** An empty list comes back as a component. *)
  Theorem empty_list_refuted : exists d, broken d /\ listy false (fun a v => key_ext 0 a v /\ key_rel a v) (PD d).
  Proof.
    exists [(AStr "l", PL [])]. split.
    - exists [(AStr "l", PD [])], 0, [(AStr "l", PD [])]. split; [reflexivity|]. split; [reflexivity|].
      intros H. inversion H as [| | |? d' ? HF HP]; subst.
      inversion HF as [|? [a w] ? ? [E1 E2] HF']; subst. inversion HF'; subst. simpl in *.
      apply Permutation_singleton_l in HP. injection HP as -> ->. inversion E2.
    - apply ly_dict; [apply NoDup_singleton|..]; (constructor; [|constructor]).
      + split; [split; [intros n _ [= E]; discriminate E|done]|by exists "l"].
      + by constructor.
  Qed.

  (** A component with an attribute "val" in a list loses its other attributes. *)
  Theorem val_component_refuted : exists d1 c1,
    tr [(AStr "l", PL [PD [(AStr "val", PStr "a"); (AStr "other", PStr "b")]])] 0 = Ok (d1, c1) /\
    un d1 = Ok [(AStr "l", PL [PStr "a"])].
  Proof. eexists _, _. split; vm_compute; reflexivity. Qed.

  (** A hidden list comes back as a string. *)
  Theorem hidden_list_refuted : exists d1 c1,
    tr [(AStr "_l", PL [PStr "a"])] 0 = Ok (d1, c1) /\ un d1 = Ok [(AStr "_l", PStr "[...]")].
  Proof. eexists _, _. split; vm_compute; reflexivity. Qed.

  (** The documentation of [undo_transform] (1078-1079): "if there is a cycle
      or a partial ordering, than the relations are not converted and left as
      they are".  With a partial order it raises an exception, *)
  Definition partial_order (name : string) : inst Z :=
    [(AStr name, PD []);
     (has_element (AStr name) (AStr "a"), vtrue); (has_element (AStr name) (AStr "b"), vtrue);
     (has_element (AStr name) (AStr "c"), vtrue); (ordered (AStr name) "a" "b", vtrue)].
  Theorem partial_order_kept_refuted : exists name, rtl valk (partial_order name) = Err ValueError.
  Proof. exists "list". vm_compute. reflexivity. Qed.
  (** or, when the name of the list has two characters, drops the relations
      and adds an attribute that was never there; *)
  Theorem partial_order_garbage_refuted : exists name,
    rtl valk (partial_order name) = Ok [(AStr name, PD []); (AStr "l", PStr "1")].
  Proof. exists "l1". vm_compute. reflexivity. Qed.
  (** with no order at all, or with a cycle, it raises as well. *)
  Theorem no_order_refuted :
    rtl valk [(AStr "l", PD []); (has_element (AStr "l") (AStr "a"), vtrue); (has_element (AStr "l") (AStr "b"), vtrue)]
    = Err KeyError.
  Proof. vm_compute. reflexivity. Qed.
  Theorem cycle_kept_refuted :
    rtl valk [(AStr "l", PD []); (has_element (AStr "l") (AStr "a"), vtrue); (has_element (AStr "l") (AStr "b"), vtrue);
              (ordered (AStr "l") "a" "b", vtrue); (ordered (AStr "l") "b" "a", vtrue)]
    = Err ValueError.
  Proof. vm_compute. reflexivity. Qed.

  (** ListsToRelations alone: lists of numbers and lists with a repeated
      element cannot be undone, because the order is between strings and a
      relation is there once. *)
  Theorem number_list_refuted : exists d1,
    ltr vtrue strx keyx [(AStr "list", PL [PX 1%Z; PX 2%Z])] = Ok d1 /\ rtl valk d1 = Err ValueError.
  Proof. eexists. split; vm_compute; reflexivity. Qed.
  Theorem repeated_element_refuted : exists d1,
    ltr vtrue strx keyx [(AStr "list", PL [PStr "a"; PStr "b"; PStr "a"])] = Ok d1 /\ rtl valk d1 = Err ValueError.
  Proof. eexists. split; vm_compute; reflexivity. Qed.
  (** A list whose attribute is a pair is looked for in another place. *)
  Theorem pair_attribute_refuted : exists d1 c1,
    tr [(ATup [AStr "r"; AStr "x"], PL [PStr "a"])] 0 = Ok (d1, c1) /\ un d1 = Err KeyError.
  Proof. eexists _, _. split; vm_compute; reflexivity. Qed.
End Examples.

Print Assumptions list_processor_round_trip.
Print Assumptions list_processor_any_order.
Print Assumptions list_processor_removes_lists.
