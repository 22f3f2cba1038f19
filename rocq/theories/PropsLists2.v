(** * C46: which lists ListsToRelations (preprocessor.py:1009-1201) refuses. *)
From stdpp Require Import base decidable list strings.
From Coq Require Import Ascii String ZArith Lia.
From Verif Require Import Base PyVal Preproc ListProc.
Set Default Proof Using "Type".
Open Scope string_scope.
Open Scope list_scope.

(** Somewhere in the instance a list has a list or a component among its
    elements. *)
Inductive nested_list {X} : pv X -> Prop :=
  | nl_list l m : PL m ∈ l -> nested_list (PL l)
  | nl_dict l d : PD d ∈ l -> nested_list (PL l)
  | nl_in d a w : (a, w) ∈ d -> nested_list w -> nested_list (PD d).

Section Props.
  Context {X : Type} (vtrue : pv X) (strx : X -> string) (keyx : X -> attr).
  Notation ltr := (ltr vtrue strx keyx).
  Notation ltr_val := (ltr_val vtrue strx keyx).

  Definition outcome {Y} (v : pv X) (r : res Y) : Prop :=
    nested_list v /\ r = Err TypeError \/ ~ nested_list v /\ exists y, r = Ok y.

  Lemma list_rels_outcome n l : outcome (PL l) (list_rels vtrue strx keyx n l).
  Proof.
    induction l as [|e l IH].
    - right. split; [|by exists []]. intros H. inversion H; subst; by eapply elem_of_nil.
    - assert (Hc : nested_list (PL l) -> nested_list (PL (e :: l))).
      { intros H. inversion H; subst; [eapply nl_list|eapply nl_dict]; by right. }
      assert (Hd : (exists k, el_key keyx e = Ok k) /\ (forall m, e <> PL m) /\ (forall m, e <> PD m) \/
        el_key keyx e = Err TypeError /\ nested_list (PL (e :: l))).
      { destruct e as [s|x|m|m]; [left; eauto..| |]; right; (split; [done|]).
        - apply nl_list with m. left.
        - apply nl_dict with m. left. }
      destruct Hd as [((k & Ek) & H1 & H2)|[Ek Hn]].
      + assert (Hi : nested_list (PL (e :: l)) -> nested_list (PL l)).
        { intros H. inversion H as [? m Hm|? m Hm|]; subst; apply elem_of_cons in Hm as [Hm|Hm].
          - by destruct (H1 m). - by eapply nl_list. - by destruct (H2 m). - by eapply nl_dict. }
        destruct l as [|e' l].
        * right. split; [by destruct IH as [[? ?]|[? _]]; auto|]. simpl. rewrite Ek. by eexists.
        * assert (Eq : list_rels vtrue strx keyx n (e :: e' :: l) =
            rbind (el_key keyx e) (fun k => rbind (list_rels vtrue strx keyx n (e' :: l)) (fun r =>
              Ok ((ordered n (el_str strx e) (el_str strx e'), vtrue) :: (has_element n k, vtrue) :: r)))) by done.
          rewrite Eq, Ek. cbn [rbind]. destruct IH as [[Hn ->]|[Hn (y & ->)]].
          -- left. auto.
          -- right. split; [auto|]. by eexists.
      + left. split; [done|]. destruct l; cbn [list_rels]; by rewrite Ek.
  Qed.

  Lemma ltr_val_outcome v : forall n, outcome v (ltr_val n v).
  Proof.
    induction v as [s|x|l IH|d IH] using pv_ind'; intros n.
    - right. split; [by inversion 1|]. by eexists.
    - right. split; [by inversion 1|]. by eexists.
    - cbn [ListProc.ltr_val]. destruct (list_rels_outcome n l) as [[H ->]|[H (y & ->)]]; [by left|right]. split; [done|]. by eexists.
    - cbn [ListProc.ltr_val].
      set (go := fix go (d : inst X) (acc : inst X) (rels : inst X) : res (inst X * inst X) :=
           match d with
           | [] => Ok (acc, rels)
           | (a, w) :: d =>
               let? o := ltr_val (ATup [a; n]) w in
               go d (dset a (fst o) acc) (rels ++ snd o)
           end).
      assert (G : forall acc rels, outcome (PD d) (go d acc rels)).
      { induction d as [|[a w] d IHd]; intros acc rels.
        - right. split; [|by eexists]. intros H. inversion H; subst. by eapply elem_of_nil.
        - apply Forall_cons in IH as [IHw IH]. specialize (IHd IH). cbn [go]. simpl in IHw.
          destruct (IHw (ATup [a; n])) as [[Hb ->]|[Hb (o & ->)]]; cbn [rbind].
          + left. split; [|done]. apply nl_in with a w; [left|done].
          + destruct (IHd (dset a (fst o) acc) (rels ++ snd o)) as [[Hd E]|[Hd E]].
            * left. split; [|exact E]. inversion Hd; subst. eapply nl_in; [by right|done].
            * right. split; [|exact E]. intros H. inversion H as [| |? a' w' Hin Hw]; subst.
              apply elem_of_cons in Hin as [[= -> ->]|Hin]; [done|]. apply Hd. by eapply nl_in. }
      destruct (G [] []) as [[H ->]|[H (y & ->)]]; [by left|right]. split; [done|]. by eexists.
  Qed.

  (** It raises TypeError, because the element would be part of an attribute,
      exactly for these instances, and otherwise returns. *)
  Theorem relations_of_nested_lists d :
    (nested_list (PD d) -> ltr d = Err TypeError) /\ (~ nested_list (PD d) -> exists d', ltr d = Ok d').
  Proof.
    assert (G : forall acc, outcome (PD d) (rfold (fun acc e =>
      let? o := ltr_val (fst e) (snd e) in
      Ok (match snd e with
          | PD _ => dset (fst e) (fst o) (dupd acc (snd o))
          | _ => dupd (dset (fst e) (fst o) acc) (snd o)
          end)) acc d)).
    { induction d as [|[a w] d IHd]; intros acc.
      - right. split; [|by eexists]. intros H. inversion H; subst. by eapply elem_of_nil.
      - cbn [rfold fst snd]. destruct (ltr_val_outcome w a) as [[Hb ->]|[Hb (o & ->)]]; cbn [rbind].
        + left. split; [|done]. apply nl_in with a w; [left|done].
        + match goal with |- outcome _ (rfold _ ?x _) => destruct (IHd x) as [[Hd E]|[Hd E]] end.
          * left. split; [|exact E]. inversion Hd; subst. eapply nl_in; [by right|done].
          * right. split; [|exact E]. intros H. inversion H as [| |? a' w' Hin Hw]; subst.
            apply elem_of_cons in Hin as [[= -> ->]|Hin]; [done|]. apply Hd. by eapply nl_in. }
    unfold ListProc.ltr. destruct (G []) as [[H E]|[H E]]; split; intros H'; done.
  Qed.
  (** ** What is written for the elements of a list

      The text of an element, and the element inside an attribute. *)
  Inductive shown : pv X -> string -> Prop :=
    | shown_str s : shown (PStr s) s
    | shown_x x : shown (PX x) (strx x).
  Inductive keyed : pv X -> attr -> Prop :=
    | keyed_str s : keyed (PStr s) (AStr s)
    | keyed_x x : keyed (PX x) (keyx x).
  (** The attributes for the list [l] at [a]: each element and the next one, by
      their texts, and each element as it is. *)
  Definition list_attr (a : attr) (l : list (pv X)) (k : attr) : Prop :=
    (exists i x y s t, l !! i = Some x /\ l !! S i = Some y /\ shown x s /\ shown y t /\
       k = ATup [AStr "ordered-list"; a; AStr s; AStr t]) \/
    (exists x b, x ∈ l /\ keyed x b /\ k = ATup [AStr "has-element"; a; b]).

  Lemma list_attr_cons a e l k b : keyed e b ->
    list_attr a (e :: l) k <->
    (exists y s t, l !! 0 = Some y /\ shown e s /\ shown y t /\ k = ATup [AStr "ordered-list"; a; AStr s; AStr t]) \/
    k = ATup [AStr "has-element"; a; b] \/ list_attr a l k.
  Proof.
    intros Hb. split.
    - intros [(i & x & y & s & t & Hx & Hy & Hs & Ht & E)|(x & c & Hx & Hc & E)].
      + destruct i as [|i].
        * injection Hx as <-. left. by exists y, s, t.
        * right. right. left. by exists i, x, y, s, t.
      + apply elem_of_cons in Hx as [->|Hx].
        * right. left. subst k. inversion Hb; inversion Hc; subst; congruence.
        * right. right. right. by exists x, c.
    - intros [(y & s & t & Hy & Hs & Ht & E)|[E|[(i & x & y & s & t & H)|(x & c & Hx & Hc & E)]]].
      + left. by exists 0, e, y, s, t.
      + right. exists e, b. split; [left|done].
      + left. by exists (S i), x, y, s, t.
      + right. exists x, c. split; [by right|done].
  Qed.

  Lemma el_keyed e b : el_key keyx e = Ok b -> keyed e b /\ shown e (el_str strx e).
  Proof. destruct e; try done; intros [= <-]; split; constructor. Qed.
  Lemma shown_el e s : shown e s -> s = el_str strx e.
  Proof. by destruct 1. Qed.

  Lemma list_rels_attrs a l : forall r, list_rels vtrue strx keyx a l = Ok r ->
    (forall e, e ∈ r -> snd e = vtrue) /\ forall k, k ∈ dkeys r <-> list_attr a l k.
  Proof.
    induction l as [|e l IH]; intros r E.
    - injection E as <-. split; [intros e He; by apply elem_of_nil in He|]. intros k. split; [intros H; by apply elem_of_nil in H|].
      intros [(i & x & y & s & t & Hx & _)|(x & c & Hx & _)]; [done|by apply elem_of_nil in Hx].
    - destruct l as [|e' l].
      + cbn [list_rels] in E. destruct (el_key keyx e) as [b|] eqn:Eb; [|done]. injection E as <-.
        destruct (el_keyed _ _ Eb) as [Hb _]. split; [intros x Hx; by apply elem_of_list_singleton in Hx as ->|].
        intros k. rewrite (list_attr_cons _ _ _ _ _ Hb). cbn [dkeys map fst]. rewrite elem_of_list_singleton. split; [by auto|].
        intros [(y & s & t & Hy & _)|[H|[(i & x & y & s & t & Hx & _)|(x & c & Hx & _)]]]; [done|done|done|by apply elem_of_nil in Hx].
      + change (rbind (el_key keyx e) (fun k => rbind (list_rels vtrue strx keyx a (e' :: l)) (fun r =>
          Ok ((ordered a (el_str strx e) (el_str strx e'), vtrue) :: (has_element a k, vtrue) :: r))) = Ok r) in E.
        destruct (el_key keyx e) as [b|] eqn:Eb; [|done]. cbn [rbind] in E.
        destruct (list_rels vtrue strx keyx a (e' :: l)) as [r'|] eqn:Er; [|done]. injection E as <-.
        assert (exists b', el_key keyx e' = Ok b') as (b' & Eb').
        { destruct l; cbn [list_rels] in Er; destruct (el_key keyx e'); [by eexists|done|by eexists|done]. }
        destruct (IH _ eq_refl) as [Hv Hk]. destruct (el_keyed _ _ Eb) as [Hb Hs]. destruct (el_keyed _ _ Eb') as [_ Hs'].
        split; [intros x Hx; apply elem_of_cons in Hx as [->|Hx]; [done|]; apply elem_of_cons in Hx as [->|Hx]; [done|by apply Hv]|].
        intros k. rewrite (list_attr_cons _ _ _ _ _ Hb), <- Hk. unfold ordered, has_element. cbn [dkeys map fst].
        rewrite !elem_of_cons. split.
        * intros [E|[E|H]]; [left|by auto..]. by exists e', (el_str strx e), (el_str strx e').
        * intros [(y & s & t & [= <-] & H1 & H2 & E)|H]; [left|by auto].
          rewrite (shown_el _ _ H1), (shown_el _ _ H2) in E. exact E.
  Qed.

  Lemma attr_not_inside a : forall l, a = ATup l -> a ∉ l.
  Proof.
    induction a as [s|l IH|z] using attr_ind'; intros m E; try done. injection E as <-. intros Hin.
    rewrite Forall_forall in IH. by apply (IH _ Hin l eq_refl).
  Qed.

  Lemma dget_dupd_same (r acc : inst X) k : (forall e, e ∈ r -> snd e = vtrue) ->
    dget k (dupd acc r) = if decide (k ∈ dkeys r) then Some vtrue else dget k acc.
  Proof.
    unfold dupd. revert acc. induction r as [|[b w] r IH]; intros acc Hv; cbn [fold_left].
    - case_decide as H; [by apply elem_of_nil in H|done].
    - assert (w = vtrue) as -> by (apply (Hv (b, w)); left). cbn [fst snd]. rewrite IH by (intros e He; apply Hv; by right).
      cbn [dkeys map fst]. destruct (decide (k ∈ dkeys r)) as [Hk|Hk].
      + rewrite decide_True; [done|by right].
      + destruct (decide (k = b)) as [->|Hb].
        * rewrite dget_dset_eq, decide_True; [done|left].
        * rewrite dget_dset_ne, decide_False; [done| |done]. intros H. apply elem_of_cons in H as [H|H]; done.
  Qed.

  (** The whole result for one list: the list is left as an empty component,
      its attributes are True, and there is nothing else. *)
  Theorem C46_list_attributes a l d' : ltr [(a, PL l)] = Ok d' ->
    dget a d' = Some (PD []) /\
    forall k v, dget k d' = Some v <-> k = a /\ v = PD [] \/ list_attr a l k /\ v = vtrue.
  Proof.
    unfold ListProc.ltr. cbn [rfold fst snd ListProc.ltr_val].
    destruct (list_rels vtrue strx keyx a l) as [r|] eqn:Er; [|done]. cbn [rbind fst snd dset]. intros [= <-].
    destruct (list_rels_attrs _ _ _ Er) as [Hv Hk].
    assert (Ha : ~ list_attr a l a).
    { intros [(i & x & y & s & t & _ & _ & _ & _ & E)|(x & b & _ & _ & E)]; apply (attr_not_inside _ _ E); right; left. }
    assert (G : forall k v, dget k (dupd [(a, PD [])] r) = Some v <-> k = a /\ v = PD [] \/ list_attr a l k /\ v = vtrue).
    { intros k v. rewrite dget_dupd_same by done. case_decide as H; rewrite Hk in H.
      - split; [intros [= <-]; by right|]. intros [[-> _]|[_ ->]]; done.
      - cbn [dget]. case_decide as E.
        + subst k. split; [intros [= <-]; by left|]. intros [[_ ->]|[? _]]; done.
        + split; [done|]. intros [[? _]|[? _]]; done. }
    split; [|exact G]. apply G. by left.
  Qed.
End Props.

Lemma ex_list_attributes :
  ltr (PX 0) (fun _ : nat => "one") (fun n => ANum (Z.of_nat n)) [(AStr "l", PL [PStr "s"; PX 1])] =
    Ok [(AStr "l", PD []); (ATup [AStr "ordered-list"; AStr "l"; AStr "s"; AStr "one"], PX 0);
        (ATup [AStr "has-element"; AStr "l"; AStr "s"], PX 0); (ATup [AStr "has-element"; AStr "l"; ANum 1], PX 0)].
Proof. done. Qed.

Lemma ex_nested_lists :
  nested_list (PD [(AStr "?c", PD [(AStr "l", PL [PX 1; PL [PX 2]])])]) /\
  ~ nested_list (PD [(AStr "?c", PD [(AStr "l", PL [PX 1; PX 2])])]).
Proof.
  split.
  - eapply nl_in; [left|]. eapply nl_in; [left|]. eapply nl_list. right. left.
  - intros H. inversion H as [| |? a w Hin Hw]; subst. apply elem_of_list_singleton in Hin. injection Hin as -> ->.
    inversion Hw as [| |? a w Hin Hw']; subst. apply elem_of_list_singleton in Hin. injection Hin as -> ->.
    inversion Hw' as [? m Hm|? m Hm|]; subst; apply elem_of_cons in Hm as [Hm|Hm]; try done; by apply elem_of_list_singleton in Hm.
Qed.

(** undo_transform of ExtractListElements reads any value an element names: an
    empty list or an empty text is taken for an empty component, any other text
    raises TypeError. *)
Theorem C46_named_values {X} (l s : string) (c : ascii) (t : string) : l <> s ->
  undo_extract (X:=X) (PD [(AStr l, PL [PStr s]); (AStr s, PL [])]) = Ok [(AStr l, PL [PD []]); (AStr s, PL [])] /\
  undo_extract (X:=X) (PD [(AStr l, PL [PStr s]); (AStr s, PStr "")]) = Ok [(AStr l, PL [PD []])] /\
  undo_extract (X:=X) (PD [(AStr l, PL [PStr s]); (AStr s, PStr (String c t))]) = Err TypeError.
Proof.
  intros H. assert (H1 : AStr s <> AStr l) by congruence.
  unfold undo_extract, undo_lists, undo_rest, undo_elem, list_elems. split; [|split].
  all: cbn -[decide bool_decide].
  all: repeat (case_decide; [try congruence|]; try done; cbn -[decide bool_decide]); try done.
  rewrite bool_decide_true by left. done.
Qed.
