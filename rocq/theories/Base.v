(** * Python base data: exceptions, dictionaries, attribute names.

    Every other file builds on this one.  Nothing here is specific to
    concept formation; it fixes how Python data is represented. *)
From stdpp Require Import base decidable list strings.
From Coq Require Import Ascii String ZArith.

(** Exceptions that modelled code raises.  [OutOfFuel] and [Dangling] do not
    exist in Python: they mark an exhausted loop bound and the dereference of
    an unallocated node; theorems show that they never occur. *)
Inductive exn :=
  | ZeroDivisionError | ValueError | TypeError | KeyError | IndexError
  | AttributeError | StopIteration | OtherException
  | OutOfFuel | Dangling.

Global Instance exn_eq_dec : EqDecision exn.
Proof. solve_decision. Defined.

(** Result of pure code that may raise. *)
Inductive res (A : Type) := Ok (a : A) | Err (e : exn).
Global Arguments Ok {_} _.
Global Arguments Err {_} _.

Definition rbind {A B} (r : res A) (f : A -> res B) : res B :=
  match r with Ok a => f a | Err e => Err e end.

Declare Scope res_scope.
Delimit Scope res_scope with res.
Notation "'let?' x := e1 'in' e2" := (rbind e1 (fun x => e2))
  (at level 200, x name, e1 at level 100, e2 at level 200) : res_scope.

Fixpoint rmapM {A B} (f : A -> res B) (l : list A) : res (list B) :=
  match l with
  | [] => Ok []
  | x :: l => rbind (f x) (fun y => rbind (rmapM f l) (fun ys => Ok (y :: ys)))
  end.

(** Left fold with exceptions: a [for] loop that accumulates. *)
Fixpoint rfold {A B} (f : B -> A -> res B) (b : B) (l : list A) : res B :=
  match l with
  | [] => Ok b
  | x :: l => rbind (f b x) (fun b' => rfold f b' l)
  end.

(** ** Dictionaries: insertion-ordered association lists. *)
Section Dict.
  Context {K V : Type} `{EqDecision K}.

  Definition dict := list (K * V).

  (** [d.get(k)] *)
  Fixpoint dget (k : K) (d : list (K * V)) : option V :=
    match d with
    | [] => None
    | (k', v) :: d => if decide (k = k') then Some v else dget k d
    end.

  (** [d[k] = v]: overwrite in place, or append a new key at the end. *)
  Fixpoint dset (k : K) (v : V) (d : list (K * V)) : list (K * V) :=
    match d with
    | [] => [(k, v)]
    | (k', v') :: d =>
        if decide (k = k') then (k', v) :: d else (k', v') :: dset k v d
    end.

  (** [k in d] *)
  Definition dmem (k : K) (d : list (K * V)) : bool :=
    match dget k d with Some _ => true | None => false end.

  Definition dkeys (d : list (K * V)) : list K := map fst d.
  Definition dvals (d : list (K * V)) : list V := map snd d.

  (** [del d[k]] / [d.pop(k)] *)
  Fixpoint ddel (k : K) (d : list (K * V)) : list (K * V) :=
    match d with
    | [] => []
    | (k', v) :: d => if decide (k = k') then d else (k', v) :: ddel k d
    end.

  (** Well-formed dictionaries have distinct keys. *)
  Definition dwf (d : list (K * V)) : Prop := NoDup (dkeys d).

  Lemma dget_dset_eq k v d : dget k (dset k v d) = Some v.
  Proof.
    induction d as [|[k' v'] d IH]; simpl.
    - by rewrite decide_True.
    - destruct (decide (k = k')) as [->|]; simpl.
      + by rewrite decide_True.
      + by rewrite decide_False.
  Qed.

  Lemma dget_dset_ne k k' v d : k <> k' -> dget k (dset k' v d) = dget k d.
  Proof.
    intros Hne. induction d as [|[k'' v'] d IH]; simpl.
    - by rewrite decide_False.
    - destruct (decide (k' = k'')) as [->|]; simpl.
      + by rewrite !decide_False.
      + destruct (decide (k = k'')); auto.
  Qed.

  Lemma dget_dset k k' v d :
    dget k (dset k' v d) = if decide (k = k') then Some v else dget k d.
  Proof.
    destruct (decide (k = k')) as [->|]; [apply dget_dset_eq | by apply dget_dset_ne].
  Qed.

  Lemma dget_None k d : dget k d = None <-> k ∉ dkeys d.
  Proof.
    induction d as [|[k' v'] d IH]; simpl.
    - split; [intros _ H; inversion H | done].
    - destruct (decide (k = k')) as [->|]; simpl.
      + split; [done|]. intros H. exfalso. apply H. left.
      + rewrite IH. rewrite not_elem_of_cons. naive_solver.
  Qed.

  Lemma dget_Some_key k v d : dget k d = Some v -> k ∈ dkeys d.
  Proof.
    intros H. destruct (decide (k ∈ dkeys d)) as [|Hn]; [done|].
    apply dget_None in Hn. congruence.
  Qed.

  Lemma dget_key_Some k d : k ∈ dkeys d -> exists v, dget k d = Some v.
  Proof.
    intros H. destruct (dget k d) eqn:E; [eauto|].
    apply dget_None in E. done.
  Qed.

  Lemma dget_In k v d : dget k d = Some v -> (k, v) ∈ d.
  Proof.
    induction d as [|[k' v'] d IH]; simpl; [done|].
    destruct (decide (k = k')) as [->|]; intros H.
    - injection H as ->. left.
    - right. auto.
  Qed.

  Lemma In_dget k v d : dwf d -> (k, v) ∈ d -> dget k d = Some v.
  Proof.
    unfold dwf. induction d as [|[k' v'] d IH]; simpl; intros Hnd Hin.
    - inversion Hin.
    - apply NoDup_cons in Hnd as [Hni Hnd].
      apply elem_of_cons in Hin as [Heq|Hin].
      + injection Heq as -> ->. by rewrite decide_True.
      + rewrite decide_False; [by apply IH|].
        intros ->. apply Hni. apply elem_of_list_fmap. by exists (k', v).
  Qed.

  Lemma dmem_true k d : dmem k d = true <-> k ∈ dkeys d.
  Proof.
    unfold dmem. destruct (dget k d) eqn:E.
    - split; [intros _; by eapply dget_Some_key | done].
    - apply dget_None in E. split; [done|]. intros H; done.
  Qed.

  Lemma dmem_false k d : dmem k d = false <-> k ∉ dkeys d.
  Proof.
    rewrite <- dmem_true. destruct (dmem k d); split; intros; congruence.
  Qed.

  Lemma dkeys_dset k v d :
    dkeys (dset k v d) = if decide (k ∈ dkeys d) then dkeys d else dkeys d ++ [k].
  Proof.
    induction d as [|[k' v'] d IH].
    - destruct (decide (k ∈ dkeys [])) as [H|H]; [inversion H|done].
    - cbn [dset]. destruct (decide (k = k')) as [->|Hne].
      + destruct (decide (k' ∈ dkeys ((k', v') :: d))) as [H|H]; [done|].
        exfalso. apply H. left.
      + change (dkeys ((k', v') :: dset k v d)) with (k' :: dkeys (dset k v d)).
        rewrite IH.
        destruct (decide (k ∈ dkeys d)) as [Hi|Hi];
          destruct (decide (k ∈ dkeys ((k', v') :: d))) as [H|H]; [done| | |done].
        * exfalso. apply H. by right.
        * exfalso. apply elem_of_cons in H as [?|?]; done.
  Qed.

  Lemma dset_in_keys k v d : k ∈ dkeys (dset k v d).
  Proof.
    rewrite dkeys_dset. case_decide; [done|].
    apply elem_of_app. right. by apply elem_of_list_singleton.
  Qed.

  Lemma dset_wf k v d : dwf d -> dwf (dset k v d).
  Proof.
    unfold dwf. rewrite dkeys_dset. case_decide; [done|].
    intros Hd. apply NoDup_app. repeat split; [done| |apply NoDup_singleton].
    intros x Hx Hx'. apply elem_of_list_singleton in Hx' as ->. done.
  Qed.

  Lemma elem_of_dkeys_dset k k' v d :
    k ∈ dkeys (dset k' v d) <-> k = k' \/ k ∈ dkeys d.
  Proof.
    rewrite dkeys_dset. case_decide as H.
    - split; [auto|]. intros [->|]; done.
    - rewrite elem_of_app, elem_of_list_singleton. naive_solver.
  Qed.

  Lemma dwf_nil : dwf [].
  Proof. apply NoDup_nil_2. Qed.

  Lemma dwf_cons k v d : dwf ((k, v) :: d) <-> k ∉ dkeys d /\ dwf d.
  Proof. unfold dwf. simpl. apply NoDup_cons. Qed.

  Lemma dset_fresh k v d : k ∉ dkeys d -> dset k v d = d ++ [(k, v)].
  Proof.
    induction d as [|[k' v'] d IH]; simpl; [done|].
    rewrite not_elem_of_cons. intros [Hne Hni].
    rewrite decide_False by done. by rewrite IH.
  Qed.

  Lemma dset_same k v d : dget k d = Some v -> dset k v d = d.
  Proof.
    induction d as [|[k' v'] d IH]; simpl; [done|].
    destruct (decide (k = k')) as [->|]; intros H.
    - by injection H as ->.
    - by rewrite IH.
  Qed.

  Lemma dset_dset k v v' d : dset k v (dset k v' d) = dset k v d.
  Proof.
    induction d as [|[k' w] d IH]; simpl.
    - by rewrite decide_True.
    - destruct (decide (k = k')) as [->|]; simpl.
      + by rewrite decide_True.
      + rewrite decide_False by done. by rewrite IH.
  Qed.

  Lemma dget_app k d1 d2 :
    dget k (d1 ++ d2) = match dget k d1 with Some v => Some v | None => dget k d2 end.
  Proof.
    induction d1 as [|[k' v'] d1 IH]; simpl; [done|]. by case_decide.
  Qed.

  Lemma dkeys_app (d1 d2 : list (K * V)) : dkeys (d1 ++ d2) = dkeys d1 ++ dkeys d2.
  Proof. unfold dkeys. apply map_app. Qed.

  Lemma dget_dec_None k d : dget k d = None -> dmem k d = false.
  Proof. unfold dmem. by intros ->. Qed.

  Lemma dset_not_nil k v d : dset k v d <> [].
  Proof. destruct d as [|[? ?] ?]; simpl; [done|]. by case_decide. Qed.

  Lemma dget_perm k d d' :
    dwf d -> Permutation d d' -> dget k d = dget k d'.
  Proof.
    intros Hwf Hp.
    assert (Hwf' : dwf d').
    { unfold dwf in *. unfold dkeys in *. rewrite <- Hp. done. }
    destruct (dget k d) as [v|] eqn:E.
    - symmetry. apply In_dget; [done|]. rewrite <- Hp. by apply dget_In.
    - symmetry. apply dget_None. apply dget_None in E.
      unfold dkeys in *. by rewrite <- Hp.
  Qed.
End Dict.
Global Arguments dict : clear implicits.

(** [{f(k): v for k, v in d.items() if p(k)}] with identity on kept items. *)
Definition dfilter {K V} (p : K -> bool) (d : list (K * V)) : list (K * V) :=
  List.filter (fun kv => p (fst kv)) d.

Lemma dget_dfilter {K V} `{EqDecision K} (p : K -> bool) (k : K) (d : list (K * V)) :
  dget k (dfilter p d) = if p k then dget k d else None.
Proof.
  induction d as [|[k' v'] d IH]; simpl.
  - by destruct (p k).
  - destruct (p k') eqn:Hp; simpl; destruct (decide (k = k')) as [->|].
    + by rewrite Hp.
    + done.
    + rewrite IH. by rewrite Hp.
    + done.
Qed.

Lemma dkeys_dfilter {K V} (p : K -> bool) (d : list (K * V)) :
  dkeys (dfilter p d) = List.filter p (dkeys d).
Proof.
  induction d as [|[k' v'] d IH]; simpl; [done|].
  destruct (p k'); simpl; by rewrite IH.
Qed.

Lemma elem_of_filterb {A} (p : A -> bool) (x : A) (l : list A) :
  x ∈ List.filter p l <-> x ∈ l /\ p x = true.
Proof. rewrite !elem_of_list_In. apply filter_In. Qed.

Lemma dwf_dfilter {K V} (p : K -> bool) (d : list (K * V)) :
  dwf d -> dwf (dfilter p d).
Proof.
  unfold dwf. rewrite dkeys_dfilter. generalize (dkeys d) as l.
  induction l as [|x l IH]; simpl; [done|].
  intros [Hx Hl]%NoDup_cons. destruct (p x); [|auto].
  apply NoDup_cons. split; [|auto]. rewrite elem_of_filterb. naive_solver.
Qed.

Lemma dset_dfilter {K V} `{EqDecision K} (p : K -> bool) (k : K) (v : V) d :
  dfilter p (dset k v d) = if p k then dset k v (dfilter p d) else dfilter p d.
Proof.
  induction d as [|[k' v'] d IH]; simpl.
  - destruct (p k); done.
  - destruct (decide (k = k')) as [->|Hne]; simpl.
    + destruct (p k'); simpl; [|done]. by rewrite decide_True.
    + destruct (p k') eqn:Hk'; simpl.
      * rewrite IH. destruct (p k); [|done]. simpl. by rewrite decide_False.
      * rewrite IH. done.
Qed.

(** ** Attribute names.

    A Python attribute name is a string, or a tuple of attribute names (a
    relation, or a flattened component path).  [ANum] stands for anything
    that is hashable but not subscriptable (e.g. a number). *)
Inductive attr :=
  | AStr (s : string)
  | ATup (l : list attr)
  | ANum (z : Z).

Section attr_ind.
  Variable P : attr -> Prop.
  Hypothesis HS : forall s, P (AStr s).
  Hypothesis HT : forall l, Forall P l -> P (ATup l).
  Hypothesis HN : forall z, P (ANum z).
  Fixpoint attr_ind' (a : attr) : P a :=
    match a with
    | AStr s => HS s
    | ATup l => HT l ((fix go (l : list attr) : Forall P l :=
                         match l with
                         | [] => List.Forall_nil P
                         | x :: l => Forall_cons_2 P x l (attr_ind' x) (go l)
                         end) l)
    | ANum z => HN z
    end.
End attr_ind.

Global Instance attr_eq_dec : EqDecision attr.
Proof.
  refine (fix go (a b : attr) : Decision (a = b) :=
    match a, b with
    | AStr s, AStr t => cast_if (decide (s = t))
    | ATup l, ATup m =>
        cast_if ((fix golist (l m : list attr) : Decision (l = m) :=
          match l, m with
          | [], [] => left eq_refl
          | x :: l, y :: m => cast_if_and (go x y) (golist l m)
          | _, _ => right _
          end) l m)
    | ANum z, ANum w => cast_if (decide (z = w))
    | _, _ => right _
    end); clear go; try clear golist; abstract congruence.
Defined.

(** [attr[0] == "_"] (cobweb.py:339, 925).  Empty strings/tuples and
    non-subscriptable attributes raise in Python; the sanity check
    (cobweb.py:41-64) rejects them before this is ever evaluated, so the value
    [false] given to them here is never used by tree code. *)
Definition hidden (a : attr) : bool :=
  match a with
  | AStr (String c _) => Ascii.eqb c "_"%char
  | ATup (x :: _) => bool_decide (x = AStr "_")
  | _ => false
  end.

Definition visible (a : attr) : bool := negb (hidden a).

(** [hash(attr); attr[0]] succeeds (cobweb.py:43-45). *)
Definition attr_ok (a : attr) : bool :=
  match a with
  | AStr EmptyString => false
  | AStr _ => true
  | ATup [] => false
  | ATup _ => true
  | ANum _ => false
  end.

(** Nominal (hashable) values, up to Python equality. [NAtom] stands for any
    other hashable value. *)
Inductive nom :=
  | NStr (s : string)
  | NBool (b : bool)
  | NInt (z : Z)
  | NAtom (n : nat).

Global Instance nom_eq_dec : EqDecision nom.
Proof. solve_decision. Defined.

(** ** Small list facts used throughout *)
Fixpoint sumn (l : list nat) : nat :=
  match l with [] => 0 | x :: l => x + sumn l end.

Lemma sumn_app l1 l2 : sumn (l1 ++ l2) = sumn l1 + sumn l2.
Proof. induction l1; simpl; lia. Qed.

Lemma sumn_perm l1 l2 : Permutation l1 l2 -> sumn l1 = sumn l2.
Proof. induction 1; simpl; lia. Qed.

(** [l.remove(x)]: drop the first occurrence. *)
Fixpoint remove1 {A} `{EqDecision A} (x : A) (l : list A) : list A :=
  match l with
  | [] => []
  | y :: l => if decide (x = y) then l else y :: remove1 x l
  end.

Lemma remove1_perm {A} `{EqDecision A} (x : A) l :
  x ∈ l -> Permutation l (x :: remove1 x l).
Proof.
  induction l as [|y l IH]; intros Hin; simpl; [inversion Hin|].
  case_decide as Hd; [by subst|].
  apply elem_of_cons in Hin as [?|Hin]; [done|].
  rewrite (IH Hin) at 1. apply Permutation_swap.
Qed.

Lemma remove1_notin {A} `{EqDecision A} (x : A) l : x ∉ l -> remove1 x l = l.
Proof.
  induction l as [|y l IH]; simpl; [done|].
  rewrite not_elem_of_cons. intros [Hne Hni].
  rewrite decide_False by done. by rewrite IH.
Qed.

Lemma remove1_subset {A} `{EqDecision A} (x y : A) l : y ∈ remove1 x l -> y ∈ l.
Proof.
  induction l as [|z l IH]; simpl; [done|].
  case_decide; [by right|]. rewrite !elem_of_cons. naive_solver.
Qed.

Lemma remove1_in_ne {A} `{EqDecision A} (x y : A) l : y <> x -> y ∈ l -> y ∈ remove1 x l.
Proof.
  intros Hne. induction l as [|z l IH]; simpl; [done|].
  rewrite elem_of_cons. intros [->|Hin].
  - rewrite decide_False by done. left.
  - case_decide; [done|]. right. auto.
Qed.

Lemma remove1_nodup {A} `{EqDecision A} (x : A) l : NoDup l -> NoDup (remove1 x l).
Proof.
  induction l as [|y l IH]; simpl; [done|].
  intros [Hy Hl]%NoDup_cons. case_decide; [done|].
  apply NoDup_cons. split; [|auto]. intros Hx. apply Hy. by eapply remove1_subset.
Qed.

Lemma remove1_nodup_notin {A} `{EqDecision A} (x : A) l : NoDup l -> x ∉ remove1 x l.
Proof.
  induction l as [|y l IH]; simpl; [intros _ Hx; inversion Hx|].
  intros [Hy Hl]%NoDup_cons. case_decide; [by subst|].
  rewrite not_elem_of_cons. auto.
Qed.
