(** * Nested Python data: instances before they are flattened.

    The preprocessors (preprocessor.py) work on instances whose values may be
    strings, other hashable scalars, lists and nested instances
    (dictionaries).  [X] is the type of hashable values that are not strings:
    numbers, booleans, [None]. *)
From stdpp Require Import base decidable list strings.
From Coq Require Import Ascii String ZArith.
From Verif Require Import Base.
Set Default Proof Using "Type".

Section PV.
  Context {X : Type}.

  Inductive pv :=
    | PStr (s : string)
    | PX (x : X)
    | PL (l : list pv)
    | PD (d : list (attr * pv)).

  (** An instance: a dictionary from attributes to values. *)
  Definition inst := list (attr * pv).

  Section ind.
    Variable P : pv -> Prop.
    Hypothesis HS : forall s, P (PStr s).
    Hypothesis HX : forall x, P (PX x).
    Hypothesis HL : forall l, Forall P l -> P (PL l).
    Hypothesis HD : forall d, Forall (fun e => P (snd e)) d -> P (PD d).
    Fixpoint pv_ind' (v : pv) : P v :=
      match v with
      | PStr s => HS s
      | PX x => HX x
      | PL l => HL l ((fix go (l : list pv) : Forall P l :=
                         match l with
                         | [] => List.Forall_nil P
                         | x :: l => Forall_cons_2 P x l (pv_ind' x) (go l)
                         end) l)
      | PD d => HD d ((fix go (d : list (attr * pv)) : Forall (fun e => P (snd e)) d :=
                         match d with
                         | [] => List.Forall_nil _
                         | e :: d =>
                             Forall_cons_2 (fun e => P (snd e)) e d
                               (pv_ind' (snd e)) (go d)
                         end) d)
      end.
  End ind.

  (** Python's [==] on such data: dictionaries are equal when they have the
      same items, in whatever order the items were inserted. *)
  Inductive peq : pv -> pv -> Prop :=
    | peq_str s : peq (PStr s) (PStr s)
    | peq_x x : peq (PX x) (PX x)
    | peq_list l l' : Forall2 peq l l' -> peq (PL l) (PL l')
    | peq_dict d d' e :
        Forall2 (fun p q => fst p = fst q /\ peq (snd p) (snd q)) d d' ->
        Permutation d' e -> peq (PD d) (PD e).

  (** The same for two instances. *)
  Definition ieq (d e : inst) : Prop := peq (PD d) (PD e).

  (** Every dictionary inside has distinct keys (true of every Python value;
      association lists could repeat a key). *)
  Inductive pwf : pv -> Prop :=
    | pwf_str s : pwf (PStr s)
    | pwf_x x : pwf (PX x)
    | pwf_list l : Forall pwf l -> pwf (PL l)
    | pwf_dict d : dwf d -> Forall (fun e => pwf (snd e)) d -> pwf (PD d).

  Lemma peq_refl v : peq v v.
  Proof.
    induction v as [s|x|l IH|d IH] using pv_ind'; try constructor.
    - induction IH; constructor; auto.
    - apply peq_dict with d; [|done]. induction IH as [|e d H Hd IHd]; constructor; auto.
  Qed.

  Lemma ieq_refl d : ieq d d.
  Proof. apply peq_refl. Qed.

  Lemma ieq_perm d e : Permutation d e -> ieq d e.
  Proof.
    intros HP. apply peq_dict with d; [|done].
    clear HP. induction d; constructor; auto using peq_refl.
  Qed.
End PV.
Global Arguments pv : clear implicits.
Global Arguments inst : clear implicits.

(** [Forall2] commutes with permutations. *)
Lemma Forall2_perm_l {A B} (R : A -> B -> Prop) l1 l2 m1 :
  Permutation l1 l2 -> Forall2 R l1 m1 ->
  exists m2, Forall2 R l2 m2 /\ Permutation m1 m2.
Proof.
  intros HP. revert m1. induction HP as [|x l1 l2 HP IH|x y l|l1 l2 l3 H1 IH1 H2 IH2];
    intros m1 HF.
  - inversion HF; subst. exists []. auto.
  - inversion HF as [|? b ? m HR HF']; subst. destruct (IH _ HF') as [m2 [H1 H2]].
    exists (b :: m2). split; [by constructor|by constructor].
  - inversion HF as [|? b ? m HR HF']; subst. inversion HF' as [|? b' ? m' HR' HF'']; subst.
    exists (b' :: b :: m'). split; [repeat constructor; auto|apply Permutation_swap].
  - destruct (IH1 _ HF) as [m2 [HA HB]]. destruct (IH2 _ HA) as [m3 [HC HD]].
    exists m3. split; [done|]. by etransitivity.
Qed.

Lemma Forall2_perm_r {A B} (R : A -> B -> Prop) l1 m1 m2 :
  Permutation m1 m2 -> Forall2 R l1 m1 ->
  exists l2, Forall2 R l2 m2 /\ Permutation l1 l2.
Proof.
  intros HP HF. destruct (Forall2_perm_l (flip R) m1 m2 l1 HP) as [l2 [H1 H2]].
  - by apply Forall2_flip.
  - exists l2. split; [by apply Forall2_flip|done].
Qed.

Section PEQ.
  Context {X : Type}.
  Notation pv := (pv X).

  Lemma peq_trans (u v w : pv) : peq u v -> peq v w -> peq u w.
  Proof.
    revert v w. induction u as [s|x|l IH|d IH] using pv_ind'; intros v w H1 H2.
    - inversion H1; subst. done.
    - inversion H1; subst. done.
    - inversion H1 as [| |? l' HF|]; subst. inversion H2 as [| |? l'' HF'|]; subst.
      constructor. clear H1 H2. revert l' l'' HF HF'.
      induction IH as [|a l Ha Hl IHl]; intros l' l'' HF HF'.
      + inversion HF; subst. inversion HF'; subst. constructor.
      + inversion HF; subst. inversion HF'; subst. constructor; eauto.
    - inversion H1 as [| | |? d' e HF HP]; subst.
      inversion H2 as [| | |? e' f HF' HP']; subst.
      destruct (Forall2_perm_l _ e d' e' (Permutation_sym HP) HF') as [d'' [HA HB]].
      apply peq_dict with d''; [|etransitivity; [symmetry; exact HB|done]].
      clear H1 H2 HP HP' HF' HB. revert d' d'' HF HA.
      induction IH as [|a d Ha Hd IHd]; intros d' d'' HF HA.
      + inversion HF; subst. inversion HA; subst. constructor.
      + inversion HF as [|? b ? d1 [E1 E2] HF1]; subst.
        inversion HA as [|? c ? d2 [E3 E4] HF2]; subst.
        constructor; [|by apply (IHd d1 d2)].
        split; [congruence|]. by apply (Ha (snd b)).
  Qed.

  Lemma peq_sym (u v : pv) : peq u v -> peq v u.
  Proof.
    revert v. induction u as [s|x|l IH|d IH] using pv_ind'; intros v H1.
    - inversion H1; subst. done.
    - inversion H1; subst. done.
    - inversion H1 as [| |? l' HF|]; subst. constructor. clear H1.
      revert l' HF. induction IH as [|a l Ha Hl IHl]; intros l' HF.
      + inversion HF; subst. constructor.
      + inversion HF; subst. constructor; eauto.
    - inversion H1 as [| | |? d' e HF HP]; subst.
      assert (HF' : Forall2 (fun p q => fst p = fst q /\ peq (snd p) (snd q)) d' d).
      { clear H1 HP. revert d' HF. induction IH as [|a d Ha Hd IHd]; intros d' HF.
        - inversion HF; subst. constructor.
        - inversion HF as [|? b ? d1 [E1 E2] HF1]; subst. constructor; [|by apply IHd].
          split; [done|]. by apply Ha. }
      destruct (Forall2_perm_l _ _ _ _ HP HF') as [m [HA HB]].
      by apply peq_dict with m.
  Qed.

  Lemma ieq_trans (a b c : inst X) : ieq a b -> ieq b c -> ieq a c.
  Proof. apply peq_trans. Qed.
  Lemma ieq_sym (a b : inst X) : ieq a b -> ieq b a.
  Proof. apply peq_sym. Qed.
End PEQ.

(** ** Rebuilding dictionaries *)

(** [{f(k): d[k] for k in d}] *)
Definition dmapk {K V} `{EqDecision K} (f : K -> K) (d : list (K * V)) : list (K * V) :=
  fold_left (fun acc e => dset (f (fst e)) (snd e) acc) d [].

(** [for k in b: a[k] = b[k]] *)
Definition dupd {K V} `{EqDecision K} (a b : list (K * V)) : list (K * V) :=
  fold_left (fun acc e => dset (fst e) (snd e) acc) b a.

Section DictBuild.
  Context {K V : Type} `{EqDecision K}.
  Implicit Types d : list (K * V).

  Lemma fold_dset_app (f : K -> K) (g : K * V -> V) d acc :
    NoDup (dkeys acc ++ map (fun e => f (fst e)) d) ->
    fold_left (fun acc e => dset (f (fst e)) (g e) acc) d acc =
    acc ++ map (fun e => (f (fst e), g e)) d.
  Proof.
    revert acc. induction d as [|[k v] d IH]; intros acc Hnd; simpl in *.
    - by rewrite app_nil_r.
    - assert (f k ∉ dkeys acc).
      { apply NoDup_app in Hnd as (_ & Hx & _). intros Hin. apply (Hx _ Hin). left. }
      rewrite dset_fresh by done. rewrite IH.
      + by rewrite <- app_assoc.
      + rewrite dkeys_app. simpl. by rewrite <- app_assoc.
  Qed.

  Lemma dmapk_map (f : K -> K) d :
    NoDup (map (fun e => f (fst e)) d) ->
    dmapk f d = map (fun e => (f (fst e), snd e)) d.
  Proof. intros Hnd. unfold dmapk. by rewrite (fold_dset_app f snd). Qed.

  Lemma dupd_app d acc :
    NoDup (dkeys acc ++ dkeys d) -> dupd acc d = acc ++ d.
  Proof.
    intros Hnd. unfold dupd. rewrite (fold_dset_app (fun k => k) snd) by done.
    f_equal. rewrite <- (map_id d) at 2. apply map_ext. by intros [].
  Qed.

  Lemma dupd_wf d acc : dwf acc -> dwf (dupd acc d).
  Proof.
    unfold dupd. revert acc. induction d as [|[k v] d IH]; intros acc Hw; simpl; [done|].
    apply IH. by apply dset_wf.
  Qed.

  Lemma dget_dupd k d acc :
    dwf d ->
    dget k (dupd acc d) = match dget k d with Some v => Some v | None => dget k acc end.
  Proof.
    unfold dupd. revert acc. induction d as [|[k' v] d IH]; intros acc Hw; simpl; [done|].
    apply dwf_cons in Hw as [Hn Hw]. rewrite IH by done.
    case_decide as Hk; subst.
    - apply dget_None in Hn. rewrite Hn. by rewrite dget_dset_eq.
    - rewrite dget_dset_ne by done. done.
  Qed.
End DictBuild.

(** ** Strings *)

(** [s[0] == c] *)
Definition head_is (c : ascii) (s : string) : bool :=
  match s with String c' _ => Ascii.eqb c' c | EmptyString => false end.

(** [attr[0] == '?'] for a string: the name is a variable. *)
Definition is_var (s : string) : bool := head_is "?"%char s.

(** ** The variables that occur in an attribute: itself, or at any depth
    inside a relation. *)
Fixpoint avars (a : attr) : list string :=
  match a with
  | AStr s => if is_var s then [s] else []
  | ATup l => flat_map avars l
  | ANum _ => []
  end.

(** Renaming the variables of an attribute. *)
Fixpoint arename (f : string -> string) (a : attr) : attr :=
  match a with
  | AStr s => if is_var s then AStr (f s) else AStr s
  | ATup l => ATup (map (arename f) l)
  | ANum z => ANum z
  end.
