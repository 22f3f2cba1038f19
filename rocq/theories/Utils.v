(** * concept_formation/utils.py: random choice and simple statistics. *)
From stdpp Require Import base decidable list strings.
From Coq Require Import ZArith.
From Verif Require Import Base Num TreeModel.
Local Open Scope amb_scope.

Section Choice.
  Context {N : NumOps} (rng : nat -> num N) {X : Type}.
  Notation F := (num N).
  Notation "0" := (nofnat N 0).

  (** random.random() *)
  Definition random_ : A F :=
    fun a => (Ok (rng (am_rpos a)), Amb (am_ctr a) (S (am_rpos a))).

  (** random.uniform(a, b) = a + (b-a) * random() (CPython's random.py). *)
  Definition uniform (lo hi : F) : A F :=
    r <~ random_; aret (nadd N lo (nmul N (nsub N hi lo) r)).

  (** sum(w for c, w in choices) *)
  Definition nsum_list (l : list F) : F := fold_left (nadd N) l 0.

  (** The loop of weighted_choice, utils.py:143-150. *)
  Fixpoint wc_loop (r upto : F) (l : list (X * F)) : res X :=
    match l with
    | [] => Err ValueError
    | (c, w) :: l =>
      if nltb N w 0 then Err ValueError
      else if nltb N r (nadd N upto w) then Ok c
      else wc_loop r (nadd N upto w) l
    end.

  (** weighted_choice, utils.py:116-150 *)
  Definition weighted_choice (l : list (X * F)) : A X :=
    r <~ uniform 0 (nsum_list (map snd l));
    alift (wc_loop r 0 l).

  (** [vcmp v w]: what Python's comparison of two values yields when it gets
      that far: [Some b] for v < w being [b], [None] for TypeError.  Equal
      values compare as not smaller. *)
  Context (vcmp : X -> X -> option bool).

  (** The tuples (prob, random(), val) of most_likely_choice. *)
  Definition mkey : Type := F * F * X.
  Definition mkey_lt (a b : mkey) : bool :=
    let '(p, r, v) := a in
    let '(p', r', v') := b in
    if neqb N p p' then
      if neqb N r r' then default false (vcmp v v') else nltb N r r'
    else nltb N p p'.
  Definition mkey_clash (a b : mkey) : bool :=
    let '(p, r, v) := a in
    let '(p', r', v') := b in
    neqb N p p' && neqb N r r' &&
    match vcmp v v' with None => true | Some _ => false end.
  (** Two entries with the same probability and the same draw whose values
      have no order: any comparison sort compares across the two kinds of
      values and Python raises TypeError. *)
  Fixpoint mclash (l : list mkey) : bool :=
    match l with
    | [] => false
    | k :: l => existsb (mkey_clash k) l || mclash l
    end.

  (** most_likely_choice, utils.py:153-179 *)
  Definition most_likely_choice (l : list (X * F)) : A X :=
    match l with
    | [] => araise ValueError
    | _ =>
      if existsb (fun p => nltb N (snd p) 0) l then araise ValueError
      else
        ks <~ amapM (fun p => r <~ random_; aret (snd p, r, fst p)) l;
        if mclash ks then araise TypeError
        else match sort_desc mkey_lt ks with
             | [] => araise IndexError
             | (_, _, v) :: _ => aret v
             end
    end.
End Choice.

Section Stats.
  Context (N : NumOps).
  Notation F := (num N).
  Notation "0" := (nofnat N 0).

  (** mean, utils.py:71-89 *)
  Definition mean (l : list F) : res F :=
    match l with
    | [] => Err ValueError
    | _ => pydiv N (fold_left (nadd N) l 0) (nofnat N (length l))
    end.

  (** std, utils.py:92-113 *)
  Definition std (l : list F) : res F :=
    match l with
    | [] => Err ValueError
    | _ =>
      rbind (mean l) (fun m =>
      rbind (pydiv N (fold_left (nadd N)
                        (map (fun v => nmul N (nsub N v m) (nsub N v m)) l) 0)
                     (nofnat N (length l))) (fun var =>
      pysqrt N var))
    end.
End Stats.
