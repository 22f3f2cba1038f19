(** * Calls on a TrestleTree, for stating properties. *)
From stdpp Require Import base decidable list gmap strings.
From Coq Require Import Ascii String ZArith.
From Verif Require Import Base Num TreeModel Nominal CV Cobweb3 Query Query3 PyVal Preproc Preproc2 StructMap StructFacts Trestle SpecTree.
Set Default Proof Using "Type".

Section Spec.
  Context {N : NumOps} (rng : nat -> num N).
  Notation F := (num N).
  Notation C := (Cobweb3Class N).
  Notation X := (val3 N).
  Context (ncmp : nom -> nom -> option bool) (normal : F -> F -> A F).
  Context (pystr : attr -> string) (setord : list attr -> list attr) (rlimit : nat).

  (** The calls of a user, with what they return.  For ifit also [j]: the
      instance that the structure mapping arrived at, or its exception.
      [TOther]: other trees in the process create nodes and use random(). *)
  Inductive tevent :=
  | TFit (d : inst X) (q : torc N) (j : res (inst3 N)) (r : res nat)
  | TCat (d : inst X) (q : torc N) (r : res nat)
  | TInfer (d : inst X) (f : string) (allow_none : bool) (q : torc N) (r : res (inst X))
  | TOther
  | TClear.

  (** [pwf]: the dictionaries passed in have distinct keys, as all Python
      dictionaries; [oracle_ok]: what is assumed of the searches. *)
  Inductive tstep (x0 : ctx3 N) : tst N -> tevent -> tst N -> Prop :=
  | tstep_fit s d q j r s' : pwf (PD d) -> oracle_ok (to_orc q) ->
      fst (t_ready pystr setord rlimit q d s) = j ->
      t_fit rng pystr setord rlimit q d s = (r, s') -> tstep x0 s (TFit d q j r) s'
  | tstep_cat s d q r s' : pwf (PD d) -> oracle_ok (to_orc q) ->
      t_cat rng pystr setord rlimit q d s = (r, s') -> tstep x0 s (TCat d q r) s'
  | tstep_infer s d f b q r s' : pwf (PD d) -> oracle_ok (to_orc q) ->
      t_infer rng ncmp normal pystr setord rlimit q d f b s = (r, s') -> tstep x0 s (TInfer d f b q r) s'
  | tstep_other s ctr rpos :
      am_ctr (st_amb (t_tree s)) <= ctr -> am_rpos (st_amb (t_tree s)) <= rpos ->
      tstep x0 s TOther (TSt (St (st_heap (t_tree s)) (st_root (t_tree s)) (Amb ctr rpos) (st_ctx (t_tree s))) (t_sym s))
  | tstep_clear s : tstep x0 s TClear (t_clear x0 s).

  Inductive trun (x0 : ctx3 N) : tst N -> list tevent -> tst N -> Prop :=
  | trun_nil s : trun x0 s [] s
  | trun_snoc s evs s1 e s2 :
      trun x0 s evs s1 -> tstep x0 s1 e s2 -> trun x0 s (evs ++ [e]) s2.

  (** The states of a TrestleTree object. *)
  Definition treachable (x0 : ctx3 N) (evs : list tevent) (s : tst N) : Prop :=
    exists ctr rpos, trun x0 (t_new ctr rpos x0) evs s.

  (** The instances that reached the Cobweb/3 code since the tree was created
      or last cleared. *)
  Definition thist_step (l : list (inst3 N)) (e : tevent) : list (inst3 N) :=
    match e with
    | TFit _ _ (Ok j) _ => l ++ [j]
    | TClear => []
    | _ => l
    end.
  Definition thistory (evs : list tevent) : list (inst3 N) := fold_left thist_step evs [].

  (** Every ifit returned normally. *)
  Definition tfit_ok (e : tevent) : Prop :=
    match e with TFit _ _ _ (Err _) => False | _ => True end.
  (** The instances given to ifit, after structure mapping, satisfy [P]. *)
  Definition tfit_inst (P : inst3 N -> Prop) (e : tevent) : Prop :=
    match e with TFit _ _ (Ok j) _ => P j | _ => True end.

  (** The calls on a Cobweb3Tree that have the same effect. *)
  Definition cobweb_calls (e : tevent) : list (event C) :=
    match e with
    | TFit _ _ (Ok j) r => [EOther; EFit (C:=C) j r]
    | TClear => [EClear]
    | _ => [EOther]
    end.

  (** Calls as commands, and what they answer: for stating that two objects
      behave alike. *)
  Inductive tcall :=
  | TCFit (d : inst X) (q : torc N)
  | TCCat (d : inst X) (q : torc N)
  | TCInfer (d : inst X) (f : string) (allow_none : bool) (q : torc N)
  | TCOther (dc dr : nat)
  | TCClear.
  Inductive tanswer :=
  | TConcept (r : res nat)
  | TInstance (r : res (inst X))
  | TNothing.

  Definition texec1 (x0 : ctx3 N) (c : tcall) (s : tst N) : tanswer * tst N :=
    match c with
    | TCFit d q => let '(r, s1) := t_fit rng pystr setord rlimit q d s in (TConcept r, s1)
    | TCCat d q => let '(r, s1) := t_cat rng pystr setord rlimit q d s in (TConcept r, s1)
    | TCInfer d f b q => let '(r, s1) := t_infer rng ncmp normal pystr setord rlimit q d f b s in (TInstance r, s1)
    | TCOther dc dr =>
        (TNothing, TSt (St (st_heap (t_tree s)) (st_root (t_tree s))
           (Amb (am_ctr (st_amb (t_tree s)) + dc) (am_rpos (st_amb (t_tree s)) + dr)) (st_ctx (t_tree s))) (t_sym s))
    | TCClear => (TNothing, t_clear x0 s)
    end.
  Fixpoint texec (x0 : ctx3 N) (cs : list tcall) (s : tst N) : list tanswer * tst N :=
    match cs with
    | [] => ([], s)
    | c :: cs => let '(r, s1) := texec1 x0 c s in
                 let '(rs, s2) := texec x0 cs s1 in (r :: rs, s2)
    end.
End Spec.
Global Arguments tcall : clear implicits. Global Arguments tanswer : clear implicits.
Global Arguments TCFit {N}. Global Arguments TCCat {N}. Global Arguments TCInfer {N}. Global Arguments TCOther {N}. Global Arguments TCClear {N}.
Global Arguments tevent : clear implicits.
Global Arguments TFit {N}. Global Arguments TCat {N}. Global Arguments TInfer {N}. Global Arguments TOther {N}. Global Arguments TClear {N}.
Global Arguments thistory {N}. Global Arguments tfit_ok {N}. Global Arguments tfit_inst {N}. Global Arguments cobweb_calls {N}.
