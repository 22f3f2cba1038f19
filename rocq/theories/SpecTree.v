(** * Vocabulary for stating properties of a tree object.

    Everything here is about the heap of [TreeModel.v] (objects, parent and
    child links) and about sequences of user calls; nothing refers to the
    functional trees used in the proofs. *)
From stdpp Require Import base decidable list gmap strings.
From Verif Require Import Base Num TreeModel.

Section Spec.
  Context {N : NumOps} (C : NodeClass N) (rng : nat -> num N).
  Notation S' := (nc_sum C).
  Notation I := (nc_inst C).
  Notation st := (st C).

  (** [id] is an object with this table, parent, children. *)
  Definition table_of (s : st) (id : nat) (tb : S') : Prop :=
    exists n, st_heap s !! id = Some n /\ nd_sum n = tb.
  Definition parent_of (s : st) (id : nat) (p : option nat) : Prop :=
    exists n, st_heap s !! id = Some n /\ nd_parent n = p.
  Definition children_of (s : st) (id : nat) (l : list nat) : Prop :=
    exists n, st_heap s !! id = Some n /\ nd_children n = l.
  Definition child_of (s : st) (p c : nat) : Prop :=
    exists l, children_of s p l /\ c ∈ l.

  (** Descendants: [desc s a b] when [b] is [a] or below [a] (child links). *)
  Inductive desc (s : st) (a : nat) : nat -> Prop :=
  | desc_refl : desc s a a
  | desc_child b c : desc s a b -> child_of s b c -> desc s a c.

  (** The concepts of the tree. *)
  Definition in_tree (s : st) (id : nat) : Prop := desc s (st_root s) id.
  Definition is_leaf (s : st) (id : nat) : Prop :=
    in_tree s id /\ children_of s id [].

  (** Following parent links from [a] leads to [b]. *)
  Inductive up (s : st) : nat -> nat -> Prop :=
  | up_refl a : up s a a
  | up_step a p b : parent_of s a (Some p) -> up s p b -> up s a b.

  (** A proper hierarchy. *)
  Record hierarchy (s : st) : Prop := {
    hi_alloc : forall id, in_tree s id -> exists n, st_heap s !! id = Some n;
    hi_root : parent_of s (st_root s) None;
    hi_parent : forall p c, in_tree s p -> child_of s p c -> parent_of s c (Some p);
    hi_child : forall c p, in_tree s c -> parent_of s c (Some p) ->
                           in_tree s p /\ child_of s p c;
    hi_up : forall id, in_tree s id -> up s id (st_root s);
    hi_once : forall p l, in_tree s p -> children_of s p l -> NoDup l;
    hi_acyclic : forall p c, in_tree s p -> child_of s p c -> ~ desc s c p;
    hi_two : forall p l, in_tree s p -> children_of s p l -> length l <> 1;
  }.

  (** User-visible calls on one tree, with their outcome.  [EOther]: other
      trees in the process create nodes (shared class counter) and use
      random(). *)
  Inductive event :=
  | EFit (i : I) (r : res nat)
  | ECat (i : I) (r : res nat)
  | EOther
  | EClear.

  Inductive step (x0 : nc_ctx C) : st -> event -> st -> Prop :=
  | step_fit s i r s' : cobweb C rng i s = (r, s') -> step x0 s (EFit i r) s'
  | step_cat s i r s' : cobweb_categorize C rng i s = (r, s') -> step x0 s (ECat i r) s'
  | step_other s ctr rpos :
      am_ctr (st_amb s) <= ctr -> am_rpos (st_amb s) <= rpos ->
      step x0 s EOther (St (st_heap s) (st_root s) (Amb ctr rpos) (st_ctx s))
  | step_clear s s' : mclear C x0 s = (Ok tt, s') -> step x0 s EClear s'.

  Inductive run (x0 : nc_ctx C) : st -> list event -> st -> Prop :=
  | run_nil s : run x0 s [] s
  | run_snoc s evs s1 e s2 :
      run x0 s evs s1 -> step x0 s1 e s2 -> run x0 s (evs ++ [e]) s2.

  (** The states of a tree object: any run from a new tree. *)
  Definition reachable (x0 : nc_ctx C) (evs : list event) (s : st) : Prop :=
    exists ctr rpos, run x0 (fresh C ctr rpos x0) evs s.

  (** Instances fitted since the tree was created or last cleared. *)
  Definition hist_step (l : list I) (e : event) : list I :=
    match e with
    | EFit i _ => l ++ [i]
    | EClear => []
    | _ => l
    end.
  Definition history (evs : list event) : list I := fold_left hist_step evs [].

  (** Every ifit returned normally. *)
  Definition fit_ok (e : event) : Prop :=
    match e with EFit _ (Err _) => False | _ => True end.
  Definition all_ok (evs : list event) : Prop := Forall fit_ok evs.
  Definition inst_of (e : event) (i : I) : Prop :=
    match e with EFit j _ => i = j | ECat j _ => i = j | _ => False end.
  (** All instances passed to calls satisfy [P]. *)
  Definition all_inst (P : I -> Prop) (evs : list event) : Prop :=
    Forall (fun e => forall i, inst_of e i -> P i) evs.
End Spec.

Global Arguments table_of {N C}. Global Arguments parent_of {N C}.
Global Arguments children_of {N C}. Global Arguments child_of {N C}.
Global Arguments desc {N C}. Global Arguments in_tree {N C}.
Global Arguments is_leaf {N C}. Global Arguments up {N C}.
Global Arguments hierarchy {N C}.
Global Arguments EFit {N C}. Global Arguments ECat {N C}.
Global Arguments EOther {N C}. Global Arguments EClear {N C}.
Global Arguments history {N C}. Global Arguments all_ok {N C}.
Global Arguments fit_ok {N C}. Global Arguments all_inst {N C}.
Global Arguments inst_of {N C}. Global Arguments hist_step {N C}.

(** ** Sequences of calls, executed *)
Section Exec.
  Context {N : NumOps} (C : NodeClass N) (rng : nat -> num N).
  Notation st := (st C).

  (** Calls on one tree object; [COther dc dr]: elsewhere in the process [dc]
      nodes were created and [dr] random numbers drawn. *)
  Inductive call :=
  | CFit (i : nc_inst C)
  | CCat (i : nc_inst C)
  | COther (dc dr : nat)
  | CClear.

  Definition exec1 (x0 : nc_ctx C) (c : call) (s : st) : res nat * st :=
    match c with
    | CFit i => cobweb C rng i s
    | CCat i => cobweb_categorize C rng i s
    | COther dc dr =>
        (Ok 0, St (st_heap s) (st_root s)
                  (Amb (am_ctr (st_amb s) + dc) (am_rpos (st_amb s) + dr)) (st_ctx s))
    | CClear => (Ok 0, snd (mclear C x0 s))
    end.

  (** Results of all calls and the final state. *)
  Fixpoint exec (x0 : nc_ctx C) (cs : list call) (s : st) : list (res nat) * st :=
    match cs with
    | [] => ([], s)
    | c :: cs => let '(r, s1) := exec1 x0 c s in
                 let '(rs, s2) := exec x0 cs s1 in (r :: rs, s2)
    end.
End Exec.
Global Arguments CFit {N C}. Global Arguments CCat {N C}.
Global Arguments COther {N C}. Global Arguments CClear {N C}.

(** Two tree objects that look the same from outside: same root id, same
    concepts, same links, and tables related by [Rs]. *)
Record same_view {N : NumOps} {C1 C2 : NodeClass N}
    (Rs : nc_sum C1 -> nc_sum C2 -> Prop) (s1 : st C1) (s2 : st C2) : Prop := {
  sv_root : st_root s1 = st_root s2;
  sv_in : forall id, in_tree s1 id <-> in_tree s2 id;
  sv_parent : forall id p, in_tree s1 id -> parent_of s1 id p <-> parent_of s2 id p;
  sv_children : forall id l, in_tree s1 id -> children_of s1 id l <-> children_of s2 id l;
  sv_table : forall id t1 t2, in_tree s1 id -> table_of s1 id t1 -> table_of s2 id t2 -> Rs t1 t2;
}.

(** Executing calls is a run. *)
Section ExecRun.
  Context {N : NumOps} (C : NodeClass N) (rng : nat -> num N).

  Definition event_of (c : call C) (r : res nat) : event C :=
    match c with
    | CFit i => EFit i r
    | CCat i => ECat i r
    | COther _ _ => EOther
    | CClear => EClear
    end.

  Lemma run_cons x0 s e s1 evs s2 : step C rng x0 s e s1 -> run C rng x0 s1 evs s2 ->
    run C rng x0 s (e :: evs) s2.
  Proof.
    intros Hs Hr. revert s e Hs. induction Hr as [s1|s1 evs s2 e' s3 Hr IH Hst]; intros s e Hs.
    - apply (run_snoc C rng x0 s [] s e s1); [constructor|done].
    - apply (run_snoc C rng x0 s (e :: evs) s2 e' s3); [by apply IH|done].
  Qed.

  Lemma exec1_step x0 c s : step C rng x0 s (event_of c (fst (exec1 C rng x0 c s)))
                              (snd (exec1 C rng x0 c s)).
  Proof.
    destruct c as [i|i|dc dr|]; simpl.
    - constructor. by destruct (cobweb C rng i s).
    - constructor. by destruct (cobweb_categorize C rng i s).
    - constructor; simpl; lia.
    - constructor. unfold mclear, mbind. simpl. done.
  Qed.

  Lemma exec_run x0 cs : forall s,
    run C rng x0 s (zip_with event_of cs (fst (exec C rng x0 cs s))) (snd (exec C rng x0 cs s)).
  Proof.
    induction cs as [|c cs IH]; intros s; [constructor|]. simpl.
    pose proof (exec1_step x0 c s) as Hst.
    destruct (exec1 C rng x0 c s) as [r s1]. simpl in Hst.
    specialize (IH s1). destruct (exec C rng x0 cs s1) as [rs s2]. simpl in *.
    by eapply run_cons.
  Qed.

  Lemma exec_reachable x0 cs ctr rpos :
    reachable C rng x0
      (zip_with event_of cs (fst (exec C rng x0 cs (fresh C ctr rpos x0))))
      (snd (exec C rng x0 cs (fresh C ctr rpos x0))).
  Proof. exists ctr, rpos. apply exec_run. Qed.
End ExecRun.
Global Arguments event_of {N C}.

(** Computing with the relations above. *)
Lemma children_lookup {N : NumOps} {C : NodeClass N} (s : st C) id l :
  match st_heap s !! id with Some n => Some (nd_children n) | None => None end = Some l ->
  children_of s id l.
Proof. unfold children_of. destruct (st_heap s !! id) as [n|]; [|done]. intros [= <-]. eauto. Qed.
Lemma table_lookup {N : NumOps} {C : NodeClass N} (s : st C) id tb :
  match st_heap s !! id with Some n => Some (nd_sum n) | None => None end = Some tb ->
  table_of s id tb.
Proof. unfold table_of. destruct (st_heap s !! id) as [n|]; [|done]. intros [= <-]. eauto. Qed.
