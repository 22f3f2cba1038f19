(** * Vocabulary for clusterings read off a tree. *)
From stdpp Require Import base decidable list gmap strings.
From Verif Require Import Base Num TreeModel SpecTree.
Set Default Proof Using "Type".
Open Scope list_scope.

Section Spec.
  Context {N : NumOps} (C : NodeClass N) (rng : nat -> num N).
  Notation st := (st C).

  (** The instances are fitted (or only categorised) one after the other;
      [js] are the concepts that the calls return. *)
  Inductive sorted_by (mod_ : bool) : st -> list (nc_inst C) -> list nat -> st -> Prop :=
  | sb_nil s : sorted_by mod_ s [] [] s
  | sb_cons s i is_ j js s1 s2 :
      (if mod_ then cobweb C rng i s else cobweb_categorize C rng i s) = (Ok j, s1) ->
      sorted_by mod_ s1 is_ js s2 -> sorted_by mod_ s (i :: is_) (j :: js) s2.

  (** A clustering gives every leaf a concept above it (or itself), and no
      concept of it lies below another one. *)
  Definition clustering (s : st) (leaves labels : list nat) : Prop :=
    Forall2 (fun leaf lab => in_tree s lab /\ desc s lab leaf) leaves labels /\
    forall a b, a ∈ labels -> b ∈ labels -> desc s a b -> a = b.

  (** The clustering by the concepts directly below the root (by the root, if
      there is nothing below it). *)
  Definition top_clustering (s : st) (leaves labels : list nat) : Prop :=
    Forall2 (fun leaf lab => (child_of s (st_root s) lab \/ lab = st_root s /\ children_of s lab []) /\ desc s lab leaf)
      leaves labels.

  (** [l'] is [l] with the cluster [x] replaced by its children. *)
  Definition splits_at (s : st) (leaves : list nat) (x : nat) (l l' : list nat) : Prop :=
    x ∈ l /\ length l' = length l /\ length leaves = length l /\
    forall i a b j, l !! i = Some a -> l' !! i = Some b -> leaves !! i = Some j ->
      (a = x -> child_of s x b /\ desc s b j) /\ (a <> x -> b = a).

  (** Same label in the finer one, same label in the coarser one. *)
  Definition refines (fine coarse : list nat) : Prop :=
    forall i j, fine !! i = fine !! j -> coarse !! i = coarse !! j.

  (** The tree after splitting concepts below the root; the class counter and
      the random generator may have moved. *)
  Inductive split_from (s0 : st) : st -> Prop :=
  | sf_refl : split_from s0 s0
  | sf_amb s a : split_from s0 s -> am_ctr (st_amb s) <= am_ctr a ->
      split_from s0 (St (st_heap s) (st_root s) a (st_ctx s))
  | sf_split s x s' : split_from s0 s -> child_of s (st_root s) x ->
      msplit C (st_root s) x s = (Ok tt, s') -> split_from s0 s'.

  (** A function that reads the tree only. *)
  Definition reads_only {X Y Z} (f : X -> Y -> M C Z) : Prop :=
    forall x y s r s', f x y s = (r, s') ->
      st_heap s' = st_heap s /\ st_root s' = st_root s /\ st_ctx s' = st_ctx s /\
      am_ctr (st_amb s) <= am_ctr (st_amb s').
End Spec.
Global Arguments clustering {N C}. Global Arguments top_clustering {N C}.
Global Arguments splits_at {N C}.
