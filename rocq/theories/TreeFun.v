(** * The same algorithm on inductive trees.

    [TreeRefine.v] proves that the heap program of [TreeModel.v] computes
    exactly this, so that invariants can be proved by structural induction. *)
From stdpp Require Import base decidable list gmap strings.
From Verif Require Import Base Num TreeModel.

Section Fun.
  Context {N : NumOps} (C : NodeClass N) (rng : nat -> num N).
  Notation S' := (nc_sum C).
  Notation I := (nc_inst C).

  Inductive tree := T (id : nat) (s : S') (kids : list tree).

  Definition tid (t : tree) : nat := let 'T i _ _ := t in i.
  Definition tsum (t : tree) : S' := let 'T _ s _ := t in s.
  Definition tkids (t : tree) : list tree := let 'T _ _ k := t in k.

  Section tree_ind.
    Variable P : tree -> Prop.
    Hypothesis H : forall id s kids, Forall P kids -> P (T id s kids).
    Fixpoint tree_ind' (t : tree) : P t :=
      match t with
      | T id s kids =>
        H id s kids ((fix go (l : list tree) : Forall P l :=
                        match l with
                        | [] => Forall_nil_2 P
                        | k :: l => Forall_cons_2 P k l (tree_ind' k) (go l)
                        end) kids)
      end.
  End tree_ind.

  (** All ids, in preorder. *)
  Fixpoint ids (t : tree) : list nat :=
    let 'T i _ kids := t in i :: concat (map ids kids).
  (** Number of nodes. *)
  Fixpoint tsize (t : tree) : nat :=
    let 'T _ _ kids := t in S (sumn (map tsize kids)).

  Definition tables (l : list tree) : list (nat * S') :=
    map (fun k => (tid k, tsum k)) l.

  (** First child with the given id; removal; replacement. *)
  Fixpoint kfind (i : nat) (l : list tree) : option tree :=
    match l with
    | [] => None
    | k :: l => if decide (i = tid k) then Some k else kfind i l
    end.
  Fixpoint kremove (i : nat) (l : list tree) : list tree :=
    match l with
    | [] => []
    | k :: l => if decide (i = tid k) then l else k :: kremove i l
    end.
  Fixpoint kreplace (i : nat) (t : tree) (l : list tree) : list tree :=
    match l with
    | [] => []
    | k :: l => if decide (i = tid k) then t :: l else k :: kreplace i t l
    end.
  (** A child [i] was turned into [t]; when [moved] it has been re-appended at
      the end of the list (fringe split, cobweb.py:169-170). *)
  Definition kupdate (moved : bool) (i : nat) (t : tree) (l : list tree) :=
    if moved then kremove i l ++ [t] else kreplace i t l.

  (** Outcome of the loop on a subtree: the new subtree, whether its root was
      replaced by a new node, the result, and the ambient state. *)
  Record fout := FOut {
    fo_tree : tree; fo_moved : bool; fo_res : res nat; fo_amb : amb;
  }.

  Definition anext (a : amb) : amb := Amb (S (am_ctr a)) (am_rpos a).

  (** create_new_child on a node whose other data is (id, s, kids). *)
  Definition fnew_child (moved : bool) (id : nat) (s : S') (kids : list tree)
      (i : I) (a : amb) : fout :=
    let a' := anext a in
    match nc_inc C (nc_empty C) i with
    | (s2, None) => FOut (T id s (kids ++ [T (am_ctr a') s2 []])) moved (Ok (am_ctr a')) a'
    | (_, Some e) => FOut (T id s kids) moved (Err e) a'
    end.

  Definition ffringe (id : nat) (s : S') (i : I) (a : amb) : fout :=
    let a' := anext a in
    match nc_add C (nc_empty C) s with
    | (_, Some e) => FOut (T id s []) false (Err e) a'
    | (s0, None) =>
      match nc_inc C s0 i with
      | (s1, Some e) => FOut (T (am_ctr a') s1 [T id s []]) true (Err e) a'
      | (s1, None) => fnew_child true (am_ctr a') s1 [T id s []] i a'
      end
    end.

  (** The merged node, or an exception. *)
  Definition fmerged (k1 k2 : tree) : S' + exn :=
    match nc_add C (nc_empty C) (tsum k1) with
    | (_, Some e) => inr e
    | (s0, None) =>
      match nc_add C s0 (tsum k2) with
      | (_, Some e) => inr e
      | (s1, None) => inl s1
      end
    end.

  Fixpoint fcob (fuel : nat) (x : nc_ctx C) (t : tree) (i : I) (a : amb) : fout :=
    match fuel with
    | O => FOut t false (Err OutOfFuel) a
    | S fuel =>
      let 'T id s kids := t in
      match kids with
      | [] =>
        match nc_exact C s i with
        | Err e => FOut t false (Err e) a
        | Ok ex =>
          if ex || (nc_count C s =? 0)%nat
          then let '(s', e) := nc_inc C s i in
               FOut (T id s' []) false
                    (match e with None => Ok id | Some e => Err e end) a
          else ffringe id s i a
        end
      | _ =>
        match two_best_children C rng x s (tables kids) i a with
        | (Err e, a1) => FOut t false (Err e) a1
        | (Ok (cu, b1, b2), a1) =>
          match kfind b1 kids with
          | None => FOut t false (Err Dangling) a1
          | Some k1 =>
            let o2 := match b2 with
                      | None => Some None
                      | Some b2 => match kfind b2 kids with
                                   | None => None
                                   | Some k2 => Some (Some k2)
                                   end
                      end in
            match o2 with
            | None => FOut t false (Err Dangling) a1
            | Some ok2 =>
              match get_best_operation C rng x s (tables kids) i (b1, tsum k1)
                      (match ok2 with None => None | Some k2 => Some (tid k2, tsum k2) end)
                      (tables (tkids k1)) cu all_ops a1 with
              | (Err e, a2) => FOut t false (Err e) a2
              | (Ok (_, OpBest), a2) =>
                match nc_inc C s i with
                | (s', Some e) => FOut (T id s' kids) false (Err e) a2
                | (s', None) =>
                  let o := fcob fuel x k1 i a2 in
                  FOut (T id s' (kupdate (fo_moved o) b1 (fo_tree o) kids)) false
                       (fo_res o) (fo_amb o)
                end
              | (Ok (_, OpNew), a2) =>
                match nc_inc C s i with
                | (s', Some e) => FOut (T id s' kids) false (Err e) a2
                | (s', None) => fnew_child false id s' kids i a2
                end
              | (Ok (_, OpMerge), a2) =>
                match ok2 with
                | None => FOut t false (Err OtherException) a2
                | Some k2 =>
                  match nc_inc C s i with
                  | (s', Some e) => FOut (T id s' kids) false (Err e) a2
                  | (s', None) =>
                    let a3 := anext a2 in
                    let m := am_ctr a3 in
                    match fmerged k1 k2 with
                    | inr e => FOut (T id s' kids) false (Err e) a3
                    | inl sm =>
                      let kids' := kremove (tid k2) (kremove b1 kids) ++ [T m sm [k1; k2]] in
                      let o := fcob fuel x (T m sm [k1; k2]) i a3 in
                      FOut (T id s' (kupdate (fo_moved o) m (fo_tree o) kids')) false
                           (fo_res o) (fo_amb o)
                    end
                  end
                end
              | (Ok (_, OpSplit), a2) =>
                fcob fuel x (T id s (kremove b1 kids ++ tkids k1)) i a2
              end
            end
          end
        end
      end
    end.

  (** _cobweb_categorize on trees *)
  Fixpoint fcat (fuel : nat) (x : nc_ctx C) (t : tree) (i : I) (a : amb) : res nat * amb :=
    match fuel with
    | O => (Err OutOfFuel, a)
    | S fuel =>
      let 'T id s kids := t in
      match kids with
      | [] => (Ok id, a)
      | _ =>
        match two_best_children C rng x s (tables kids) i a with
        | (Err e, a1) => (Err e, a1)
        | (Ok (_, b1, _), a1) =>
          match kfind b1 kids with
          | None => (Err Dangling, a1)
          | Some k1 => fcat fuel x k1 i a1
          end
        end
      end
    end.
End Fun.

Global Arguments T {N C}. Global Arguments tid {N C}. Global Arguments tsum {N C}.
Global Arguments tkids {N C}. Global Arguments ids {N C}. Global Arguments tsize {N C}.
Global Arguments tables {N C}. Global Arguments kfind {N C}.
Global Arguments kremove {N C}. Global Arguments kreplace {N C}.
Global Arguments kupdate {N C}. Global Arguments FOut {N C}.
Global Arguments fo_tree {N C}. Global Arguments fo_moved {N C}.
Global Arguments fo_res {N C}. Global Arguments fo_amb {N C}.
