(** * The structure mapper (concept_formation/structure_mapper.py).

    The searches it delegates to other packages - Munkres' assignment
    algorithm and py_search's hill climbing - and the order in which Python
    enumerates sets are not computed: [oracle] says what they answered, and
    everything is proved for any answers they may give. *)
From stdpp Require Import base decidable list strings.
From Coq Require Import Ascii String ZArith.
From Verif Require Import Base PyVal Preproc.
Set Default Proof Using "Type".
Open Scope list_scope.

(** [get_component_names(instance)] with [vars_only=True] (33-70): the keys of
    the instance or table are all it looks at. *)
Definition comp_names (keys : list attr) : res (list attr) :=
  let? l := rmapM attr_comps keys in Ok (remove_dups (List.concat l)).

(** The new name of one attribute in [rename_flat] (94-101). *)
Definition flat_name (m : list (attr * attr)) (a : attr) : attr :=
  match dget a m with
  | Some b => b
  | None => rename_relation m a
  end.
(** [rename_flat] (73-103) *)
Definition rename_flat {V} (m : list (attr * attr)) (d : list (attr * V)) : list (attr * V) :=
  fold_left (fun acc e => dset (flat_name m (fst e)) (snd e) acc) d [].

Section Match.
  Context {F : Type}.

  (** A mapping and the components of the base that nothing is mapped to
      (the state of StructureMappingOptProblem, 207-213).  The code keeps them
      as frozensets; the order of the lists does not matter for what follows. *)
  Definition smstate : Type := list (attr * attr) * list attr.

  Record oracle := Oracle {
    (** [list(frozenset)] *)
    o_enum : list attr -> list attr;
    (** [Munkres().compute(cost_matrix)]; [None] is [float('inf')] *)
    o_munkres : list (list (option F)) -> list (nat * nat);
    (** the successors that hill climbing moves to, by their position in
        [successors] *)
    o_path : list nat;
  }.

  (** [mapping_cost(mapping, target, base)] for the target and base at hand. *)
  Context (cost : list (attr * attr) -> res F).

  (** [hungarian_mapping] (227-285) *)
  Definition hungarian_row (cn inn : list attr) (o : attr) : res (list (option F)) :=
    let? r := rmapM (fun c => cost [(o, c)]) cn in
    let? u := cost [] in
    Ok (map Some r ++ map (fun o' => if decide (o' = o) then Some u else None) inn).
  Definition hungarian_entry (cn inn : list attr) (m : list (attr * attr)) (rc : nat * nat)
      : res (list (attr * attr)) :=
    match inn !! fst rc with
    | None => Err IndexError
    | Some o =>
        if (List.length cn <=? snd rc)%nat then Ok (dset o o m)
        else match cn !! snd rc with
             | Some c => Ok (dset o c m)
             | None => Err IndexError
             end
    end.
  Definition hungarian_mapping (orc : oracle) (inames cnames : list attr) : res (list (attr * attr)) :=
    let cn := o_enum orc cnames in
    let inn := o_enum orc inames in
    let? rows := rmapM (hungarian_row cn inn) inn in
    rfold (hungarian_entry cn inn) [] (o_munkres orc rows).

  (** [mapping[o]] for a key [o] *)
  Definition img (m : list (attr * attr)) (o : attr) : attr :=
    match dget o m with Some c => c | None => o end.

  (** [swap_two] (355-372) *)
  Definition swap_two (o1 o2 : attr) (s : smstate) : smstate :=
    let m := fst s in
    let m1 := dset o1 (if decide (img m o2 = o2) then o1 else img m o2) m in
    let m2 := dset o2 (if decide (img m o1 = o1) then o2 else img m o1) m1 in
    (m2, snd s).

  (** [swap_unnamed] (374-389) *)
  Definition swap_unnamed (o1 o2 : attr) (s : smstate) : smstate :=
    let m := fst s in
    let un := List.filter (fun c => bool_decide (c <> o2)) (snd s) in
    let un := if decide (img m o1 = o1) then un else img m o1 :: un in
    (dset o1 o2 m, un).

  (** [itertools.combinations(l, 2)] *)
  Fixpoint pairs (l : list attr) : list (attr * attr) :=
    match l with
    | [] => []
    | x :: l => map (pair x) l ++ pairs l
    end.

  (** [successors] (418-436) *)
  Definition successors (s : smstate) : list smstate :=
    let m := fst s in
    flat_map (fun p => if bool_decide (fst p = snd p) ||
                          (bool_decide (img m (fst p) = fst p) && bool_decide (img m (snd p) = snd p))
                       then [] else [swap_two (fst p) (snd p) s]) (pairs (dkeys m)) ++
    flat_map (fun o1 => map (fun o2 => swap_unnamed o1 o2 s) (snd s)) (dkeys m).

  (** Hill climbing: the cost of every successor is computed, then it moves to
      one of them or stops. *)
  Fixpoint climb (path : list nat) (s : smstate) : res smstate :=
    match path with
    | [] => Ok s
    | k :: path =>
        let? _ := rmapM (fun s' => cost (fst s')) (successors s) in
        match successors s !! k with
        | Some s' => climb path s'
        | None => Ok s
        end
    end.

  (** [flat_match] (173-224).  [init] is [initial_mapping], as the items of a
      dictionary; [tkeys] and [bkeys] are the attributes of the target and of
      the base's table. *)
  Definition start_state (m0 : list (attr * attr)) (cnames : list attr) : smstate :=
    (m0, List.filter (fun c => bool_decide (c ∉ dvals m0)) cnames).
  Definition flat_match (orc : oracle) (init : option (list (attr * attr)))
      (tkeys bkeys : list attr) : res (list (attr * attr)) :=
    let? inames := comp_names tkeys in
    let? cnames := comp_names bkeys in
    if bool_decide (inames = []) || bool_decide (cnames = []) then Ok []
    else if existsb (fun o => bool_decide (o ∈ cnames)) inames then Err OtherException
    else
      let? m0 := match init with
                 | None => hungarian_mapping orc inames cnames
                 | Some l => Ok (List.filter (fun e => bool_decide (fst e ∈ inames) && bool_decide (snd e ∈ cnames)) l)
                 end in
      let? _ := cost m0 in
      let? s := climb (o_path orc) (start_state m0 cnames) in
      Ok (fst s).
End Match.
Global Arguments oracle : clear implicits.

(** [self.reverse_mapping = {self.mapping[o]: o for o in self.mapping}] (532) *)
Definition reverse_mapping (m : list (attr * attr)) : list (attr * attr) :=
  fold_left (fun acc e => dset (snd e) (fst e) acc) m [].

(** [StructureMapper.transform] (517-533): the renamed target, and
    [reverse_mapping]. *)
Definition sm_transform {F V} (cost : list (attr * attr) -> res F) (orc : oracle F)
    (init : option (list (attr * attr))) (bkeys : list attr) (target : list (attr * V))
    : res (list (attr * V) * list (attr * attr)) :=
  let? m := flat_match cost orc init (dkeys target) bkeys in
  Ok (rename_flat m target, reverse_mapping m).
(** [StructureMapper.undo_transform] (535-550) *)
Definition sm_undo {V} (rev : option (list (attr * attr))) (target : list (attr * V))
    : res (list (attr * V)) :=
  match rev with
  | None => Err OtherException
  | Some r => Ok (rename_flat r target)
  end.

(** [bind_flat_attr] (106-145) on a tuple *)
Fixpoint bind_flat_attr (m : list (attr * attr)) (a : attr) : attr :=
  match a with
  | ATup l => ATup (map (fun e => match e with
                                  | ATup _ => bind_flat_attr m e
                                  | _ => match dget e m with Some b => b | None => e end
                                  end) l)
  | _ => a
  end.

(** [contains_component] (148-170) *)
Fixpoint contains_component (c a : attr) : bool :=
  match a with
  | ATup l => existsb (contains_component c) l || bool_decide (a = c)
  | _ => bool_decide (a = c)
  end.

(** [is_partial_match] (439-487).  [iAttr[0]] raises on an empty name. *)
Fixpoint is_partial_match (m : list (attr * attr)) (i c : attr) : res bool :=
  match i, c with
  | ATup l, ATup k =>
      if (List.length l =? List.length k)%nat then
        (fix go (l k : list attr) : res bool :=
           match l, k with
           | x :: l, y :: k => let? b := is_partial_match m x y in if b then go l k else Ok false
           | _, _ => Ok true
           end) l k
      else Ok false
  | AStr s, AStr t =>
      match s with
      | EmptyString => Err IndexError
      | _ =>
          if is_var s then
            match dget i m with
            | Some b => Ok (bool_decide (b = c))
            | None =>
                match t with
                | EmptyString => Err IndexError
                | _ => if is_var t then Ok true else Ok (bool_decide (i = c))
                end
            end
          else Ok (bool_decide (i = c))
      end
  | ANum _, ANum _ => Err TypeError
  | _, _ => Ok false
  end.
