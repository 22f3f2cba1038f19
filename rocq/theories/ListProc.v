(** * The list preprocessors (preprocessor.py:723-1201): ExtractListElements,
    ListsToRelations and their pipeline ListProcessor. *)
From stdpp Require Import base decidable list strings pretty.
From Coq Require Import Ascii String ZArith.
From Verif Require Import Base PyVal Preproc.
Set Default Proof Using "Type".
Open Scope string_scope.
Open Scope list_scope.
Open Scope res_scope.

(** ** ExtractListElements (874-1006) *)
Section Extract.
  Context {X : Type}.
  (** [str(l)] of a list (984) *)
  Context (strl : list (pv X) -> string).

  (** What one attribute contributes to [new_instance] (980-1004), as items in
      the order of insertion; [c] is the counter of [gensym].  An element that
      is not a dictionary is extracted as the dictionary [{"val": el}]. *)
  Fixpoint ext_entry (a : attr) (v : pv X) (c : nat) : res (inst X * nat) :=
    match v with
    | PL l =>
        if attr_ok a then
          if hidden a then Ok ([(a, PStr (strl l))], c)
          else
            let? r := (fix go (l : list (pv X)) (c : nat) : res (inst X * list string * nat) :=
               match l with
               | [] => Ok ([], [], c)
               | el :: l =>
                   let n := gensym_name (S c) in
                   let? o := ext_entry (match el with PD _ => AStr n | _ => AStr "val" end) el (S c) in
                   let item := match el with PD _ => fst o | _ => [(AStr n, PD (dupd [] (fst o)))] end in
                   let? r := go l (snd o) in
                   Ok (item ++ fst (fst r), n :: snd (fst r), snd r)
               end) l c in
            Ok (fst (fst r) ++ [(a, PL (map PStr (snd (fst r))))], snd r)
        else Err (match a with ANum _ => TypeError | _ => IndexError end)
    | PD d =>
        let? r := (fix go (d : inst X) (acc : inst X) (c : nat) : res (inst X * nat) :=
           match d with
           | [] => Ok (acc, c)
           | (a, w) :: d => let? o := ext_entry a w c in go d (dupd acc (fst o)) (snd o)
           end) d [] c in
        Ok ([(a, PD (fst r))], snd r)
    | _ => Ok ([(a, v)], c)
    end.
  (** [_extract] (974-1006) *)
  Definition extract (d : inst X) (c : nat) : res (inst X * nat) :=
    rfold (fun r e => let? o := ext_entry (fst e) (snd e) (snd r) in Ok (dupd (fst r) (fst o), snd o)) ([], c) d.

  (** The object of one element, or its value (954-961); [us]: the entries of
      the instance with [_undo_extract] of them.  Simplified: an element that
      is not a string is taken not to be a key. *)
  Definition undo_elem (us : list (attr * res (inst X))) (el : pv X) : res (pv X) :=
    match el with
    | PStr s =>
        match dget (AStr s) us with
        | None => Err KeyError
        | Some r => let? obj := r in
                    Ok (match dget (AStr "val") obj with Some v => v | None => PD obj end)
        end
    | PX _ => Err KeyError
    | _ => Err TypeError
    end.
  Definition is_list (v : pv X) : bool := match v with PL _ => true | _ => false end.
  (** The first loop (950-962). *)
  Definition undo_lists (us : list (attr * res (inst X))) (acc d : inst X) : res (inst X) :=
    rfold (fun acc e => match snd e with
                        | PL l => let? nl := rmapM (undo_elem us) l in Ok (dset (fst e) (PL nl) acc)
                        | _ => Ok acc
                        end) acc d.
  (** [elements]: what the lists mention. *)
  Definition list_elems (d : inst X) : list attr :=
    List.concat (map (fun e => match snd e with
                          | PL l => omap (fun el => match el with PStr s => Some (AStr s) | _ => None end) l
                          | _ => []
                          end) d).
  (** The second loop (964-970). *)
  Definition undo_rest (us : list (attr * res (inst X))) (els : list attr) (acc d : inst X) : res (inst X) :=
    rfold (fun acc e =>
      if is_list (snd e) || bool_decide (fst e ∈ els) then Ok acc
      else match snd e with
           | PD _ => let? o := match dget (fst e) us with Some r => r | None => Err KeyError end in
                     Ok (dset (fst e) (PD o) acc)
           | v => Ok (dset (fst e) v acc)
           end) acc d.
  (** [_undo_extract] (942-972) of a dictionary.  Of anything else: an empty
      list or string gives an empty dictionary; otherwise TypeError (a list
      of numbers can index itself: simplified). *)
  Fixpoint undo_extract (v : pv X) : res (inst X) :=
    match v with
    | PD d =>
        let us := (fix go (d : inst X) : list (attr * res (inst X)) :=
                     match d with [] => [] | (a, w) :: d => (a, undo_extract w) :: go d end) d in
        let? acc := undo_lists us [] d in
        undo_rest us (list_elems d) acc d
    | PL [] => Ok []
    | PStr EmptyString => Ok []
    | _ => Err TypeError
    end.
End Extract.

(** ** ListsToRelations (1009-1201) *)
Section Relations.
  Context {X : Type}.
  (** [True]; [str(x)] and the key made of a value that is not a string; the
      value made of a key that is not a string. *)
  Context (vtrue : pv X) (strx : X -> string) (keyx : X -> attr) (valk : attr -> pv X).

  Definition ordered (lname : attr) (s t : string) : attr := ATup [AStr "ordered-list"; lname; AStr s; AStr t].
  Definition has_element (lname el : attr) : attr := ATup [AStr "has-element"; lname; el].

  (** An element inside a key, and [str] of it; other values are unhashable. *)
  Definition el_key (v : pv X) : res attr :=
    match v with PStr s => Ok (AStr s) | PX x => Ok (keyx x) | _ => Err TypeError end.
  Definition el_str (v : pv X) : string :=
    match v with PStr s => s | PX x => strx x | _ => "" end.
  (** The relations of a list (1183-1193), in the order of insertion. *)
  Fixpoint list_rels (lname : attr) (l : list (pv X)) : res (inst X) :=
    match l with
    | [] => Ok []
    | [e] => let? k := el_key e in Ok [(has_element lname k, vtrue)]
    | e :: ((e' :: _) as l) =>
        let? k := el_key e in
        let? r := list_rels lname l in
        Ok ((ordered lname (el_str e) (el_str e'), vtrue) :: (has_element lname k, vtrue) :: r)
    end.

  (** Inside a component called [lname] (1169-1201): the new component and the
      relations for the top level. *)
  Fixpoint ltr_val (lname : attr) (v : pv X) : res (pv X * inst X) :=
    match v with
    | PL l => let? r := list_rels lname l in Ok (PD [], r)
    | PD d =>
        let? r := (fix go (d : inst X) (acc : inst X) (rels : inst X) : res (inst X * inst X) :=
           match d with
           | [] => Ok (acc, rels)
           | (a, w) :: d =>
               let? o := ltr_val (ATup [a; lname]) w in
               go d (dset a (fst o) acc) (rels ++ snd o)
           end) d [] [] in
        Ok (PD (fst r), snd r)
    | _ => Ok (v, [])
    end.
  (** [_lists_to_relations] at the top level: the relations of a list come
      after its name, those inside a component before. *)
  Definition ltr (d : inst X) : res (inst X) :=
    rfold (fun acc e =>
      let? o := ltr_val (fst e) (snd e) in
      Ok (match snd e with
          | PD _ => dset (fst e) (fst o) (dupd acc (snd o))
          | _ => dupd (dset (fst e) (fst o) acc) (snd o)
          end)) [] d.

  (** [_get_path] (1163-1167) *)
  Fixpoint l_path (a : attr) : list attr :=
    match a with
    | ATup [x; y] => l_path y ++ [x]
    | _ => [a]
    end.

  (** The state of the first loop (1090-1114): [new_instance], [elements],
      [order] and the keys of [originals]. *)
  Record lst := LSt { l_new : inst X; l_els : list (attr * list attr); l_ord : list (attr * list (attr * attr)); l_orig : list attr }.
  Definition add_orig (a : attr) (l : list attr) : list attr := if bool_decide (a ∈ l) then l else l ++ [a].
  Definition rel_step (s : lst) (e : attr * pv X) : res lst :=
    match fst e with
    | ATup [] => Err IndexError
    | ATup (r :: args) =>
        if decide (r = AStr "has-element") then
          match args with
          | [ln; el] => Ok (LSt (l_new s) (dset ln (default [] (dget ln (l_els s)) ++ [el]) (l_els s)) (l_ord s) (add_orig ln (l_orig s)))
          | _ => Err ValueError
          end
        else if decide (r = AStr "ordered-list") then
          match args with
          | [ln; e1; e2] => Ok (LSt (l_new s) (l_els s) (dset ln (default [] (dget ln (l_ord s)) ++ [(e1, e2)]) (l_ord s)) (add_orig ln (l_orig s)))
          | _ => Err ValueError
          end
        else Ok (LSt (dset (fst e) (snd e) (l_new s)) (l_els s) (l_ord s) (l_orig s))
    | _ => Ok (LSt (dset (fst e) (snd e) (l_new s)) (l_els s) (l_ord s) (l_orig s))
    end.

  (** [l.remove(x)] *)
  Fixpoint lremove {Y} `{EqDecision Y} (x : Y) (l : list Y) : option (list Y) :=
    match l with
    | [] => None
    | y :: l => if decide (x = y) then Some l else (fun l => y :: l) <$> lremove x l
    end.
  Definition pop_el (x : attr) (l : list attr) : res (list attr) :=
    match lremove x l with Some l => Ok l | None => Err ValueError end.
  (** The state of the chaining: [elements[ele]], [order[ele]], [new_list]. *)
  Record cst := CSt { c_els : list attr; c_ord : list (attr * attr); c_list : list attr }.
  (** Chain to the front (1124-1135); every round removes a pair of [order]. *)
  Fixpoint chain_front (fuel : nat) (s : cst) (changed : bool) : res (cst * bool) :=
    match fuel with
    | O => Ok (s, changed)
    | S fuel =>
        match find (fun p => bool_decide (Some (snd p) = head (c_list s))) (c_ord s) with
        | None => Ok (s, changed)
        | Some p =>
            let? els := pop_el (fst p) (c_els s) in
            chain_front fuel (CSt els (default [] (lremove p (c_ord s))) (fst p :: c_list s)) true
        end
    end.
  (** Chain to the end (1138-1149) *)
  Fixpoint chain_back (fuel : nat) (s : cst) (changed : bool) : res (cst * bool) :=
    match fuel with
    | O => Ok (s, changed)
    | S fuel =>
        match find (fun p => bool_decide (Some (fst p) = last (c_list s))) (c_ord s) with
        | None => Ok (s, changed)
        | Some p =>
            let? els := pop_el (snd p) (c_els s) in
            chain_back fuel (CSt els (default [] (lremove p (c_ord s))) (c_list s ++ [snd p])) true
        end
    end.
  (** The outer loop (1120-1149); every round but the last removes elements.
      [has_ord]: whether [ele] is a key of [order] (otherwise KeyError). *)
  Fixpoint chain_all (fuel : nat) (has_ord : bool) (s : cst) : res cst :=
    match fuel with
    | O => Ok s
    | S fuel =>
        match c_els s with
        | [] => Ok s
        | _ =>
            if has_ord then
              let? f := chain_front (List.length (c_ord s)) s false in
              let? b := chain_back (List.length (c_ord (fst f))) (fst f) (snd f) in
              if snd b then chain_all fuel has_ord (fst b) else Ok (fst b)
            else Err KeyError
        end
    end.

  (** [current = current[path.pop(0)]], then [current[path[0]] = new_list]
      (1152-1156).  Python changes the components in place, also those of the
      instance passed in. *)
  Fixpoint place (path : list attr) (v : pv X) (d : inst X) : res (inst X) :=
    match path with
    | [] => Err IndexError
    | [k] => Ok (dset k v d)
    | k :: path =>
        match dget k d with
        | None => Err KeyError
        | Some (PD s) => let? s' := place path v s in Ok (dset k (PD s') d)
        | Some _ => Err TypeError
        end
    end.
  (** [for attr, val in originals: new_instance[attr] = val] (1158-1159):
      [originals] is a dictionary, so its keys are unpacked. *)
  Definition unpack2 (a : attr) : res (attr * attr) :=
    match a with
    | ATup [x; y] => Ok (x, y)
    | AStr (String x (String y EmptyString)) => Ok (AStr (String x ""), AStr (String y ""))
    | ANum _ => Err TypeError
    | _ => Err ValueError
    end.
  Definition key_val (a : attr) : pv X := match a with AStr s => PStr s | _ => valk a end.
  Definition list_step (s : lst) (new : inst X) (e : attr * list attr) : res (inst X) :=
    match snd e with
    | [] => Err IndexError
    | x :: els =>
        let ord := dget (fst e) (l_ord s) in
        let? r := chain_all (S (List.length els)) (if ord then true else false) (CSt els (default [] ord) [x]) in
        match c_els r with
        | [] => place (l_path (fst e)) (PL (map key_val (c_list r))) new
        | _ => rfold (fun new a => let? p := unpack2 a in Ok (dset (fst p) (key_val (snd p)) new)) new (l_orig s)
        end
    end.
  (** [_relations_to_lists] (1083-1161) *)
  Definition rtl (d : inst X) : res (inst X) :=
    let? s := rfold rel_step (LSt [] [] [] []) d in
    rfold (list_step s) (l_new s) (l_els s).
End Relations.

(** ** ListProcessor (723-871): the pipeline of both *)
Section ListProcessor.
  Context {X : Type} (strl : list (pv X) -> string) (vtrue : pv X) (strx : X -> string) (keyx : X -> attr) (valk : attr -> pv X).
  Definition lp_transform (d : inst X) (c : nat) : res (inst X * nat) :=
    let? r := extract strl d c in
    let? d' := ltr vtrue strx keyx (fst r) in
    Ok (d', snd r).
  Definition lp_undo (d : inst X) : res (inst X) :=
    let? d1 := rtl valk d in undo_extract (PD d1).
End ListProcessor.
