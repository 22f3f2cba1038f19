(** * Model of the preprocessors (preprocessor.py).

    Instances are the nested dictionaries of [PyVal].  Functions that can
    raise return [res].  [gensym] is [default_gensym] / [TrestleTree.gensym]:
    a counter that is part of the state.

    What is simplified: Python objects are copied by value (no aliasing
    between an instance and its transformed copy); [str()] and [float()] are
    parameters; the order in which a Python [set] is traversed is a
    parameter. *)
From stdpp Require Import base decidable list strings pretty.
From Coq Require Import Ascii String ZArith.
From Verif Require Import Base PyVal.
Set Default Proof Using "Type".
Open Scope string_scope.
Open Scope list_scope.
Open Scope res_scope.

(** preprocessor.py:103-112 and trestle.py:90-98: ['?o' + str(counter)] after
    the counter has been incremented. *)
Definition gensym_name (n : nat) : string := "?o" +:+ pretty n.

(** ** Tuplizer (preprocessor.py:197-301) *)

(** [s.split(' ')] *)
Fixpoint split_on (c : ascii) (s : string) : list string :=
  match s with
  | EmptyString => [""]
  | String c' s' =>
      if Ascii.eqb c' c then "" :: split_on c s'
      else match split_on c s' with
           | t :: ts => String c' t :: ts
           | [] => [String c' ""]  (* unreachable *)
           end
  end.

(** [" ".join(l)] *)
Fixpoint join_sp (l : list string) : string :=
  match l with
  | [] => ""
  | [s] => s
  | s :: l => s +:+ " " +:+ join_sp l
  end.

(** [while val[-1] == ')': end += 1; val = val[:-1]] (267-269); [val[-1]]
    raises when [val] is empty.  The string is scanned from its end. *)
Fixpoint strip_close (s : string) : string * nat :=
  match s with
  | EmptyString => ("", 0)
  | String c s' =>
      let (t, n) := strip_close s' in
      match t with
      | EmptyString => if Ascii.eqb c ")"%char then ("", S n) else (String c "", n)
      | _ => (String c t, n)
      end
  end.

Section Tuplizer.
  (** [float(val)] (273): [None] when it raises ValueError, otherwise a code
      for the number. *)
  Context (pyfloat : string -> option Z).

  (** [while end > 0: last = tuple(stack.pop()); stack[-1].append(last)]
      (278-282).  The top of the stack is the head of the list. *)
  Fixpoint tup_close (n : nat) (st : list (list attr)) : res (list (list attr)) :=
    match n with
    | O => Ok st
    | S n =>
        match st with
        | last :: cur :: st => tup_close n ((cur ++ [ATup last]) :: st)
        | _ => Err IndexError
        end
    end.

  (** One iteration of the loop over the space-separated pieces (260-282). *)
  Definition tup_step (st : list (list attr)) (val : string) : res (list (list attr)) :=
    match val with
    | EmptyString => Err IndexError                              (* val[0] *)
    | String c rest =>
        let '(st, val) := if Ascii.eqb c "("%char then ([] :: st, rest) else (st, val) in
        let '(val, n) := strip_close val in
        match val with
        | EmptyString => Err IndexError                          (* val[-1] *)
        | _ =>
            let e := match pyfloat val with Some z => ANum z | None => AStr val end in
            match st with
            | cur :: st => tup_close n ((cur ++ [e]) :: st)
            | [] => Err IndexError
            end
        end
    end.

  (** [_tuplize_relation] (237-285).  A tuple [relation] has [relation[0]]
      different from ['('] unless its first element is that string. *)
  Definition tuplize_relation (a : attr) : res attr :=
    match a with
    | AStr EmptyString => Err IndexError
    | AStr s =>
        if head_is "("%char s then
          let? st := rfold tup_step [[]] (split_on " "%char s) in
          match st with
          | cur :: _ =>
              match last cur with
              | Some (ATup l) => Ok (ATup l)
              | Some (AStr s) => Ok (ATup (map (fun c => AStr (String c "")) (String.list_ascii_of_string s)))
              | Some (ANum _) => Err TypeError
              | None => Err IndexError
              end
          | [] => Err IndexError
          end
        else Ok a
    | ATup [] => Err IndexError
    | ATup (x :: _) =>
        if decide (x = AStr "(") then Err AttributeError  (* tuple has no split *)
        else Ok a
    | ANum _ => Err TypeError
    end.

  (** [_stringify_relation] (287-301); [" ".join] raises TypeError on a
      number. *)
  Fixpoint stringify (a : attr) : res attr :=
    match a with
    | ATup l =>
        let? ss := (fix go (l : list attr) : res (list string) :=
           match l with
           | [] => Ok []
           | x :: l =>
               let? y := stringify x in
               match y with
               | AStr s => let? ss := go l in Ok (s :: ss)
               | _ => Err TypeError
               end
           end) l in
        Ok (AStr ("(" +:+ join_sp ss +:+ ")"))
    | _ => Ok a
    end.

  (** [{f(attr): instance[attr] for attr in instance}] with an [f] that may
      raise. *)
  Definition mapkM {V} (f : attr -> res attr) (d : list (attr * V)) : res (list (attr * V)) :=
    rfold (fun acc e => let? k := f (fst e) in Ok (dset k (snd e) acc)) [] d.

  (** [Tuplizer.transform] and [undo_transform] (223-235). *)
  Definition tuplizer_transform {V} (d : list (attr * V)) := mapkM tuplize_relation d.
  Definition tuplizer_undo {V} (d : list (attr * V)) := mapkM stringify d.
End Tuplizer.

(** ** Relations *)

(** [rename_relation] on one element of a relation (304-329): look the
    element up in the mapping, otherwise go into tuples. *)
Fixpoint ren_elem (m : list (attr * attr)) (v : attr) : attr :=
  match dget v m with
  | Some w => w
  | None => match v with ATup l => ATup (map (ren_elem m) l) | _ => v end
  end.

(** [rename_relation] (304-329) on a tuple. *)
Definition rename_relation (m : list (attr * attr)) (rel : attr) : attr :=
  match rel with ATup l => ATup (map (ren_elem m) l) | _ => rel end.

(** [get_attribute_components(attribute, vars_only=True)] (60-100), as the
    list of names in the order they are added, with repetitions.  [len(ele)]
    raises TypeError on a number. *)
Fixpoint attr_comps (a : attr) : res (list attr) :=
  match a with
  | ATup l =>
      (fix go (l : list attr) : res (list attr) :=
         match l with
         | [] => Ok []
         | x :: l =>
             let? c := match x with
                       | ATup _ => attr_comps x
                       | AStr s => Ok (if is_var s then [x] else [])
                       | ANum _ => Err TypeError
                       end in
             let? r := go l in Ok (c ++ r)
         end) l
  | AStr EmptyString => Err IndexError
  | AStr s => Ok (if is_var s then [a] else [])
  | ANum _ => Err TypeError
  end.

(** ** Flattener (preprocessor.py:537-720) *)
Section Flattener.
  Context {X : Type}.

  (** The flattened name of [attr] inside [outer_attr] (707-712). *)
  Definition flat_key (outer : option attr) (a : attr) : res attr :=
    match outer with
    | None => Ok a
    | Some o =>
        if attr_ok a then
          Ok (if hidden a then ATup [AStr "_"; ATup [a; o]] else ATup [a; o])
        else Err (match a with ANum _ => TypeError | _ => IndexError end)
    end.

  (** The contribution of one attribute, already renamed to [k], to [temp]
      (714-719). *)
  Fixpoint flat_val (k : attr) (v : pv X) : res (inst X) :=
    match v with
    | PD d =>
        (fix go (d : inst X) (acc : inst X) : res (inst X) :=
           match d with
           | [] => Ok acc
           | (a, w) :: d =>
               let? k' := flat_key (Some k) a in
               let? so := flat_val k' w in
               go d (dupd acc so)
           end) d []
    | _ => Ok [(k, v)]
    end.

  (** [_flatten] at the top level (644-720). *)
  Definition flatten (d : inst X) : res (inst X) :=
    rfold (fun acc e => let? so := flat_val (fst e) (snd e) in Ok (dupd acc so)) [] d.

  (** [_get_path] (591-612). *)
  Fixpoint get_path (a : attr) : list attr :=
    match a with
    | ATup [x; y] => if decide (x = AStr "_") then get_path y else get_path y ++ [x]
    | _ => [a]
    end.

  (** Walk down the path, creating missing components, and store the value
      (633-638).  Indexing a value that is not a dictionary raises
      TypeError. *)
  Fixpoint ins_path (path : list attr) (v : pv X) (d : inst X) : res (inst X) :=
    match path with
    | [] => Err IndexError
    | [k] => Ok (dset k v d)
    | k :: p =>
        match dget k d with
        | None => let? s := ins_path p v [] in Ok (dset k (PD s) d)
        | Some (PD s) => let? s' := ins_path p v s in Ok (dset k (PD s') d)
        | Some _ => Err TypeError
        end
    end.

  (** [isinstance(attr, tuple) and len(attr) == 2] *)
  Definition is_pair (a : attr) : bool :=
    match a with ATup [_; _] => true | _ => false end.

  (** [_structurize] (614-642). *)
  Definition structurize (d : inst X) : res (inst X) :=
    rfold (fun acc e =>
             if is_pair (fst e) then ins_path (get_path (fst e)) (snd e) acc
             else Ok (dset (fst e) (snd e) acc)) [] d.
End Flattener.

(** ** NameStandardizer (preprocessor.py:332-534) *)
Section NameStandardizer.
  Context {X : Type}.
  (** [str(at)], the sort key (499). *)
  Context (pystr : attr -> string).
  (** The order in which [for o in get_attribute_components(name)] goes
      through the set (523). *)
  Context (setord : list attr -> list attr).

  (** The gensym counter and the mapping built so far. *)
  Definition nstate : Type := nat * list (attr * attr).

  (** [sorted(instance, key=lambda at: str(at))] (499): a stable sort. *)
  Fixpoint insert_by {B} (e : attr * B) (l : list (attr * B)) : list (attr * B) :=
    match l with
    | [] => [e]
    | e' :: l =>
        if String.leb (pystr (fst e)) (pystr (fst e')) then e :: e' :: l
        else e' :: insert_by e l
    end.
  Definition sort_by {B} (l : list (attr * B)) : list (attr * B) :=
    fold_right insert_by [] l.

  (** [if o not in mapping: mapping[o] = self.gensym()] (510-511, 524-525). *)
  Definition new_sym (o : attr) (s : nstate) : nstate :=
    if dmem o (snd s) then s
    else (S (fst s), dset o (AStr (gensym_name (S (fst s)))) (snd s)).

  (** Lines 501-512: the new name of an attribute. *)
  Definition std_name (a : attr) (s : nstate) : attr * nstate :=
    match a with
    | AStr n =>
        if is_var n then
          let s := new_sym a s in
          (match dget a (snd s) with Some b => b | None => a end, s)
        else (a, s)
    | _ => (a, s)
    end.

  (** One iteration of the loop (499-528); [act] computes the new value. *)
  Definition std_entry (e : attr * (nstate -> res (pv X) * nstate))
      (acc : inst X * inst X) (s : nstate) : res (inst X * inst X) * nstate :=
    let '(name, s) := std_name (fst e) s in
    let '(r, s) := snd e s in
    match r with
    | Err x => (Err x, s)
    | Ok v =>
        match name with
        | ATup _ =>
            match attr_comps name with
            | Err x => (Err x, s)
            | Ok cs => (Ok (fst acc, (snd acc ++ [(name, v)])%list), fold_left (fun s o => new_sym o s) (setord cs) s)
            end
        | _ => (Ok (dset name v (fst acc), snd acc), s)
        end
    end.

  Fixpoint std_entries (l : list (attr * (nstate -> res (pv X) * nstate)))
      (acc : inst X * inst X) (s : nstate) : res (inst X * inst X) * nstate :=
    match l with
    | [] => (Ok acc, s)
    | e :: l =>
        let '(r, s) := std_entry e acc s in
        match r with Err x => (Err x, s) | Ok acc => std_entries l acc s end
    end.

  (** The whole of [_standardize] (451-534) given the actions for the values:
      loop, then rename the relations with the complete mapping (530-532). *)
  Definition std_dict (l : list (attr * (nstate -> res (pv X) * nstate))) (s : nstate)
      : res (inst X) * nstate :=
    let '(r, s) := std_entries (sort_by l) ([], []) s in
    match r with
    | Err x => (Err x, s)
    | Ok (new, rels) =>
        (Ok (fold_left (fun acc e => dset (rename_relation (snd s) (fst e)) (snd e) acc) rels new), s)
    end.

  (** The new value of an attribute (514-520): components are standardised;
      in lists only the elements that are components are. *)
  Fixpoint std_val (v : pv X) (s : nstate) : res (pv X) * nstate :=
    match v with
    | PD d =>
        let '(r, s) := std_dict (map (fun e => (fst e, std_val (snd e))) d) s in
        match r with Err x => (Err x, s) | Ok d => (Ok (PD d), s) end
    | PL l =>
        let '(r, s) :=
          (fix go (l : list (pv X)) (s : nstate) : res (list (pv X)) * nstate :=
             match l with
             | [] => (Ok [], s)
             | e :: l =>
                 let '(r, s) := match e with PD _ => std_val e s | _ => (Ok e, s) end in
                 match r with
                 | Err x => (Err x, s)
                 | Ok e' =>
                     let '(r, s) := go l s in
                     match r with Err x => (Err x, s) | Ok l' => (Ok (e' :: l'), s) end
                 end
             end) l s in
        match r with Err x => (Err x, s) | Ok l => (Ok (PL l), s) end
    | _ => (Ok v, s)
    end.

  (** [NameStandardizer.transform] (408-415): new instance, gensym counter
      and [reverse_mapping]. *)
  Definition ns_transform (c : nat) (d : inst X) : res (inst X * list (attr * attr)) * nat :=
    let '(r, s) := std_dict (map (fun e => (fst e, std_val (snd e))) d) (c, []) in
    match r with
    | Err x => (Err x, fst s)
    | Ok d' => (Ok (d', fold_left (fun acc e => dset (snd e) (fst e) acc) (snd s) []), fst s)
    end.

  (** [_undo_standardize] (426-449): the name used for an attribute, by the
      kind of its value. *)
  Definition undo_name (rev : list (attr * attr)) (a : attr) (v : pv X) : attr :=
    match v with
    | PD _ | PL _ =>
        match dget a rev with
        | Some (ATup (x :: _)) => x
        | Some n => n
        | None => a
        end
    | _ => match a with ATup _ => rename_relation rev a | _ => a end
    end.

  Fixpoint undo_val (rev : list (attr * attr)) (v : pv X) : pv X :=
    match v with
    | PD d =>
        PD (dupd [] (map (fun e => (undo_name rev (fst e) (snd e), undo_val rev (snd e))) d))
    | PL l => PL (map (fun e => match e with PD _ => undo_val rev e | _ => e end) l)
    | _ => v
    end.

  (** [undo_transform] (417-424). *)
  Definition ns_undo (rev : list (attr * attr)) (d : inst X) : inst X :=
    match undo_val rev (PD d) with PD d => d | _ => [] end.
End NameStandardizer.
