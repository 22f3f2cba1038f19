(** * Model of the remaining preprocessors of preprocessor.py:
    Pipeline, SubComponentProcessor, ObjectVariablizer, NumericToNominal,
    NominalToNumeric, Sanitizer.

    Simplifications as in [Preproc]: data is copied by value, [str()],
    [float()] and [isinstance(., Number)] are parameters. *)
From stdpp Require Import base decidable list gmap strings.
From Coq Require Import Ascii String ZArith.
From Verif Require Import Base PyVal Preproc.
Set Default Proof Using "Type".
Open Scope string_scope.
Open Scope list_scope.
Open Scope res_scope.

(** ** Pipeline (preprocessor.py:170-194) *)
Section Pipeline.
  (** [I] instances, [S] the attributes of preprocessor objects (for instance
      [reverse_mapping]), the [nat] is the gensym counter. *)
  Context {I S : Type}.

  (** One preprocessor object: what [transform] and [undo_transform] do to
      the instance, to the object and to the gensym counter. *)
  Record pproc := PProc {
    pp_tr : I -> S -> nat -> res I * S * nat;
    pp_un : I -> S -> res I;
  }.

  (** Objects are numbers; [cls] says which methods an object has, the heap
      holds its attributes. *)
  Context (cls : nat -> pproc).

  (** [transform] (180-186). *)
  Fixpoint pipe_tr (os : list nat) (i : I) (h : gmap nat S) (c : nat)
      : res I * gmap nat S * nat :=
    match os with
    | [] => (Ok i, h, c)
    | o :: os =>
        match h !! o with
        | None => (Err Dangling, h, c)
        | Some s =>
            let '(r, s, c) := pp_tr (cls o) i s c in
            let h := <[o := s]> h in
            match r with
            | Ok i => pipe_tr os i h c
            | Err e => (Err e, h, c)
            end
        end
    end.

  (** One iteration of the loop of [undo_transform] (192-193). *)
  Definition pipe_un1 (h : gmap nat S) (i : I) (o : nat) : res I :=
    match h !! o with
    | None => Err Dangling
    | Some s => pp_un (cls o) i s
    end.
  (** [undo_transform] (188-194). *)
  Definition pipe_un (os : list nat) (i : I) (h : gmap nat S) : res I :=
    rfold (pipe_un1 h) i (rev os).
End Pipeline.
Global Arguments pproc : clear implicits.

(** [OneWayPreprocessor.undo_transform] (163-167): a copy. *)
Definition oneway_undo {V} (d : list (attr * V)) : list (attr * V) := dupd [] d.

(** ** SubComponentProcessor (preprocessor.py:1204-1356) *)

(** [isinstance(a, str) and len(a) > 0 and a[0] == '?'] *)
Definition isvar (a : attr) : bool :=
  match a with AStr s => is_var s | _ => false end.

(** [_extract_attr] (1318-1328) *)
Fixpoint extract_attr (a : attr) : attr :=
  match a with
  | ATup [o; i] => if isvar o then o else ATup [o; extract_attr i]
  | ATup l => ATup (map extract_attr l)
  | _ => a
  end.

(** [('has-component', inner, last_comp)] *)
Definition has_comp (inner comp : attr) : attr := ATup [AStr "has-component"; inner; comp].

(** The state of the loop (1340-1350): [last_comp] with [inner]. *)
Definition comp_step (a rest : attr) (st : option (attr * attr)) : list attr * option (attr * attr) :=
  if isvar a then
    (match st with Some (last, inner) => [has_comp inner last] | None => [] end,
     Some (a, extract_attr rest))
  else ([], st).

(** Lines 1352-1354. *)
Definition comp_end (a : attr) (st : option (attr * attr)) : list attr :=
  match st with
  | Some (last, inner) => if isvar a then [has_comp inner last] else []
  | None => []
  end.

(** The loop (1344-1354).  A string of two characters is unpacked into its
    characters like a pair; [len] of a number raises TypeError. *)
Fixpoint comp_loop (a : attr) (st : option (attr * attr)) : res (list attr) :=
  match a with
  | ATup [x; y] =>
      let '(r, st) := comp_step x y st in
      let? r' := comp_loop y st in Ok (r ++ r')
  | AStr (String c1 (String c2 EmptyString)) =>
      let '(r, st) := comp_step (AStr (String c1 "")) (AStr (String c2 "")) st in
      Ok (r ++ comp_end (AStr (String c2 "")) st)
  | ANum _ => Err TypeError
  | _ => Ok (comp_end a st)
  end.

(** [_get_has_components] (1330-1356) *)
Fixpoint has_components (a : attr) : res (list attr) :=
  match a with
  | ATup [x; y] => comp_loop a None
  | ATup l =>
      (fix go (l : list attr) : res (list attr) :=
         match l with
         | [] => Ok []
         | x :: l => let? r := has_components x in let? r' := go l in Ok (r ++ r')
         end) l
  | _ => Ok []
  end.

Section SubComponents.
  Context {V : Type} (vtrue : V).

  (** [_extract_sub_objects] (1308-1316); [vtrue] is [True]. *)
  Definition sub_transform (d : list (attr * V)) : res (list (attr * V)) :=
    rfold (fun acc e =>
      let? rels := has_components (fst e) in
      let acc := fold_left (fun acc r => dset r vtrue acc) rels acc in
      Ok (dset (extract_attr (fst e)) (snd e) acc)) [] d.

  (** [isinstance(attr, tuple) and len(attr) == 3 and attr[0] == 'has-component'] *)
  Definition is_has_comp (a : attr) : option (attr * attr) :=
    match a with
    | ATup [x; p; c] => if decide (x = AStr "has-component") then Some (p, c) else None
    | _ => None
    end.

  (** [so_mapping] (1284-1286): from the component to the relation's second
      argument. *)
  Definition so_mapping (d : list (attr * V)) : list (attr * attr) :=
    fold_left (fun m e => match is_has_comp (fst e) with
                          | Some (p, c) => dset c p m
                          | None => m
                          end) d [].

  (** [_rename_embedding] (1292-1306).  The recursion follows [so_mapping] and
      need not end (RecursionError): [fuel] bounds its depth. *)
  Fixpoint rename_embedding (fuel : nat) (m : list (attr * attr)) (a : attr) : res attr :=
    match fuel with
    | O => Err OutOfFuel
    | S fuel =>
        match dget a m with
        | Some p => let? p' := rename_embedding fuel m p in Ok (ATup [a; p'])
        | None =>
            match a with
            | ATup [x; y] => let? y' := rename_embedding fuel m y in Ok (ATup [x; y'])
            | ATup l => let? l' := rmapM (rename_embedding fuel m) l in Ok (ATup l')
            | _ => Ok a
            end
        end
    end.

  (** [_embed_sub_objects] (1283-1290) *)
  Definition sub_undo (fuel : nat) (d : list (attr * V)) : res (list (attr * V)) :=
    let m := so_mapping d in
    mapkM (rename_embedding fuel m)
      (List.filter (fun e => match is_has_comp (fst e) with Some _ => false | None => true end) d).
End SubComponents.

(** ** One-way preprocessors *)
Section OneWay.
  Context {X : Type}.
  (** [isinstance(x, Number)] and [str(x)] for values that are not strings. *)
  Context (isnum : X -> bool) (xstr : X -> string).
  (** [float(s)] for strings ([None]: ValueError) and for other values
      ([None]: TypeError). *)
  Context (sfloat : string -> option X) (xfloat : X -> option X) (fzero : X).

  (** [attrs]: None for "all" (1491-1494, 1591-1594). *)
  Definition targeted (targets : option (list attr)) (a : attr) : bool :=
    match targets with None => true | Some l => bool_decide (a ∈ l) end.

  (** NumericToNominal.transform (1487-1505) on the value of an attribute. *)
  Fixpoint nn_val (t : option (list attr)) (targ : bool) (v : pv X) : pv X :=
    match v with
    | PX x => if targ && isnum x then PStr (xstr x) else v
    | PD d => PD (dupd [] (map (fun e => (fst e, nn_val t (targeted t (fst e)) (snd e))) d))
    | _ => v
    end.
  Definition nn_transform (t : option (list attr)) (d : inst X) : inst X :=
    dupd [] (map (fun e => (fst e, nn_val t (targeted t (fst e)) (snd e))) d).

  (** NominalToNumeric: [float(instance[a])], 1601. *)
  Inductive on_fail := FBreak | FDrop | FZero.
  Definition pyfloat_val (v : pv X) : res X :=
    match v with
    | PStr s => match sfloat s with Some x => Ok x | None => Err ValueError end
    | PX x => match xfloat x with Some y => Ok y | None => Err TypeError end
    | _ => Err TypeError
    end.
  (** Only ValueError is caught (1602-1609). *)
  Definition num_val (f : on_fail) (v : pv X) : res (option X) :=
    match pyfloat_val v with
    | Ok x => Ok (Some x)
    | Err ValueError =>
        match f with FBreak => Err ValueError | FDrop => Ok None | FZero => Ok (Some fzero) end
    | Err e => Err e
    end.
  (** NominalToNumeric.transform (1586-1616): the entry for one attribute, if
      any. *)
  Fixpoint num_entry (t : option (list attr)) (f : on_fail) (a : attr) (v : pv X) : res (option (pv X)) :=
    if targeted t a then
      let? r := num_val f v in Ok (option_map PX r)
    else
      match v with
      | PD d =>
          let? d' := (fix go (d : inst X) (acc : inst X) : res (inst X) :=
             match d with
             | [] => Ok acc
             | (b, w) :: d =>
                 let? r := num_entry t f b w in
                 go d (match r with Some w' => dset b w' acc | None => acc end)
             end) d [] in
          Ok (Some (PD d'))
      | _ => Ok (Some v)
      end.
  Definition num_transform (t : option (list attr)) (f : on_fail) (d : inst X) : res (inst X) :=
    rfold (fun acc e =>
      let? r := num_entry t f (fst e) (snd e) in
      Ok (match r with Some w => dset (fst e) w acc | None => acc end)) [] d.

  (** ObjectVariablizer._variablize (1412-1443).  [mapping] is set to [{}] in
      line 1415 and never filled; [prefix] is not used. *)
  Definition var_name (s : string) : string := if is_var s then s else "?" +:+ s.
  (** The loop (1422-1438): [new_instance] and [relations]. *)
  Definition ov_entry (t : option (list attr)) (a : attr) (v : pv X) (w : res (pv X))
      (acc : inst X * inst X) : res (inst X * inst X) :=
    match a with
    | ATup _ => Ok (fst acc, snd acc ++ [(a, v)])
    | _ =>
        match v with
        | PD _ =>
            if targeted t a then
              match a with
              | AStr EmptyString => Err IndexError
              | AStr s => let? w := w in Ok (dset (AStr (var_name s)) w (fst acc), snd acc)
              | _ => Err TypeError
              end
            else Ok (dset a v (fst acc), snd acc)
        | _ => Ok (dset a v (fst acc), snd acc)
        end
    end.
  (** Lines 1440-1441. *)
  Definition ov_finish (acc : inst X * inst X) : inst X :=
    fold_left (fun acc e => dset (rename_relation [] (fst e)) (snd e) acc) (snd acc) (fst acc).
  Fixpoint ov_val (t : option (list attr)) (v : pv X) : res (pv X) :=
    match v with
    | PD d =>
        let? acc := (fix go (d : inst X) (acc : inst X * inst X) : res (inst X * inst X) :=
           match d with
           | [] => Ok acc
           | (a, w) :: d => let? acc := ov_entry t a w (ov_val t w) acc in go d acc
           end) d ([], []) in
        Ok (PD (ov_finish acc))
    | _ => Ok v
    end.
  Definition ov_transform (t : option (list attr)) (d : inst X) : res (inst X) :=
    let? acc := rfold (fun acc e => ov_entry t (fst e) (snd e) (ov_val t (snd e)) acc) ([], []) d in
    Ok (ov_finish acc).

  (** ** Sanitizer (1619-1747) *)
  (** [str(k)] for attributes that are neither strings nor tuples, and
      [_cob_str] (1672-1684) of a list or dictionary. *)
  Context (numstr : Z -> string) (cobstr : pv X -> string).

  (** [_sanitize_tuple] (1686-1695) *)
  Fixpoint sanitize_attr (a : attr) : attr :=
    match a with
    | AStr s => AStr s
    | ATup l => ATup (map sanitize_attr l)
    | ANum z => AStr (numstr z)
    end.

  (** [_sanitize] with [self.spec == 'trestle'] (1697-1747). *)
  Fixpoint san_val (v : pv X) : pv X :=
    match v with
    | PD d => PD (dupd [] (map (fun e => (sanitize_attr (fst e), san_val (snd e))) d))
    | PL _ => PStr (cobstr v)
    | _ => v
    end.
  Definition san_trestle (d : inst X) : inst X :=
    dupd [] (map (fun e => (sanitize_attr (fst e), san_val (snd e))) d).

  (** [_sanitize] with any other spec: attributes that are neither strings nor
      tuples become strings, values that cannot be hashed become strings. *)
  Definition san_flat (v : pv X) : pv X :=
    match v with PL _ | PD _ => PStr (cobstr v) | _ => v end.
  Definition san_key (a : attr) : attr :=
    match a with ANum z => AStr (numstr z) | _ => a end.
  Definition san_cobweb (d : inst X) : inst X :=
    dupd [] (map (fun e => (san_key (fst e), san_flat (snd e))) d).

  (** [Sanitizer(spec)] (1663-1667) and [transform]: the constructor lowers
      the name only for the check. *)
  Context (lower : string -> string).
  Definition sanitizer (spec : string) (d : inst X) : res (inst X) :=
    if decide (lower spec ∈ ["trestle"; "cobweb"; "cobweb3"]) then
      Ok (if decide (spec = "trestle") then san_trestle d else san_cobweb d)
    else Err ValueError.
End OneWay.

(** ** Preprocessor objects as stages of a pipeline *)
(** NameStandardizer objects: [reverse_mapping] is [None] until the first
    transform (402, 417-424). *)
Definition std_proc {X} (pystr : attr -> string) (setord : list attr -> list attr)
  : pproc (inst X) (option (list (attr * attr))) := {|
  pp_tr := fun d s c => match ns_transform pystr setord c d with
                        | (Ok (d', rev), c') => (Ok d', Some rev, c')
                        | (Err e, c') => (Err e, s, c')
                        end;
  pp_un := fun d s => match s with Some rev => Ok (ns_undo rev d) | None => Err OtherException end;
|}.
