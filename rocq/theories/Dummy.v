(** * DummyTree (concept_formation/dummy.py). *)
From stdpp Require Import base decidable list gmap strings.
From Coq Require Import Ascii String ZArith.
From Verif Require Import Base Num TreeModel Nominal Utils CV Cobweb3 Query Query3 PyVal Preproc Preproc2 StructMap Trestle.
Set Default Proof Using "Type".
Open Scope list_scope.
Open Scope res_scope.

Section Dummy.
  Context {N : NumOps}.
  Notation F := (num N).
  Notation C := (Cobweb3Class N).
  Notation X := (val3 N).
  (** As in [Trestle.v]. *)
  Context (rng : nat -> F) (ncmp : nom -> nom -> option bool) (normal : F -> F -> A F).
  Context (pystr : attr -> string) (setord : list attr -> list attr) (rlimit : nat).

  (** [__init__] (29-33) does not set [scaling], which expected_correct_guesses
      (cobweb3.py:266) reads at every numeric value: AttributeError. *)
  Definition d_ecg_value (count : nat) (q : nom * cell N) : res F :=
    if decide (fst q = cv_key) then Err AttributeError
    else match snd q with
         | Cnt n => rbind (pydiv N (nofnat N n) (nofnat N count)) (fun p => Ok (nmul N p p))
         | CVc _ => Err TypeError
         end.
  (** expected_correct_guesses (cobweb3.py:211-287) of a node of a DummyTree *)
  Definition d_ecg (s : nsum3 N) : res F :=
    let vis := dfilter visible (n3_av s) in
    let? g := rfold (fun acc p =>
               rfold (fun acc q => let? g := d_ecg_value (n3_count s) q in Ok (nadd N acc g)) acc (snd p))
               (nofnat N 0) vis in
    pydiv N g (nofnat N (List.length vis)).
  (** Cobweb3Node.probability (cobweb3.py:409-479) at the root of a DummyTree:
      [self.tree.scaling] is read after the division of line 454.  Where it is
      not read the context passed to [probability3] is not used. *)
  Definition d_probability (s : nsum3 N) (a : attr) (v : option X) : res F :=
    match v with
    | Some (VNum _) =>
        match dget a (n3_av s) with
        | Some d =>
            match dget cv_key d with
            | Some (CVc c) => let? _ := pydiv N (nofnat N (cv_num c)) (nofnat N (n3_count s)) in Err AttributeError
            | Some (Cnt _) => Err AttributeError
            | None => Ok (nofnat N 0)
            end
        | None => probability3 (new_ctx None false) s a v
        end
    | _ => probability3 (new_ctx None false) s a v
    end.

  (** [mapping_cost] (structure_mapper.py:288-326) *)
  Definition d_mapping_cost (base : nsum3 N) (target : inst X) (m : list (attr * attr)) : res F :=
    let? t := tcopy C base in
    let? i := hashed (rename_flat m target) in
    let? t := tinc C t i in
    let? e := d_ecg t in
    Ok (nneg N e).
  Definition d_map_proc (base : nsum3 N) (orc : oracle F) : pproc (inst X) pstate := {|
    pp_tr := fun d s c =>
      match sm_transform (d_mapping_cost base d) orc None (dkeys (n3_av base)) d with
      | Ok (d', rev) => (Ok d', Some rev, c)
      | Err e => (Err e, s, c)
      end;
    pp_un := fun d s => sm_undo s d;
  |}.
  Definition d_stages (base : nsum3 N) (orc : oracle F) (o : nat) : pproc (inst X) pstate :=
    match o with
    | 0 => std_proc pystr setord
    | 1 => flat_proc
    | 2 => sub_proc rlimit
    | _ => d_map_proc base orc
    end.
  (** The pipelines of [ifit] (63-69): with mapping as in TRESTLE; without, sub
      components before flattening. *)
  Definition d_stage_list (do_mapping : bool) : list nat := if do_mapping then [0; 1; 2; 3] else [2; 1].

  (** The tree object: its root (concept id and table), [gensym_counter], and
      the class counter of node ids. *)
  Record dst := DSt { d_id : nat; d_tb : nsum3 N; d_sym : nat; d_ctr : nat }.

  Definition d_prepare (do_mapping : bool) (q : torc N) (d : inst X) (s : dst) : res (inst X) * nat :=
    let '(r, _, c) := pipe_tr (d_stages (d_tb s) (to_orc q)) (d_stage_list do_mapping) d new_objs (d_sym s) in (r, c).

  (** increment_counts (cobweb3.py:147-181) of an instance that was not
      checked: unhashable values raise when they are looked up (line 180). *)
  Definition inc_any (dd : list (nom * cell N)) (v : pv X) : list (nom * cell N) * option exn :=
    match scalar v with Some x => inc1 dd x | None => (dd, Some TypeError) end.
  Definition d_inc (s : nsum3 N) (d : inst X) : nsum3 N * option exn :=
    let '(av, e) := sfold (on_attr inc_any) (n3_av s) d in (NSum3 (S (n3_count s)) av, e).

  (** [ifit] (45-71).  The searches of the mapper create [to_ids] nodes. *)
  Definition d_fit (do_mapping : bool) (q : torc N) (d : inst X) (s : dst) : res nat * dst :=
    let ctr := if do_mapping then d_ctr s + to_ids q else d_ctr s in
    match d_prepare do_mapping q d s with
    | (Err e, c) => (Err e, DSt (d_id s) (d_tb s) c ctr)
    | (Ok d1, c) =>
        let '(tb, e) := d_inc (d_tb s) d1 in
        (match e with None => Ok (d_id s) | Some e => Err e end, DSt (d_id s) tb c ctr)
    end.
  (** [categorize] (73-87) *)
  Definition d_cat (d : inst X) (s : dst) : res nat * dst := (Ok (d_id s), s).

  (** [infer_missing] as inherited (trestle.py:171-207): the pipeline with
      mapping; [_cobweb_categorize] returns the root, which has no children.
      [rpos] is the position of the random numbers when it is called.  ([predict]
      (cobweb3.py:362-407) does not read [scaling].) *)
  Fixpoint d_infer_loop (tb : nsum3 N) (f : string) (allow_none : bool) (attrs : list attr) (d : inst X) : A (inst X) :=
    match attrs with
    | [] => aret d
    | a :: attrs =>
        if dmem a d then d_infer_loop tb f allow_none attrs d
        else abind (predict3 rng ncmp normal tb a f allow_none) (fun v =>
             d_infer_loop tb f allow_none attrs (match some_val v with Some v => dset a (of_scalar v) d | None => d end))
    end.
  Definition d_infer (q : torc N) (d : inst X) (f : string) (allow_none : bool) (rpos : nat) (s : dst) : res (inst X) * dst :=
    let '(r, h, c) := pipe_tr (d_stages (d_tb s) (to_orc q)) (d_stage_list true) d new_objs (d_sym s) in
    let s' := DSt (d_id s) (d_tb s) c (d_ctr s + to_ids q) in
    match r with
    | Err e => (Err e, s')
    | Ok d1 =>
        match d_infer_loop (d_tb s) f allow_none (dkeys (n3_av (d_tb s))) d1 (Amb (d_ctr s') rpos) with
        | (Err e, am) => (Err e, DSt (d_id s) (d_tb s) c (am_ctr am))
        | (Ok d2, am) =>
            (pipe_un (d_stages (NSum3 0 []) (to_orc q)) (d_stage_list true) d2 h, DSt (d_id s) (d_tb s) c (am_ctr am))
        end
    end.
  (** [__init__] (29-33); [clear] (trestle.py:66-73).  [clear] sets
      [attr_scales] but not [scaling]. *)
  Definition d_new (ctr : nat) : dst := DSt (S ctr) (NSum3 0 []) 0 (S ctr).
  Definition d_clear (s : dst) : dst := DSt (S (d_ctr s)) (NSum3 0 []) 0 (S (d_ctr s)).
End Dummy.
Global Arguments dst : clear implicits. Global Arguments DSt {N}.
Global Arguments d_id {N}. Global Arguments d_tb {N}. Global Arguments d_sym {N}. Global Arguments d_ctr {N}.
