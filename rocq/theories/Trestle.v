(** * TrestleTree (concept_formation/trestle.py).

    A Cobweb3Tree whose instances are standardised apart, flattened, rid of
    sub-components and structure mapped before they reach the Cobweb/3 code. *)
From stdpp Require Import base decidable list gmap strings.
From Coq Require Import Ascii String ZArith.
From Verif Require Import Base Num TreeModel Nominal Utils CV Cobweb3 Query Query3 PyVal Preproc Preproc2 StructMap.
Set Default Proof Using "Type".
Open Scope list_scope.
Open Scope res_scope.

(** Python's None as a stored value; the other [NAtom]s are other hashable
    values. *)
Definition NNone : nom := NAtom 0.

Section Trestle.
  Context {N : NumOps} (rng : nat -> num N).
  Notation F := (num N).
  Notation C := (Cobweb3Class N).
  (** Values of instances: strings ([PStr]) and other hashable data, here the
      values of Cobweb/3.  Python's None passes the sanity check (85-116)
      and is counted like any other hashable value. *)
  Notation X := (val3 N).
  (** As in [Query3.v] and [Preproc.v]; [rlimit] is Python's recursion limit. *)
  Context (ncmp : nom -> nom -> option bool) (normal : F -> F -> A F).
  Context (pystr : attr -> string) (setord : list attr -> list attr) (rlimit : nat).

  (** ** Values *)
  Definition scalar (v : pv X) : option (val3 N) :=
    match v with
    | PStr s => Some (VNom (NStr s))
    | PX x => Some x
    | _ => None
    end.
  Definition of_scalar (x : val3 N) : pv X :=
    match x with
    | VNom (NStr s) => PStr s
    | _ => PX x
    end.
  (** A flat instance as Cobweb/3 reads it.  Lists and dictionaries cannot be
      used as values: they are unhashable. *)
  Definition hashed (d : inst X) : res (inst3 N) :=
    rmapM (fun e => match scalar (snd e) with
                    | Some v => Ok (fst e, v)
                    | None => Err TypeError
                    end) d.

  (** [mapping_cost] (structure_mapper.py:288-326) of an instance.  (The branch
      for av_counts tables is not used by TrestleTree.) *)
  Definition mapping_cost (x : ctx3 N) (base : nsum3 N) (target : inst X) (m : list (attr * attr)) : res F :=
    let? t := tcopy C base in
    let? i := hashed (rename_flat m target) in
    let? t := tinc C t i in
    let? e := n3_ecg x t in
    Ok (nneg N e).

  (** ** The pipeline (trestle.py:164-166, 192-194, 251-253) *)
  Definition pstate : Type := option (list (attr * attr)).
  Definition flat_proc : pproc (inst X) pstate := {|
    pp_tr := fun d s c => (flatten d, s, c);
    pp_un := fun d _ => structurize d;
  |}.
  (** [True] *)
  Definition vtrue : pv X := PX (VNom (NBool true)).
  Definition sub_proc : pproc (inst X) pstate := {|
    pp_tr := fun d s c => (sub_transform vtrue d, s, c);
    pp_un := fun d _ => sub_undo rlimit d;
  |}.
  (** [StructureMapper(self.root)] *)
  Definition map_proc (x : ctx3 N) (base : nsum3 N) (orc : oracle F) : pproc (inst X) pstate := {|
    pp_tr := fun d s c =>
      match sm_transform (mapping_cost x base d) orc None (dkeys (n3_av base)) d with
      | Ok (d', rev) => (Ok d', Some rev, c)
      | Err e => (Err e, s, c)
      end;
    pp_un := fun d s => sm_undo s d;
  |}.
  Definition stages (x : ctx3 N) (base : nsum3 N) (orc : oracle F) (o : nat) : pproc (inst X) pstate :=
    match o with
    | 0 => std_proc pystr setord
    | 1 => flat_proc
    | 2 => sub_proc
    | _ => map_proc x base orc
    end.
  Definition stage_list : list nat := [0; 1; 2; 3].
  (** The four objects are new in every call. *)
  Definition new_objs : gmap nat pstate := {[ 0 := None; 1 := None; 2 := None; 3 := None ]}.

  (** ** The tree object *)
  Record tst := TSt {
    t_tree : st C;
    (** [gensym_counter] *)
    t_sym : nat;
  }.

  (** What one call takes from outside: the answers of the searches, and how
      many node ids (one per [mapping_cost]) and random numbers they use. *)
  Record torc := TOrc { to_orc : oracle F; to_ids : nat; to_draws : nat }.
  Definition bump (q : torc) (s : st C) : st C :=
    St (st_heap s) (st_root s) (Amb (am_ctr (st_amb s) + to_ids q) (am_rpos (st_amb s) + to_draws q)) (st_ctx s).

  (** [preprocessing.transform(instance)] on this tree, with [gensym]
      (75-83) as the source of names. *)
  Definition t_prepare (q : torc) (d : inst X) (s : tst) : res (inst X) * gmap nat pstate * tst :=
    match st_heap (t_tree s) !! st_root (t_tree s) with
    | None => (Err Dangling, ∅, s)
    | Some n =>
        let '(r, h, c) := pipe_tr (stages (st_ctx (t_tree s)) (nd_sum n) (to_orc q)) stage_list d new_objs (t_sym s) in
        (r, h, TSt (bump q (t_tree s)) c)
    end.

  (** [_sanity_check_relation] (118-130) *)
  Fixpoint sane_rel (a : attr) : bool :=
    match a with
    | ATup l => forallb (fun v => attr_ok v && sane_rel v) l
    | _ => true
    end.
  (** [_sanity_check_instance] (85-116) *)
  Fixpoint sane_val (v : pv X) : bool :=
    match v with
    | PD d => forallb (fun e => attr_ok (fst e) && sane_rel (fst e) && sane_val (snd e)) d
    | PL _ => false
    | _ => true
    end.
  Definition t_sane (d : inst X) : bool := sane_val (PD d).

  (** The instance that the Cobweb/3 code is given by [trestle] and
      [_trestle_categorize] (164-169, 251-256). *)
  Definition t_ready (q : torc) (d : inst X) (s : tst) : res (inst3 N) * tst :=
    let '(r, _, s1) := t_prepare q d s in
    match r with
    | Err e => (Err e, s1)
    | Ok d1 => if t_sane d1 then (hashed d1, s1) else (Err ValueError, s1)
    end.

  Definition on_tree {A} (s : tst) (m : res A * st C) : res A * tst := (fst m, TSt (snd m) (t_sym s)).

  (** [ifit], [trestle] (132-152, 235-256) *)
  Definition t_fit (q : torc) (d : inst X) (s : tst) : res nat * tst :=
    match t_ready q d s with
    | (Ok j, s1) => on_tree s1 (cobweb C rng j (t_tree s1))
    | (Err e, s1) => (Err e, s1)
    end.
  (** [categorize], [_trestle_categorize] (154-169, 209-233) *)
  Definition t_cat (q : torc) (d : inst X) (s : tst) : res nat * tst :=
    match t_ready q d s with
    | (Ok j, s1) => on_tree s1 (cobweb_categorize C rng j (t_tree s1))
    | (Err e, s1) => (Err e, s1)
    end.

  (** [val is not None] (203): a stored None that is predicted is taken for a
      missing value. *)
  Definition some_val (v : option (val3 N)) : option (val3 N) :=
    match v with
    | Some (VNom w) => if decide (w = NNone) then None else Some (VNom w)
    | _ => v
    end.
  Lemma some_val_some v w : some_val v = Some w -> v = Some w /\ w <> VNom NNone.
  Proof.
    destruct v as [y|]; [|done]. destruct y as [u|y]; simpl.
    - destruct (decide (u = NNone)) as [|Hu]; [done|]. intros [= <-]. split; congruence.
    - intros [= <-]. split; congruence.
  Qed.
  Lemma some_val_none v : some_val v = None -> v = None \/ v = Some (VNom NNone).
  Proof.
    destruct v as [y|]; [|by left]. destruct y as [u|y]; simpl; [|done].
    destruct (decide (u = NNone)) as [->|]; [by right|done].
  Qed.
  Lemma some_val_id w : w <> VNom NNone -> some_val (Some w) = Some w.
  Proof. destruct w as [u|y]; simpl; [|done]. intros H. rewrite decide_False by congruence. done. Qed.
  (** The loop of [infer_missing] (199-204) *)
  Fixpoint t_infer_loop (tb : nsum3 N) (f : string) (allow_none : bool) (attrs : list attr) (d : inst X)
      : M C (inst X) :=
    match attrs with
    | [] => mret C d
    | a :: attrs =>
        if dmem a d then t_infer_loop tb f allow_none attrs d
        else mbind C (mamb C (fun _ => predict3 rng ncmp normal tb a f allow_none)) (fun v =>
             t_infer_loop tb f allow_none attrs (match some_val v with Some v => dset a (of_scalar v) d | None => d end))
    end.
  (** [self._cobweb_categorize(temp_instance)] (197) without a sanity check: an
      unhashable value raises TypeError when it is counted; if the root has no
      children nothing is counted and the root is returned (cobweb.py:204-217). *)
  Definition t_find (d : inst X) : M C nat :=
    match hashed d with
    | Ok j => cobweb_categorize C rng j
    | Err e => mbind C (mroot C) (fun r => mbind C (mget C r) (fun n =>
               match nd_children n with [] => mret C r | _ :: _ => mraise C e end))
    end.
  (** [infer_missing] (171-207) *)
  Definition t_infer (q : torc) (d : inst X) (f : string) (allow_none : bool) (s : tst) : res (inst X) * tst :=
    let '(r, h, s1) := t_prepare q d s in
    match r with
    | Err e => (Err e, s1)
    | Ok d1 =>
        let '(r, s2) :=
          on_tree s1
            (mbind C (t_find d1) (fun c =>
             mbind C (mget C c) (fun n =>
             t_infer_loop (nd_sum n) f allow_none (dkeys (n3_av (nd_sum n))) d1)) (t_tree s1)) in
        match r with
        | Err e => (Err e, s2)
        | Ok d2 => (pipe_un (stages (st_ctx (t_tree s)) (NSum3 0 []) (to_orc q)) stage_list d2 h, s2)
        end
    end.

  (** [__init__] (55-64) and [clear] (66-73); [x0] is [new_ctx scaling
      inner_attr_scaling]. *)
  Definition t_new (ctr rpos : nat) (x0 : ctx3 N) : tst := TSt (fresh C ctr rpos x0) 0.
  Definition t_clear (x0 : ctx3 N) (s : tst) : tst := TSt (snd (mclear C x0 (t_tree s))) 0.
End Trestle.
Global Arguments TSt {N}. Global Arguments t_tree {N}. Global Arguments t_sym {N}.
Global Arguments TOrc {N}. Global Arguments to_orc {N}. Global Arguments to_ids {N}. Global Arguments to_draws {N}.
Global Arguments tst : clear implicits. Global Arguments torc : clear implicits.
