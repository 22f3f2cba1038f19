(** * visualize.py and datasets.py: the exported tree and its trimming; loading
    a data set. *)
From stdpp Require Import base decidable list gmap strings pretty.
From Verif Require Import Base Num TreeModel.

(** A JSON object of output_json: the concept id (the key "name" is "Concept"
    followed by it), the table that "size", "counts" and "guid" are printed
    from, and "children".  The printing of the table (str of attributes
    and values, which can merge two keys) is [json_counts] in Print.v. *)
Inductive json (S : Type) := J (id : nat) (tb : S) (kids : list (json S)).
Global Arguments J {S}.
Definition jid {S} (j : json S) : nat := let (i, _, _) := j in i.
Definition jtb {S} (j : json S) : S := let (_, t, _) := j in t.
Definition jkids {S} (j : json S) : list (json S) := let (_, _, l) := j in l.

(** "Concept" + str(concept_id), cobweb.py:1042, cobweb3.py:578 *)
Definition concept_name (id : nat) : string := "Concept" +:+ pretty id.

Section Output.
  Context {N : NumOps} (C : NodeClass N).

  (** CobwebNode.output_json, cobweb.py:1033-1058; Cobweb3Node.output_json,
      cobweb3.py:561-597 *)
  Fixpoint moutput_json (fuel : nat) (id : nat) : M C (json (nc_sum C)) :=
    match fuel with
    | O => mraise C OutOfFuel
    | S fuel =>
      mbind C (mget C id) (fun n =>
      mbind C ((fix go (l : list nat) : M C (list (json (nc_sum C))) :=
               match l with
               | [] => mret C []
               | k :: l => mbind C (moutput_json fuel k) (fun x =>
                           mbind C (go l) (fun y => mret C (x :: y)))
               end) (nd_children n)) (fun ks =>
      mret C (J id (nd_sum n) ks)))
    end.
  Definition output_json (id : nat) : M C (json (nc_sum C)) :=
    mbind C (mheap_size C) (fun k => moutput_json (S k) id).
End Output.

(** _trim_leaves, visualize.py:76-80 *)
Fixpoint trim_leaves {S} (j : json S) : json S :=
  match j with
  | J id tb kids =>
    J id tb ((fix go (l : list (json S)) : list (json S) :=
      match l with
      | [] => []
      | k :: l => match jkids k with [] => go l | _ :: _ => trim_leaves k :: go l end
      end) kids)
  end.

(** The loop of visualize_no_leaves, visualize.py:111-112; a negative [cuts]
    is as 0. *)
Definition trim_times {S} (cuts : nat) (j : json S) : json S := Nat.iter cuts trim_leaves j.

(** _trim_to_clusters, visualize.py:116-123 *)
Fixpoint trim_to_clusters {S} (clusters : list string) (j : json S) : json S :=
  match j with
  | J id tb kids =>
    J id tb (if bool_decide (concept_name id ∈ clusters) then []
             else map (trim_to_clusters clusters) kids)
  end.

(** The parameter [clusters] of visualize_clusters: elements are labels or
    nodes (a node here is its concept id). *)
Inductive cluster_item := CLabel (l : string) | CNode (id : nat).

Section Visualize.
  Context {N : NumOps} (C : NodeClass N).

  (** visualize_no_leaves, visualize.py:110-113 (the object written; the
      writing of files is not modelled) *)
  Definition visualize_no_leaves (cuts : nat) : M C (json (nc_sum C)) :=
    mbind C (mroot C) (fun r =>
    mbind C (output_json C r) (fun j => mret C (trim_times cuts j))).

  (** visualize_clusters, visualize.py:155-162.  Mixed lists: a label among
      nodes has no concept_id (AttributeError); a node among labels is kept in
      the set, where it equals no name. *)
  Definition cluster_names (cl : list cluster_item) : res (list string) :=
    match cl with
    | [] => Err IndexError
    | CNode _ :: _ => rmapM (fun c => match c with
                                      | CNode i => Ok (pretty i)
                                      | CLabel _ => Err AttributeError
                                      end) cl
    | CLabel _ :: _ => Ok (omap (fun c => match c with CLabel l => Some l | CNode _ => None end) cl)
    end.
  Definition visualize_clusters (cl : list cluster_item) : M C (json (nc_sum C)) :=
    match cluster_names cl with
    | Err e => mraise C e
    | Ok names =>
      mbind C (mroot C) (fun r =>
      mbind C (output_json C r) (fun j => mret C (trim_to_clusters names j)))
    end.
End Visualize.

(** ** datasets.py *)

(** _load_json, datasets.py:17-29, from line [idx] on.  [parse]: json.loads of
    the stripped line, which may raise. *)
Fixpoint load_lines {X} (parse : string -> res X) (num : option Z) (idx : Z) (lines : list string) : res (list X) :=
  match lines with
  | [] => Ok []
  | l :: lines =>
    if match num with Some n => (n <? idx)%Z | None => false end then Ok []
    else rbind (parse l) (fun x => rbind (load_lines parse num (idx + 1) lines) (fun xs => Ok (x :: xs)))
  end.
Definition load_json {X} (parse : string -> res X) (num : option Z) (lines : list string) : res (list X) :=
  load_lines parse num 0 lines.
