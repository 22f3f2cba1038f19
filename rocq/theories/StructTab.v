(** * The structure mapper on av_counts tables (concept_formation/structure_mapper.py). *)
From stdpp Require Import base decidable list gmap strings.
From Coq Require Import Ascii String ZArith.
From Verif Require Import Base Num TreeModel Nominal CV Cobweb3 PyVal Preproc StructMap.
Set Default Proof Using "Type".
Open Scope list_scope.
Open Scope res_scope.

Section Tab.
  Context {N : NumOps}.
  Notation C := (Cobweb3Class N).

  (** How many values an entry stands for (318-321): [.num] under the key for
      numbers, the entry itself otherwise.  Adding a ContinuousValue to an
      integer raises. *)
  Definition cell_num (q : nom * cell N) : res nat :=
    if decide (fst q = cv_key) then
      match snd q with CVc c => Ok (cv_num c) | Cnt _ => Err AttributeError end
    else match snd q with Cnt n => Ok n | CVc _ => Err TypeError end.
  (** [sum([... for val in renamed_target[attr]])] *)
  Definition attr_num (d : list (nom * cell N)) : res nat :=
    rfold (fun n q => let? k := cell_num q in Ok (n + k)) 0 d.
  (** [max([... for attr in renamed_target])]; the test of line 315 has raised
      StopIteration if there is no attribute. *)
  Definition tab_count (av : list (attr * list (nom * cell N))) : res nat :=
    match av with
    | [] => Err StopIteration
    | _ => let? l := rmapM (fun e => attr_num (snd e)) av in Ok (foldr Nat.max 0 l)
    end.

  (** [mapping_cost] (288-326) of an av_counts table. *)
  Definition mapping_cost_tab (x : ctx3 N) (base : nsum3 N) (target : list (attr * list (nom * cell N)))
      (m : list (attr * attr)) : res (num N) :=
    let av := rename_flat m target in
    let? t := tcopy C base in
    let? n := tab_count av in
    let? t := tadd C t (NSum3 n av) in
    let? e := n3_ecg x t in
    Ok (nneg N e).
End Tab.

(** [StructureMapper.get_mapping] (510-517); [reverse_mapping] is None before the
    first call of transform, which is not iterable. *)
Definition sm_get_mapping (rev : option (list (attr * attr))) : res (list (attr * attr)) :=
  match rev with
  | None => Err TypeError
  | Some r => Ok (reverse_mapping r)
  end.
