(** * evaluation.py on a TrestleTree

    The scores call [tree.categorize] (trestle.py:209-233) and ask the concept for
    the attribute as it is named in the instance. *)
From stdpp Require Import base decidable list gmap strings.
From Coq Require Import Ascii String ZArith.
From Verif Require Import Base Num TreeModel Nominal Utils CV Cobweb3 Query Query3 PyVal Preproc Preproc2 StructMap Trestle Eval.
Set Default Proof Using "Type".
Open Scope list_scope.

Section TEval.
  Context {N : NumOps} (rng : nat -> num N).
  Notation F := (num N).
  Notation C := (Cobweb3Class N).
  Notation X := (val3 N).
  (** As in [Trestle.v]; [arith_of] as in [Eval.v]. *)
  Context (ncmp : nom -> nom -> option bool) (normal : F -> F -> A F).
  Context (pystr : attr -> string) (setord : list attr -> list attr) (rlimit : nat).
  Context (arith_of : nom -> option F).
  Notation E := (Cobweb3Eval rng ncmp normal arith_of).
  Notation T := (fun Y : Type => tst N -> res Y * tst N).

  (** The first lines of probability and error (46-48, 98-101).  [q]: what the
      structure mapper is answered, as in [t_cat]. *)
  Definition t_hide (a : attr) (d : inst X) : inst X := if dmem a d then without a d else d.
  Definition t_concept (q : torc N) (d : inst X) (a : attr) : T (nsum3 N) := fun s =>
    match t_cat rng pystr setord rlimit q (t_hide a d) s with
    | (Ok c, s1) => (match st_heap (t_tree s1) !! c with Some n => Ok (nd_sum n) | None => Err Dangling end, s1)
    | (Err e, s1) => (Err e, s1)
    end.

  (** probability (50-65) at the concept; [None] is Python's None, also when it
      is the instance's value ([val is None], cobweb3.py:442).  For a
      component line 51 raises; [val in av_counts[attr]] (cobweb3.py:476)
      raises for a list. *)
  Definition t_prob (x : ctx3 N) (tb : nsum3 N) (a : attr) (v : option (pv X)) : res F :=
    match v with
    | None => probability3 x tb a None
    | Some (PD _) => Err OtherException
    | Some (PL _) => if dmem a (n3_av tb) then Err TypeError else Ok (nofnat N 0)
    | Some v => probability3 x tb a (some_val (scalar v))
    end.
  Definition t_score_probability (q : torc N) (d : inst X) (a : attr) (v : option (pv X)) : T F := fun s =>
    match t_concept q d a s with
    | (Ok tb, s1) => (t_prob (st_ctx (t_tree s1)) tb a v, s1)
    | (Err e, s1) => (Err e, s1)
    end.

  (** error (103-120).  A list is no number, and never equal to a prediction. *)
  Definition t_error_of (v : option (pv X)) (p : option (val3 N)) : res F :=
    match v with
    | Some (PD _) => Err OtherException
    | Some (PL _) => Ok (nofnat N 1)
    | Some v => error_of C E (some_val (scalar v)) (some_val p)
    | None => error_of C E None (some_val p)
    end.
  Definition t_score_error (q : torc N) (d : inst X) (a : attr) (v : option (pv X)) : T F := fun s =>
    match t_concept q d a s with
    | (Ok tb, s1) =>
        match v with
        | Some (PD _) => (Err OtherException, s1)
        | _ =>
            let '(p, s2) := on_tree s1 (mamb C (fun _ => predict3 rng ncmp normal tb a "most likely" true) (t_tree s1)) in
            (match p with Ok p => t_error_of v p | Err e => Err e end, s2)
        end
    | (Err e, s1) => (Err e, s1)
    end.
  (** absolute_error, squared_error (123-169) *)
  Definition t_score_absolute_error (q : torc N) (d : inst X) (a : attr) (v : option (pv X)) : T F := fun s =>
    let '(r, s1) := t_score_error q d a v s in (rbind r (fun e => Ok (nabs (N:=N) e)), s1).
  Definition t_score_squared_error (q : torc N) (d : inst X) (a : attr) (v : option (pv X)) : T F := fun s =>
    let '(r, s1) := t_score_error q d a v s in (rbind r (fun e => Ok (nmul N e e)), s1).

  (** ** incremental_evaluation (187-247) *)
  Context (x0 : ctx3 N) (score : torc N -> inst X -> attr -> option (pv X) -> T F).
  (** The [r]-th call of shuffle. *)
  Context (shuffled : nat -> list (inst X) -> list (inst X)).

  (** One run (238-245); [qs k] is for the score of the [k]-th instance,
      [qf k] for its ifit. *)
  Fixpoint t_eval_row (qs qf : nat -> torc N) (a : attr) (k : nat) (l : list (inst X)) : T (list F) := fun s =>
    match l with
    | [] => (Ok [], s)
    | d :: l =>
        match score (qs k) d a (dget a d) s with
        | (Err e, s1) => (Err e, s1)
        | (Ok y, s1) =>
            match t_fit rng pystr setord rlimit (qf k) d s1 with
            | (Err e, s2) => (Err e, s2)
            | (Ok _, s2) =>
                let '(ys, s3) := t_eval_row qs qf a (S k) l s2 in (rbind ys (fun ys => Ok (y :: ys)), s3)
            end
        end
    end.
  (** [for r in range(runs)] (228-246), [n] runs from the [r]-th one; the
      caller's list is shuffled in place. *)
  Fixpoint t_eval_runs (qs qf : nat -> nat -> torc N) (a : attr) (run_length n r : nat) (randomize_first : bool) (l : list (inst X))
      : T (list (list F) * list (inst X))%type := fun s =>
    match n with
    | O => (Ok ([], l), s)
    | S n =>
        let l' := if randomize_first || (0 <? r)%nat then shuffled r l else l in
        match t_eval_row (qs r) (qf r) a 0 (take (run_length + 2) l') (t_clear x0 s) with
        | (Err e, s1) => (Err e, s1)
        | (Ok row, s1) =>
            let '(rest, s2) := t_eval_runs qs qf a run_length n (S r) randomize_first l' s1 in
            (rbind rest (fun p => Ok (row :: fst p, snd p)), s2)
        end
    end.
  Definition t_incremental_evaluation (qs qf : nat -> nat -> torc N) (l : list (inst X)) (a : attr) (run_length runs : nat)
      (randomize_first : bool) : T (list (list F) * list (inst X))%type :=
    t_eval_runs qs qf a run_length runs 0 randomize_first l.
End TEval.
