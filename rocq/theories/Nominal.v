(** * CobwebNode tables and CobwebTree entry points.

    Models the methods of CobwebNode that work on count and av_counts
    (concept_formation/cobweb.py:345-402, 913-936), the sanity check
    (cobweb.py:41-64) and the public entry points of CobwebTree. *)
From stdpp Require Import base decidable list gmap strings.
From Verif Require Import Base Num TreeModel.

(** An instance after the sanity check: a dict from attributes to hashable
    values.  Values are taken up to Python equality (so e.g. 1, 1.0 and True,
    which are the same dict key, are one value). *)
Definition inst := list (attr * nom).

(** (count, av_counts), cobweb.py:300-301.  Python starts count at 0.0 and
    adds 1 per instance; counts are natural numbers here (exact below 2^53). *)
Record nsum := NSum {
  ns_count : nat;
  ns_av : list (attr * list (nom * nat));
}.

(** [if v not in d: d[v] = 0; d[v] += k] *)
Definition dadd (v : nom) (k : nat) (d : list (nom * nat)) : list (nom * nat) :=
  dset v (default 0 (dget v d) + k) d.

(** [if attr not in av: av[attr] = {}], then add [k] to [av[attr][v]]. *)
Definition avadd (a : attr) (v : nom) (k : nat) (av : list (attr * list (nom * nat))) :=
  dset a (dadd v k (default [] (dget a av))) av.

(** increment_counts, cobweb.py:345-359 *)
Definition ns_inc (s : nsum) (i : inst) : nsum :=
  NSum (S (ns_count s))
       (fold_left (fun av p => avadd (fst p) (snd p) 1 av) i (ns_av s)).

(** The attribute loop of update_counts_from_node: an attribute of the other
    node is created even if it had no values. *)
Definition avmerge1 (av : list (attr * list (nom * nat))) (p : attr * list (nom * nat)) :=
  dset (fst p)
       (fold_left (fun d q => dadd (fst q) (snd q) d) (snd p) (default [] (dget (fst p) av)))
       av.

(** update_counts_from_node, cobweb.py:361-378 *)
Definition ns_add (s o : nsum) : nsum :=
  NSum (ns_count s + ns_count o) (fold_left avmerge1 (ns_av o) (ns_av s)).

Section Ecg.
  Context (N : NumOps).
  (** expected_correct_guesses, cobweb.py:380-402 *)
  Definition ns_ecg (s : nsum) : res (num N) :=
    let vis := dfilter visible (ns_av s) in
    rbind (rfold (fun acc p =>
             rfold (fun acc q =>
               rbind (pydiv N (nofnat N (snd q)) (nofnat N (ns_count s))) (fun pr =>
               Ok (nadd N acc (nmul N pr pr)))) acc (snd p))
             (nofnat N 0) vis) (fun g =>
    pydiv N g (nofnat N (length vis))).
End Ecg.

(** is_exact_match, cobweb.py:913-936.  The set of attributes is visited in
    hash order in Python; the result is a conjunction, so the order does not
    matter. *)
Definition ns_exact (s : nsum) (i : inst) : bool :=
  forallb (fun a =>
    hidden a ||
    match dget a i, dget a (ns_av s) with
    | Some v, Some d => match dget v d with
                        | Some c => (c =? ns_count s)%nat
                        | None => false
                        end
    | None, None => true
    | _, _ => false
    end) (dkeys i ++ List.filter visible (dkeys (ns_av s))).

Definition CobwebClass (N : NumOps) : NodeClass N := {|
  nc_sum := nsum;
  nc_inst := inst;
  nc_ctx := unit;
  nc_empty := NSum 0 [];
  nc_count := ns_count;
  nc_inc := fun s i => (ns_inc s i, None);
  nc_add := fun s o => (ns_add s o, None);
  nc_ecg := fun _ s => ns_ecg N s;
  nc_exact := fun s i => Ok (ns_exact s i);
  nc_pre := fun x _ => x;
|}.

(** ** Raw instances and the sanity check *)

(** Python values as they arrive from the user: hashable and not None, None,
    or unhashable (lists, dicts, sets). *)
Inductive pval := PVal (v : nom) | PNone | PUnhashable.
Definition raw := list (attr * pval).
Global Instance pval_eq_dec : EqDecision pval.
Proof. solve_decision. Defined.

(** _sanity_check_instance, cobweb.py:41-64.  (Keys of a dict are always
    hashable, so hash(attr) succeeds.) *)
Fixpoint sanity (i : raw) : res inst :=
  match i with
  | [] => Ok []
  | (a, v) :: i =>
    if attr_ok a then
      match v with
      | PVal v => rbind (sanity i) (fun j => Ok ((a, v) :: j))
      | PNone => Err ValueError
      | PUnhashable => Err ValueError
      end
    else Err ValueError
  end.

Section Entry.
  Context {N : NumOps} (rng : nat -> num N).
  Notation C := (CobwebClass N).
  Notation M := (M C).

  (** ifit, cobweb.py:66-84 *)
  Definition ifit (i : raw) : M nat :=
    match sanity i with
    | Ok j => cobweb C rng j
    | Err e => mraise C e
    end.

  (** categorize, cobweb.py:253-272 *)
  Definition categorize (i : raw) : M nat :=
    match sanity i with
    | Ok j => cobweb_categorize C rng j
    | Err e => mraise C e
    end.

  (** The inner loop of fit, cobweb.py:111-112. *)
  Fixpoint ifit_all (l : list raw) : M unit :=
    match l with
    | [] => mret C tt
    | i :: l => mbind C (ifit i) (fun _ => ifit_all l)
    end.

  (** fit, cobweb.py:86-113.  [perms k] is the permutation applied by the
      [k]-th call of shuffle on the copied list; the caller's list is copied
      first (line 108), so only the copy is shuffled. *)
  Fixpoint fit_loop (perms : nat -> list raw -> list raw) (k : nat) (iters : nat)
      (l : list raw) : M unit :=
    match iters with
    | O => mret C tt
    | S iters =>
      mbind C (ifit_all l) (fun _ => fit_loop perms (S k) iters (perms k l))
    end.
  Definition fit (perms : nat -> list raw -> list raw) (iterations : nat)
      (randomize_first : bool) (l : list raw) : M unit :=
    match iterations with
    | O => mret C tt
    | _ => if randomize_first then fit_loop perms 1 iterations (perms 0 l)
           else fit_loop perms 1 iterations l
    end.
End Entry.
