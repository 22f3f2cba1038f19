(** * cluster.py on a TrestleTree

    The functions of cluster.py call [tree.ifit] or [tree.categorize], which a
    TrestleTree overrides (trestle.py 132-152, 209-233); everything else works
    on the concepts, as for a Cobweb3Tree.  Each instance comes with what its
    call takes from outside ([torc]: the answers of the searches). *)
From stdpp Require Import base decidable list gmap strings.
From Coq Require Import String.
From Verif Require Import Base Num TreeModel Nominal CV Cobweb3 Query Query3 PyVal Preproc Preproc2 StructMap Trestle Cluster.
Set Default Proof Using "Type".
Open Scope list_scope.

Section TCluster.
  Context {N : NumOps} (rng : nat -> num N).
  Notation F := (num N).
  Notation C := (Cobweb3Class N).
  Notation X := (val3 N).
  Context (pystr : attr -> string) (setord : list attr -> list attr) (rlimit : nat).
  (** Iteration over a set of nodes. *)
  Context (nodeord : list nat -> list nat).

  (** [[tree.ifit(instance) for instance in instances]], or categorize
      (117-120, 422-425) *)
  Definition t_sort (mod_ : bool) (dq : inst X * torc N) (s : tst N) : res nat * tst N :=
    if mod_ then t_fit rng pystr setord rlimit (snd dq) (fst dq) s else t_cat rng pystr setord rlimit (snd dq) (fst dq) s.
  Fixpoint t_sorts (mod_ : bool) (l : list (inst X * torc N)) (s : tst N) : res (list nat) * tst N :=
    match l with
    | [] => (Ok [], s)
    | dq :: l =>
        match t_sort mod_ dq s with
        | (Err e, s1) => (Err e, s1)
        | (Ok j, s1) => match t_sorts mod_ l s1 with (Err e, s2) => (Err e, s2) | (Ok js, s2) => (Ok (j :: js), s2) end
        end
    end.

  (** depth_labels (91-149): there is no copy, so with [mod_] the caller's tree
      is trained. *)
  Definition t_depth_labels (mod_ : bool) (l : list (inst X * torc N)) (s : tst N) : res (list (list nat)) * tst N :=
    match t_sorts mod_ l s with
    | (Err e, s1) => (Err e, s1)
    | (Ok temp, s1) => on_tree (N:=N) s1 (mbind C (mmapM C (path C) temp) (fun paths s => (rows (map (padded (max_len paths)) paths), s)) (t_tree s1))
    end.

  (** cluster_iter (398-467).  [copy.deepcopy(tree)] also copies
      [gensym_counter]; of the caller's tree only the class counter and the
      random generator move on. *)
  Variable heur : list nat -> list nat -> M C F.
  Definition t_cluster_iter (minsplit maxsplit : nat) (mod_ : bool) (l : list (inst X * torc N)) (s : tst N)
      : list (list nat * F) * res unit * tst N :=
    if (minsplit <? 1)%nat then ([], Err ValueError, s)
    else if (maxsplit <? minsplit)%nat then ([], Err ValueError, s)
    else match l with
    | [] => ([], Err ValueError, s)
    | _ =>
        let back (s' : st C) := TSt (St (st_heap (t_tree s)) (st_root (t_tree s)) (st_amb s') (st_ctx (t_tree s))) (t_sym s) in
        match t_sorts mod_ l s with
        | (Err e, s1) => ([], Err e, back (t_tree s1))
        | (Ok temp, s1) =>
            let '(ys, r, s2) := cl_loop C nodeord heur maxsplit 1 minsplit temp (t_tree s1) in (ys, r, back s2)
        end
    end.
  (** k_cluster (48-88); see [Cluster.k_cluster]. *)
  Definition t_k_cluster (k : nat) (mod_ : bool) (l : list (inst X * torc N)) (s : tst N) : res (list nat) * tst N :=
    if (k <? 2)%nat then (Err ValueError, s)
    else
      let '(ys, r, s') := t_cluster_iter 1 max_rounds mod_ l s in
      match ys with
      | _ :: _ => (Err TypeError, s')
      | [] => (match r with Err e => Err e | Ok _ => Ok (map (fun _ => st_root (t_tree s)) l) end, s')
      end.
End TCluster.

(** cluster (16-45) *)
Definition t_cluster {N : NumOps} (rng : nat -> num N) pystr setord rlimit nodeord
    (minsplit maxsplit : nat) (mod_ : bool) (l : list (inst (val3 N) * torc N)) (s : tst N) : list (list nat) * res unit * tst N :=
  let '(ys, r, s') := t_cluster_iter rng pystr setord rlimit nodeord (CU (Cobweb3Class N) nodeord) minsplit maxsplit mod_ l s in
  (map fst ys, r, s').
