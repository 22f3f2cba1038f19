(** * cluster.py on a concrete tree of doubles; what k_cluster and minsplit do
    not do (C51 to C54). *)
From stdpp Require Import base decidable list gmap strings.
From Coq Require Import Floats.
From Verif Require Import Base Num FloatNum TreeModel TreeFun TreeRefine SpecTree SpecCluster TreeState Nominal NominalFacts Query
  Cluster ClusterCU PropsCluster ScoreHeap Example.
Set Default Proof Using "Type".
Open Scope list_scope.
Notation CX := (CobwebClass FloatOps).

Definition cx_insts : list (nc_inst CX) := [mk "blue" "round" 8; mk "red" "square" 9; mk "red" "round" 10; mk "blue" "square" 11].
Definition cx_ord : list nat -> list nat := remove_dups.
Lemma cx_ord_ok l x : x ∈ cx_ord l <-> x ∈ l.
Proof. apply elem_of_remove_dups. Qed.
Definition cx_state : st CX := snd (mmapM CX (sort_in CX ex_rng true) cx_insts ex_state).

Lemma pair_snd {X Y} (p : X * Y) x : fst p = x -> p = (x, snd p).
Proof. destruct p. by intros <-. Qed.

Lemma cx_ne : cx_insts <> [].
Proof. discriminate. Qed.
Lemma cx_le : 1 <= 10.
Proof. lia. Qed.
Lemma cx_lt : length [[151; 1; 12; 151]; [3; 1; 12; 20]] < 10.
Proof. simpl. lia. Qed.
(** The tree has six leaves' instances; four more are sorted. *)
Lemma ex_C51_sorted : sorted_by CX ex_rng true ex_state cx_insts [3; 1; 12; 20] cx_state.
Proof.
  apply sorted_by_mmap. apply (pair_snd (mmapM CX (sort_in CX ex_rng true) cx_insts ex_state)). vm_compute. reflexivity.
Qed.
(** Two clusterings; the second one splits concept 151 into 3 and 20. *)
Lemma ex_C51_run : fst (cluster CX cx_ord ex_rng 1 10 true cx_insts ex_state) = ([[151; 1; 12; 151]; [3; 1; 12; 20]], Ok tt).
Proof. vm_compute. reflexivity. Qed.
Lemma ex_C51 : exists ys s', cluster_iter CX ex_rng cx_ord (CU CX cx_ord) 1 10 true cx_insts ex_state = (ys, Ok tt, s') /\
  map fst ys = [[151; 1; 12; 151]; [3; 1; 12; 20]] /\ (forall i, i ∈ dom (st_heap s') -> i ∈ dom (st_heap ex_state)) /\
  exists h, last ys = Some ([3; 1; 12; 20], h).
Proof.
  pose proof ex_C51_run as E. unfold cluster in E.
  destruct (cluster_iter CX ex_rng cx_ord (CU CX cx_ord) 1 10 true cx_insts ex_state) as [[ys r] s'] eqn:Ec.
  cbn [fst] in E. injection E as E1 E2. subst r. exists ys, s'. split; [reflexivity|]. split; [exact E1|].
  destruct (C51_cluster_iter CX ex_rng cx_ord (CU CX cx_ord) tt ex_events ex_state true cx_insts _ _ 10 ys (Ok tt) s'
    ex_reachable cx_ord_ok (CU_reads CX cx_ord) cx_ne cx_le ex_C51_sorted Ec) as ((-> & _) & _ & _ & _ & _ & _ & _ & _ & H & _).
  split; [exact (fun i H => H)|]. apply H; [reflexivity|]. pose proof (f_equal length E1) as L. rewrite map_length in L. exact (eq_ind_r (fun n => n < 10) cx_lt L).
Qed.

(** C52: "k_cluster returns at most k clusters" fails: it never returns. *)
Theorem C52_k_cluster_refuted : exists evs s instances k,
  reachable CX ex_rng tt evs s /\ instances <> [] /\ 2 <= k /\
  (exists ls s', cluster CX cx_ord ex_rng 1 10 true instances s = (ls, Ok tt, s') /\
     exists l, l ∈ ls /\ length (remove_dups l) <= k) /\
  fst (k_cluster CX ex_rng cx_ord (CU CX cx_ord) k true instances s) = Err TypeError /\
  ~ exists l s', k_cluster CX ex_rng cx_ord (CU CX cx_ord) k true instances s = (Ok l, s').
Proof.
  exists ex_events, ex_state, cx_insts, 3. split; [exact ex_reachable|]. split; [exact cx_ne|]. split; [lia|]. split.
  { pose proof ex_C51_run as E. destruct (cluster CX cx_ord ex_rng 1 10 true cx_insts ex_state) as [[ls r] s'].
    cbn [fst] in E. injection E as -> ->. exists [[151; 1; 12; 151]; [3; 1; 12; 20]], s'. split; [reflexivity|]. exists [151; 1; 12; 151]. split; [left|]. vm_compute. lia. }
  assert (E : fst (k_cluster CX ex_rng cx_ord (CU CX cx_ord) 3 true cx_insts ex_state) = Err TypeError) by (vm_compute; reflexivity).
  split; [exact E|]. intros (l & s' & El). rewrite El in E. discriminate E.
Qed.

(** C53: "minsplit = 2 skips the first clustering" fails: nothing is left. *)
Theorem C53_minsplit_refuted : exists evs s instances,
  reachable CX ex_rng tt evs s /\
  fst (cluster CX cx_ord ex_rng 1 10 true instances s) = ([[151; 1; 12; 151]; [3; 1; 12; 20]], Ok tt) /\
  fst (cluster CX cx_ord ex_rng 2 10 true instances s) = ([], Ok tt).
Proof.
  exists ex_events, ex_state, cx_insts. split; [apply ex_reachable|]. split; [apply ex_C51_run|]. vm_compute. reflexivity.
Qed.

(** C54: the levels. *)
Lemma ex_C54 : fst (depth_labels CX ex_rng true cx_insts ex_state) = Ok [[2; 2; 2; 2]; [151; 1; 12; 151]; [3; 1; 12; 20]].
Proof. vm_compute. reflexivity. Qed.

(** C85: "CU is minus the utility of the clustering of the instances" fails:
    three instances, fitted to a new tree, end in the two concepts below the
    root, which hold nothing else, and CU is not minus the root's
    category_utility, because the leaf that two of them share is counted for
    each of them. *)
Definition cu_insts : list (nc_inst CX) := [[(AStr "a", NStr "x")]; [(AStr "a", NStr "x")]; [(AStr "a", NStr "y")]].
Definition cu_state : st CX := snd (mmapM CX (sort_in CX ex_rng true) cu_insts (fresh CX 0 0 tt)).
Definition same_float (r1 r2 : res (num FloatOps)) : option bool :=
  match r1, r2 with Ok x, Ok y => Some (PrimFloat.eqb x y) | _, _ => None end.
Lemma cu_children : option_map nd_children (st_heap cu_state !! st_root cu_state) = Some [1; 3].
Proof. vm_compute. reflexivity. Qed.
Theorem C85_clustered_instances_refuted : exists instances js s,
  sorted_by CX ex_rng true (fresh CX 0 0 tt) instances js s /\ children_of s (st_root s) (cx_ord js) /\
  (forall u v, fst (mcategory_utility CX (st_root s) s) = Ok u -> fst (CU CX cx_ord js js s) = Ok v ->
     PrimFloat.eqb (PrimFloat.opp u) v = false) /\
  same_float (fst (mcategory_utility CX (st_root s) s)) (fst (CU CX cx_ord js js s)) = Some false.
Proof.
  exists cu_insts, [1; 1; 3], cu_state. split; [|split; [|split]].
  - apply sorted_by_mmap. apply (pair_snd (mmapM CX (sort_in CX ex_rng true) cu_insts (fresh CX 0 0 tt))). vm_compute. reflexivity.
  - pose proof cu_children as E. destruct (st_heap cu_state !! st_root cu_state) as [n|] eqn:En; [|discriminate E].
    exists n. split; [exact En|]. cbn [option_map] in E. injection E as E. exact E.
  - assert (E : same_float (match fst (mcategory_utility CX (st_root cu_state) cu_state) with Ok u => Ok (PrimFloat.opp u) | Err e => Err e end)
      (fst (CU CX cx_ord [1; 1; 3] [1; 1; 3] cu_state)) = Some false) by (vm_compute; reflexivity).
    intros u v Hu Hv. rewrite Hu, Hv in E. cbn [same_float] in E. injection E as E.
    exact E.
  - vm_compute. reflexivity.
Qed.

Print Assumptions C52_k_cluster_refuted.
Print Assumptions C53_minsplit_refuted.
Print Assumptions C85_clustered_instances_refuted.
