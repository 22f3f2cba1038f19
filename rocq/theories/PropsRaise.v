(** * An ifit that raises half-way (C21, coinciding random draws).

    two_best_children sorts tuples (relative_cu, count, random(), child); when
    the first three components tie, Python compares two CobwebNode objects and
    raises TypeError (cobweb.py:560-565).  At an inner concept the ancestors
    have been incremented by then. *)
From stdpp Require Import base decidable list gmap strings.
From Coq Require Import Floats.
From Verif Require Import Base Num FloatNum TreeModel SpecTree Nominal NominalFacts Example.

(** Distinct draws up to the sixteenth, then always 1/2. *)
Definition tie_rng (n : nat) : num FloatOps :=
  if (n <? 16)%nat then ex_rng n else PrimFloat.div (float_of_nat 1) (float_of_nat 2).
Definition mk3 (c s t : string) : inst :=
  [(AStr "color", NStr c); (AStr "shape", NStr s); (AStr "size", NStr t)].
Definition tie_insts : list inst :=
  [mk3 "red" "square" "1"; mk3 "red" "square" "2"; mk3 "blue" "round" "3"; mk3 "blue" "round" "4"].
Notation FC := (CobwebClass FloatOps).
Definition tie_run := exec FC tie_rng tt (map (@CFit _ FC) tie_insts) (fresh FC 0 0 tt).
Definition tie_events : list (event FC) := zip_with event_of (map (@CFit _ FC) tie_insts) (fst tie_run).
Definition tie_state : st FC := snd tie_run.
Definition tie_inst : inst := mk3 "red" "square" "5".

Lemma tie_results : fst tie_run = [Ok 1; Ok 3; Ok 11; Ok 25].
Proof. vm_compute. reflexivity. Qed.

Lemma mk3_good c s t : good (mk3 c s t) /\ has_visible (mk3 c s t).
Proof.
  split.
  - split; [|by repeat constructor]. apply (bool_decide_unpack _). vm_compute. done.
  - exists (AStr "color"). split; [done|left].
Qed.

(** All instances are ordinary, every earlier call succeeded, and yet ifit
    raises and leaves the root with one instance more than its children. *)
Theorem C21_raise_leaves_tree_refuted :
  exists rng evs s i e s' (tb tb1 tb2 : nsum) c1 c2,
    reachable FC rng tt evs s /\
    all_inst (C:=FC) (fun i => good i /\ has_visible i) evs /\ good i /\ has_visible i /\ all_ok evs /\
    cobweb FC rng i s = (Err e, s') /\
    (exists tb0 : nsum, table_of s (st_root s) tb0 /\ ns_count tb = S (ns_count tb0)) /\
    table_of s' (st_root s') tb /\ children_of s' (st_root s') [c1; c2] /\
    table_of s' c1 tb1 /\ table_of s' c2 tb2 /\
    ns_count tb <> ns_count tb1 + ns_count tb2.
Proof.
  set (s' := snd (cobweb FC tie_rng tie_inst tie_state)).
  set (get := fun (s : st FC) id => match st_heap s !! id with Some n => nd_sum n | None => nc_empty FC end).
  exists tie_rng, tie_events, tie_state, tie_inst, TypeError, s', (get s' 2), (get s' 24), (get s' 38), 24, 38.
  assert (Hr : st_root s' = 2) by (vm_compute; reflexivity).
  assert (Hr0 : st_root tie_state = 2) by (vm_compute; reflexivity).
  assert (Ht : forall (s : st FC) id, bool_decide (is_Some (st_heap s !! id)) = true -> table_of s id (get s id)).
  { intros s id H. apply bool_decide_eq_true in H as [n Hn]. exists n. split; [done|].
    unfold get. by rewrite Hn. }
  split; [apply exec_reachable|]. split.
  { unfold tie_events. rewrite tie_results. unfold all_inst. simpl.
    repeat (apply Forall_cons_2; [intros i ->; apply mk3_good|]). apply Forall_nil_2. }
  split; [apply mk3_good|]. split; [apply mk3_good|]. split.
  { unfold tie_events. rewrite tie_results. unfold all_ok. simpl.
    repeat (apply Forall_cons_2; [done|]). apply Forall_nil_2. }
  split.
  { assert (E : fst (cobweb FC tie_rng tie_inst tie_state) = Err TypeError) by (vm_compute; reflexivity).
    unfold s'. destruct (cobweb FC tie_rng tie_inst tie_state) as [r s2]. simpl in E |- *. by subst r. }
  rewrite Hr, Hr0. split.
  { exists (get tie_state 2). split; [apply Ht; vm_compute; reflexivity|]. vm_compute. reflexivity. }
  split; [apply Ht; vm_compute; reflexivity|].
  split; [apply children_lookup; vm_compute; reflexivity|].
  split; [apply Ht; vm_compute; reflexivity|].
  split; [apply Ht; vm_compute; reflexivity|].
  vm_compute. discriminate.
Qed.
