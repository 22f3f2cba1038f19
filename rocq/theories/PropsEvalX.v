(** * incremental_evaluation on a concrete tree of doubles; what it does not
    promise (C55, C56, C79). *)
From stdpp Require Import base decidable list gmap strings.
From Coq Require Import Floats.
From Verif Require Import Base Num FloatNum TreeModel TreeFun TreeRefine SpecTree TreeState Nominal NominalFacts Query
  Eval PropsEval Example.
Set Default Proof Using "Type".
Open Scope list_scope.
Notation CX := (CobwebClass FloatOps).

Definition ev_cmp (a b : nom) : option bool := Some false.
Definition ev_num (v : nom) : option (num FloatOps) := None.
Definition EX : NodeEval CX := CobwebEval (N:=FloatOps) ex_rng ev_cmp ev_num ev_num.
(** A shuffle. *)
Definition ev_shuffled (r : nat) (l : list inst) : list inst := drop r l ++ take r l.
Lemma ev_shuffled_ok r l : Permutation l (ev_shuffled r l).
Proof. unfold ev_shuffled. rewrite Permutation_app_comm. by rewrite take_drop. Qed.
Definition ev_shape : attr := AStr "shape".

Definition ev_run (l : list inst) (run_length : nat) :=
  incremental_evaluation CX ex_rng EX tt (score_probability CX ex_rng EX) ev_shuffled l ev_shape run_length 2 false ex_state.
Definition ev_table (r : res (list (list (num FloatOps)) * list inst)) : res (list (list bool)) :=
  match r with Ok (t, _) => Ok (map (map (fun y => PrimFloat.eqb y 1)) t) | Err e => Err e end.
(** Which of the scores are 1. *)
Lemma ex_C55 : ev_table (fst (ev_run ex_insts 2)) = Ok [[false; true; false; false]; [false; false; false; false]].
Proof. vm_compute. reflexivity. Qed.

(** C56: "each row has run_length entries" fails. *)
Theorem C56_run_length_refuted : exists evs s l run_length table,
  reachable CX ex_rng tt evs s /\ run_length <= length l /\
  ev_table (fst (incremental_evaluation CX ex_rng EX tt (score_probability CX ex_rng EX) ev_shuffled l ev_shape run_length 2 false s)) = Ok table /\
  Forall (fun row => length row <> run_length) table /\ table <> [].
Proof.
  exists ex_events, ex_state, ex_insts, 2, [[false; true; false; false]; [false; false; false; false]].
  split; [exact ex_reachable|]. split; [vm_compute; lia|]. split; [exact ex_C55|].
  split; [|discriminate]. repeat (apply Forall_cons_2; [discriminate|]). apply Forall_nil_2.
Qed.

(** C79: "it returns a table" fails: a first instance without the attribute. *)
Theorem C79_evaluation_returns_refuted : exists evs s l,
  reachable CX ex_rng tt evs s /\ Forall has_visible l /\
  fst (incremental_evaluation CX ex_rng EX tt (score_probability CX ex_rng EX) ev_shuffled l ev_shape 2 2 false s) = Err ZeroDivisionError.
Proof.
  exists ex_events, ex_state, (([(AStr "color", NStr "red")] : inst) :: ex_insts).
  split; [exact ex_reachable|]. split; [|vm_compute; reflexivity].
  repeat (apply Forall_cons_2; [exists (AStr "color"); split; [reflexivity|left]|]). apply Forall_nil_2.
Qed.

Print Assumptions C56_run_length_refuted.
Print Assumptions C79_evaluation_returns_refuted.
