(** * A concrete history, run on IEEE doubles.

    Used to show that the hypotheses of the theorems are met by real runs. *)
From stdpp Require Import base decidable list gmap strings.
From Coq Require Import Floats.
From Verif Require Import Base Num FloatNum TreeModel SpecTree Nominal NominalFacts.

(** A stand-in for random(): distinct values in (0,1). *)
Definition ex_rng (n : nat) : num FloatOps :=
  PrimFloat.div (float_of_nat (n * 37 mod 1009 + 1)) (float_of_nat 1011).

Definition mk (c s : string) (id : nat) : inst :=
  [(AStr "color", NStr c); (AStr "shape", NStr s); (AStr "_id", NAtom id)].

(** Two red squares differing only in a hidden attribute, and others. *)
Definition ex_insts : list inst :=
  [mk "red" "square" 1; mk "red" "square" 2; mk "blue" "round" 3; mk "red" "round" 4;
   mk "blue" "square" 5; mk "blue" "round" 6].

Definition ex_calls : list (call (CobwebClass FloatOps)) :=
  map (@CFit _ (CobwebClass FloatOps)) ex_insts ++
  [@CCat _ (CobwebClass FloatOps) (mk "blue" "round" 7)].

Definition ex_run := exec (CobwebClass FloatOps) ex_rng tt ex_calls
                       (fresh (CobwebClass FloatOps) 0 0 tt).

Definition ex_state : st (CobwebClass FloatOps) := snd ex_run.

Example ex_results : fst ex_run = [Ok 1; Ok 1; Ok 3; Ok 12; Ok 20; Ok 3; Ok 3].
Proof. vm_compute. reflexivity. Qed.
Example ex_root : st_root ex_state = 2.
Proof. vm_compute. reflexivity. Qed.

Definition ex_events : list (event (CobwebClass FloatOps)) :=
  zip_with event_of ex_calls (fst ex_run).

Lemma ex_reachable : reachable (CobwebClass FloatOps) ex_rng tt ex_events ex_state.
Proof. apply exec_reachable. Qed.

Lemma ex_events_eq : ex_events =
  zip_with event_of ex_calls [Ok 1; Ok 1; Ok 3; Ok 12; Ok 20; Ok 3; Ok 3].
Proof. unfold ex_events. by rewrite ex_results. Qed.

Lemma mk_good c s id : good (mk c s id).
Proof.
  split; [|by repeat constructor].
  apply (bool_decide_unpack _). vm_compute. done.
Qed.

Lemma ex_good : all_inst (C:=CobwebClass FloatOps) good ex_events.
Proof.
  rewrite ex_events_eq. unfold all_inst. simpl.
  repeat (apply Forall_cons_2; [intros i ->; apply mk_good|]). apply Forall_nil_2.
Qed.

Lemma ex_ok : all_ok ex_events.
Proof.
  rewrite ex_events_eq. unfold all_ok. simpl.
  repeat (apply Forall_cons_2; [done|]). apply Forall_nil_2.
Qed.
