(** * Rounding makes the order of the attributes matter.

    The same five instances, with their attributes listed in two orders, run
    on IEEE doubles with the same random numbers. *)
From Coq Require Import Floats.
From stdpp Require Import base decidable list gmap strings.
From Verif Require Import Base Num FloatNum TreeModel Nominal NominalFacts SpecTree Example PropsOrder.

Definition abc (a b c : Z) : inst := [(AStr "a", NInt a); (AStr "b", NInt b); (AStr "c", NInt c)].
Definition abcs : list inst := [abc 0 1 2; abc 0 1 1; abc 1 1 2; abc 0 1 0; abc 0 2 0].
Definition fits (N : NumOps) (l : list inst) : list (call (CobwebClass N)) := map (@CFit _ (CobwebClass N)) l.
Definition backwards (l : list inst) : list inst := map (@rev _) l.

Lemma reordered_fits N l : Forall dwf l -> Forall2 (reordered (N:=N)) (fits N l) (fits N (backwards l)).
Proof.
  induction 1 as [|i l Hi Hl IH]; [by apply Forall2_nil_2|].
  apply Forall2_cons_2; [|exact IH]. split; [exact Hi|]. apply Permutation_rev.
Qed.
Lemma abcs_wf : Forall dwf abcs.
Proof. unfold dwf. repeat (apply Forall_cons_2; [apply (bool_decide_unpack _); vm_compute; done|]). apply Forall_nil_2. Qed.

(** The hypothesis of C102_order is met, in any arithmetic. *)
Lemma ex_C102 N : Forall2 (reordered (N:=N)) (fits N abcs) (fits N (backwards abcs)) /\
  fits N abcs <> fits N (backwards abcs).
Proof. split; [apply reordered_fits, abcs_wf|done]. Qed.

Notation CF := (CobwebClass FloatOps).

(** On doubles the two runs end in trees of different shape: the root has
    three children in one and four in the other. *)
Theorem C102_rounding_refuted : exists cs1 cs2,
  Forall2 (reordered (N:=FloatOps)) cs1 cs2 /\
  let s1 := snd (exec CF ex_rng tt cs1 (fresh CF 0 0 tt)) in
  let s2 := snd (exec CF ex_rng tt cs2 (fresh CF 0 0 tt)) in
  (forall r, r ∈ fst (exec CF ex_rng tt cs1 (fresh CF 0 0 tt)) -> exists id, r = Ok id) /\
  exists k1 k2, children_of s1 (st_root s1) k1 /\ children_of s2 (st_root s2) k2 /\
    length k1 = 3 /\ length k2 = 4.
Proof.
  exists (fits FloatOps abcs), (fits FloatOps (backwards abcs)).
  split; [apply reordered_fits, abcs_wf|]. cbv zeta. split.
  - assert (E : fst (exec CF ex_rng tt (fits FloatOps abcs) (fresh CF 0 0 tt)) =
      [Ok 1; Ok 3; Ok 11; Ok 32; Ok 45]) by (vm_compute; reflexivity).
    rewrite E. intros r Hr. rewrite !elem_of_cons in Hr.
    destruct Hr as [->|[->|[->|[->|[->|Hr]]]]]; eauto. inversion Hr.
  - exists [11; 24; 45], [1; 3; 11; 40]. split; [|split; [|done]].
    + apply children_lookup. vm_compute. reflexivity.
    + apply children_lookup. vm_compute. reflexivity.
Qed.
