(** * C104: examples, and what happens when the instances do not all have the
    same attributes. *)
From Coq Require Import QArith Qreduction.
From stdpp Require Import base decidable list gmap strings.
From Verif Require Import Base Num TreeModel Nominal NominalFacts SpecTree PropsTotal PropsConst PropsOrderX.
Close Scope Q_scope.

(** ** The hypotheses of C104_constant_always are met *)
Definition ex_V : list attr := [AStr "a"; AStr "b"; AStr "c"].
(** The new attribute goes to the front in one half of the instances and to
    the end in the other. *)
Definition ex_plus (k : nat) (i : inst) : inst :=
  if Nat.even k then (AStr "d", NStr "same") :: i else i ++ [(AStr "d", NStr "same")].

Lemma abc_const k a b c : with_const ex_V (AStr "d") (NStr "same") (abc a b c) (ex_plus k (abc a b c)).
Proof.
  split.
  - split; [apply (bool_decide_unpack _); vm_compute; done|by repeat constructor].
  - done.
  - apply (bool_decide_unpack _). vm_compute. done.
  - unfold ex_plus. destruct (Nat.even k); [done|]. symmetry. apply Permutation_cons_append.
Qed.

Lemma ex_C104 N : Forall2 (const_calls (N:=N) ex_V (AStr "d") (NStr "same"))
    (fits N abcs) (fits N (imap ex_plus abcs)) /\
  NoDup ex_V /\ Forall (fun a => visible a = true) ex_V /\ ex_V <> [] /\ AStr "d" ∉ ex_V /\
  distinct_draws ex_draws.
Proof.
  split; [|split; [|split; [|split; [|split]]]].
  - repeat (apply Forall2_cons_2; [apply abc_const|]). apply Forall2_nil_2.
  - apply (bool_decide_unpack _). vm_compute. done.
  - by repeat constructor.
  - done.
  - apply (bool_decide_unpack _). vm_compute. done.
  - apply ex_draws_distinct.
Qed.

(** ** Exact rationals.  Square root, pi, exp and log are not used by a
    CobwebTree and are arbitrary here. *)
Definition QOps : NumOps := {|
  num := Q;
  nadd x y := Qred (Qplus x y); nsub x y := Qred (Qminus x y);
  nmul x y := Qred (Qmult x y); ndiv x y := Qred (Qdiv x y);
  nltb x y := match Qcompare x y with Lt => true | _ => false end;
  neqb := Qeq_bool;
  nofnat n := inject_Z (Z.of_nat n);
  nsqrt x := x; npi := inject_Z 3; nexp x := x; nln x := x;
  ndec m e := Qred (Qdiv (inject_Z m) (inject_Z (10 ^ Z.of_nat e)));
|}.
Notation CQ := (CobwebClass QOps).
(** Distinct numbers between 0 and 1. *)
Definition q_draws (n : nat) : num QOps := Qmake 1 (Pos.of_nat (S (S n))).
Lemma q_draws_distinct : distinct_draws (N:=QOps) q_draws.
Proof.
  intros j k Hjk. simpl. apply not_true_is_false. intros H%Qeq_bool_eq. unfold Qeq in H. simpl in H.
  apply Hjk. destruct j, k; simpl in *; lia.
Qed.

Definition one (a : string) (v : Z) : inst := [(AStr a, NInt v)].
Definition mixed : list inst := [one "b" 0; one "a" 1; one "b" 1].
Definition plus_d (i : inst) : inst := (AStr "d", NStr "same") :: i.

Definition run_of (l : list inst) := exec CQ q_draws tt (fits QOps l) (fresh CQ 0 0 tt).

(** Three instances, the first and third with attribute [b] only, the second
    with attribute [a] only.  No call raises.  Without the constant the root has
    three children.  With it there are two, and the third instance joins the
    first one. *)
Theorem C104_other_attributes_refuted : exists l : list inst,
  Forall (fun i => good i /\ has_visible i /\ AStr "d" ∉ dkeys i) l /\
  (forall r, r ∈ fst (run_of l) -> exists id, r = Ok id) /\
  (forall r, r ∈ fst (run_of (map plus_d l)) -> exists id, r = Ok id) /\
  let s1 := snd (run_of l) in
  let s2 := snd (run_of (map plus_d l)) in
  exists k1 k2, children_of s1 (st_root s1) k1 /\ children_of s2 (st_root s2) k2 /\
    length k1 = 3 /\ length k2 = 2.
Proof.
  exists mixed. split; [|split; [|split]].
  - assert (H : forall a v, good (one (String a "") v) /\
      (hidden (AStr (String a "")) = false -> has_visible (one (String a "") v))).
    { intros a v. split.
      - split; [apply NoDup_singleton|by repeat constructor].
      - intros Hh. exists (AStr (String a "")). split; [by unfold visible; rewrite Hh|left]. }
    repeat (apply Forall_cons_2; [split; [apply H|split; [by apply H|]];
      apply (bool_decide_unpack _); vm_compute; done|]). apply Forall_nil_2.
  - assert (E : fst (run_of mixed) = [Ok 1; Ok 3; Ok 11]) by (vm_compute; reflexivity).
    rewrite E. intros r Hr. rewrite !elem_of_cons in Hr.
    destruct Hr as [->|[->|[->|Hr]]]; eauto. inversion Hr.
  - assert (E : fst (run_of (map plus_d mixed)) = [Ok 1; Ok 3; Ok 12]) by (vm_compute; reflexivity).
    rewrite E. intros r Hr. rewrite !elem_of_cons in Hr.
    destruct Hr as [->|[->|[->|Hr]]]; eauto. inversion Hr.
  - exists [1; 3; 11], [3; 11]. split; [|split; [|done]].
    + apply children_lookup. vm_compute. reflexivity.
    + apply children_lookup. vm_compute. reflexivity.
Qed.
