(** C105: a run without ties, and a tie that the random numbers decide. *)
From Coq Require Import QArith.
From stdpp Require Import base decidable list gmap strings.
From Verif Require Import Base Num TreeModel Nominal NominalFacts SpecTree PropsTotal PropsConstX PropsTies.
Close Scope Q_scope.

Definition three (a b c : Z) : inst := [(AStr "a", NInt a); (AStr "b", NInt b); (AStr "c", NInt c)].

Lemma three_visible a b c : has_visible (three a b c).
Proof. exists (AStr "a"). split; [done|left]. Qed.

Lemma counting_Q : counting QOps.
Proof. split; [|done]. intros n. simpl. done. Qed.

(** Eight instances, fitted and one of them then categorized.  The tree gets
    three levels. *)
Definition calm : list (call CQ) :=
  map (@CFit _ CQ) [three 0 0 0; three 1 1 1; three 0 0 0; three 1 1 2; three 0 0 1;
                    three 0 0 0; three 1 1 1; three 1 1 1] ++ [@CCat _ CQ (three 0 0 1)].

Lemma calm_untied rng :
  untied_calls CQ rng tt calm (fresh CQ 0 0 tt).
Proof.
  apply (C105_ties_do_not_depend_on_draws CQ q_draws).
  apply (untied_calls_b_ok CQ q_draws 20). vm_compute. reflexivity.
Qed.

(** For every stream of random numbers, even a constant one, all calls succeed
    and the tree is the same. *)
Lemma ex_C105 : forall rng : nat -> num QOps,
  untied_calls CQ rng tt calm (fresh CQ 0 0 tt) /\
  Forall (fun r => exists j, r = Ok j) (fst (exec CQ rng tt calm (fresh CQ 0 0 tt))) /\
  exec CQ rng tt calm (fresh CQ 0 0 tt) = exec CQ q_draws tt calm (fresh CQ 0 0 tt) /\
  exists k1 k2, let s := snd (exec CQ rng tt calm (fresh CQ 0 0 tt)) in
    children_of s (st_root s) [k1; k2] /\ children_of s k1 [3; 19] /\ children_of s k2 [1; 28].
Proof.
  intros rng. split; [apply calm_untied|]. split; [|split].
  - apply (C105_no_tie_no_exception (N:=QOps) rng q_draws); [apply counting_Q|apply q_draws_distinct| |apply calm_untied].
    repeat (apply Forall_cons_2; [apply three_visible|]). apply Forall_nil_2.
  - apply C105_draws_only_break_ties, calm_untied.
  - rewrite (C105_draws_only_break_ties CQ q_draws rng tt calm _ (calm_untied q_draws)). cbv zeta.
    exists 18, 27. split; [|split]; apply children_lookup; vm_compute; reflexivity.
Qed.

(** Two pairs of equal instances and a fifth as close to the one pair as to the
    other: it joins one or the other, depending on the draws, and with equal
    draws the call raises. *)
Definition even_match : list (call CQ) :=
  map (@CFit _ CQ) [three 0 0 0; three 0 1 1; three 0 0 0; three 0 1 1; three 0 0 1].
Definition rising (n : nat) : Q := Qmake (Z.of_nat (S n)) (Pos.of_nat (S (S n))).

Theorem C105_ties_need_draws : exists cs : list (call CQ),
  Forall (fun c : call CQ => match c with CFit i => has_visible i | _ => True end) cs /\
  let o1 := exec CQ q_draws tt cs (fresh CQ 0 0 tt) in
  let o2 := exec CQ rising tt cs (fresh CQ 0 0 tt) in
  let o3 := exec CQ (fun _ => Qmake 0 1) tt cs (fresh CQ 0 0 tt) in
  Forall (fun r => exists j, r = Ok j) (fst o1) /\ Forall (fun r => exists j, r = Ok j) (fst o2) /\
  (exists k1 k2, children_of (snd o1) (st_root (snd o1)) k1 /\
    children_of (snd o2) (st_root (snd o2)) k2 /\ k1 <> k2) /\
  exists rs, fst o3 = rs ++ [Err TypeError].
Proof.
  exists even_match. split; [repeat (apply Forall_cons_2; [apply three_visible|]); apply Forall_nil_2|].
  cbv zeta. split; [|split; [|split]].
  - assert (E : fst (exec CQ q_draws tt even_match (fresh CQ 0 0 tt)) = [Ok 1; Ok 3; Ok 1; Ok 3; Ok 26])
      by (vm_compute; reflexivity). rewrite E. repeat (apply Forall_cons_2; [eauto|]). apply Forall_nil_2.
  - assert (E : fst (exec CQ rising tt even_match (fresh CQ 0 0 tt)) = [Ok 1; Ok 3; Ok 1; Ok 3; Ok 26])
      by (vm_compute; reflexivity). rewrite E. repeat (apply Forall_cons_2; [eauto|]). apply Forall_nil_2.
  - eexists _, _. split; [|split].
    + apply children_lookup. vm_compute. reflexivity.
    + apply children_lookup. vm_compute. reflexivity.
    + done.
  - exists [Ok 1; Ok 3; Ok 1; Ok 3]. vm_compute. reflexivity.
Qed.
Print Assumptions ex_C105.
Print Assumptions C105_ties_need_draws.
