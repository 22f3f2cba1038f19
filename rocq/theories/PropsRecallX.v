(** * Which fitted instances need not be recognised (C108); exact rationals. *)
From Coq Require Import QArith.
From stdpp Require Import base decidable list gmap strings.
From Verif Require Import Base Num TreeModel Nominal NominalFacts SpecTree PropsTotal PropsConstX PropsTies PropsTiesX PropsClimbX.
Close Scope Q_scope.

(** [k] is a leaf that holds instances, and none of them has the value that
    [i] has for some visible attribute. *)
Definition holds_others (s : st CQ) (k : nat) (i : inst) : Prop :=
  is_leaf s k /\ exists tb a v, table_of s k tb /\ 0 < ns_count tb /\ visible a = true /\ dget a i = Some v /\ entry tb a v = 0.

(** ** An instance fitted earlier *)
Definition stored : list inst :=
  [three 0 1 0; three 0 1 0; three 0 1 0; three 0 0 0; three 1 0 1; three 1 0 1; three 1 0 1].
Definition stored_calls : list (call CQ) := map (@CFit _ CQ) stored ++ [@CCat _ CQ (three 0 0 0)].

Lemma stored_untied (rng : nat -> num QOps) : untied_calls CQ rng tt stored_calls (fresh CQ 0 0 tt).
Proof.
  apply (C105_ties_do_not_depend_on_draws CQ q_draws).
  apply (untied_calls_b_ok CQ q_draws 30). vm_compute. reflexivity.
Qed.

(** All instances have the same attributes, no tie occurs, and whatever the
    random numbers are the fourth instance, put in leaf 3 when it was fitted and
    still there, is in the end categorized into another leaf, with other
    values. *)
Theorem C108_any_fitted_recognised_refuted : exists (h : list inst) (i : inst), i ∈ h /\
  (forall m, m ∈ h -> good m /\ dkeys m = dkeys i) /\
  forall rng : nat -> num QOps,
    let o := exec CQ rng tt (map (@CFit _ CQ) h ++ [@CCat _ CQ i]) (fresh CQ 0 0 tt) in
    exists rs k, fst o = rs ++ [Ok k] /\ Forall (fun r => exists j, r = Ok j) rs /\ holds_others (snd o) k i.
Proof.
  exists stored, (three 0 0 0). split; [do 3 right; left|]. split.
  { intros m Hm. unfold stored in Hm. rewrite !elem_of_cons, elem_of_nil in Hm.
    assert (Hgd : forall a b c, good (three a b c)).
    { intros a b c. split; [|repeat (apply Forall_cons_2; [done|]); apply Forall_nil_2].
      unfold dwf, dkeys, three. simpl. repeat (apply NoDup_cons_2; [set_solver|]). apply NoDup_nil_2. }
    destruct Hm as [->|[->|[->|[->|[->|[->|[->|[]]]]]]]]; (split; [apply Hgd|done]). }
  intros rng. change (map (@CFit _ CQ) stored ++ [@CCat _ CQ (three 0 0 0)]) with stored_calls.
  rewrite (C105_draws_only_break_ties CQ q_draws rng tt stored_calls _ (stored_untied q_draws)). cbv zeta.
  exists [Ok 1; Ok 1; Ok 1; Ok 3; Ok 11; Ok 11; Ok 11], 1. split; [vm_compute; reflexivity|].
  split; [repeat (apply Forall_cons_2; [eauto|]); apply Forall_nil_2|]. split.
  - apply (leafb_leaf 20). vm_compute. reflexivity.
  - eexists _, (AStr "b"), (NInt 0). split; [apply table_lookup; vm_compute; reflexivity|].
    split; [vm_compute; lia|]. split; [done|]. split; [done|]. vm_compute. reflexivity.
Qed.

(** ** Instances that lack attributes *)
Definition val (a : string) (v : Z) : attr * nom := (AStr a, NInt v).
Definition gappy : list inst :=
  [[val "c" 0]; [val "b" 1]; [val "a" 1; val "b" 0; val "c" 0]; [val "b" 0; val "c" 0; val "d" 0];
   [val "a" 0; val "b" 1]; [val "b" 0; val "c" 1]; [val "b" 0; val "c" 0]].

(** The instance that was fitted last is categorized into a leaf that holds an
    instance with another value. *)
Theorem C108_just_fitted_gaps_refuted : exists (rng : nat -> num QOps) (h : list inst) (i : inst),
  (forall m, m ∈ h ++ [i] -> good m /\ has_visible m) /\
  let o := exec CQ rng tt (map (@CFit _ CQ) (h ++ [i]) ++ [@CCat _ CQ i]) (fresh CQ 0 0 tt) in
  exists rs j k, fst o = rs ++ [Ok j; Ok k] /\ Forall (fun r => exists j, r = Ok j) rs /\ j <> k /\ holds_others (snd o) k i.
Proof.
  exists q_draws, (take 6 gappy), [val "b" 0; val "c" 0]. change (take 6 gappy ++ [[val "b" 0; val "c" 0]]) with gappy. split.
  { intros m Hm. unfold gappy in Hm. rewrite !elem_of_cons, elem_of_nil in Hm.
    assert (Hgd : forall q r : attr * nom, forall l, m = q :: l -> NoDup (dkeys m) ->
      Forall (fun a => attr_ok a = true /\ visible a = true) (dkeys m) -> good m /\ has_visible m).
    { intros q _ l -> Hnd HF. split; [split; [done|]|].
      - eapply Forall_impl; [exact HF|]. by intros a [? _].
      - simpl in HF. apply Forall_cons in HF as [[_ Hv] _]. exists (fst q). split; [done|left]. }
    destruct Hm as [->|[->|[->|[->|[->|[->|[->|[]]]]]]]]; (eapply Hgd; [exact (val "a" 0)|reflexivity| |]);
      try (repeat (apply Forall_cons_2; [done|]); apply Forall_nil_2);
      unfold dkeys; simpl; repeat (apply NoDup_cons_2; [set_solver|]); apply NoDup_nil_2. }
  cbv zeta. exists [Ok 1; Ok 3; Ok 11; Ok 25; Ok 39; Ok 73], 121, 73. split; [vm_compute; reflexivity|].
  split; [repeat (apply Forall_cons_2; [eauto|]); apply Forall_nil_2|]. split; [done|]. split.
  - apply (leafb_leaf 20). vm_compute. reflexivity.
  - eexists _, (AStr "c"), (NInt 0). split; [apply table_lookup; vm_compute; reflexivity|].
    split; [vm_compute; lia|]. split; [done|]. split; [done|]. vm_compute. reflexivity.
Qed.
Print Assumptions C108_any_fitted_recognised_refuted.
Print Assumptions C108_just_fitted_gaps_refuted.
