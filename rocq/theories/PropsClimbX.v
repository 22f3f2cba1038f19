(** * What hill climbing does not promise: one leaf per instance (C70). *)
From stdpp Require Import base decidable list gmap strings.
From Coq Require Import Floats.
From Verif Require Import Base Num FloatNum TreeModel TreeGen SpecTree Nominal NominalFacts Example.
Notation FC := (CobwebClass FloatOps).

(** Deciding whether [b] lies below [a]. *)
Fixpoint below {N} {C : NodeClass N} (n : nat) (s : st C) (a b : nat) : bool :=
  bool_decide (a = b) ||
  match n with
  | O => false
  | S n => match st_heap s !! a with
           | Some nd => existsb (fun c => below n s c b) (nd_children nd)
           | None => false
           end
  end.
Lemma below_desc {N} {C : NodeClass N} n (s : st C) : forall a b, below n s a b = true -> desc s a b.
Proof.
  assert (H0 : forall a b, bool_decide (a = b) = true -> desc s a b).
  { intros a b ->%bool_decide_eq_true. constructor. }
  induction n as [|n IH]; intros a b; simpl; rewrite orb_true_iff.
  - intros [?|?]; [by apply H0|done].
  - intros [?|H]; [by apply H0|]. destruct (st_heap s !! a) as [nd|] eqn:E; [|done].
    apply existsb_exists in H as (c & Hc & Hb). apply IH in Hb.
    assert (Hac : desc s a c); [|clear -Hac Hb; induction Hb as [|d e _ IHd Hde]; [done|by eapply desc_child]].
    eapply desc_child; [constructor|]. exists (nd_children nd). split; [by exists nd|by apply elem_of_list_In].
Qed.
Definition leafb {N} {C : NodeClass N} (n : nat) (s : st C) (b : nat) : bool :=
  below n s (st_root s) b &&
  match st_heap s !! b with Some nd => bool_decide (nd_children nd = []) | None => false end.
Lemma leafb_leaf {N} {C : NodeClass N} n (s : st C) b : leafb n s b = true -> is_leaf s b.
Proof.
  intros [H1 H2]%andb_true_iff. split; [by eapply below_desc|].
  destruct (st_heap s !! b) as [nd|] eqn:E; [|done]. apply bool_decide_eq_true in H2. by exists nd.
Qed.

Definition abc (a b c : string) : inst :=
  [(AStr "a", NStr a); (AStr "b", NStr b); (AStr "c", NStr c)].
Definition dup_insts : list inst :=
  [abc "z" "x" "y"; abc "y" "z" "y"; abc "x" "y" "y"; abc "z" "y" "y"; abc "x" "y" "x";
   [(AStr "a", NStr "x"); (AStr "b", NStr "y")]; abc "z" "y" "y"].
Definition dup_calls : list (call FC) := map (@CFit _ FC) dup_insts.
Definition dup_run := exec FC ex_rng tt dup_calls (fresh FC 0 0 tt).

(** Fitting the same instance again can put it into a second leaf, the first
    one still being there. *)
Theorem C70_one_leaf_per_instance_refuted : exists rng evs s i j k evs1 evs2 evs3,
  reachable FC rng tt evs s /\ all_inst (C:=FC) good evs /\ all_ok evs /\
  evs = evs1 ++ EFit i (Ok j) :: evs2 ++ EFit i (Ok k) :: evs3 /\ @EClear _ FC ∉ evs /\
  j <> k /\ is_leaf s j /\ is_leaf s k.
Proof.
  pose proof (exec_reachable FC ex_rng tt dup_calls 0 0) as Hr.
  fold dup_run in Hr.
  assert (Hev : fst dup_run = [Ok 1; Ok 3; Ok 11; Ok 25; Ok 43; Ok 67; Ok 81]) by (vm_compute; reflexivity).
  assert (Hj : leafb 20 (snd dup_run) 25 = true) by (vm_compute; reflexivity).
  assert (Hk : leafb 20 (snd dup_run) 81 = true) by (vm_compute; reflexivity).
  rewrite Hev in Hr. apply leafb_leaf in Hj, Hk.
  exists ex_rng, (zip_with event_of dup_calls [Ok 1; Ok 3; Ok 11; Ok 25; Ok 43; Ok 67; Ok 81]), (snd dup_run),
    (abc "z" "y" "y"), 25, 81,
    [@EFit _ FC (abc "z" "x" "y") (Ok 1); @EFit _ FC (abc "y" "z" "y") (Ok 3); @EFit _ FC (abc "x" "y" "y") (Ok 11)],
    [@EFit _ FC (abc "x" "y" "x") (Ok 43); @EFit _ FC [(AStr "a", NStr "x"); (AStr "b", NStr "y")] (Ok 67)], [].
  split; [exact Hr|]. split.
  { assert (Hg : Forall good dup_insts).
    { repeat (apply Forall_cons_2; [split; [apply (bool_decide_unpack _); vm_compute; done|by repeat constructor]|]).
      apply Forall_nil_2. }
    clear -Hg. unfold all_inst, dup_calls. revert Hg.
    generalize [Ok 1; Ok 3; Ok 11; Ok 25; Ok 43; Ok 67; Ok 81]. induction dup_insts as [|i l IH]; intros rs Hg; [constructor|].
    destruct rs as [|r rs]; [constructor|]. apply Forall_cons in Hg as [Hi Hg]. simpl.
    apply Forall_cons_2; [|by apply IH]. intros j ->. done. }
  split; [by repeat (apply Forall_cons_2; [exact I|])|].
  split; [reflexivity|]. split.
  { intros H. repeat (apply elem_of_cons in H as [H|H]; [done|]). inversion H. }
  split; [done|]. split; done.
Qed.
Print Assumptions C70_one_leaf_per_instance_refuted.
