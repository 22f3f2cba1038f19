(** C106: three instances that attain all three bounds. *)
From Coq Require Import QArith.
From stdpp Require Import base decidable list gmap strings.
From Verif Require Import Base Num TreeModel Nominal NominalFacts SpecTree Query QueryLinks
  PropsConstX PropsSize.
Close Scope Q_scope.

Definition four (a b c d : Z) : inst :=
  [(AStr "a", NInt a); (AStr "b", NInt b); (AStr "c", NInt c); (AStr "d", NInt d)].
Lemma four_good a b c d : good (four a b c d).
Proof. split; [apply (bool_decide_unpack _); vm_compute; done|by repeat constructor]. Qed.

Definition fits3x : list (call CQ) :=
  map (@CFit _ CQ) [four 0 0 0 0; four 1 1 1 1; four 0 0 0 1].

(** Three leaves, five concepts, and a leaf two links below the root. *)
Lemma ex_C106 : exists evs s, reachable CQ q_draws tt evs s /\
  all_inst (C:=CQ) good evs /\ all_ok evs /\ length (history evs) = 3 /\
  bounded CQ s 3 /\
  fst (num_concepts CQ (st_root s) s) = Ok 5 /\
  is_leaf s 12 /\ fst (depth CQ 12 s) = Ok 2.
Proof.
  pose proof (exec_reachable CQ q_draws tt fits3x 0 0) as Hr.
  assert (E : fst (exec CQ q_draws tt fits3x (fresh CQ 0 0 tt)) = [Ok 1; Ok 3; Ok 12])
    by (vm_compute; reflexivity).
  rewrite E in Hr. cbn [fits3x map zip_with event_of] in Hr.
  match type of Hr with reachable _ _ _ ?e ?s0 => exists e, s0; set (evs := e) in *; set (s := s0) in * end.
  assert (Hg : all_inst (C:=CQ) good evs).
  { unfold evs. unfold all_inst.
    repeat (apply Forall_cons_2; [intros i ->; apply four_good|]). apply Forall_nil_2. }
  assert (Ho : all_ok evs).
  { unfold evs, all_ok. repeat (apply Forall_cons_2; [by eexists|]). apply Forall_nil_2. }
  split; [done|]. split; [done|]. split; [done|]. split; [done|]. split.
  { exact (C106_size q_draws evs s Hr Hg Ho). }
  split; [vm_compute; reflexivity|]. split; [|vm_compute; reflexivity].
  assert (H1 : children_of s (st_root s) [3; 11]) by (apply children_lookup; vm_compute; reflexivity).
  assert (H2 : children_of s 11 [1; 12]) by (apply children_lookup; vm_compute; reflexivity).
  split; [|apply children_lookup; vm_compute; reflexivity].
  eapply desc_child; [eapply desc_child; [apply desc_refl|]|].
  - exists [3; 11]. split; [done|]. right. left.
  - exists [1; 12]. split; [done|]. right. left.
Qed.
Print Assumptions ex_C106.
