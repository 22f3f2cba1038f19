(** * The hypotheses of PropsRaw.v are met: runs on IEEE doubles (C19, C62). *)
From stdpp Require Import base decidable list gmap strings.
From Coq Require Import Floats.
From Verif Require Import Base Num FloatNum TreeModel TreeGen SpecTree Nominal NominalFacts
  CV Cobweb3 C3Facts PropsC3 PropsC3X Example PropsRaw.

Definition raw1 : raw := [(AStr "color", PVal (NStr "blue")); (AStr "shape", PVal (NStr "square"))].
Lemma ex_C19_accepted : reachable (CobwebClass FloatOps) ex_rng tt ex_events ex_state /\
  all_inst (C:=CobwebClass FloatOps) good ex_events /\ all_ok ex_events /\ accepted raw1 /\
  fst (ifit ex_rng raw1 ex_state) = Ok 20 /\ fst (categorize ex_rng raw1 ex_state) = Ok 20.
Proof.
  split; [apply ex_reachable|]. split; [apply ex_good|]. split; [apply ex_ok|]. split.
  - split; [apply (bool_decide_unpack _); vm_compute; done|]. intros a v Hv. unfold raw1 in Hv.
    rewrite !elem_of_cons, elem_of_nil in Hv. destruct Hv as [[= -> ->]|[[= -> ->]|[]]]; (split; [done|eauto]).
  - split; vm_compute; reflexivity.
Qed.

Definition raw3x : raw3 FloatOps :=
  [(AStr "color", PVal3 (VNom (NStr "red"))); (AStr "size", PVal3 (@VNum FloatOps 3%float))].
Lemma ex_C62_accepted : reachable FC3 ex_rng ex3_ctx ex3_events ex3_state /\
  all_inst (C:=FC3) good3 ex3_events /\ all_ok ex3_events /\ accepted3 raw3x /\
  (forall a, (a, PVal3 (VNom cv_key)) ∉ raw3x) /\
  (exists k, fst (ifit3 ex_rng raw3x ex3_state) = Ok k) /\ (exists k, fst (categorize3 ex_rng raw3x ex3_state) = Ok k).
Proof.
  split; [apply ex3_reachable|]. split; [apply ex3_good|]. split.
  { unfold ex3_events. rewrite ex3_results. unfold all_ok. simpl. repeat (apply Forall_cons_2; [done|]). apply Forall_nil_2. }
  split.
  { split; [apply (bool_decide_unpack _); vm_compute; done|]. intros a v Hv. unfold raw3x in Hv.
    rewrite !elem_of_cons, elem_of_nil in Hv. destruct Hv as [[= -> ->]|[[= -> ->]|[]]]; (split; [done|eauto]). }
  split.
  { intros a Hv. unfold raw3x in Hv. rewrite !elem_of_cons, elem_of_nil in Hv. destruct Hv as [[=]|[[=]|[]]]. }
  split; eexists; vm_compute; reflexivity.
Qed.
