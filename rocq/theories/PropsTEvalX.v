(** * evaluation.py on a TrestleTree: runs on IEEE doubles (C99). *)
From stdpp Require Import base decidable list gmap strings sets.
From Coq Require Import Floats String ZArith.
From Verif Require Import Base Num FloatNum TreeModel TreeFun TreeScore TreeSorts SpecTree TreeState
  Nominal CV Cobweb3 Query Query3 PyVal Preproc Preproc2 PreStd StructMap StructFacts PropsStruct Trestle SpecTrestle
  TrestleFacts TrestleFresh TrestleVals TrestleTotal TrestleRun PropsTrestle Example PropsTrestleX Eval TEval PropsTEval.
Set Default Proof Using "Type".
Open Scope list_scope.

(** [tx_inst] with an attribute of its own. *)
Definition te_inst (u v k : string) (x : float) : inst FX := (AStr "kind", sv k) :: tx_inst u v x "blue".
Definition te_on (u v : string) : attr := ATup [AStr "on"; AStr u; AStr v].
Definition te_arith (n : nom) : option float := None.
Definition te_prob := t_score_probability (N:=FloatOps) ex_rng tx_str id 100.
Definition te_err := t_score_error (N:=FloatOps) ex_rng tx_cmp tx_normal tx_str id 100 te_arith.
Definition te_sq := t_score_squared_error (N:=FloatOps) ex_rng tx_cmp tx_normal tx_str id 100 te_arith.
Definition te_abs := t_score_absolute_error (N:=FloatOps) ex_rng tx_cmp tx_normal tx_str id 100 te_arith.
Definition te_list : list (inst FX) := [te_inst "?x" "?y" "a" 1; te_inst "?u" "?v" "a" 2; te_inst "?y" "?x" "b" 1; te_inst "?u" "?v" "a" 1].
Definition te_eval (score : torc FloatOps -> inst FX -> attr -> option (pv FX) -> tst FloatOps -> res float * tst FloatOps) (l : list (inst FX)) (a : attr) (rl runs : nat) (rf : bool) :=
  t_incremental_evaluation (N:=FloatOps) ex_rng tx_str id 100 tx0 score (fun _ => @rev _) (fun _ _ => tx_orc) (fun _ _ => tx_orc) l a rl runs rf (t_new 0 0 tx0).
Definition te_rows {X} (r : res (list (list float) * list X) * tst FloatOps) : res (list (list float)) :=
  match fst r with Ok (t, _) => Ok t | Err e => Err e end.
Definition te_same : list (inst FX) := replicate 3 (te_inst "?x" "?y" "a" 1).

Lemma te_inst_wf u v k x : u <> v -> u <> "kind"%string -> v <> "kind"%string -> pwf (PD (te_inst u v k x)).
Proof.
  intros H Hu Hv. pose proof (tx_inst_wf u v x "blue" H) as Hw. inversion Hw as [| | |? Hd HF]; subst. constructor.
  - apply NoDup_cons. split; [|exact Hd]. intros Hin. simpl in Hin.
    repeat (apply elem_of_cons in Hin as [Hin|Hin]; [first [discriminate Hin|injection Hin as Hin; congruence]|]). by apply elem_of_nil in Hin.
  - apply Forall_cons_2; [constructor|done].
Qed.
Lemma te_list_wf : Forall (fun d : inst FX => pwf (PD d)) te_list.
Proof. repeat (apply Forall_cons_2; [by apply te_inst_wf|]). apply Forall_nil_2. Qed.

(** Two runs of four instances: with "kind" hidden, the concept found has
    seen [a], or [b], before or not.  The other scores. *)
Lemma ex_te_rows : te_rows (te_eval te_prob te_list (AStr "kind") 5 2 false) = Ok [[0; 1; 0; 1]; [0; 0; 1; 0]]%float /\
  te_rows (te_eval te_prob te_list (AStr "kind") 1 2 true) = Ok [[0; 0; 0]; [0; 1; 0]]%float /\
  te_rows (te_eval te_err te_list (AStr "kind") 5 1 false) = Ok [[1; 0; 1; 1]]%float.
Proof. vm_compute. done. Qed.
(** What the theorem says of this run. *)
Lemma ex_C99_tests_before_training : exists table l' s',
  te_eval te_prob te_list (AStr "kind") 5 2 false = (Ok (table, l'), s') /\ Permutation te_list l' /\ List.length table = 2 /\
  forall k row, table !! k = Some row -> exists lk, Permutation te_list lk /\ (k = 0 -> lk = te_list) /\ List.length row = 4 /\
    t_tested_first ex_rng tx_cmp tx_normal tx_str id 100 (Some 0.5%float) true te_prob (AStr "kind") [] lk row.
Proof.
  assert (E : te_rows (te_eval te_prob te_list (AStr "kind") 5 2 false) = Ok [[0; 1; 0; 1]; [0; 0; 1; 0]]%float) by exact (proj1 ex_te_rows).
  unfold te_rows in E. destruct (te_eval te_prob te_list (AStr "kind") 5 2 false) as [[[table l']|e] s'] eqn:Ee; cbn [fst] in E; [|discriminate E].
  exists table, l', s'. split; [reflexivity|].
  destruct (C99_tests_before_training ex_rng tx_cmp tx_normal tx_str id 100 (Some 0.5%float) true te_prob (fun _ => @rev _) (AStr "kind")
    (fun _ _ => tx_orc) (fun _ _ => tx_orc)
    (proj1 (C99_scores_only_ask ex_rng tx_cmp tx_normal tx_str id 100 te_arith tx_normal_mono (Some 0.5%float) true))
    (fun _ l => Permutation_rev l) (fun _ _ => id_oracle_ok) (fun _ _ => id_oracle_ok) [] (t_new 0 0 tx0) te_list 5 2 false table l' s') as (H1 & H2 & _ & H3).
  - exists 0, 0. constructor.
  - exact te_list_wf.
  - exact Ee.
  - split; [exact H1|]. split; [exact H2|]. intros k row Hk. destruct (H3 k row Hk) as (lk & K1 & K2 & K3 & K4).
    exists lk. split; [exact K1|]. split; [exact (K2 eq_refl)|]. split; [exact K3|exact K4].
Qed.

(** ** Relations *)
(** The claim refuted: a value that an attribute had in every instance has a
    positive probability, and is predicted.  The tree was given the same
    instance three times; its relation scores 0 and error 1, its other
    attribute 1 and error 0. *)
Definition te_calls : list (tcall FloatOps) := replicate 3 (TCFit (te_inst "?x" "?y" "a" 1) tx_orc).
Definition te_state : tst FloatOps := snd (tx_exec te_calls (t_new 0 0 tx0)).
Lemma te_given : tgiven (tx_events te_calls (t_new 0 0 tx0)) = te_same.
Proof.
  unfold tx_events, te_calls. cbn [replicate tevents].
  repeat match goal with |- context [texec1 ?a ?b ?c ?d ?e ?f ?g (TCFit ?h ?o) ?i] =>
    let E := fresh in destruct (texec1 a b c d e f g (TCFit h o) i) as [r ?] eqn:E; simpl in E;
    destruct (t_fit a d e f o h i) in E; injection E as <- ? end. reflexivity.
Qed.
Theorem C99_relation_scores_refuted : exists evs s q (d : inst FX) a,
  treachable ex_rng tx_cmp tx_normal tx_str id 100 tx0 evs s /\ tgiven evs = [d; d; d] /\
  dget a d = Some (sv "yes") /\ oracle_ok (to_orc q) /\
  fst (te_prob q d a (dget a d) s) = Ok 0%float /\ fst (te_err q d a (dget a d) s) = Ok 1%float /\
  fst (te_prob q d (AStr "kind") (dget (AStr "kind") d) s) = Ok 1%float /\ fst (te_err q d (AStr "kind") (dget (AStr "kind") d) s) = Ok 0%float.
Proof.
  exists (tx_events te_calls (t_new 0 0 tx0)), te_state, tx_orc, (te_inst "?x" "?y" "a" 1), (te_on "?x" "?y"). split.
  { exists 0, 0. apply (texec_run ex_rng tx_cmp tx_normal tx_str id 100 tx0 te_calls).
    repeat (apply Forall_cons_2; [split; [by apply te_inst_wf|apply id_oracle_ok]|]). apply Forall_nil_2. }
  split; [exact te_given|]. split; [reflexivity|]. split; [apply id_oracle_ok|].
  split; [vm_compute; reflexivity|]. split; [vm_compute; reflexivity|]. split; vm_compute; reflexivity.
Qed.
(** [C99_unknown_names] applies to this state. *)
Lemma ex_C99_unknown_names : exists c s1, t_cat ex_rng tx_str id 100 tx_orc (t_hide (te_on "?x" "?y") (te_inst "?x" "?y" "a" 1)) te_state = (Ok c, s1) /\
  component [te_on "?x" "?y"] (AStr "?x") /\ forall n, "?x"%string <> gensym_name n.
Proof.
  assert (E : match fst (t_cat ex_rng tx_str id 100 tx_orc (t_hide (te_on "?x" "?y") (te_inst "?x" "?y" "a" 1)) te_state) with Ok _ => true | Err _ => false end = true)
    by (vm_compute; reflexivity).
  destruct (t_cat ex_rng tx_str id 100 tx_orc (t_hide (te_on "?x" "?y") (te_inst "?x" "?y" "a" 1)) te_state) as [[c|e] s1]; [|discriminate E].
  exists c, s1. split; [reflexivity|]. split; [|intros n Hn; discriminate Hn].
  apply component_kvars. exists "?x"%string. split; [done|]. exists (te_on "?x" "?y"). split; [left|]. simpl. left.
Qed.

(** The claim refuted: scores do not depend on the names of components.  With
    the names that the tree happens to generate for them the relation scores. *)
Definition te_ren (v : string) : string :=
  if decide (v = "?x"%string) then "?o3" else if decide (v = "?y"%string) then "?o4" else
  if decide (v = "?o3"%string) then "?x" else if decide (v = "?o4"%string) then "?y" else v.
Lemma te_ren_inj u v : te_ren u = te_ren v -> u = v.
Proof. unfold te_ren. repeat case_decide; congruence. Qed.
Theorem C99_names_matter_refuted : exists (f : string -> string) (l : list (inst FX)) a t1 t2,
  (forall u v, f u = f v -> u = v) /\ (forall u, is_var u = true <-> is_var (f u) = true) /\
  Forall (fun d : inst FX => pwf (PD d)) l /\
  te_rows (te_eval te_prob l a 5 1 false) = Ok t1 /\
  te_rows (te_eval te_prob (map (irename f) l) (arename f a) 5 1 false) = Ok t2 /\
  t1 = [[0; 0; 0]]%float /\ t2 = [[0; 1; 1]]%float.
Proof.
  exists te_ren, te_same, (te_on "?x" "?y"), [[0; 0; 0]]%float, [[0; 1; 1]]%float.
  split; [exact te_ren_inj|]. split; [intros u; unfold te_ren; repeat case_decide; subst; done|].
  split. { repeat (apply Forall_cons_2; [by apply te_inst_wf|]). apply Forall_nil_2. }
  split; [vm_compute; reflexivity|]. split; [vm_compute; reflexivity|]. done.
Qed.

(** ** Numbers, missing values, lists and components *)
Definition te_num (x y : float) : inst FX := (AStr "w", fv y) :: tx_inst "?x" "?y" x "blue".
Definition te_s3 : tst FloatOps := snd (te_eval te_prob [te_num 1 4; te_num 2 4] (AStr "w") 5 1 false).
Lemma ex_te_scores : let d := te_num 1 7 in let a := AStr "w" in
  fst (te_err tx_orc d a (Some (fv 1.5)) te_s3) = Ok (-2.5)%float /\ fst (te_abs tx_orc d a (Some (fv 1.5)) te_s3) = Ok 2.5%float /\
  fst (te_sq tx_orc d a (Some (fv 1.5)) te_s3) = Ok 6.25%float /\
  fst (te_err tx_orc d a None te_s3) = Err OtherException /\ fst (te_prob tx_orc d a None te_s3) = Ok 0%float /\
  fst (te_prob tx_orc d a (Some (PL [])) te_s3) = Err TypeError /\ fst (te_prob tx_orc d (AStr "z") (Some (PL [])) te_s3) = Ok 0%float /\
  fst (te_err tx_orc d a (Some (PL [])) te_s3) = Ok 1%float /\
  fst (te_prob tx_orc d a (Some (PD [])) te_s3) = Err OtherException /\ fst (te_err tx_orc d a (Some (PD [])) te_s3) = Err OtherException.
Proof. vm_compute. split_and!; reflexivity. Qed.
Print Assumptions C99_relation_scores_refuted.
Print Assumptions C99_names_matter_refuted.
