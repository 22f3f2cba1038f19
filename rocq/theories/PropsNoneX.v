(** * A value None of a TrestleTree: what the code does with it (C107), on doubles *)
From stdpp Require Import base decidable list gmap strings sets.
From Coq Require Import Floats String ZArith.
From Verif Require Import Base Num FloatNum TreeModel TreeFun TreeScore TreeSorts SpecTree TreeState
  Nominal CV Cobweb3 Query Query3 PyVal Preproc Preproc2 PreStd StructMap StructFacts PropsStruct Trestle SpecTrestle
  TrestleFacts TrestleFresh TrestleVals TrestleTotal TrestleRun PropsTrestle Example PropsTrestleX Eval TEval PropsTEval PropsTEvalX.
Set Default Proof Using "Type".
Open Scope list_scope.

(** The same instance three times: its kind is None, its size 1. *)
Definition nx_rest : inst FX := [(AStr "size", fv 1)].
Definition nx_inst (v : nom) : inst FX := (AStr "kind", PX (@VNom FloatOps v)) :: nx_rest.
Definition nx_calls (v : nom) : list (tcall FloatOps) := replicate 3 (TCFit (nx_inst v) tx_orc).
Definition nx_state (v : nom) : tst FloatOps := snd (tx_exec (nx_calls v) (t_new 0 0 tx0)).
(** The kind that is inferred for an instance without one, if it is a string. *)
Definition nx_infer (s : tst FloatOps) : res (option string) :=
  match fst (t_infer ex_rng tx_cmp tx_normal tx_str id 100 tx_orc nx_rest "most likely" false s) with
  | Ok d => match dget (AStr "kind") d with None => Ok None | Some (PStr v) => Ok (Some v) | Some _ => Err OtherException end
  | Err e => Err e
  end.
Lemma nx_given v : tgiven (tx_events (nx_calls v) (t_new 0 0 tx0)) = replicate 3 (nx_inst v).
Proof.
  unfold tx_events, nx_calls. cbn [replicate tevents].
  repeat match goal with |- context [texec1 ?a ?b ?c ?d ?e ?f ?g (TCFit ?h ?o) ?i] =>
    let E := fresh in destruct (texec1 a b c d e f g (TCFit h o) i) as [r ?] eqn:E; simpl in E;
    destruct (t_fit a d e f o h i) in E; injection E as <- ? end. reflexivity.
Qed.
Lemma nx_wf v : pwf (PD (nx_inst v)).
Proof. constructor; [|repeat constructor]. simpl. repeat (apply NoDup_cons; split; [set_solver|]). apply NoDup_nil_2. Qed.
Lemma nx_reachable v : treachable ex_rng tx_cmp tx_normal tx_str id 100 tx0 (tx_events (nx_calls v) (t_new 0 0 tx0)) (nx_state v).
Proof.
  exists 0, 0. apply (texec_run ex_rng tx_cmp tx_normal tx_str id 100 tx0 (nx_calls v)).
  repeat (apply Forall_cons_2; [split; [by apply nx_wf|apply id_oracle_ok]|]). apply Forall_nil_2.
Qed.

Lemma nx_infer_none s : nx_infer s = Ok None ->
  exists e', fst (t_infer ex_rng tx_cmp tx_normal tx_str id 100 tx_orc nx_rest "most likely" false s) = Ok e' /\ dget (AStr "kind") e' = None.
Proof.
  unfold nx_infer. intros E.
  destruct (fst (t_infer ex_rng tx_cmp tx_normal tx_str id 100 tx_orc nx_rest "most likely" false s)) as [e'|er]; [|discriminate E].
  exists e'. split; [reflexivity|]. destruct (dget (AStr "kind") e') as [[]|]; done.
Qed.

(** The claims refuted: a value that an attribute had in every instance has
    probability 1; with allow_none=False every attribute that the concept
    knows is inferred with some value. *)
Theorem C107_none_is_a_value_refuted : exists evs s q (d e : inst FX) a v,
  treachable ex_rng tx_cmp tx_normal tx_str id 100 tx0 evs s /\ tgiven evs = [d; d; d] /\ oracle_ok (to_orc q) /\
  dget a d = Some v /\ scalar v = Some (VNom NNone) /\
  fst (te_prob q d a (dget a d) s) = Ok 0%float /\
  dget a e = None /\ (forall b, b <> a -> dget b e = dget b d) /\
  exists e', fst (t_infer ex_rng tx_cmp tx_normal tx_str id 100 q e "most likely" false s) = Ok e' /\ dget a e' = None.
Proof.
  exists (tx_events (nx_calls NNone) (t_new 0 0 tx0)), (nx_state NNone), tx_orc, (nx_inst NNone), nx_rest, (AStr "kind"), (PX (@VNom FloatOps NNone)).
  split; [apply nx_reachable|]. split; [apply nx_given|]. split; [apply id_oracle_ok|]. split; [reflexivity|]. split; [reflexivity|].
  split; [vm_compute; reflexivity|]. split; [reflexivity|]. split.
  { intros b Hb. unfold nx_inst. cbn [dget]. by rewrite decide_False. }
  apply nx_infer_none. vm_compute. reflexivity.
Qed.
(** With another value in its place both hold. *)
Lemma ex_C107_other_value : let v := NStr "a" in
  fst (te_prob tx_orc (nx_inst v) (AStr "kind") (dget (AStr "kind") (nx_inst v)) (nx_state v)) = Ok 1%float /\
  nx_infer (nx_state v) = Ok (Some "a"%string).
Proof. vm_compute. split; reflexivity. Qed.
(** incremental_evaluation with instances whose target is None raises: it asks
    the empty tree first. *)
Lemma ex_C107_evaluation_raises :
  te_rows (te_eval te_prob (replicate 3 (nx_inst NNone)) (AStr "kind") 5 1 false) = Err ZeroDivisionError /\
  te_rows (te_eval te_prob (replicate 3 (nx_inst (NStr "a"))) (AStr "kind") 5 1 false) = Ok [[0; 1; 1]]%float.
Proof. vm_compute. split; reflexivity. Qed.
Print Assumptions C107_none_is_a_value_refuted.
