(** * Histories of TrestleTree objects made by lists of calls. *)
From stdpp Require Import base decidable list gmap strings.
From Coq Require Import String ZArith.
From Verif Require Import Base Num TreeModel Nominal CV Cobweb3 Query Query3 PyVal Preproc Preproc2 StructMap StructFacts
  PreStd Trestle SpecTree SpecTrestle.
Set Default Proof Using "Type".
Open Scope list_scope.

(** ** From calls to histories *)
Section Calls.
  Context {N : NumOps} (rng : nat -> num N).
  Context (ncmp : nom -> nom -> option bool) (normal : num N -> num N -> A (num N)).
  Context (pystr : attr -> string) (setord : list attr -> list attr) (rlimit : nat).
  Notation texec := (texec rng ncmp normal pystr setord rlimit).
  Notation trun := (trun rng ncmp normal pystr setord rlimit).

  Definition call_ok (c : tcall N) : Prop :=
    match c with
    | TCFit d q | TCCat d q | TCInfer d _ _ q => pwf (PD d) /\ oracle_ok (to_orc q)
    | _ => True
    end.
  (** The events of a list of calls. *)
  Fixpoint tevents (x0 : ctx3 N) (cs : list (tcall N)) (s : tst N) : list (tevent N) :=
    match cs with
    | [] => []
    | c :: cs =>
        let '(r, s1) := texec1 rng ncmp normal pystr setord rlimit x0 c s in
        (match c, r with
         | TCFit d q, TConcept r => TFit d q (fst (t_ready pystr setord rlimit q d s)) r
         | TCCat d q, TConcept r => TCat d q r
         | TCInfer d f b q, TInstance r => TInfer d f b q r
         | TCClear, _ => TClear
         | _, _ => TOther
         end) :: tevents x0 cs s1
    end.
  Lemma trun_cons x0 s1 e s2 evs s3 : tstep rng ncmp normal pystr setord rlimit x0 s1 e s2 ->
    trun x0 s2 evs s3 -> trun x0 s1 (e :: evs) s3.
  Proof.
    intros Hs H. induction H as [s2|s2 evs s3 e' s4 H IH Hs'].
    - apply (trun_snoc _ _ _ _ _ _ x0 s1 [] s1 e s2); [constructor|done].
    - apply (trun_snoc _ _ _ _ _ _ x0 s1 (e :: evs) s3 e' s4); [by apply IH|done].
  Qed.
  Lemma texec_run x0 cs : Forall call_ok cs -> forall s, trun x0 s (tevents x0 cs s) (snd (texec x0 cs s)).
  Proof.
    induction 1 as [|c cs Hc Hcs IH]; intros s; [constructor|]. simpl.
    destruct (texec1 rng ncmp normal pystr setord rlimit x0 c s) as [r s1] eqn:E. specialize (IH s1).
    destruct (texec x0 cs s1) as [rs s2]. simpl in *. eapply trun_cons; [|exact IH].
    destruct c as [d q|d q|d f b q|dc dr|]; simpl in *.
    - destruct Hc as [Hc1 Hc2]. destruct (t_fit _ _ _ _ q d s) as [r1 s1'] eqn:E1. injection E as <- <-. by apply tstep_fit.
    - destruct Hc as [Hc1 Hc2]. destruct (t_cat _ _ _ _ q d s) as [r1 s1'] eqn:E1. injection E as <- <-. by apply tstep_cat.
    - destruct Hc as [Hc1 Hc2]. destruct (t_infer _ _ _ _ _ _ q d f b s) as [r1 s1'] eqn:E1. injection E as <- <-. by apply tstep_infer.
    - injection E as <- <-. apply tstep_other; simpl; lia.
    - injection E as <- <-. apply tstep_clear.
  Qed.
  (** Sensible calls make sensible histories. *)
  Lemma tevents_all (P : inst (val3 N) -> Prop) x0 cs :
    (forall d q, TCFit d q ∈ cs -> P d) -> forall s,
    Forall (fun e => match e with TFit d _ _ _ => P d | _ => True end) (tevents x0 cs s).
  Proof.
    induction cs as [|c cs IH]; intros H s; [constructor|]. simpl.
    destruct (texec1 rng ncmp normal pystr setord rlimit x0 c s) as [r s1]. constructor.
    - destruct c as [d q|d q|d f b q|dc dr|]; [destruct r|destruct r|destruct r| |]; try exact I. apply (H d q). left.
    - apply IH. intros d q Hd. apply (H d q). by right.
  Qed.
End Calls.

