(** * How big a TrestleTree can get (C106), and a run on doubles. *)
From stdpp Require Import base decidable list gmap strings sets.
From Coq Require Import Ascii String ZArith Floats.
From Verif Require Import Base Num FloatNum TreeModel TreeFun TreeScore TreeRefine TreeSorts TreeInv SpecTree TreeState TreeTotal TreeKeep Nominal Query Query3 CV Cobweb3 C3Facts
  PyVal Preproc Preproc2 StructMap PropsStruct Trestle SpecTrestle TrestleFacts TrestleFresh TrestleRaise TrestleVals TrestleTotal
  PropsSize PropsTrestle Example PropsTrestleX.
Set Default Proof Using "Type".
Open Scope list_scope.

Section Props.
  Context {N : NumOps} (rng : nat -> num N).
  Notation F := (num N).
  Context (ncmp : nom -> nom -> option bool) (normal : F -> F -> A F).
  Context (pystr : attr -> string) (setord : list attr -> list attr) (rlimit : nat).
  Hypothesis Hnormal : forall m sd, amono (normal m sd).
  Hypothesis setord_spec : forall l x, x ∈ setord l <-> x ∈ l.
  Notation treachable := (treachable rng ncmp normal pystr setord rlimit).

  (** The bounds of C106, by the number of instances that reached the tree
      since it was created or last cleared. *)
  Theorem C106_size_trestle sc inner evs s :
    treachable (@new_ctx N sc inner) evs s -> Forall t_clean evs -> Forall tfit_ok evs ->
    bounded (Cobweb3Class N) (t_tree s) (List.length (thistory evs)).
  Proof using Hnormal setord_spec.
    intros Hr Hc Hok. rewrite <- history_calls.
    eapply C106_size3; [eapply treachable_calls; [exact Hnormal|exact Hr]| |by apply all_ok_calls].
    apply all_inst_calls. by eapply treachable_good.
  Qed.
End Props.

(** Three instances were fitted; all hypotheses hold. *)
Lemma ex_C106_trestle : Forall tfit_ok (tx_events tx_calls (t_new 0 0 tx0)) /\
  List.length (thistory (tx_events tx_calls (t_new 0 0 tx0))) = 3 /\ bounded (Cobweb3Class FloatOps) (t_tree tx_state) 3.
Proof.
  assert (Hok : Forall tfit_ok (tx_events tx_calls (t_new 0 0 tx0))).
  { assert (Hb : forallb (fun e : tevent FloatOps => match e with TFit _ _ _ (Err _) => false | _ => true end)
      (tx_events tx_calls (t_new 0 0 tx0)) = true) by (vm_compute; reflexivity).
    rewrite Forall_forall. rewrite forallb_forall in Hb. intros e He. apply elem_of_list_In in He. specialize (Hb e He).
    by destruct e as [? ? ? [?|?]| | | |]. }
  pose proof (proj1 ex_C75_history) as Hl. split; [done|]. split; [done|]. rewrite <- Hl.
  exact (C106_size_trestle ex_rng tx_cmp tx_normal tx_str id 100 tx_normal_mono (fun l x => conj (fun H => H) (fun H => H))
    (Some 0.5%float) true _ tx_state tx_reachable tx_clean Hok).
Qed.
