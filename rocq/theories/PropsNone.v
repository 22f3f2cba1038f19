(** * A value None of a TrestleTree is taken for a missing one: C107, exact arithmetic *)
From Coq Require Import Reals Lra.
From stdpp Require Import base decidable list gmap strings.
From Coq Require Import String.
From Verif Require Import Base Num TreeModel TreeFun TreeScore TreeRefine TreeSorts TreeInv SpecTree TreeState
  TreeTotal TreeLeaf PropsTotal Nominal Utils CV Cobweb3 C3Facts C3R C3Tree C3Total Query Query3 PropsC3 PropsC3R PropsQ3
  PyVal Preproc Preproc2 StructMap StructFacts PropsStruct PreStd Trestle SpecTrestle
  TreeKeep TrestleFacts TrestleFresh TrestleVals TrestleTotal TrestleRun PropsTrestle PropsTrestleR Eval PropsEval3 TEval PropsTEval.
Set Default Proof Using "Type".
Open Scope list_scope.

Section Real.
  Context (rng : nat -> R) (sc : option R) (inner : bool).
  Notation C := (Cobweb3Class ROps).
  Notation X := (val3 ROps).
  Notation x0 := (@new_ctx ROps sc inner).
  Context (ncmp : nom -> nom -> option bool) (normal : R -> R -> A R).
  Context (pystr : attr -> string) (setord : list attr -> list attr) (rlimit : nat).
  Hypothesis Hnormal : forall m sd : R, amono (normal m sd).
  Hypothesis setord_spec : forall l x, x ∈ setord l <-> x ∈ l.
  Notation treachable := (treachable (N:=ROps) rng ncmp normal pystr setord rlimit x0).
  Notation t_cat := (t_cat (N:=ROps) rng pystr setord rlimit).
  Notation t_score_probability := (t_score_probability (N:=ROps) rng pystr setord rlimit).

  (** The score of None, stored in the instance or not, is the share of the
      instances of the leaf that have no value at all under the name; those
      that have None are not among them.  On an empty tree it raises. *)
  Theorem C107_none_scores_as_missing evs s q d a c s1 : treachable evs s -> Forall t_clean evs -> pwf (PD d) -> oracle_ok (to_orc q) ->
    t_cat q (t_hide a d) s = (Ok c, s1) ->
    exists tb l, is_leaf (t_tree s) c /\ table_of (t_tree s) c tb /\ describes tb l /\ (forall j, j ∈ l -> j ∈ thistory evs) /\
      forall v, v = None \/ (exists w, v = Some w /\ scalar w = Some (VNom NNone)) ->
      fst (t_score_probability q d a v s) =
        if decide (l = []) then Err ZeroDivisionError else Ok (INR (having l a Missing) / INR (List.length l))%R.
  Proof using Hnormal setord_spec.
    intros Hr Hc Hw Ho Ec.
    destruct (concept_leaf (N:=ROps) rng ncmp normal pystr setord rlimit Hnormal sc inner _ _ _ _ _ _ _ Hr Hw Ho Ec) as (tb & Et & Hl & Ht).
    pose proof (treachable_calls (N:=ROps) rng ncmp normal pystr setord rlimit Hnormal _ _ _ Hr) as Hrc.
    assert (Hg : all_inst (C:=C) good3 (List.concat (map cobweb_calls evs))).
    { apply all_inst_calls. exact (treachable_good (N:=ROps) rng ncmp normal pystr setord rlimit Hnormal setord_spec sc inner _ _ Hr Hc). }
    pose proof Hl as [Hin _].
    assert (Hs : exists l : list (inst3 ROps), describes tb l /\ (forall j, j ∈ l -> j ∈ thistory evs) /\
      probability3 (st_ctx (t_tree s1)) tb a None =
        if decide (l = []) then Err ZeroDivisionError else Ok (INR (having l a Missing) / INR (List.length l))%R).
    { destruct (decide (n3_count tb = 0)) as [H0|H0].
      - exists []. rewrite (decide_True (P:=[] = [])) by done.
        destruct (reach_hist rng sc inner _ _ _ _ Hrc Hg Hin Ht) as (lj & Hlj & _).
        assert (lj = []) as ->. { destruct Hlj as [E _]. rewrite H0 in E. by destruct lj. }
        split; [by apply HistR_describes|]. split; [intros j Hj; by apply elem_of_nil in Hj|].
        assert (Hn : dget a (n3_av tb) = None).
        { destruct (dget a (n3_av tb)) as [dd|] eqn:Ed; [|done]. exfalso.
          destruct (proj2 (known_table tb [] Hlj a)) as (j & Hj & _); [by rewrite Ed|]. by apply elem_of_nil in Hj. }
        unfold probability3. rewrite Hn, H0. cbn [rbind]. unfold pydiv. by rewrite (ct_zero _ counting_R).
      - assert (Hp : (0 < n3_count tb)%nat) by lia.
        destruct (C72_probability_is_share rng sc inner _ _ _ _ Hrc Hg Hin Ht Hp (st_ctx (t_tree s1)) a) as (l & Hne & Hsub & Hde & Hk & _).
        exists l. split; [done|]. split; [intros j Hj; rewrite <- history_calls; by apply Hsub|]. by rewrite decide_False by done. }
    destruct Hs as (l & Hde & Hsub & Hp). exists tb, l. split; [done|]. split; [done|]. split; [done|]. split; [done|]. intros v Hv.
    unfold TEval.t_score_probability. rewrite Et. cbn [fst]. rewrite <- Hp.
    destruct Hv as [->|(w & -> & Hs)]; [done|].
    destruct w as [str|x|ll|ll]; simpl in Hs; try done; injection Hs as ->; done.
  Qed.
End Real.
Print Assumptions C107_none_scores_as_missing.
