(** * The concepts of a TrestleTree, in exact arithmetic (C111).

    What C31, C32, C35, C65 and C69 say of a Cobweb3Tree, for the calls on a
    TrestleTree (trestle.py:132-256): the instances are those that the
    structure mapping arrived at. *)
From Coq Require Import Reals Lra.
From stdpp Require Import base decidable list gmap strings sets.
From Coq Require Import Ascii String ZArith.
From Verif Require Import Base Num TreeModel TreeFun TreeScore TreeRefine TreeSorts TreeInv SpecTree TreeState
  TreeTotal TreeLeaf TreeClimb PropsTotal RSum Nominal Utils CV Cobweb3 C3Facts C3R C3Tree C3Total Query Query3 PropsC3 PropsC3R PropsClimb
  PyVal Preproc Preproc2 StructMap StructFacts PropsStruct PreStd Trestle SpecTrestle
  TreeKeep TrestleFacts TrestleFresh TrestleVals TrestleTotal TrestleRun PropsTrestle PropsTrestleR Eval TEval PropsTEval PropsTEvalR PropsTEvalE.
Set Default Proof Using "Type".
Open Scope list_scope.

Section Props.
  Context (rng : nat -> R) (sc : option R) (inner : bool).
  Notation C := (Cobweb3Class ROps).
  Notation X := (val3 ROps).
  Notation x0 := (@new_ctx ROps sc inner).
  Context (ncmp : nom -> nom -> option bool) (normal : R -> R -> A R).
  Context (pystr : attr -> string) (setord : list attr -> list attr) (rlimit : nat).
  Hypothesis Hnormal : forall m sd : R, amono (normal m sd).
  Hypothesis setord_spec : forall l x, x ∈ setord l <-> x ∈ l.
  Notation treachable := (treachable (N:=ROps) rng ncmp normal pystr setord rlimit x0).
  Notation trun := (trun (N:=ROps) rng ncmp normal pystr setord rlimit x0).
  Notation t_ready := (t_ready (N:=ROps) pystr setord rlimit).
  Notation t_fit := (t_fit (N:=ROps) rng pystr setord rlimit).
  Notation t_cat := (t_cat (N:=ROps) rng pystr setord rlimit).
  Notation calls evs := (List.concat (map cobweb_calls evs)).

  Lemma lift evs s : treachable evs s -> Forall t_clean evs ->
    reachable C rng x0 (calls evs) (t_tree s) /\ all_inst (C:=C) good3 (calls evs).
  Proof using Hnormal setord_spec.
    intros Hr Hc. split; [eapply treachable_calls; [exact Hnormal|exact Hr]|].
    apply all_inst_calls. by eapply treachable_good.
  Qed.

  (** The root: counts, and number, mean and squared deviations of the numbers. *)
  Theorem C111_root_summaries evs s : treachable evs s -> Forall t_clean evs -> Forall tfit_ok evs ->
    exists tb, table_of (t_tree s) (st_root (t_tree s)) tb /\
      n3_count tb = List.length (thistory evs) /\
      (forall a v, count_of tb a v = occ3 (thistory evs) a v) /\
      (forall a, numeric_of tb a = summary_of (nums (thistory evs) a)).
  Proof using Hnormal setord_spec.
    intros Hr Hc Hok. destruct (lift _ _ Hr Hc) as [H1 H2]. rewrite <- history_calls.
    eapply C31_root_summaries; [exact H1|exact H2|by apply all_ok_calls].
  Qed.

  (** A leaf: mapped instances that agree on everything visible. *)
  Theorem C111_leaf_instances evs s id tb : treachable evs s -> Forall t_clean evs -> Forall tfit_ok evs ->
    is_leaf (t_tree s) id -> table_of (t_tree s) id tb ->
    exists l : list (inst3 ROps),
      (forall i, i ∈ l -> i ∈ thistory evs) /\ List.length l = n3_count tb /\
      (forall i j a, i ∈ l -> j ∈ l -> visible a = true -> dget a i = dget a j) /\
      (forall a v, count_of tb a v = occ3 l a v) /\
      (forall a, numeric_of tb a = summary_of (nums l a)).
  Proof using Hnormal setord_spec.
    intros Hr Hc Hok Hl Ht. destruct (lift _ _ Hr Hc) as [H1 H2]. rewrite <- history_calls.
    eapply C35_leaf_instances; [exact H1|exact H2|by apply all_ok_calls|exact Hl|exact Ht].
  Qed.

  Theorem C111_ecg_is_probability evs s id tb : treachable evs s -> Forall t_clean evs ->
    in_tree (t_tree s) id -> table_of (t_tree s) id tb -> (exists a, visible a = true /\ a ∈ dkeys (n3_av tb)) ->
    exists g : R, n3_ecg (st_ctx (t_tree s)) tb = Ok g /\ (0 < g <= 1)%R.
  Proof using Hnormal setord_spec.
    intros Hr Hc Hin Ht Hv. destruct (lift _ _ Hr Hc) as [H1 H2].
    eapply C32_ecg_is_probability; [exact H1|exact H2|exact Hin|exact Ht|exact Hv].
  Qed.

  (** The state in which the mapped instance is sorted: the tree as it was. *)
  Lemma ready_state evs s q d j s1 : treachable evs s -> Forall t_clean evs -> pwf (PD d) -> pV (clean (N:=ROps)) (PD d) ->
    t_ready q d s = (Ok j, s1) ->
    grown (t_tree s) (t_tree s1) /\ reachable C rng x0 (calls evs ++ [EOther]) (t_tree s1) /\
    all_inst (C:=C) good3 (calls evs ++ [EOther]) /\ good3 j.
  Proof using Hnormal setord_spec.
    intros Hr Hc Hw Hcl E. destruct (lift _ _ Hr Hc) as [(ctr & rpos & H1) H2].
    pose proof (ready_grown pystr setord rlimit q d s _ _ E) as Hg. split; [exact Hg|]. split.
    - exists ctr, rpos. econstructor; [exact H1|]. by apply grown_other.
    - split; [apply Forall_app; split; [exact H2|constructor; [by intros i Hi|constructor]]|].
      eapply ready_good; [exact setord_spec|exact Hw|exact Hcl|exact E].
  Qed.

  (** ifit returns a leaf of copies of the mapped instance [j], reached by
      taking a best operation at every concept, starting from the tree as it
      was with the numbers of [j] added to the scales. *)
  Theorem C111_ifit evs s q d c s' : treachable evs s -> Forall t_clean evs -> pwf (PD d) -> pV (clean (N:=ROps)) (PD d) ->
    t_fit q d s = (Ok c, s') ->
    exists j s1, t_ready q d s = (Ok j, s1) /\
      st_heap (t_tree s1) = st_heap (t_tree s) /\ st_root (t_tree s1) = st_root (t_tree s) /\
      st_ctx (t_tree s1) = st_ctx (t_tree s) /\
      TreeClimb.climb C j (prepared C j (t_tree s1)) (st_root (t_tree s)) c (t_tree s') /\
      is_leaf (t_tree s') c /\
      exists tb, table_of (t_tree s') c tb /\ 0 < n3_count tb /\
        (forall a v, visible a = true -> dget a j = Some v -> dget a (n3_av tb) = Some (leaf_dict v (n3_count tb))) /\
        (forall a, visible a = true -> dget a j = None -> dget a (n3_av tb) = None).
  Proof using Hnormal setord_spec.
    intros Hr Hc Hw Hcl E. unfold Trestle.t_fit in E. destruct (t_ready q d s) as [[j|e] s1] eqn:Er; [|done].
    destruct (ready_state _ _ _ _ _ _ Hr Hc Hw Hcl Er) as (Hg & H1 & H2 & Hj).
    unfold on_tree in E. destruct (cobweb C rng j (t_tree s1)) as [r s2] eqn:Ec. simpl in E. injection E as -> <-.
    exists j, s1. destruct Hg as (G1 & G2 & G3 & _). split; [done|]. split; [done|]. split; [done|]. split; [done|].
    split; [rewrite <- G2; exact (C69_ifit_climbs3 rng sc inner _ _ j c s2 H1 H2 Hj Ec)|].
    exact (C65_returned_leaf rng sc inner _ _ j c s2 H1 H2 Hj Ec).
  Qed.

  (** categorize goes at every concept to a best child for the mapped instance. *)
  Theorem C111_categorize evs s q d c s' : treachable evs s -> Forall t_clean evs -> pwf (PD d) -> pV (clean (N:=ROps)) (PD d) ->
    t_cat q d s = (Ok c, s') ->
    exists j s1, t_ready q d s = (Ok j, s1) /\
      st_heap (t_tree s1) = st_heap (t_tree s) /\ st_root (t_tree s1) = st_root (t_tree s) /\
      st_ctx (t_tree s1) = st_ctx (t_tree s) /\
      forall p k, in_tree (t_tree s1) p -> child_of (t_tree s1) p k -> desc (t_tree s1) k c ->
        best_child C j (t_tree s1) p [] k.
  Proof using Hnormal setord_spec.
    intros Hr Hc Hw Hcl E. unfold Trestle.t_cat in E. destruct (t_ready q d s) as [[j|e] s1] eqn:Er; [|done].
    destruct (ready_state _ _ _ _ _ _ Hr Hc Hw Hcl Er) as (Hg & H1 & H2 & Hj).
    unfold on_tree in E. destruct (cobweb_categorize C rng j (t_tree s1)) as [r s2] eqn:Ec. simpl in E. injection E as -> <-.
    exists j, s1. destruct Hg as (G1 & G2 & G3 & _). split; [done|]. split; [done|]. split; [done|]. split; [done|].
    exact (C69_categorize_greedy3 rng sc inner _ _ j c s2 H1 H2 Hj Ec).
  Qed.

  (** A leaf stays a leaf of copies of the same instance until clear. *)
  Theorem C111_leaves_persist evs0 s evs s' id tb : treachable evs0 s -> trun s evs s' ->
    Forall t_clean (evs0 ++ evs) -> Forall (fun e => e <> TClear) evs ->
    is_leaf (t_tree s) id -> table_of (t_tree s) id tb -> 0 < n3_count tb ->
    is_leaf (t_tree s') id /\ exists tb', table_of (t_tree s') id tb' /\ same_leaf tb tb'.
  Proof using Hnormal setord_spec.
    intros Hr Hrun Hc Hnc Hl Ht Hp.
    assert (Hr' : treachable (evs0 ++ evs) s').
    { destruct Hr as (ctr & rpos & Hr). exists ctr, rpos. clear -Hr Hrun.
      induction Hrun as [s|s evs s1 e s2 H IH Hs]; [by rewrite app_nil_r|]. rewrite app_assoc. econstructor; [by apply IH|done]. }
    destruct (lift _ _ Hr' Hc) as [_ Hg']. rewrite map_app, concat_app in Hg'. apply Forall_app in Hg' as [_ Hg].
    apply Forall_app in Hc as [Hc _]. destruct (lift _ _ Hr Hc) as [H1 H2].
    destruct (reach_some rng sc inner _ _ H1 H2) as (t & Hok & _).
    eapply C65_leaves_persist; [exact H1| |exact H2|exact Hg| |exact Hl|exact Ht|exact Hp].
    - eapply trun_calls; [exact Hnormal|exact Hok|exact Hrun].
    - clear -Hnc. induction Hnc as [|e evs He _ IH]; [constructor|]. simpl. apply Forall_app. split; [|done].
      destruct e as [d q [j|e] r| | | |]; simpl; repeat constructor; done.
  Qed.
End Props.

(** Three instances were fitted ([tee_calls]); a fourth is fitted under other
    names, and all hypotheses hold. *)
Lemma ex_C111 : treachable (N:=ROps) ex_draws tr_cmp tr_normal tr_str tr_ord 100 tee_x0 tee_events tee_state /\
  Forall t_clean tee_events /\ Forall tfit_ok tee_events /\ pwf (PD (te_inst "?p" "?q" 2 "b")) /\
  pV (clean (N:=ROps)) (PD (te_inst "?p" "?q" 2 "b")) /\
  (exists c s', t_fit (N:=ROps) ex_draws tr_str tr_ord 100 tr_orc (te_inst "?p" "?q" 2 "b") tee_state = (Ok c, s')) /\
  exists c s', t_cat (N:=ROps) ex_draws tr_str tr_ord 100 tr_orc (te_inst "?p" "?q" 2 "b") tee_state = (Ok c, s').
Proof.
  destruct ex_C99_errors as (Hr & Hc & Hok & Hw & _).
  pose proof (te_askable "?p" "?q" 2 "b" ltac:(done) eq_refl eq_refl ltac:(done)) as (Hf & _ & _).
  assert (Hs : Forall t_sensible tee_events).
  { apply (tevents_all (N:=ROps) ex_draws tr_cmp tr_normal tr_str tr_ord 100 t_fits). exact tee_fits. }
  destruct (C76_fitting_never_raises ex_draws (Some 1%R) true tr_cmp tr_normal tr_str tr_ord 100) with (evs := tee_events) (s := tee_state) as [_ Hn];
    [intros m sd a; split; simpl; lia|done|exact ex_draws_distinct|exact Hr|exact Hs|].
  split; [exact Hr|]. split; [exact Hc|]. split; [exact Hok|]. split; [exact Hw|].
  split; [repeat constructor; unfold clean; simpl; done|].
  destruct (Hn tr_orc _ id_oracle_ok Hf) as [(c & Hc1) (c2 & Hc2)]. split.
  - destruct (t_fit (N:=ROps) ex_draws tr_str tr_ord 100 tr_orc (te_inst "?p" "?q" 2 "b") tee_state) as [r s']. simpl in Hc1. subst r. by exists c, s'.
  - destruct (t_cat (N:=ROps) ex_draws tr_str tr_ord 100 tr_orc (te_inst "?p" "?q" 2 "b") tee_state) as [r s']. simpl in Hc2. subst r. by exists c2, s'.
Qed.
Print Assumptions C111_ifit.
