(** * evaluation.py on a TrestleTree: C99, exact arithmetic *)
From Coq Require Import Reals Lra.
From stdpp Require Import base decidable list gmap strings.
From Coq Require Import String.
From Verif Require Import Base Num TreeModel TreeFun TreeScore TreeRefine TreeSorts TreeInv SpecTree TreeState
  TreeTotal TreeLeaf PropsTotal Nominal Utils CV Cobweb3 C3Facts C3R C3Tree C3Total Query Query3 PropsC3 PropsC3R PropsQ3
  PyVal Preproc Preproc2 StructMap StructFacts PropsStruct PreStd Trestle SpecTrestle
  TreeKeep TrestleFacts TrestleFresh TrestleVals TrestleTotal TrestleRun PropsTrestle PropsTrestleR Eval PropsEval3 TEval PropsTEval.
Set Default Proof Using "Type".
Open Scope list_scope.

Section Real.
  Context (rng : nat -> R) (sc : option R) (inner : bool).
  Notation C := (Cobweb3Class ROps).
  Notation X := (val3 ROps).
  Notation x0 := (@new_ctx ROps sc inner).
  Context (ncmp : nom -> nom -> option bool) (normal : R -> R -> A R).
  Context (pystr : attr -> string) (setord : list attr -> list attr) (rlimit : nat).
  Hypothesis Hnormal : forall m sd : R, amono (normal m sd).
  Hypothesis setord_spec : forall l x, x ∈ setord l <-> x ∈ l.
  Notation treachable := (treachable (N:=ROps) rng ncmp normal pystr setord rlimit x0).
  Notation t_cat := (t_cat (N:=ROps) rng pystr setord rlimit).
  Notation t_fit := (t_fit (N:=ROps) rng pystr setord rlimit).
  Notation t_score_probability := (t_score_probability (N:=ROps) rng pystr setord rlimit).

  (** The concept that is asked is a leaf; its table is that of mapped
      instances that were given.  The score of a nominal value is the share of
      those that have the value under this very name. *)
  Theorem C99_probability_is_share evs s q d a c s1 v : treachable evs s -> Forall t_clean evs -> pwf (PD d) -> oracle_ok (to_orc q) ->
    t_cat q (t_hide a d) s = (Ok c, s1) -> v <> cv_key -> v <> NNone ->
    exists tb l, is_leaf (t_tree s) c /\ table_of (t_tree s) c tb /\ describes tb l /\ (forall j, j ∈ l -> j ∈ thistory evs) /\
      forall w, scalar w = Some (VNom v) ->
      fst (t_score_probability q d a (Some w) s) =
        Ok (if decide (l = []) then 0 else INR (having l a (Nominal v)) / INR (List.length l))%R.
  Proof using Hnormal setord_spec.
    intros Hr Hc Hw Ho Ec Hv Hvn.
    destruct (concept_leaf (N:=ROps) rng ncmp normal pystr setord rlimit Hnormal sc inner _ _ _ _ _ _ _ Hr Hw Ho Ec) as (tb & Et & Hl & Ht).
    destruct (cat_leaf (N:=ROps) rng ncmp normal pystr setord rlimit Hnormal sc inner _ _ _ _ _ _ Hr (pwf_hide a d Hw) Ho Ec) as ((_ & _ & Ex & _) & _ & _).
    pose proof (treachable_calls (N:=ROps) rng ncmp normal pystr setord rlimit Hnormal _ _ _ Hr) as Hrc.
    assert (Hg : all_inst (C:=C) good3 (List.concat (map cobweb_calls evs))).
    { apply all_inst_calls. exact (treachable_good (N:=ROps) rng ncmp normal pystr setord rlimit Hnormal setord_spec sc inner _ _ Hr Hc). }
    pose proof Hl as [Hin _].
    assert (Hs : exists l : list (inst3 ROps), describes tb l /\ (forall j, j ∈ l -> j ∈ thistory evs) /\
      probability3 (st_ctx (t_tree s1)) tb a (Some (VNom v)) = Ok (if decide (l = []) then 0 else INR (having l a (Nominal v)) / INR (List.length l))%R).
    { destruct (decide (n3_count tb = 0)) as [H0|H0].
      - exists []. rewrite (decide_True (P:=[] = [])) by done.
        destruct (reach_hist rng sc inner _ _ _ _ Hrc Hg Hin Ht) as (lj & Hlj & _).
        assert (lj = []) as ->. { destruct Hlj as [E _]. rewrite H0 in E. by destruct lj. }
        split; [by apply HistR_describes|]. split; [intros j Hj; by apply elem_of_nil in Hj|].
        destruct Hlj as (_ & _ & Hne & Hcc). specialize (Hcc a). cbn [probability3].
        destruct (dget a (n3_av tb)) as [dd|] eqn:Ed; [|done].
        destruct Hcc as (_ & _ & Hcc & _). specialize (Hcc v Hv). cbn [default occ3] in Hcc. rewrite decide_True in Hcc by done.
        unfold Datatypes.id in Hcc. by rewrite Hcc.
      - assert (Hp : (0 < n3_count tb)%nat) by lia.
        destruct (C72_probability_is_share rng sc inner _ _ _ _ Hrc Hg Hin Ht Hp (st_ctx (t_tree s1)) a) as (l & Hne & Hsub & Hde & _ & Hk).
        exists l. split; [done|]. split; [intros j Hj; rewrite <- history_calls; by apply Hsub|]. rewrite decide_False by done. by apply Hk. }
    destruct Hs as (l & Hde & Hsub & Hp). exists tb, l. split; [done|]. split; [done|]. split; [done|]. split; [done|]. intros w Hs.
    unfold TEval.t_score_probability. rewrite Et. cbn [fst]. rewrite <- Hp.
    destruct w as [str|x|ll|ll]; simpl in Hs; try done; unfold t_prob; cbn [scalar]; injection Hs as ->;
      by rewrite some_val_id by congruence.
  Qed.

  (** ** The default evaluation returns *)
  Hypothesis Hd : @distinct_draws ROps rng.
  (** An instance of which the tree can be asked. *)
  Definition t_askable (a : attr) (d : inst X) : Prop :=
    t_fits d /\ t_fits (without a d) /\ exists w, dget a d = Some w /\ scalar w <> None /\ scalar w <> Some (VNom NNone).

  Lemma askable_score evs s q a d : treachable evs s -> Forall t_sensible evs -> oracle_ok (to_orc q) -> t_askable a d ->
    exists y s', t_score_probability q d a (dget a d) s = (Ok y, s') /\ (0 <= y <= 1)%R.
  Proof using Hnormal setord_spec Hd.
    intros Hr He Ho (Hf & Hf' & w & Hw & Hs & Hs').
    assert (Hh : t_hide a d = without a d).
    { unfold t_hide, dmem. by rewrite Hw. }
    destruct (C76_fitting_never_raises rng sc inner ncmp normal pystr setord rlimit Hnormal setord_spec Hd evs s Hr He) as [_ Hn].
    destruct (Hn q (without a d) Ho Hf') as [_ (c & Hc)].
    destruct (t_cat q (without a d) s) as [rc s1] eqn:Ec. cbn [fst] in Hc. subst rc. rewrite <- Hh in Ec.
    pose proof (tf_wf _ Hf) as Hwf.
    destruct (concept_leaf (N:=ROps) rng ncmp normal pystr setord rlimit Hnormal sc inner _ _ _ _ _ _ _ Hr Hwf Ho Ec) as (tb & Et & [Hin _] & Ht).
    destruct (cat_leaf (N:=ROps) rng ncmp normal pystr setord rlimit Hnormal sc inner _ _ _ _ _ _ Hr (pwf_hide a d Hwf) Ho Ec) as ((_ & _ & Ex & _) & _ & _).
    destruct (treachable_wn rng sc inner ncmp normal pystr setord rlimit Hnormal setord_spec evs s Hr He) as (_ & H2 & _).
    pose proof (treachable_calls (N:=ROps) rng ncmp normal pystr setord rlimit Hnormal _ _ _ Hr) as Hrc.
    assert (Hg : all_inst (C:=C) good3 (List.concat (map cobweb_calls evs))).
    { apply all_inst_calls. eapply Forall_impl; [exact H2|]. intros e. destruct e as [? ? [j|] ?| | | |]; simpl; [|done..]. by intros [? _]. }
    destruct (scalar w) as [x|] eqn:Esw; [|done].
    assert (Hcv : x <> VNom cv_key).
    { intros ->. pose proof (tf_plain _ Hf) as Hp. inversion Hp as [| | |? HF]; subst. apply dget_In in Hw.
      rewrite Forall_forall in HF. specialize (HF _ Hw). simpl in HF.
      destruct w; simpl in Esw; try done; inversion HF as [? [Hcl _]|? [Hcl _]| |]; subst; by apply Hcl. }
    destruct (prob3_bounds rng sc inner _ _ _ _ a x Hrc Hg Hin Ht Hcv) as (p & Hp & Hb).
    exists p, s1. split; [|done]. unfold TEval.t_score_probability. rewrite Et, Ex, Hw.
    destruct w; simpl in Esw; try done; injection Esw as <-; unfold t_prob; simpl scalar; rewrite some_val_id by congruence;
      exact (f_equal (fun r => (r, s1)) Hp).
  Qed.

  Section Total.
    Context (shuffled : nat -> list (inst X) -> list (inst X)) (a : attr) (qs qf : nat -> nat -> torc ROps).
    Hypothesis Hshuf : forall r l, Permutation l (shuffled r l).
    Hypothesis Hqs : forall r k, oracle_ok (to_orc (qs r k)).
    Hypothesis Hqf : forall r k, oracle_ok (to_orc (qf r k)).
    Notation share := (fun y : R => (0 <= y <= 1)%R).

    Lemma t_row_total r l : Forall (t_askable a) l -> forall k evs s, treachable evs s -> Forall t_sensible evs ->
      exists row s' ext, t_eval_row (N:=ROps) rng pystr setord rlimit t_score_probability (qs r) (qf r) a k l s = (Ok row, s') /\
        Forall share row /\ treachable (evs ++ ext) s' /\ Forall t_sensible (evs ++ ext).
    Proof using Hnormal setord_spec Hd Hqs Hqf.
      induction 1 as [|d l Hi Hl IH]; intros k evs s Hr He.
      { exists [], s, []. rewrite app_nil_r. split; [done|]. split; [by apply Forall_nil_2|done]. }
      destruct (askable_score evs s (qs r k) a d Hr He (Hqs r k) Hi) as (y & s1 & E1 & Hy).
      pose proof Hi as (Hf & _). pose proof (tf_wf _ Hf) as Hw.
      destruct (C99_scores_only_ask (N:=ROps) rng ncmp normal pystr setord rlimit (fun _ => None) Hnormal sc inner) as (Hask & _).
      destruct (Hask _ _ _ _ _ _ _ _ Hr Hw (Hqs r k) E1) as (_ & ext1 & Ha1 & Hr1).
      assert (He1 : Forall t_sensible (evs ++ ext1)).
      { apply Forall_app. split; [done|]. eapply Forall_impl; [exact Ha1|]. by intros []. }
      destruct (C76_fitting_never_raises rng sc inner ncmp normal pystr setord rlimit Hnormal setord_spec Hd _ _ Hr1 He1) as [_ Hn].
      destruct (Hn (qf r k) d (Hqf r k) Hf) as [(c & Hc) _].
      destruct (t_fit (qf r k) d s1) as [rc s2] eqn:E2. cbn [fst] in Hc. subst rc.
      set (e2 := TFit d (qf r k) (fst (t_ready (N:=ROps) pystr setord rlimit (qf r k) d s1)) (Ok c)).
      assert (Hr2 : treachable ((evs ++ ext1) ++ [e2]) s2) by (eapply treach_snoc; [exact Hr1|]; by constructor).
      assert (He2 : Forall t_sensible ((evs ++ ext1) ++ [e2])).
      { apply Forall_app. split; [done|]. by apply Forall_cons_2; [|apply Forall_nil_2]. }
      destruct (IH (S k) _ _ Hr2 He2) as (row & s3 & ext & E3 & G1 & G2 & G3).
      exists (y :: row), s3, (ext1 ++ [e2] ++ ext). simpl. rewrite E1, E2, E3. split; [done|].
      split; [by apply Forall_cons_2|]. rewrite <- !app_assoc in G2, G3. done.
    Qed.

    Lemma t_runs_total run_length n : forall r rf l evs s, Forall (t_askable a) l -> treachable evs s -> Forall t_sensible evs ->
      exists table l' s', t_eval_runs (N:=ROps) rng pystr setord rlimit x0 t_score_probability shuffled qs qf a run_length n r rf l s = (Ok (table, l'), s') /\
        Forall (Forall share) table.
    Proof using Hnormal setord_spec Hd Hqs Hqf Hshuf.
      induction n as [|n IH]; intros r rf l evs s Hl Hr He; cbn [t_eval_runs].
      { exists [], l, s. split; [done|]. by apply Forall_nil_2. }
      cbv zeta. set (lr := if rf || (0 <? r)%nat then shuffled r l else l).
      assert (Hlr : Forall (t_askable a) lr). { unfold lr. destruct (rf || (0 <? r)%nat); [by rewrite <- Hshuf|done]. }
      assert (Hr1 : treachable (evs ++ [TClear]) (t_clear x0 s)) by (eapply treach_snoc; [exact Hr|]; apply tstep_clear).
      assert (He1 : Forall t_sensible (evs ++ [TClear])).
      { apply Forall_app. split; [done|]. by apply Forall_cons_2; [|apply Forall_nil_2]. }
      destruct (t_row_total r _ (Forall_take _ (run_length + 2) _ Hlr) 0%nat _ _ Hr1 He1) as (row & s2 & ext & E2 & G1 & G2 & G3).
      rewrite E2. destruct (IH (S r) rf lr _ _ Hlr G2 G3) as (table & l' & s3 & E3 & G4).
      rewrite E3. exists (row :: table), l', s3. split; [done|]. by apply Forall_cons_2.
    Qed.

    Theorem C99_evaluation_returns evs s l run_length runs rf : treachable evs s -> Forall t_sensible evs -> Forall (t_askable a) l ->
      exists table l' s',
        t_incremental_evaluation (N:=ROps) rng pystr setord rlimit x0 t_score_probability shuffled qs qf l a run_length runs rf s = (Ok (table, l'), s') /\
        Forall (Forall (fun y : R => 0 <= y <= 1)%R) table.
    Proof using Hnormal setord_spec Hd Hqs Hqf Hshuf. intros Hr He Hl. exact (t_runs_total run_length runs 0%nat rf l evs s Hl Hr He). Qed.
  End Total.
End Real.

(** An attribute of its own, beside components and a relation. *)
Definition te_inst (u v : string) (x : R) (k : string) : inst (val3 ROps) := (AStr "kind", PStr k) :: tr_inst u v x.
Lemma te_askable u v x k : u <> v -> is_var u = true -> is_var v = true -> k <> "#ContinuousValue#"%string -> t_askable (AStr "kind") (te_inst u v x k).
Proof.
  intros Huv Hu Hv Hk. pose proof (tr_inst_fits u v x Huv Hu Hv) as Hf. pose proof Hf as [Hw Hn Hs Hp].
  assert (Huk : AStr "kind" <> AStr u) by (intros [= E]; rewrite <- E in Hu; discriminate Hu).
  split; [split|split].
  - inversion Hw as [| | |? Hdw HF]; subst. constructor.
    + apply NoDup_cons. split; [|exact Hdw]. intros Hin. simpl in Hin. repeat (apply elem_of_cons in Hin as [Hin|Hin]; [done|]). by apply elem_of_nil in Hin.
    + apply Forall_cons_2; [constructor|done].
  - inversion Hn; subst. constructor; (apply Forall_cons_2; [|assumption]); [done|constructor].
  - inversion Hs; subst; [eapply pvis_here|eapply pvis_in]; eauto using elem_of_list_further.
  - inversion Hp; subst. constructor. apply Forall_cons_2; [|done]. constructor. split; [|simpl; eauto]. unfold clean. simpl. by intros [= ->].
  - assert (without (AStr "kind") (te_inst u v x k) = tr_inst u v x) as ->; [|done].
    unfold without, te_inst, tr_inst. rewrite !filter_cons. cbn [fst]. rewrite decide_False by (intros H; by apply H).
    rewrite decide_True by (intros H; by apply Huk). rewrite !decide_True by done. done.
  - exists (PStr k). split; [|done]. reflexivity.
Qed.
Lemma ex_C99_evaluation_returns : exists table l' s',
  t_incremental_evaluation (N:=ROps) ex_draws tr_str tr_ord 100 (new_ctx (N:=ROps) (Some 1%R) true)
    (t_score_probability (N:=ROps) ex_draws tr_str tr_ord 100) (fun _ => @rev _) (fun _ _ => tr_orc) (fun _ _ => tr_orc)
    [te_inst "?x" "?y" 1 "a"; te_inst "?u" "?v" 2 "b"; te_inst "?o2" "?o1" 3 "a"] (AStr "kind") 5 2 true
    (t_new 0 0 (new_ctx (N:=ROps) (Some 1%R) true)) = (Ok (table, l'), s') /\
  Forall (Forall (fun y : R => 0 <= y <= 1)%R) table.
Proof.
  apply (C99_evaluation_returns ex_draws (Some 1%R) true tr_cmp tr_normal tr_str tr_ord 100) with (evs := []).
  - intros m sd a. split; simpl; lia.
  - done.
  - exact ex_draws_distinct.
  - intros _ l. apply Permutation_rev.
  - intros _ _. apply id_oracle_ok.
  - intros _ _. apply id_oracle_ok.
  - exists 0%nat, 0%nat. constructor.
  - apply Forall_nil_2.
  - repeat (apply Forall_cons_2; [by apply te_askable|]). apply Forall_nil_2.
Qed.
Print Assumptions C99_probability_is_share.
Print Assumptions C99_evaluation_returns.
