(** * evaluation.py on a TrestleTree: the error scores (C99), exact arithmetic *)
From Coq Require Import Reals Lra.
From stdpp Require Import base decidable list gmap strings.
From Coq Require Import String.
From Verif Require Import Base Num TreeModel TreeFun TreeScore TreeRefine TreeSorts TreeInv SpecTree TreeState
  TreeTotal TreeLeaf PropsTotal Nominal Utils CV Cobweb3 C3Facts C3R C3Tree C3Total Query Query3 PropsC3 PropsC3R PropsQ3
  PyVal Preproc Preproc2 StructMap StructFacts PropsStruct PreStd Trestle SpecTrestle
  TreeKeep TrestleFacts TrestleFresh TrestleVals TrestleTotal TrestleRun PropsTrestle PropsTrestleR Eval PropsEval3 TEval PropsTEval PropsTEvalR.
Set Default Proof Using "Type".
Open Scope list_scope.

Section Real.
  Context (rng : nat -> R) (sc : option R) (inner : bool).
  Notation C := (Cobweb3Class ROps).
  Notation X := (val3 ROps).
  Notation x0 := (@new_ctx ROps sc inner).
  Context (ncmp : nom -> nom -> option bool) (normal : R -> R -> A R).
  Context (pystr : attr -> string) (setord : list attr -> list attr) (rlimit : nat).
  Context (arith_of : nom -> option R).
  Hypothesis Hnormal : forall m sd : R, amono (normal m sd).
  Hypothesis setord_spec : forall l x, x ∈ setord l <-> x ∈ l.
  Notation treachable := (treachable (N:=ROps) rng ncmp normal pystr setord rlimit x0).
  Notation t_cat := (t_cat (N:=ROps) rng pystr setord rlimit).
  Notation t_score_probability := (t_score_probability (N:=ROps) rng pystr setord rlimit).
  Notation t_score_error := (t_score_error (N:=ROps) rng ncmp normal pystr setord rlimit arith_of).
  Notation t_score_absolute_error := (t_score_absolute_error (N:=ROps) rng ncmp normal pystr setord rlimit arith_of).
  Notation t_score_squared_error := (t_score_squared_error (N:=ROps) rng ncmp normal pystr setord rlimit arith_of).
  Notation E := (Cobweb3Eval (N:=ROps) rng ncmp normal arith_of).

  (** A value that is None counts as a missing one. *)
  Inductive taken : option X -> option X -> Prop :=
  | taken_none : taken (Some (VNom NNone)) None
  | taken_as_is v : v <> Some (VNom NNone) -> taken v v.
  Lemma taken_some_val v v' : taken v v' -> some_val v = v'.
  Proof. intros [|[w|] H]; [done| |done]. apply some_val_id. congruence. Qed.

  (** The concept that is asked is a leaf; its instances, as they were mapped,
      have one value under the name asked for, or none.  The three errors
      compare the given value with it.  A list is different from everything
      and its probability raises unless the name is unknown; a component
      raises. *)
  Theorem C99_errors evs s q d a c s1 :
    treachable evs s -> Forall t_clean evs -> Forall tfit_ok evs -> pwf (PD d) -> oracle_ok (to_orc q) -> visible a = true ->
    t_cat q (t_hide a d) s = (Ok c, s1) ->
    exists tb (held : option X) l, is_leaf (t_tree s) c /\ table_of (t_tree s) c tb /\ describes tb l /\
      (forall j, j ∈ l -> j ∈ thistory evs) /\ (forall j, j ∈ l -> dget a j = held) /\ (l = [] -> held = None) /\
      (forall v v' held', (forall w, v = Some w -> scalar w <> None) ->
        taken (match v with Some w => scalar w | None => None end) v' -> taken held held' ->
        errors_spec num3 (arith3 arith_of) (same3 arith_of) v' held'
          (fst (t_score_error q d a v s)) (fst (t_score_absolute_error q d a v s)) (fst (t_score_squared_error q d a v s))) /\
      (forall w, fst (t_score_error q d a (Some (PL w)) s) = Ok 1%R /\ fst (t_score_absolute_error q d a (Some (PL w)) s) = Ok 1%R /\
        fst (t_score_squared_error q d a (Some (PL w)) s) = Ok 1%R /\
        fst (t_score_probability q d a (Some (PL w)) s) = match held with Some _ => Err TypeError | None => Ok 0%R end) /\
      (forall w, fst (t_score_error q d a (Some (PD w)) s) = Err OtherException /\
        fst (t_score_absolute_error q d a (Some (PD w)) s) = Err OtherException /\
        fst (t_score_squared_error q d a (Some (PD w)) s) = Err OtherException /\
        fst (t_score_probability q d a (Some (PD w)) s) = Err OtherException).
  Proof using Hnormal setord_spec.
    intros Hr Hc Hok Hw Ho Ha Ec.
    destruct (concept_leaf (N:=ROps) rng ncmp normal pystr setord rlimit Hnormal sc inner _ _ _ _ _ _ _ Hr Hw Ho Ec) as (tb & Et & Hl & Ht).
    pose proof (treachable_calls (N:=ROps) rng ncmp normal pystr setord rlimit Hnormal _ _ _ Hr) as Hrc.
    assert (Hg : all_inst (C:=C) good3 (List.concat (map cobweb_calls evs))).
    { apply all_inst_calls. exact (treachable_good (N:=ROps) rng ncmp normal pystr setord rlimit Hnormal setord_spec sc inner _ _ Hr Hc). }
    destruct (leaf_value rng sc inner _ _ c tb a Hrc Hg (all_ok_calls _ Hok) Ha Hl Ht) as (held & l & Hde & Hsub & Hsame & Hnil & Hd & Hk & Hpos).
    assert (Hp : forall am, fst (predict3 (N:=ROps) rng ncmp normal tb a "most likely" true am) = Ok held).
    { intros am. destruct held as [w|].
      - apply predict_sure3; [by apply Hpos|congruence|done].
      - unfold predict3. change (choose_fn "most likely") with (Some MostLikely). by rewrite Hd. }
    exists tb, held, l. split; [done|]. split; [done|]. split; [done|].
    split; [intros j Hj; rewrite <- history_calls; by apply Hsub|]. split; [done|]. split; [done|].
    unfold TEval.t_score_absolute_error, TEval.t_score_squared_error, TEval.t_score_error, TEval.t_score_probability. rewrite Et.
    unfold on_tree, mamb. specialize (Hp (st_amb (t_tree s1))).
    destruct (predict3 (N:=ROps) rng ncmp normal tb a "most likely" true (st_amb (t_tree s1))) as [p am]. simpl in Hp. subst p.
    cbn [fst]. split; [|split].
    - intros v v1 held' Hv Tv Th. apply taken_some_val in Tv, Th.
      assert (G : forall v' : option X, errors_spec num3 (arith3 arith_of) (same3 arith_of) v' held' (error_of C E v' held')
        (rbind (error_of C E v' held') (fun e => Ok (nabs (N:=ROps) e))) (rbind (error_of C E v' held') (fun e => Ok (nmul ROps e e)))).
      { intros v'. split; [apply error_of_spec3|]. destruct (error_of C E v' held') as [e|e]; [|done]. cbn [rbind].
        by rewrite nabs_Rabs. }
      destruct v as [[w|w|w|w]|]; try (exfalso; by eapply Hv); cbn [fst t_error_of scalar]; simpl scalar in Tv;
        (rewrite Tv || rewrite <- Tv); rewrite Th; apply G.
    - intros w. cbn [fst rbind t_error_of]. split; [done|].
      split. { rewrite nabs_Rabs. f_equal. change (nofnat ROps 1) with 1%R. apply Rabs_right. lra. }
      split. { f_equal. change (nofnat ROps 1) with 1%R. change (nmul ROps) with Rmult. lra. }
      unfold t_prob, dmem. rewrite Hd. by destruct held.
    - intros w. done.
  Qed.
End Real.

(** A tree that was given three instances, asked about the kind of another. *)
Definition tee_calls : list (tcall ROps) :=
  [ TCFit (te_inst "?x" "?y" 1 "a") tr_orc; TCFit (te_inst "?u" "?v" 2 "b") tr_orc; TCFit (te_inst "?o2" "?o1" 3 "a") tr_orc ].
Definition tee_x0 : ctx3 ROps := @new_ctx ROps (Some 1%R) true.
Definition tee_events := tevents (N:=ROps) ex_draws tr_cmp tr_normal tr_str tr_ord 100 tee_x0 tee_calls (t_new 0 0 tee_x0).
Definition tee_state := snd (texec (N:=ROps) ex_draws tr_cmp tr_normal tr_str tr_ord 100 tee_x0 tee_calls (t_new 0 0 tee_x0)).
Lemma tee_fits d q : TCFit d q ∈ tee_calls -> t_fits d.
Proof.
  intros H. repeat (apply elem_of_cons in H as [H|H]; [injection H as -> _; by apply (te_askable _ _ _ _)|]).
  by apply elem_of_nil in H.
Qed.
Lemma ex_C99_errors :
  treachable (N:=ROps) ex_draws tr_cmp tr_normal tr_str tr_ord 100 tee_x0 tee_events tee_state /\
  Forall t_clean tee_events /\ Forall tfit_ok tee_events /\ pwf (PD (te_inst "?p" "?q" 2 "b")) /\
  exists c s1, t_cat (N:=ROps) ex_draws tr_str tr_ord 100 tr_orc (t_hide (AStr "kind") (te_inst "?p" "?q" 2 "b")) tee_state = (Ok c, s1).
Proof.
  assert (Hr : treachable (N:=ROps) ex_draws tr_cmp tr_normal tr_str tr_ord 100 tee_x0 tee_events tee_state).
  { exists 0%nat, 0%nat. apply (texec_run (N:=ROps) ex_draws tr_cmp tr_normal tr_str tr_ord 100).
    repeat (apply Forall_cons_2; [split; [by apply tf_wf, (te_askable _ _ _ _)|apply id_oracle_ok]|]). apply Forall_nil_2. }
  assert (Hs : Forall t_sensible tee_events).
  { apply (tevents_all (N:=ROps) ex_draws tr_cmp tr_normal tr_str tr_ord 100 t_fits). exact tee_fits. }
  destruct (C76_fitting_never_raises ex_draws (Some 1%R) true tr_cmp tr_normal tr_str tr_ord 100) with (evs := tee_events) (s := tee_state) as [Hok Hn];
    [intros m sd a; split; simpl; lia|done|exact ex_draws_distinct|exact Hr|exact Hs|].
  pose proof (te_askable "?p" "?q" 2 "b" ltac:(done) eq_refl eq_refl ltac:(done)) as (Hf & Hf' & _).
  split; [exact Hr|]. split; [|split; [exact Hok|split; [by apply tf_wf|]]].
  - apply (tevents_all (N:=ROps) ex_draws tr_cmp tr_normal tr_str tr_ord 100 (fun d => pV (clean (N:=ROps)) (PD d))).
    intros d q H. repeat (apply elem_of_cons in H as [H|H]; [injection H as -> _; repeat constructor; unfold clean; simpl; done|]).
    by apply elem_of_nil in H.
  - destruct (Hn tr_orc _ id_oracle_ok Hf') as [_ (c & Hc)].
    change (t_hide (AStr "kind") (te_inst "?p" "?q" 2 "b")) with (without (AStr "kind") (te_inst "?p" "?q" 2 "b")).
    destruct (t_cat (N:=ROps) ex_draws tr_str tr_ord 100 tr_orc (without (AStr "kind") (te_inst "?p" "?q" 2 "b")) tee_state) as [rc s1].
    simpl in Hc. subst rc. by exists c, s1.
Qed.
Print Assumptions C99_errors.
