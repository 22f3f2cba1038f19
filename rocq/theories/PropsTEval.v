(** * evaluation.py on a TrestleTree: C99, for any arithmetic *)
From stdpp Require Import base decidable list gmap strings.
From Coq Require Import Ascii String ZArith.
From Verif Require Import Base Num TreeModel TreeFun TreeScore TreeSorts SpecTree TreeState TreeTotal TreeLeaf Nominal Utils CV Cobweb3 Query Query3 PropsC3
  PyVal Preproc Preproc2 StructMap StructFacts PropsStruct PreStd Trestle SpecTrestle TreeKeep TrestleFacts TrestleFresh PropsTrestle
  Eval TEval.
Set Default Proof Using "Type".
Open Scope list_scope.

(** The instances given to ifit since the tree was created or last cleared. *)
Definition tgiven_step {N} (l : list (inst (val3 N))) (e : tevent N) : list (inst (val3 N)) :=
  match e with TFit d _ _ _ => l ++ [d] | TClear => [] | _ => l end.
Definition tgiven {N} (evs : list (tevent N)) : list (inst (val3 N)) := fold_left tgiven_step evs [].
Lemma tgiven_snoc {N} (evs : list (tevent N)) e : tgiven (evs ++ [e]) = tgiven_step (tgiven evs) e.
Proof. unfold tgiven. by rewrite fold_left_app. Qed.
(** Calls that change no concept. *)
Definition tasking {N} (e : tevent N) : Prop := match e with TCat _ _ _ | TOther => True | _ => False end.
Lemma tgiven_asking {N} (evs ext : list (tevent N)) : Forall tasking ext -> tgiven (evs ++ ext) = tgiven evs.
Proof.
  intros H. unfold tgiven. rewrite fold_left_app. generalize (fold_left tgiven_step evs []). intros l.
  induction H as [|e ext He _ IH]; [done|]. simpl. destruct e; simpl in *; try done.
Qed.

Lemma pwf_hide {X} a (d : list (attr * pv X)) : pwf (PD d) -> pwf (PD (if dmem a d then without a d else d)).
Proof.
  intros H. destruct (dmem a d); [|done]. inversion H as [| | |d' Hd HF]; subst. constructor.
  - unfold dwf, dkeys, without in *. clear -Hd. induction d as [|[b v] d IH]; [done|]. apply NoDup_cons in Hd as [Hn Hd].
    rewrite filter_cons. case_decide; [|by apply IH]. apply NoDup_cons. split; [|by apply IH].
    intros Hb. apply Hn. apply elem_of_list_fmap in Hb as (q & -> & Hq). apply elem_of_list_filter in Hq as [_ Hq].
    apply elem_of_list_fmap. eauto.
  - unfold without. rewrite Forall_forall in *. intros e He. apply elem_of_list_filter in He as [_ He]. auto.
Qed.

Section Props.
  Context {N : NumOps} (rng : nat -> num N).
  Notation F := (num N).
  Notation C := (Cobweb3Class N).
  Notation X := (val3 N).
  Context (ncmp : nom -> nom -> option bool) (normal : F -> F -> A F).
  Context (pystr : attr -> string) (setord : list attr -> list attr) (rlimit : nat).
  Context (arith_of : nom -> option F).
  Hypothesis Hnormal : forall m sd, amono (normal m sd).
  Hypothesis setord_spec : forall l x, x ∈ setord l <-> x ∈ l.
  Variable sc : option F.
  Variable inner : bool.
  Notation x0 := (@new_ctx N sc inner).
  Notation treachable := (treachable rng ncmp normal pystr setord rlimit x0).
  Notation t_cat := (t_cat rng pystr setord rlimit).
  Notation t_fit := (t_fit rng pystr setord rlimit).
  Notation t_concept := (t_concept rng pystr setord rlimit).
  Notation t_score_probability := (t_score_probability rng pystr setord rlimit).
  Notation t_score_error := (t_score_error rng ncmp normal pystr setord rlimit arith_of).
  Notation t_score_absolute_error := (t_score_absolute_error rng ncmp normal pystr setord rlimit arith_of).
  Notation t_score_squared_error := (t_score_squared_error rng ncmp normal pystr setord rlimit arith_of).
  Notation score_fn := (torc N -> inst X -> attr -> option (pv X) -> tst N -> res F * tst N).

  Lemma treach_snoc evs s e s' : treachable evs s -> tstep rng ncmp normal pystr setord rlimit x0 s e s' -> treachable (evs ++ [e]) s'.
  Proof. intros (ctr & rpos & H) He. exists ctr, rpos. by eapply trun_snoc. Qed.

  (** Whatever it returns, the tree is the same afterwards, and the object is
      as after calls of categorize. *)
  Definition t_only_asks (score : score_fn) : Prop :=
    forall evs s q d a v r s', treachable evs s -> pwf (PD d) -> oracle_ok (to_orc q) -> score q d a v s = (r, s') ->
      (st_heap (t_tree s') = st_heap (t_tree s) /\ st_root (t_tree s') = st_root (t_tree s) /\ st_ctx (t_tree s') = st_ctx (t_tree s)) /\
      exists ext, Forall tasking ext /\ treachable (evs ++ ext) s'.

  Lemma cat_leaf evs s q d r s' : treachable evs s -> pwf (PD d) -> oracle_ok (to_orc q) -> t_cat q d s = (r, s') ->
    grown (t_tree s) (t_tree s') /\ treachable (evs ++ [TCat d q r]) s' /\ forall c, r = Ok c -> is_leaf (t_tree s) c.
  Proof using Hnormal.
    intros Hr Hw Ho E.
    pose proof (treachable_calls rng ncmp normal pystr setord rlimit Hnormal _ _ _ Hr) as Hc.
    destruct (reachable_ok _ _ _ _ _ Hc) as (t & Hok).
    split; [|split; [eapply treach_snoc; [exact Hr|by constructor]|]]; unfold Trestle.t_cat in E;
      destruct (t_ready pystr setord rlimit q d s) as [[j|e] s1] eqn:Er; pose proof (ready_grown _ _ _ _ _ _ _ _ Er) as Hg.
    - unfold on_tree in E. destruct (cobweb_categorize C rng j (t_tree s1)) as [r2 s2] eqn:E2. injection E as <- <-.
      eapply grown_trans; [exact Hg|]. eapply categorize_grown; [|exact E2]. by eapply grown_ok.
    - by injection E as <- <-.
    - unfold on_tree in E. destruct (cobweb_categorize C rng j (t_tree s1)) as [r2 s2] eqn:E2. injection E as <- <-.
      cbn [fst]. intros c ->.
      assert (Hr1 : reachable C rng x0 (List.concat (map cobweb_calls evs) ++ [EOther]) (t_tree s1)).
      { destruct Hc as (ctr & rpos & Hc). exists ctr, rpos. eapply run_snoc; [exact Hc|]. by eapply grown_other. }
      destruct (C62_categorize_read_only rng sc inner _ _ _ _ _ Hr1 E2) as (_ & _ & _ & Hl).
      specialize (Hl c eq_refl) as [Hin (n & Hn & Hch)]. split.
      + apply (in_tree_sub _ _ _ _ Hok). by apply (in_tree_sub _ _ _ _ (grown_ok _ _ _ Hg Hok)).
      + exists n. destruct Hg as (Eh & _). by rewrite <- Eh.
    - by injection E as <- <-.
  Qed.
  (** The concept that is asked: the leaf of the instance without the
      attribute. *)
  Lemma concept_leaf evs s q d a c s1 : treachable evs s -> pwf (PD d) -> oracle_ok (to_orc q) ->
    t_cat q (t_hide a d) s = (Ok c, s1) ->
    exists tb, t_concept q d a s = (Ok tb, s1) /\ is_leaf (t_tree s) c /\ table_of (t_tree s) c tb.
  Proof using Hnormal.
    intros Hr Hw Ho E. destruct (cat_leaf _ _ _ _ _ _ Hr (pwf_hide a d Hw) Ho E) as ((Eh & _) & _ & Hl).
    specialize (Hl c eq_refl). pose proof Hl as [_ (n & Hn & _)]. exists (nd_sum n).
    unfold TEval.t_concept. rewrite E, Eh, Hn. split; [done|]. split; [done|]. by exists n.
  Qed.
  Lemma concept_asks evs s q d a r s' : treachable evs s -> pwf (PD d) -> oracle_ok (to_orc q) -> t_concept q d a s = (r, s') ->
    grown (t_tree s) (t_tree s') /\ exists rc, treachable (evs ++ [TCat (t_hide a d) q rc]) s'.
  Proof using Hnormal.
    intros Hr Hw Ho E. unfold TEval.t_concept in E. destruct (t_cat q (t_hide a d) s) as [rc s1] eqn:Ec.
    assert (s' = s1) as -> by (destruct rc; by injection E).
    destruct (cat_leaf _ _ _ _ _ _ Hr (pwf_hide a d Hw) Ho Ec) as (Hg & Hr1 & _). eauto.
  Qed.
  Lemma error_asks : t_only_asks t_score_error.
  Proof using Hnormal.
    intros evs s q d a v r s' Hr Hw Ho E. unfold TEval.t_score_error in E.
    destruct (t_concept q d a s) as [rt s1] eqn:Ec.
    destruct (concept_asks _ _ _ _ _ _ _ Hr Hw Ho Ec) as (Hg & rc & Hr1).
    assert (Hstop : s' = s1 ->
      (st_heap (t_tree s') = st_heap (t_tree s) /\ st_root (t_tree s') = st_root (t_tree s) /\ st_ctx (t_tree s') = st_ctx (t_tree s)) /\
      exists ext, Forall tasking ext /\ treachable (evs ++ ext) s').
    { intros ->. destruct Hg as (G1 & G2 & G3 & _). split; [done|]. eexists. split; [|exact Hr1]. by apply Forall_cons_2; [|apply Forall_nil_2]. }
    destruct rt as [tb|e]; [|apply Hstop; by injection E].
    assert (Hgo : forall p s2 (f : res (option X) -> res F), on_tree s1 (mamb C (fun _ => predict3 rng ncmp normal tb a "most likely" true) (t_tree s1)) = (p, s2) ->
      (f p, s2) = (r, s') ->
      (st_heap (t_tree s') = st_heap (t_tree s) /\ st_root (t_tree s') = st_root (t_tree s) /\ st_ctx (t_tree s') = st_ctx (t_tree s)) /\
      exists ext, Forall tasking ext /\ treachable (evs ++ ext) s').
    { intros p s2 f Ep [= _ <-]. unfold on_tree, mamb in Ep.
      pose proof (predict3_mono rng ncmp normal Hnormal tb a "most likely" true (st_amb (t_tree s1))) as Hm.
      destruct (predict3 rng ncmp normal tb a "most likely" true (st_amb (t_tree s1))) as [p' [c' k']].
      injection Ep as <- <-. destruct Hm as [M1 M2]. destruct Hg as (G1 & G2 & G3 & _). split; [done|].
      exists ([TCat (t_hide a d) q rc] ++ [TOther]). split; [by apply Forall_cons_2; [|apply Forall_cons_2; [|apply Forall_nil_2]]|].
      rewrite app_assoc. eapply treach_snoc; [exact Hr1|]. by apply tstep_other. }
    destruct (on_tree s1 (mamb C (fun _ => predict3 rng ncmp normal tb a "most likely" true) (t_tree s1))) as [p s2] eqn:Ep.
    destruct v as [[u|u|u|u]|]; try exact (Hgo p s2 (fun p => match p with Ok p => t_error_of rng ncmp normal arith_of _ p | Err e => Err e end) eq_refl E).
    apply Hstop. by injection E.
  Qed.

  Theorem C99_scores_only_ask :
    t_only_asks t_score_probability /\ t_only_asks t_score_error /\
    t_only_asks t_score_absolute_error /\ t_only_asks t_score_squared_error.
  Proof using Hnormal.
    split; [|split; [exact error_asks|split]]; intros evs s q d a v r s' Hr Hw Ho E.
    - unfold TEval.t_score_probability in E. destruct (t_concept q d a s) as [rt s1] eqn:Ec.
      destruct (concept_asks _ _ _ _ _ _ _ Hr Hw Ho Ec) as ((G1 & G2 & G3 & _) & rc & Hr1).
      assert (s' = s1) as -> by (destruct rt; by injection E). split; [done|].
      eexists. split; [|exact Hr1]. by apply Forall_cons_2; [|apply Forall_nil_2].
    - unfold TEval.t_score_absolute_error in E. destruct (t_score_error q d a v s) as [re s1] eqn:Ee. injection E as _ <-.
      exact (error_asks _ _ _ _ _ _ _ _ Hr Hw Ho Ee).
    - unfold TEval.t_score_squared_error in E. destruct (t_score_error q d a v s) as [re s1] eqn:Ee. injection E as _ <-.
      exact (error_asks _ _ _ _ _ _ _ _ Hr Hw Ho Ee).
  Qed.

  (** ** Test first, then train *)
  Section Runs.
    Context (score : score_fn) (shuffled : nat -> list (inst X) -> list (inst X)) (a : attr).
    Context (qs qf : nat -> nat -> torc N).
    Hypothesis Hask : t_only_asks score.
    Hypothesis Hshuf : forall r l, Permutation l (shuffled r l).
    Hypothesis Hqs : forall r k, oracle_ok (to_orc (qs r k)).
    Hypothesis Hqf : forall r k, oracle_ok (to_orc (qf r k)).
    Notation dicts l := (Forall (fun d : inst X => pwf (PD d)) l).
    Notation t_eval_row := (t_eval_row rng pystr setord rlimit score).
    Notation t_eval_runs := (t_eval_runs rng pystr setord rlimit x0 score shuffled).

    Definition trained_with (l : list (inst X)) (e : tevent N) : Prop :=
      match e with TFit d _ _ r => d ∈ l /\ exists c, r = Ok c | TInfer _ _ _ _ _ => False | _ => True end.
    (** The [k]-th score of [row] is that of the [k]-th instance of [l], in a
        state of the tree where it was given, since it was cleared, exactly the
        instances before it. *)
    Definition t_tested_first (evs0 : list (tevent N)) (l : list (inst X)) (row : list F) : Prop :=
      forall k y, row !! k = Some y -> exists d evs s1 s2 q,
        l !! k = Some d /\ treachable (evs0 ++ evs) s1 /\ Forall (trained_with l) evs /\
        tgiven (evs0 ++ evs) = take k l /\ score q d a (dget a d) s1 = (Ok y, s2).

    Lemma trained_asking l ext : Forall tasking ext -> Forall (trained_with l) ext.
    Proof. intros H. eapply Forall_impl; [exact H|]. intros []; simpl; try done. Qed.
    Lemma trained_mono (l l' : list (inst X)) ext : (forall d, d ∈ l -> d ∈ l') -> Forall (trained_with l) ext -> Forall (trained_with l') ext.
    Proof. intros Hl H. eapply Forall_impl; [exact H|]. intros []; simpl; try done. intros [? ?]. auto. Qed.

    Lemma t_row_ok r l : dicts l -> forall k0 evs s row s', treachable evs s ->
      t_eval_row (qs r) (qf r) a k0 l s = (Ok row, s') ->
      List.length row = List.length l /\
      (exists ext, treachable (evs ++ ext) s' /\ tgiven (evs ++ ext) = tgiven evs ++ l /\ Forall (trained_with l) ext) /\
      forall k y, row !! k = Some y -> exists d ext s1 s2 q,
        l !! k = Some d /\ treachable (evs ++ ext) s1 /\ tgiven (evs ++ ext) = tgiven evs ++ take k l /\ Forall (trained_with l) ext /\
        score q d a (dget a d) s1 = (Ok y, s2).
    Proof using Hask Hqs Hqf.
      induction 1 as [|d l Hd Hl IH]; intros k0 evs s row s' Hr Eq; simpl in Eq.
      { injection Eq as <- <-. split; [done|]. split; [|intros k y Hk; by rewrite lookup_nil in Hk]. exists []. rewrite !app_nil_r. done. }
      destruct (score (qs r k0) d a (dget a d) s) as [[y|e] s1] eqn:E1; [|done].
      destruct (t_fit (qf r k0) d s1) as [[j|e] s2] eqn:E2; [|done].
      destruct (t_eval_row (qs r) (qf r) a (S k0) l s2) as [[ys|e] s3] eqn:E3; [|done]. cbn [rbind] in Eq. injection Eq as <- <-.
      destruct (Hask _ _ _ _ _ _ _ _ Hr Hd (Hqs r k0) E1) as (_ & ext1 & Ha1 & Hr1).
      set (e2 := TFit d (qf r k0) (fst (t_ready pystr setord rlimit (qf r k0) d s1)) (Ok j)).
      assert (Hr2 : treachable ((evs ++ ext1) ++ [e2]) s2) by (eapply treach_snoc; [exact Hr1|]; by constructor).
      assert (Eh : tgiven ((evs ++ ext1) ++ [e2]) = tgiven evs ++ [d]) by (rewrite tgiven_snoc; simpl; by rewrite tgiven_asking).
      assert (Hcons : forall ext, Forall (trained_with l) ext -> Forall (trained_with (d :: l)) (ext1 ++ [e2] ++ ext)).
      { intros ext He. apply Forall_app. split; [by apply trained_asking|]. apply Forall_cons_2; [split; [left|by exists j]|].
        eapply trained_mono; [|exact He]. intros d' ?. by right. }
      destruct (IH _ _ _ _ _ Hr2 E3) as (L1 & (ext & L2 & L3 & L4) & L5). rewrite Eh in L3, L5.
      rewrite <- !app_assoc in L2, L3.
      split; [simpl; by rewrite L1|]. split.
      { exists (ext1 ++ [e2] ++ ext). split; [done|]. split; [by rewrite L3, <- app_assoc|]. by apply Hcons. }
      intros [|k] y' Hk; simpl in Hk.
      - injection Hk as <-. exists d, [], s, s1, (qs r k0). rewrite !app_nil_r. done.
      - destruct (L5 k y' Hk) as (d' & ev & u1 & u2 & q & M1 & M2 & M3 & M4 & M5). rewrite <- !app_assoc in M2, M3.
        exists d', (ext1 ++ [e2] ++ ev), u1, u2, q. split; [done|]. split; [done|]. split; [by rewrite M3, <- app_assoc|]. split; [by apply Hcons|done].
    Qed.

    Lemma t_runs_ok run_length n : forall r rf l evs s table l' s', dicts l ->
      treachable evs s -> t_eval_runs qs qf a run_length n r rf l s = (Ok (table, l'), s') ->
      Permutation l l' /\ List.length table = n /\
      (exists ext, treachable (evs ++ ext) s' /\ Forall (trained_with l) ext /\ (0 < n -> tgiven (evs ++ ext) = take (run_length + 2) l')) /\
      forall k row, table !! k = Some row -> exists lk,
        Permutation l lk /\ (rf = false -> r = 0 -> k = 0 -> lk = l) /\
        List.length row = Nat.min (run_length + 2) (List.length l) /\ t_tested_first evs lk row.
    Proof using Hask Hshuf Hqs Hqf.
      induction n as [|n IH]; intros r rf l evs s table l' s' Hl Hr Eq; cbn [TEval.t_eval_runs] in Eq.
      { injection Eq as <- <- <-. split; [done|]. split; [done|]. split; [|intros k row Hk; by rewrite lookup_nil in Hk].
        exists []. rewrite app_nil_r. split; [done|]. split; [apply Forall_nil_2|lia]. }
      cbv zeta in Eq. set (lr := if rf || (0 <? r)%nat then shuffled r l else l) in Eq.
      assert (Hp : Permutation l lr). { unfold lr. destruct (rf || (0 <? r)%nat); [apply Hshuf|done]. }
      assert (Hlr : dicts lr) by (by rewrite <- Hp).
      assert (Hr1 : treachable (evs ++ [TClear]) (t_clear x0 s)) by (eapply treach_snoc; [exact Hr|]; apply tstep_clear).
      destruct (t_eval_row (qs r) (qf r) a 0 (take (run_length + 2) lr) (t_clear x0 s)) as [[row|e] s2] eqn:E2; [|done].
      destruct (t_row_ok r _ (Forall_take _ _ _ Hlr) _ _ _ _ _ Hr1 E2) as (L1 & (ext2 & Hr2 & L2 & L2') & L3).
      assert (Eh : tgiven (evs ++ [TClear]) = []) by (by rewrite tgiven_snoc). rewrite Eh in L2, L3. cbn [app] in L2, L3.
      destruct (t_eval_runs qs qf a run_length n (S r) rf lr s2) as [[[tb le]|e] s3] eqn:E3; [|done].
      cbn [rbind fst snd] in Eq. injection Eq as <- <- <-.
      destruct (IH _ _ _ _ _ _ _ _ Hlr Hr2 E3) as (K1 & K2 & K3 & K4).
      assert (Htake : forall ext, Forall (trained_with (take (run_length + 2) lr)) ext -> Forall (trained_with l) ([TClear] ++ ext)).
      { intros ext He. apply Forall_cons_2; [done|]. eapply trained_mono; [|exact He]. intros d Hd. rewrite Hp.
        rewrite <- (take_drop (run_length + 2) lr). apply elem_of_app. by left. }
      assert (Hperm : forall (l1 l2 : list (inst X)) ext, Permutation l1 l2 -> Forall (trained_with l1) ext -> Forall (trained_with l2) ext).
      { intros l1 l2 ext Hq. apply trained_mono. intros d. by rewrite Hq. }
      split; [by etrans|]. split; [simpl; by rewrite K2|]. split.
      { destruct n as [|n].
        - cbn [TEval.t_eval_runs] in E3. injection E3 as <- <- <-. exists ([TClear] ++ ext2). rewrite app_assoc.
          split; [done|]. split; [by apply Htake|done].
        - destruct K3 as (ext & G1 & G0 & G2). exists (([TClear] ++ ext2) ++ ext). rewrite <- !app_assoc in G1, G2. rewrite <- app_assoc.
          split; [exact G1|]. split; [|intros _; apply G2; lia].
          rewrite app_assoc. apply Forall_app. split; [by apply Htake|]. by apply (Hperm lr). }
      intros [|k] row' Hk; simpl in Hk.
      - injection Hk as <-. exists lr. split; [done|]. split. { by intros -> -> _. }
        split. { rewrite L1, take_length. by rewrite (Permutation_length Hp). }
        intros k y Hy. destruct (L3 k y Hy) as (d & ev & u1 & u2 & q & M1 & M2 & M3 & M4 & M5).
        assert (Hkl : k < run_length + 2). { apply lookup_lt_Some in Hy. rewrite L1, take_length in Hy. lia. }
        exists d, ([TClear] ++ ev), u1, u2, q. rewrite lookup_take in M1 by lia. rewrite take_take, Nat.min_l in M3 by lia.
        rewrite app_assoc. split; [done|]. split; [done|]. split; [|done]. apply (Hperm l); [done|]. by apply Htake.
      - destruct (K4 k row' Hk) as (lk & P1 & P2 & P3 & P4). exists lk. split; [by etrans|]. split; [done|].
        split. { rewrite P3. by rewrite (Permutation_length Hp). }
        intros m y Hy. destruct (P4 m y Hy) as (d & ev & u1 & u2 & q & M1 & M2 & M3 & M4 & M5).
        exists d, (([TClear] ++ ext2) ++ ev), u1, u2, q. rewrite <- !app_assoc in M2, M4. rewrite <- app_assoc.
        split; [done|]. split; [exact M2|]. split; [|by split].
        rewrite app_assoc. apply Forall_app. split; [|done]. apply (Hperm l); [by etrans|]. by apply Htake.
    Qed.

    Theorem C99_tests_before_training evs s l run_length runs rf table l' s' :
      treachable evs s -> Forall (fun d : inst X => pwf (PD d)) l ->
      t_incremental_evaluation rng pystr setord rlimit x0 score shuffled qs qf l a run_length runs rf s = (Ok (table, l'), s') ->
      Permutation l l' /\ List.length table = runs /\
      (exists ext, treachable (evs ++ ext) s' /\ Forall (trained_with l) ext /\
         (0 < runs -> tgiven (evs ++ ext) = take (run_length + 2) l')) /\
      forall k row, table !! k = Some row -> exists lk,
        Permutation l lk /\ (rf = false -> k = 0 -> lk = l) /\
        List.length row = Nat.min (run_length + 2) (List.length l) /\ t_tested_first evs lk row.
    Proof using Hask Hshuf Hqs Hqf.
      intros Hr Hl Eq. destruct (t_runs_ok _ _ _ _ _ _ _ _ _ _ Hl Hr Eq) as (K1 & K2 & K3 & K4).
      split; [done|]. split; [done|]. split; [done|]. intros k row Hk.
      destruct (K4 k row Hk) as (lk & P1 & P2 & P3 & P4). exists lk. split; [done|]. split; [|done]. intros Hf. by apply P2.
    Qed.
  End Runs.

  (** ** Names of components: the concept is asked for the attribute of the
      instance, but knows its own names only. *)
  Lemma unknown_attr evs s c tb a u : treachable evs s -> in_tree (t_tree s) c -> table_of (t_tree s) c tb ->
    component [a] (AStr u) -> (forall n, u <> gensym_name n) -> dget a (n3_av tb) = None.
  Proof using Hnormal setord_spec.
    intros Hr Hin Ht Hu Hn. destruct (dget a (n3_av tb)) as [cell|] eqn:Ed; [|done]. exfalso.
    apply component_kvars in Hu as (u' & [= <-] & a' & Ha' & Hu'). apply elem_of_list_singleton in Ha' as ->.
    pose proof (names_apart rng ncmp normal pystr setord rlimit Hnormal setord_spec sc inner evs s c tb Hr Hin Ht) as HQ.
    apply dget_Some_key in Ed. destruct (HQ a Ed u Hu') as (n & -> & _). by apply (Hn n).
  Qed.

  (** An attribute with a component under any other name than the tree's own:
      every value has probability 0 and is predicted to be missing, whatever the
      tree was trained with. *)
  Theorem C99_unknown_names evs s q d a u c s1 : treachable evs s -> pwf (PD d) -> oracle_ok (to_orc q) ->
    component [a] (AStr u) -> (forall n, u <> gensym_name n) ->
    t_cat q (t_hide a d) s = (Ok c, s1) ->
    (forall w, scalar w <> None -> scalar w <> Some (VNom NNone) -> fst (t_score_probability q d a (Some w) s) = Ok (nofnat N 0)) /\
    (forall y, fst (t_score_error q d a (Some (PX (VNum y))) s) = Err OtherException) /\
    (forall w v, scalar w = Some (VNom v) -> v <> NNone -> fst (t_score_error q d a (Some w) s) = Ok (nofnat N 1)) /\
    (forall w, scalar w = Some (VNom NNone) -> fst (t_score_error q d a (Some w) s) = Ok (nofnat N 0)) /\
    fst (t_score_error q d a None s) = Ok (nofnat N 0).
  Proof using Hnormal setord_spec.
    intros Hr Hw Ho Hu Hn Ec. destruct (concept_leaf _ _ _ _ _ _ _ Hr Hw Ho Ec) as (tb & Et & [Hin _] & Ht).
    pose proof (unknown_attr _ _ _ _ _ _ Hr Hin Ht Hu Hn) as Hd.
    assert (Hp : forall am, predict3 rng ncmp normal tb a "most likely" true am = (Ok None, am)).
    { intros am. unfold predict3. change (choose_fn "most likely") with (Some MostLikely). by rewrite Hd. }
    unfold TEval.t_score_probability, TEval.t_score_error. rewrite Et. unfold on_tree, mamb. rewrite Hp. cbn [fst].
    split; [|split; [done|split; [|split; [|done]]]].
    - intros w Hs Hn'. destruct w as [str|x|l|l]; try done; unfold t_prob; simpl scalar.
      + rewrite some_val_id by (intros H; by injection H). cbn [probability3]. by rewrite Hd.
      + rewrite some_val_id by (intros ->; by apply Hn'). destruct x as [v|y]; cbn [probability3]; by rewrite Hd.
    - intros w v Hs Hv. unfold t_error_of. destruct w as [str|x|l|l]; simpl in Hs; try done; injection Hs as ->;
        simpl scalar; rewrite some_val_id by congruence; done.
    - intros w Hs. destruct w as [str|x|l|l]; simpl in Hs; try done; by injection Hs as ->.
  Qed.
End Props.
