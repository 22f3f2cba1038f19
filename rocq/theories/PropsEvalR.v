(** * evaluation.py on CobwebTree and Cobweb3Tree: C55, C56, C79, C80 *)
From Coq Require Import Reals Lra.
From stdpp Require Import base decidable tactics list gmap strings.
From Verif Require Import Base Num TreeModel TreeFun TreeScore TreeRefine TreeSorts TreeInv
  SpecTree TreeState TreeTotal TreeLeaf Nominal NominalFacts NominalTotal NominalTree NominalR Utils CV Cobweb3 Query Query3 TrestleFacts
  PropsTree PropsTotal Eval PropsEval.
Set Default Proof Using "Type".
Open Scope list_scope.

(** ** C55: the value to be predicted is not shown *)
Lemma without_none {V} a (i : list (attr * V)) : dget a i = None -> without a i = i.
Proof.
  induction i as [|[b v] i IH]; [done|]. unfold without. simpl. rewrite filter_cons. simpl.
  destruct (decide (a = b)) as [->|Hn]; [done|]. rewrite decide_True by congruence. intros H. f_equal. by apply IH.
Qed.
Lemma without_get {V} a (i : list (attr * V)) : dget a (without a i) = None.
Proof.
  induction i as [|[b v] i IH]; [done|]. unfold without. rewrite filter_cons. cbn [fst]. case_decide; [|done].
  simpl. by rewrite decide_False by congruence.
Qed.
Lemma without_keys {V} a (i : list (attr * V)) b : b <> a -> b ∈ dkeys i -> b ∈ dkeys (without a i).
Proof.
  intros Hn. induction i as [|[c v] i IH]; [done|]. unfold without. rewrite filter_cons. cbn [fst dkeys map].
  intros [->|H]%elem_of_cons; case_decide; try congruence; [left|right; by apply IH|by apply IH].
Qed.

Section Blind.
  Context {N : NumOps} (rng : nat -> num N) (ncmp : nom -> nom -> option bool) (normal : num N -> num N -> A (num N))
    (num_of arith_of : nom -> option (num N)).
  Notation E1 := (CobwebEval rng ncmp num_of arith_of).
  Notation E3 := (Cobweb3Eval rng ncmp normal arith_of).

  Lemma hide1 (i : inst) a : hide (CobwebClass N) E1 i a = without a i.
  Proof. unfold hide. simpl. destruct (dget a i) eqn:Ea; [done|]. by rewrite without_none. Qed.
  Lemma hide3 (i : inst3 N) a : hide (Cobweb3Class N) E3 i a = without a i.
  Proof. unfold hide. simpl. destruct (dget a i) eqn:Ea; [done|]. by rewrite without_none. Qed.

  (** What the tree is asked to categorise lacks the attribute, and instances
      that differ in it only get the same scores. *)
  Theorem C55_target_hidden (i j : inst) a v s :
    without a i = without a j ->
    dget a (hide (CobwebClass N) E1 i a) = None /\
    score_probability (CobwebClass N) rng E1 i a v s = score_probability (CobwebClass N) rng E1 j a v s /\
    score_error (CobwebClass N) rng E1 i a v s = score_error (CobwebClass N) rng E1 j a v s.
  Proof.
    intros Hij. rewrite hide1. split; [apply without_get|].
    unfold score_probability, score_error, concept_for. by rewrite !hide1, Hij.
  Qed.
  Theorem C55_target_hidden_cobweb3 (i j : inst3 N) a v s :
    without a i = without a j ->
    dget a (hide (Cobweb3Class N) E3 i a) = None /\
    score_probability (Cobweb3Class N) rng E3 i a v s = score_probability (Cobweb3Class N) rng E3 j a v s /\
    score_error (Cobweb3Class N) rng E3 i a v s = score_error (Cobweb3Class N) rng E3 j a v s.
  Proof.
    intros Hij. rewrite hide3. split; [apply without_get|].
    unfold score_probability, score_error, concept_for. by rewrite !hide3, Hij.
  Qed.

  (** The scoring functions only ask (so C55_tests_before_training applies). *)
  Hypothesis Hnormal : forall m sd, amono (normal m sd).
  Theorem C55_scores_ask x0 i a v :
    only_asks (CobwebClass N) rng tt (score_probability (CobwebClass N) rng E1 i a v) /\
    only_asks (CobwebClass N) rng tt (score_error (CobwebClass N) rng E1 i a v) /\
    only_asks (CobwebClass N) rng tt (score_absolute_error (CobwebClass N) rng E1 i a v) /\
    only_asks (CobwebClass N) rng tt (score_squared_error (CobwebClass N) rng E1 i a v) /\
    forall i v, only_asks (Cobweb3Class N) rng x0 (score_probability (Cobweb3Class N) rng E3 i a v) /\
    only_asks (Cobweb3Class N) rng x0 (score_error (Cobweb3Class N) rng E3 i a v) /\
    only_asks (Cobweb3Class N) rng x0 (score_absolute_error (Cobweb3Class N) rng E3 i a v) /\
    only_asks (Cobweb3Class N) rng x0 (score_squared_error (Cobweb3Class N) rng E3 i a v).
  Proof using Hnormal.
    assert (H1 : forall x tb, amono (ne_pred E1 x tb a)).
    { intros x tb. simpl. unfold predict. cbn [choose_fn]. destruct (choose_fn "most likely"); [|apply amono_raise].
      destruct (dget a (ns_av tb)); [|apply amono_ret]. apply amono_bind; [apply amono_lift|]. intros lw. apply choose_mono. }
    assert (H3 : forall x tb, amono (ne_pred E3 x tb a)) by (intros x tb; by apply predict3_mono).
    split; [apply asks_probability|]. split; [by apply asks_error|]. split; [by apply asks_absolute_error|]. split; [by apply asks_squared_error|]. intros i' v'.
    split; [apply asks_probability|]. split; [by apply asks_error|]. split; [by apply asks_absolute_error|by apply asks_squared_error].
  Qed.
End Blind.

Section Cobweb.
  Context {N : NumOps} (rng : nat -> num N) (ncmp : nom -> nom -> option bool) (num_of arith_of : nom -> option (num N)).
  Notation C := (CobwebClass N).
  Notation E := (CobwebEval rng ncmp num_of arith_of).
  Notation score := (score_probability C rng E).
  Hypothesis HN : counting N.

  (** The concept that is asked is a leaf. *)
  Lemma score_leaf evs s i a v r s' : reachable C rng tt evs s -> score i a v s = (r, s') ->
    (exists e, r = Err e /\ fst (cobweb_categorize C rng (without a i) s) = Err e) \/
    exists j tb, fst (cobweb_categorize C rng (without a i) s) = Ok j /\ is_leaf s j /\ table_of s j tb /\ r = probability (N:=N) tb a v.
  Proof.
    intros Hr Eq. unfold score_probability, concept_for in Eq. rewrite (hide1 rng ncmp num_of arith_of) in Eq.
    destruct (cobweb_categorize C rng (without a i) s) as [[j|e] s1] eqn:Ec.
    - right. destruct (C08_categorize_read_only rng evs s _ _ _ Hr Ec) as (Hh & _ & Hl). specialize (Hl j eq_refl).
      destruct Hl as [Hin Hch]. pose proof Hch as (n & Hn & Hc). exists j, (nd_sum n). split; [done|]. split; [by split|]. split; [by exists n|].
      assert (Hn1 : mget C j s1 = (Ok n, s1)). { unfold mget. by rewrite Hh, Hn. }
      assert (Em : mbind C (cobweb_categorize C rng (without a i)) (fun c => mbind C (mget C c) (fun n => mret C (nd_sum n))) s = (Ok (nd_sum n), s1)).
      { rewrite (mbind_ok C _ _ _ _ _ Ec), (mbind_ok C _ _ _ _ _ Hn1). done. }
      rewrite (mbind_ok C _ _ _ _ _ Em) in Eq. unfold mamb, alift in Eq. simpl in Eq. by injection Eq as <- _.
    - left. exists e. split; [|done].
      assert (Em : mbind C (cobweb_categorize C rng (without a i)) (fun c => mbind C (mget C c) (fun n => mret C (nd_sum n))) s = (Err e, s1)).
      { by rewrite (mbind_err C _ _ _ _ _ Ec). }
      rewrite (mbind_err C _ _ _ _ _ Em) in Eq. by injection Eq as <- _.
  Qed.

  (** ** C79: with the default score, evaluation returns if every instance has
      the attribute and another visible one. *)
  Hypothesis Hd : distinct_draws rng.
  Definition evaluable (a : attr) (i : inst) : Prop :=
    dget a i <> None /\ exists b, b <> a /\ visible b = true /\ b ∈ dkeys i.
  Lemma evaluable_visible a i : evaluable a i -> has_visible i.
  Proof. intros (_ & b & _ & Hb & Hk). by exists b. Qed.

  Lemma score_total evs s i a : reachable C rng tt evs s -> all_inst (C:=C) has_visible evs -> evaluable a i ->
    exists y s', score i a (dget a i) s = (Ok y, s').
  Proof using HN Hd.
    intros Hr Hg (Hv & b & Hb & Hvis & Hk). destruct (score i a (dget a i) s) as [r s'] eqn:Eq.
    assert (Hi : has_visible (without a i)). { exists b. split; [done|]. by apply without_keys. }
    destruct (C20_fitting_never_raises rng HN Hd evs s Hr Hg) as [_ Hn]. destruct (Hn _ Hi) as [_ (j & Hj)].
    destruct (score_leaf evs s i a _ r s' Hr Eq) as [(e & -> & He)|(j' & tb & Hj' & Hl & Htb & ->)]; [congruence|].
    destruct HN as [Hnz Hzz].
    destruct (reachable_total C rng Hnz Hd (fun _ => True) (fun _ => VN) has_visible
      (fun _ _ _ _ => Logic.I) (fun x i _ Hi => cobweb_scorable Hnz x i Hi)
      (fun x i s Hs => Hs) tt evs s Hr Hg Logic.I) as (_ & _ & t & Hok & Hre).
    apply (is_leaf_sub _ _ _ _ Hok) in Hl as (tb' & Hs).
    rewrite (table_of_det _ _ _ _ _ Htb (sub_table _ _ _ _ Hok Hs)) in *. simpl in *.
    destruct (dget a i) as [w|]; [|done]. simpl. destruct (dget a (ns_av tb')) as [d|] eqn:Ed; [|eauto].
    destruct (dget w d) as [c|]; [|eauto]. destruct Hre as [Hre|(id & ->)].
    - destruct (tall_sub C VN t _ Hre Hs) as [Hpos _]. simpl in Hpos. destruct (ns_count tb') as [|n]; [lia|].
      unfold pydiv. rewrite Hnz. eauto.
    - inversion Hs as [|? ? ? k Hk0 ?]; subst; [done|]. by apply elem_of_nil in Hk0.
  Qed.

  Theorem C79_evaluation_returns shuffled evs s l a run_length runs rf :
    reachable C rng tt evs s -> all_inst (C:=C) has_visible evs ->
    (forall r l, Permutation l (shuffled r l)) -> Forall (evaluable a) l ->
    exists table l' s', incremental_evaluation C rng E tt score shuffled l a run_length runs rf s = (Ok (table, l'), s').
  Proof using HN Hd.
    intros Hr Hg Hsh Hl.
    cut (exists table l' s', incremental_evaluation C rng E tt score shuffled l a run_length runs rf s = (Ok (table, l'), s') /\ Forall (Forall (fun _ => True)) table).
    { intros (table & l' & s' & H & _). eauto. }
    apply (evaluation_total C rng E tt score shuffled a) with (P := has_visible) (Q := evaluable a) (W := fun _ => True) (evs := evs); [| |..|done|done|done].
    - intros i v. apply asks_probability.
    - done.
    - apply evaluable_visible.
    - intros evs' s1 i Hr1 Hg1 Hi. destruct (C20_fitting_never_raises rng HN Hd _ s1 Hr1 Hg1) as [_ Hn]. by apply Hn.
    - intros evs' s1 i Hr1 Hg1 _ Hi. destruct (score_total evs' s1 i a Hr1 Hg1 Hi) as (y & s' & Ey). eauto.
  Qed.

  (** If the first instance lacks the attribute, it raises. *)
  Theorem C79_first_without_target evs s shuffled i l a run_length runs :
    reachable C rng tt evs s -> dget a i = None -> 0 < runs ->
    fst (incremental_evaluation C rng E tt score shuffled (i :: l) a run_length runs false s) = Err ZeroDivisionError.
  Proof using HN.
    intros Hr Ha Hn. destruct runs as [|n]; [lia|]. unfold incremental_evaluation. cbn [eval_runs]. destruct (clear_runs C tt s) as (s1 & E1).
    rewrite (mbind_ok C _ _ _ _ _ E1). cbv zeta. cbn [orb Nat.ltb Nat.leb].
    replace (run_length + 2) with (S (S run_length)) by lia. cbn [take eval_row].
    assert (Ht : table_of s1 (st_root s1) (nc_empty C) /\ children_of s1 (st_root s1) []).
    { injection E1 as <-. simpl. split; eexists; (split; [apply lookup_insert|done]). }
    destruct Ht as [Ht Hch].
    destruct (score i a (ne_get E i a) s1) as [r s2] eqn:Eq.
    pose proof (clear_reach C rng tt _ _ _ Hr E1) as Hr1.
    assert (r = Err ZeroDivisionError) as ->.
    { destruct (score_leaf _ _ _ _ _ _ _ Hr1 Eq) as [(e & -> & He)|(j & tb & Hj & Hl & Htb & ->)].
      - exfalso. destruct Hch as (n0 & Hn0 & Hc). unfold cobweb_categorize, mbind, mroot, mheap_size in He. simpl in He.
        unfold mbind, mget in He. rewrite Hn0 in He. rewrite Hc in He. done.
      - assert (j = st_root s1) as ->.
        { destruct Hch as (n0 & Hn0 & Hc). unfold cobweb_categorize, mbind, mroot, mheap_size in Hj. simpl in Hj.
          unfold mbind, mget in Hj. rewrite Hn0 in Hj. rewrite Hc in Hj. simpl in Hj. by injection Hj as <-. }
        rewrite (table_of_det _ _ _ _ _ Htb Ht). simpl. rewrite Ha. simpl. unfold pydiv. by rewrite (ct_zero _ HN). }
    unfold mbind. by rewrite Eq.
  Qed.
End Cobweb.

(** ** C80: on a CobwebTree the default score of a visible attribute is 0 or 1. *)
Section Sharp.
  Context (rng : nat -> num ROps) (ncmp : nom -> nom -> option bool) (num_of arith_of : nom -> option (num ROps)).
  Notation C := (CobwebClass ROps).
  Notation E := (CobwebEval rng ncmp num_of arith_of).
  Notation score := (score_probability C rng E).

  (** 1 if the leaf that the rest of the instance is sorted to has this value
      (or, for None, lacks the attribute), 0 otherwise. *)
  Theorem C80_score_is_0_or_1 evs s i a v y s' :
    reachable C rng tt evs s -> all_inst (C:=C) good evs -> visible a = true -> score i a v s = (Ok y, s') ->
    exists j tb, fst (cobweb_categorize C rng (without a i) s) = Ok j /\ is_leaf s j /\ table_of s j tb /\
      (y = 1%R /\ dget a (ns_av tb) = option_map (fun w => [(w, ns_count tb)]) v \/
       y = 0%R /\ dget a (ns_av tb) <> option_map (fun w => [(w, ns_count tb)]) v).
  Proof.
    intros Hr Hg Ha Eq. destruct (score_leaf rng ncmp num_of arith_of evs s i a v _ s' Hr Eq) as [(e & He & _)|(j & tb & Hj & Hl & Htb & Hp)]; [done|].
    exists j, tb. split; [done|]. split; [done|]. split; [done|].
    pose proof (C06_leaves_pure rng evs s j tb Hr Hg Hl Htb a) as Hpure. unfold probability in Hp.
    destruct (dget a (ns_av tb)) as [d|] eqn:Ed.
    - destruct (Hpure d Ha eq_refl) as (Hpos & w & ->). unfold pydiv in Hp. simpl in Hp.
      assert (Hnz : Reqb (INR (ns_count tb)) 0 = false). { apply Reqb_false. apply not_0_INR. lia. }
      assert (HR : INR (ns_count tb) <> 0%R) by (apply not_0_INR; lia).
      destruct v as [u|]; simpl.
      + destruct (decide (u = w)) as [->|Hn].
        * rewrite decide_True, Hnz in Hp by done. injection Hp as ->. left. split; [by field|done].
        * rewrite decide_False in Hp by done. injection Hp as ->. right. split; [done|]. intros [= ->]. done.
      + unfold vcount in Hp. simpl in Hp. rewrite Nat.add_0_r, Hnz in Hp. injection Hp as ->. right. split; [|done].
        unfold Rdiv. rewrite Rminus_diag_eq by done. apply Rmult_0_l.
    - destruct v as [u|]; simpl.
      + injection Hp as ->. right. done.
      + unfold pydiv in Hp. simpl in Hp. destruct (Reqb (INR (ns_count tb)) 0) eqn:Hz; [done|].
        injection Hp as ->. left. split; [|done]. apply Reqb_false in Hz. rewrite Rminus_0_r. by field.
  Qed.
End Sharp.

(** The hypotheses are met by ordinary instances. *)
Lemma ex_C79 : Forall (evaluable (AStr "a"))
  [[(AStr "a", NAtom 1); (AStr "b", NAtom 2)]; [(AStr "b", NAtom 1); (AStr "a", NAtom 2)]].
Proof.
  apply Forall_cons_2; [split; [done|]; exists (AStr "b"); split; [done|]; split; [done|right; left]|].
  apply Forall_cons_2; [split; [done|]; exists (AStr "b"); split; [done|]; split; [done|left]|]. constructor.
Qed.
Lemma ex_C80 : exists y s', score_probability (CobwebClass ROps) ex_draws (CobwebEval ex_draws (fun _ _ => None) (fun _ => None) (fun _ => None))
  [(AStr "a", NAtom 1); (AStr "b", NAtom 2)] (AStr "a") (Some (NAtom 1)) (fresh (CobwebClass ROps) 0 0 tt) = (Ok y, s').
Proof.
  apply (score_total (N:=ROps) ex_draws (fun _ _ => None) (fun _ => None) (fun _ => None) counting_R ex_draws_distinct [] _ [(AStr "a", NAtom 1); (AStr "b", NAtom 2)]).
  - exists 0, 0. constructor.
  - constructor.
  - split; [done|]. exists (AStr "b"). split; [done|]. split; [done|right; left].
Qed.

Print Assumptions C55_target_hidden.
Print Assumptions C55_target_hidden_cobweb3.
Print Assumptions C55_scores_ask.
Print Assumptions C79_evaluation_returns.
Print Assumptions C79_first_without_target.
Print Assumptions C80_score_is_0_or_1.
