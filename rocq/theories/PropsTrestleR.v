(** * TrestleTree over exact arithmetic: fitting never raises. *)
From Coq Require Import Reals Lra.
From stdpp Require Import base decidable list gmap strings sets.
From Coq Require Import Ascii String ZArith.
From Verif Require Import Base Num TreeModel TreeFun TreeScore TreeRefine TreeSorts TreeInv SpecTree TreeState
  TreeTotal TreeLeaf PropsTotal Nominal Utils CV Cobweb3 C3Facts C3R C3Tree C3Total Query Query3 PropsC3 PropsC3R
  PyVal Preproc Preproc2 StructMap StructFacts PropsStruct PreStd Trestle SpecTrestle
  TreeKeep TrestleFacts TrestleFresh TrestleVals TrestleTotal TrestleRun PropsTrestle.
Set Default Proof Using "Type".
Open Scope list_scope.

Section Props.
  Context (rng : nat -> R) (sc : option R) (inner : bool).
  Notation C := (Cobweb3Class ROps).
  Notation X := (val3 ROps).
  Notation x0 := (@new_ctx ROps sc inner).
  Context (ncmp : nom -> nom -> option bool) (normal : R -> R -> A R).
  Context (pystr : attr -> string) (setord : list attr -> list attr) (rlimit : nat).
  Hypothesis Hnormal : forall m sd : R, amono (normal m sd).
  Hypothesis setord_spec : forall l x, x ∈ setord l <-> x ∈ l.
  Notation treachable := (treachable (N:=ROps) rng ncmp normal pystr setord rlimit x0).
  Notation trun := (trun (N:=ROps) rng ncmp normal pystr setord rlimit x0).
  Notation tstep := (tstep (N:=ROps) rng ncmp normal pystr setord rlimit x0).
  Notation t_ready := (t_ready (N:=ROps) pystr setord rlimit).

  Definition t_sensible (e : tevent ROps) : Prop :=
    match e with TFit d _ _ _ => t_fits d | _ => True end.
  Definition t_reached (e : tevent ROps) : Prop :=
    match e with TFit _ _ (Err _) _ => False | _ => True end.
  Definition wn_tree (s : tst ROps) : Prop := exists t, state_ok C (t_tree s) t /\ tall C wnames t.

  Lemma root_in (s : st C) t : state_ok C s t -> in_tree s (st_root s).
  Proof. intros Hok. apply (in_tree_ids _ _ _ _ Hok). rewrite (so_root _ _ _ Hok). destruct t. by left. Qed.

  Lemma ready_next evs s q d : treachable evs s -> Forall (tfit_inst fits3) evs -> wn_tree s ->
    oracle_ok (to_orc q) -> t_fits d ->
    exists j s', t_ready q d s = (Ok j, s') /\ fits3 j /\ forall a, a ∈ dkeys j -> wn a = true.
  Proof using Hnormal setord_spec.
    intros Hr Hf (t & Hok & Ht) Ho Hd. pose proof (root_in _ _ Hok) as Hin.
    destruct (sub_table C _ _ t Hok (sub_refl C t)) as (n & En & Es). rewrite <- (so_root _ _ _ Hok) in En.
    assert (Htb : table_of (t_tree s) (st_root (t_tree s)) (nd_sum n)) by (by exists n).
    pose proof (treachable_calls (N:=ROps) rng ncmp normal pystr setord rlimit Hnormal _ _ _ Hr) as Hc.
    assert (Hg : all_inst (C:=C) good3 (List.concat (map cobweb_calls evs))).
    { apply all_inst_calls. eapply Forall_impl; [exact Hf|]. intros e. destruct e as [? ? [j|] ?| | | |]; simpl; [|done..]. by intros [? _]. }
    destruct (reach_hist rng sc inner _ _ _ _ Hc Hg Hin Htb) as (l & Hl & _).
    eapply ready_total; [exact setord_spec|done|done|exact En| | |exact Hl|].
    - exact (names_apart (N:=ROps) rng ncmp normal pystr setord rlimit Hnormal setord_spec sc inner evs s _ _ Hr Hin Htb).
    - rewrite Es. destruct t. by apply tall_inv in Ht as [? _].
    - by eapply reach_scales_ok.
  Qed.

  Lemma tstep_wn evs s e s' : treachable evs s -> Forall (tfit_inst fits3) evs -> wn_tree s ->
    tstep s e s' -> t_sensible e -> t_reached e /\ tfit_inst fits3 e /\ wn_tree s'.
  Proof using Hnormal setord_spec.
    intros Hr Hf Hw Hs He. destruct (Hw) as (t & Hok & Ht).
    assert (Hgrown : forall s2, grown (t_tree s) (t_tree s2) -> wn_tree s2).
    { intros s2 Hg. exists t. split; [by eapply grown_ok|done]. }
    destruct Hs as [s d q j r s' _ Ho Ej E|s d q r s' _ _ E|s d f b q r s' _ _ E|s ctr rpos Hc Hp|s].
    - destruct (ready_next _ _ q d Hr Hf Hw Ho He) as (j' & s1 & Er & Hj & Hk).
      rewrite Er in Ej. simpl in Ej. subst j. split; [done|]. split; [done|].
      unfold t_fit in E. rewrite Er in E. pose proof (ready_grown _ _ _ _ _ _ _ _ Er) as Hg.
      destruct (Hgrown _ Hg) as (t1 & Hok1 & Ht1). unfold on_tree in E.
      destruct (cobweb C rng j' (t_tree s1)) as [r2 s2] eqn:E2. injection E as _ <-.
      apply (cobweb_keep C rng wnames j' (tabK_kept _ _ Hk) _ t1) in E2 as (t2 & Hok2 & Ht2); [|done|done]. by exists t2.
    - split; [done|]. split; [done|]. unfold t_cat in E. destruct (t_ready q d s) as [r1 s1] eqn:Er.
      pose proof (ready_grown _ _ _ _ _ _ _ _ Er) as Hg.
      destruct r1 as [j'|e]; [|injection E as <- <-; by apply Hgrown].
      unfold on_tree in E. destruct (cobweb_categorize C rng j' (t_tree s1)) as [r2 s2] eqn:E2. injection E as <- <-.
      apply Hgrown. simpl. eapply grown_trans; [exact Hg|]. eapply categorize_grown; [|exact E2]. by eapply grown_ok.
    - split; [done|]. split; [done|].
      destruct (infer_grown (N:=ROps) rng ncmp normal pystr setord rlimit Hnormal _ _ _ _ _ _ _ _ Hok E) as (Hg & _). by apply Hgrown.
    - split; [done|]. split; [done|]. apply Hgrown; simpl. by repeat split.
    - split; [done|]. split; [done|]. destruct (clear_runs C x0 (t_tree s)) as (s2 & E2 & Hok2 & _). unfold t_clear.
      exists (T (S (am_ctr (st_amb (t_tree s)))) (nc_empty C) []). cbn [t_tree]. rewrite E2. split; [exact Hok2|].
      constructor; [|constructor]. intros a Ha. by apply elem_of_nil in Ha.
  Qed.

  Lemma treachable_wn evs s : treachable evs s -> Forall t_sensible evs ->
    Forall t_reached evs /\ Forall (tfit_inst fits3) evs /\ wn_tree s.
  Proof using Hnormal setord_spec.
    intros (ctr & rpos & H) He. remember (t_new ctr rpos x0) as s0 eqn:E0.
    induction H as [s|s evs s1 e s2 H IH Hs]; subst.
    - split; [done|]. split; [done|]. eexists. split; [apply fresh_ok|]. constructor; [|constructor]. intros a Ha. by apply elem_of_nil in Ha.
    - apply Forall_app in He as [He [He1 _]%Forall_cons]. destruct (IH eq_refl He) as (H1 & H2 & H3).
      assert (Hr : treachable evs s1) by (by exists ctr, rpos).
      destruct (tstep_wn evs s1 e s2 Hr H2 H3 Hs He1) as (G1 & G2 & G3).
      split; [apply Forall_app; auto|]. split; [apply Forall_app; auto|done].
  Qed.

  (** ** C76: fitting and categorizing never raise. *)
  Hypothesis Hd : @distinct_draws ROps rng.
  Theorem C76_fitting_never_raises evs s :
    treachable evs s -> Forall t_sensible evs ->
    Forall tfit_ok evs /\
    forall q d, oracle_ok (to_orc q) -> t_fits d ->
      (exists c, fst (t_fit (N:=ROps) rng pystr setord rlimit q d s) = Ok c) /\
      (exists c, fst (t_cat (N:=ROps) rng pystr setord rlimit q d s) = Ok c).
  Proof using Hnormal setord_spec Hd.
    intros Hr He. destruct (treachable_wn evs s Hr He) as (H1 & H2 & H3).
    pose proof (treachable_calls (N:=ROps) rng ncmp normal pystr setord rlimit Hnormal _ _ _ Hr) as Hc.
    pose proof (all_inst_calls fits3 evs H2) as Hi. split.
    - destruct (C63_fitting_never_raises rng sc inner Hd _ _ Hc Hi) as [Hn _].
      apply Forall_forall. intros e Hin. rewrite Forall_forall in H1. specialize (H1 _ Hin). pose proof (proj1 (Forall_forall _ _) Hn) as Hn1.
      destruct e as [d q [j|x] [r|x']| | | |]; simpl; try done.
      apply (Hn1 (EFit (C:=C) j (Err x'))). apply elem_of_list_In, in_concat. exists (cobweb_calls (TFit d q (Ok j) (Err x'))).
      split; [apply in_map, elem_of_list_In, Hin|]. simpl. auto.
    - intros q d Ho Hf. destruct (ready_next _ _ q d Hr H2 H3 Ho Hf) as (j & s1 & Er & [Hj Hv] & _).
      (* one more call moves the tree on without changing it *)
      assert (Hr1 : reachable C rng x0 (List.concat (map cobweb_calls evs) ++ [EOther]) (t_tree s1)).
      { destruct Hc as (ctr & rpos & Hc). exists ctr, rpos. eapply run_snoc; [exact Hc|].
        eapply grown_other. by eapply ready_grown. }
      assert (Hi1 : all_inst (C:=C) fits3 (List.concat (map cobweb_calls evs) ++ [EOther])).
      { apply Forall_app. split; [exact Hi|]. constructor; [|done]. by intros i. }
      destruct (C63_fitting_never_raises rng sc inner Hd _ _ Hr1 Hi1) as [_ Hn].
      destruct (Hn j Hj Hv) as [[c1 E1] [c2 E2]]. unfold t_fit, t_cat. rewrite Er. unfold on_tree. cbn [fst].
      split; [by exists c1|by exists c2].
  Qed.
End Props.

(** Two components, one inside the other, a relation, a number and a hidden
    attribute: fitted twice under different names, then categorized. *)
Definition tr_inst (u v : string) (x : R) : inst (val3 ROps) :=
  [ (AStr u, PD [(AStr "color", PStr "red"); (AStr "size", PX (@VNum ROps x)); (AStr v, PD [(AStr "color", PStr "blue")])]);
    (ATup [AStr "on"; AStr u; AStr v], PX (VNom (NBool true))); (AStr "_id", PStr "x") ].
Definition tr_orc : torc ROps := TOrc id_oracle 5 3.
Definition tr_calls : list (tcall ROps) :=
  [ TCFit (tr_inst "?x" "?y" 1) tr_orc; TCFit (tr_inst "?o2" "?o1" 2) tr_orc; TCClear; TCFit (tr_inst "?x" "?y" 1) tr_orc;
    TCCat (tr_inst "?b" "?a" 1) tr_orc; TCFit (tr_inst "?o2" "?o1" 2) tr_orc ].
Definition tr_cmp (a b : nom) : option bool := Some false.
Definition tr_normal (m sd : R) : A R := fun a => (Ok m, a).
Definition tr_ord (l : list attr) : list attr := l.
Definition tr_str (a : attr) : string := match a with AStr s => s | _ => "" end.
Lemma tr_inst_fits u v x : u <> v -> is_var u = true -> is_var v = true -> t_fits (tr_inst u v x).
Proof.
  intros Huv Hu Hv.
  assert (Huc : u <> "color" /\ u <> "size" /\ u <> "_id") by (split_and!; by intros ->).
  assert (Hvc : v <> "color" /\ v <> "size") by (split_and!; by intros ->).
  assert (Hw : forall w, is_var w = true -> wn (AStr w) = true) by (intros w Hw; by destruct w).
  split.
  - destruct Huc as (? & ? & ?), Hvc. repeat (constructor || (intros Hin; repeat (apply elem_of_cons in Hin as [Hin|Hin]); try (injection Hin as Hin; congruence); try discriminate Hin; try by apply elem_of_nil in Hin)).
  - constructor.
    + constructor; [by apply Hw|]. constructor; [|by repeat constructor].
      apply wn_tup. split; [done|]. constructor; [done|]. constructor; [by apply Hw|]. constructor; [by apply Hw|constructor].
    + constructor; [|by repeat constructor]. simpl. constructor; [|by repeat constructor].
      constructor; [done|]. constructor; [done|]. constructor; [by apply Hw|constructor].
  - eapply pvis_in; [left|]. eapply pvis_here; [left|done|done].
  - repeat constructor; unfold plain, clean; simpl; eauto; done.
Qed.
Lemma ex_C76 : Forall tfit_ok (tevents (N:=ROps) ex_draws tr_cmp tr_normal tr_str tr_ord 100 (new_ctx (N:=ROps) (Some 1%R) true) tr_calls
  (t_new 0 0 (new_ctx (N:=ROps) (Some 1%R) true))).
Proof.
  refine (proj1 (C76_fitting_never_raises ex_draws (Some 1%R) true tr_cmp tr_normal tr_str tr_ord 100 _ _ ex_draws_distinct _
    (snd (texec (N:=ROps) ex_draws tr_cmp tr_normal tr_str tr_ord 100 (new_ctx (N:=ROps) (Some 1%R) true) tr_calls (t_new 0 0 (new_ctx (N:=ROps) (Some 1%R) true)))) _ _)).
  - intros m sd a. split; simpl; lia.
  - done.
  - exists 0, 0. apply (texec_run (N:=ROps) ex_draws tr_cmp tr_normal tr_str tr_ord 100).
    repeat (apply Forall_cons_2; [first [exact I|split; [by apply tf_wf, tr_inst_fits|apply id_oracle_ok]]|]). apply Forall_nil_2.
  - apply (tevents_all (N:=ROps) ex_draws tr_cmp tr_normal tr_str tr_ord 100 t_fits).
    intros d q H. repeat (apply elem_of_cons in H as [H|H]; [try discriminate H; injection H as -> _; by apply tr_inst_fits|]).
    by apply elem_of_nil in H.
Qed.
Print Assumptions C76_fitting_never_raises.
