(** * Which calls can raise, and what is left behind (C20, C21). *)
From Coq Require Import Reals Lra.
From stdpp Require Import base decidable tactics gmap strings list.
From Verif Require Import Base Num TreeModel TreeFun TreeScore TreeRefine TreeSorts TreeInv
  SpecTree TreeState TreeTotal TreeRel TreeSim Nominal NominalFacts NominalTotal NominalTree.

(** Sensible numbers: 0 == 0, and a positive count is not 0. *)
Record counting (N : NumOps) : Prop := {
  ct_pos : forall n, neqb N (nofnat N (S n)) (nofnat N 0) = false;
  ct_zero : neqb N (nofnat N 0) (nofnat N 0) = true;
}.
(** random() never returns the same number twice. *)
Definition distinct_draws {N : NumOps} (rng : nat -> num N) : Prop :=
  forall j k, j <> k -> neqb N (rng j) (rng k) = false.

Section Props.
  Context {N : NumOps} (rng : nat -> num N).
  Notation C := (CobwebClass N).
  Hypothesis HN : counting N.
  Hypothesis Hd : distinct_draws rng.

  (** ** C20: no call has raised, and none of the next calls will. *)
  Theorem C20_fitting_never_raises evs s :
    reachable C rng tt evs s -> all_inst (C:=C) has_visible evs ->
    Forall no_exn evs /\
    forall i, has_visible i ->
      (exists j, fst (cobweb C rng i s) = Ok j) /\ (exists j, fst (cobweb_categorize C rng i s) = Ok j).
  Proof.
    intros Hr Hg. destruct HN as [Hnz Hzz].
    destruct (reachable_total C rng Hnz Hd (fun _ => True) (fun _ => VN) has_visible
      (fun _ _ _ _ => Logic.I) (fun x i _ Hi => cobweb_scorable Hnz x i Hi)
      (fun x i s Hs => Hs) tt evs s Hr Hg Logic.I) as (He & _ & t & Hok & Hre).
    split; [done|]. intros i Hi.
    exact (next_total C rng Hnz Hd (fun _ => True) (fun _ => VN) has_visible
      (fun _ _ _ _ => Logic.I) (fun x i _ Hi => cobweb_scorable Hnz x i Hi)
      (fun x i s Hs => Hs) s t i Hi Logic.I Hok Hre).
  Qed.

  (** The same for the public methods: a dict all of whose attributes and
      values pass the sanity check and that has a visible attribute. *)
  Theorem C20_ifit_returns evs s (r : raw) :
    reachable C rng tt evs s -> all_inst (C:=C) has_visible evs ->
    (forall a v, (a, v) ∈ r -> attr_ok a = true /\ exists w, v = PVal w) ->
    (exists a, visible a = true /\ a ∈ dkeys r) ->
    (exists j, fst (ifit rng r s) = Ok j) /\ (exists j, fst (categorize rng r s) = Ok j).
  Proof.
    intros Hr Hg Hok Hv.
    assert (Hs : exists j, sanity r = Ok j /\ dkeys j = dkeys r).
    { clear Hv. induction r as [|[a v] r IH]; [by exists []|]. simpl.
      destruct (Hok a v) as [-> [w ->]]; [left|].
      destruct IH as (j & -> & Hk); [intros; apply Hok; by right|].
      eexists. split; [done|]. simpl. by rewrite Hk. }
    destruct Hs as (j & Es & Hk). unfold ifit, categorize. rewrite Es.
    destruct (C20_fitting_never_raises evs s Hr Hg) as [_ Hn]. apply Hn.
    unfold has_visible. by rewrite Hk.
  Qed.

  (** ** C21: whatever was fitted before (also instances without visible
      attributes), an ifit or categorize that raises leaves the tree as it
      was. *)
  Theorem C21_raise_leaves_tree evs s i e s' :
    reachable C rng tt evs s -> cobweb C rng i s = (Err e, s') ->
    same_view (C1:=C) (C2:=C) eq s s'.
  Proof.
    intros Hr E. destruct HN as [Hnz Hzz]. by eapply (raise_atomic rng Hnz Hd Hzz).
  Qed.
End Props.

(** ** The hypotheses can be met *)
Lemma counting_R : counting ROps.
Proof.
  split.
  - intros n. apply Reqb_false. apply not_0_INR. lia.
  - by apply Reqb_true.
Qed.

(** Distinct numbers in (0,1]. *)
Definition ex_draws (n : nat) : num ROps := (1 / INR (S n))%R.

Lemma ex_draws_distinct : distinct_draws ex_draws.
Proof.
  intros j k Hne. apply Reqb_false. unfold ex_draws. intros E.
  assert (Hp : forall n, (0 < INR (S n))%R) by (intros n; apply lt_0_INR; lia).
  pose proof (Hp j) as Hj. pose proof (Hp k) as Hk.
  assert (E2 : INR (S j) = INR (S k)).
  { apply (Rmult_eq_reg_l (/ INR (S j))); [|apply Rinv_neq_0_compat; lra].
    rewrite Rinv_l by lra. unfold Rdiv in E. rewrite !Rmult_1_l in E. rewrite E. by rewrite Rinv_l by lra. }
  apply INR_eq in E2. lia.
Qed.

(** Any list of instances with visible attributes is fitted without exception. *)
Lemma ex_never_raises (l : list inst) : Forall has_visible l ->
  Forall (fun r => exists j, r = Ok j)
    (fst (exec (CobwebClass ROps) ex_draws tt (map (@CFit _ (CobwebClass ROps)) l)
            (fresh (CobwebClass ROps) 0 0 tt))).
Proof.
  intros Hl. pose proof (exec_reachable (CobwebClass ROps) ex_draws tt
    (map (@CFit _ (CobwebClass ROps)) l) 0 0) as Hr.
  assert (Hlen : forall cs s, length (fst (exec (CobwebClass ROps) ex_draws tt cs s)) = length cs).
  { induction cs as [|c cs IH]; intros s; [done|]. cbn [exec].
    destruct (exec1 _ _ _ c s) as [r s1]. specialize (IH s1).
    destruct (exec _ _ _ cs s1) as [rs s2]. simpl in *. by rewrite IH. }
  specialize (Hlen (map (@CFit _ (CobwebClass ROps)) l) (fresh (CobwebClass ROps) 0 0 tt)).
  revert Hr Hlen. generalize (fst (exec (CobwebClass ROps) ex_draws tt
    (map (@CFit _ (CobwebClass ROps)) l) (fresh (CobwebClass ROps) 0 0 tt))) as rs.
  generalize (snd (exec (CobwebClass ROps) ex_draws tt
    (map (@CFit _ (CobwebClass ROps)) l) (fresh (CobwebClass ROps) 0 0 tt))) as s.
  intros s rs Hr Hlen.
  destruct (C20_fitting_never_raises ex_draws counting_R ex_draws_distinct _ _ Hr) as [Hev _].
  - clear -Hl. revert rs. induction Hl as [|i l Hi Hl IH]; intros rs; [constructor|].
    destruct rs as [|r rs]; [constructor|]. simpl. constructor; [|apply IH].
    intros j. simpl. by intros ->.
  - clear -Hev Hlen. revert rs Hev Hlen. induction l as [|i l IH]; intros [|r rs] Hev Hlen; try done.
    simpl in Hev. apply Forall_cons in Hev as [Hr Hev]. constructor.
    + simpl in Hr. destruct r; [eauto|done].
    + apply IH; [done|]. by injection Hlen.
Qed.

(** An exception does occur: fit [a=x], then an empty instance, then anything. *)
Lemma ex_raises (i : inst) :
  exists e s', cobweb (CobwebClass ROps) ex_draws i
    (snd (exec (CobwebClass ROps) ex_draws tt
            [@CFit _ (CobwebClass ROps) [(AStr "a", NStr "x")]; @CFit _ (CobwebClass ROps) []]
            (fresh (CobwebClass ROps) 0 0 tt))) = (Err e, s').
Proof.
  set (C := CobwebClass ROps). match goal with |- context [cobweb C ex_draws i ?s0] => set (s := s0) end.
  set (t := @T ROps (CobwebClass ROps) 2 (NSum 2 [(AStr "a", [(NStr "x", 1)])])
    [@T ROps (CobwebClass ROps) 1 (NSum 1 [(AStr "a", [(NStr "x", 1)])]) [];
     @T ROps (CobwebClass ROps) 3 (NSum 1 []) []]).
  assert (Hok : state_ok C s t).
  { split.
    - constructor; [done|]. apply Forall_cons_2; [|apply Forall_cons_2; [|apply Forall_nil_2]];
        (constructor; [done|apply Forall_nil_2]).
    - done.
    - apply (bool_decide_unpack _). vm_compute. done.
    - intros j Hj. vm_compute. simpl in Hj.
      apply elem_of_cons in Hj as [->|Hj]; [lia|]. apply elem_of_cons in Hj as [->|Hj]; [lia|].
      apply elem_of_list_singleton in Hj as ->. lia. }
  destruct (cobweb_runs C ex_draws s _ i Hok) as (s3 & E & _). rewrite E.
  assert (Her : isErr (fo_res (cob_out C ex_draws s t i))).
  { unfold cob_out, cob_fuel, t. cbn [fcob].
    destruct (two_best_err (N:=ROps) ex_draws (ct_zero _ counting_R) (NSum 2 [(AStr "a", [(NStr "x", 1)])])
      [(1, NSum 1 [(AStr "a", [(NStr "x", 1)])]); (3, NSum 1 [])] i (st_amb s) (3, NSum 1 [])) as [e He];
      [right; left|done|].
    match goal with |- context [two_best_children ?a ?b ?c ?d ?f ?g ?h] =>
      change (fst (two_best_children a b c d f g h) = Err e) in He;
      destruct (two_best_children a b c d f g h) as [r a1] end.
    simpl in He. subst r. by eexists. }
  destruct Her as [e ->]. eauto.
Qed.
