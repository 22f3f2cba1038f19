(** * DummyTree on concrete instances, with doubles (C59, C81, C82). *)
From stdpp Require Import base decidable list gmap strings.
From Coq Require Import Floats.
From Verif Require Import Base Num FloatNum TreeModel Nominal CV Cobweb3 C3Facts Query Query3 PyVal Preproc Preproc2 StructMap StructFacts
  PreStd Trestle SpecTree SpecTrestle TrestleRun Example PropsTrestleX TrestleVals Dummy PropsDummy PropsDummyI PropsDummyM.
Set Default Proof Using "Type".
Open Scope list_scope.

Definition dx_plain (c : string) (x : float) : inst FX := [(AStr "color", sv c); (AStr "size", fv x)].
Definition dx_fit (m : bool) (d : inst FX) (s : dst FloatOps) := d_fit tx_str id 100 m tx_orc d s.
Definition dx_s1 := snd (dx_fit false (dx_plain "red" 1.5) (d_new 4)).
Definition dx_s2 := snd (dx_fit false (dx_plain "blue" 2.5) dx_s1).
Definition dx_rel (u : string) : inst FX := [(AStr u, PD [(AStr "color", sv "red")]); (ATup [AStr "on"; AStr u], sv "yes")].
Definition dx_list : inst FX := [(AStr "color", sv "red"); (AStr "tags", PL [sv "x"])].


Notation dx_counted := (@d_counted FloatOps tx_str id 100).
Definition dx_i (c : string) (x : float) : inst3 FloatOps := [(AStr "color", VNom (NStr c)); (AStr "size", @VNum FloatOps x)].
Definition dx_events : list (devent FloatOps) :=
  [@DFit FloatOps false (dx_plain "red" 1.5) tx_orc (Ok (dx_i "red" 1.5)) (Ok 5);
   @DFit FloatOps false (dx_plain "blue" 2.5) tx_orc (Ok (dx_i "blue" 2.5)) (Ok 5)].

Lemma dx_fst {X Y} (p : X * Y) x : fst p = x -> p = (x, snd p).
Proof. destruct p. intros <-. reflexivity. Qed.
Lemma dx_c1 : dx_counted false tx_orc (dx_plain "red" 1.5) (d_new 4) = Ok (dx_i "red" 1.5).
Proof. vm_cast_no_check (eq_refl (Ok (dx_i "red" 1.5))). Qed.
Lemma dx_c2 : dx_counted false tx_orc (dx_plain "blue" 2.5) dx_s1 = Ok (dx_i "blue" 2.5).
Proof. vm_cast_no_check (eq_refl (Ok (dx_i "blue" 2.5))). Qed.
Lemma dx_f1 : fst (dx_fit false (dx_plain "red" 1.5) (d_new 4)) = Ok 5.
Proof. vm_compute. reflexivity. Qed.
Lemma dx_f2 : fst (dx_fit false (dx_plain "blue" 2.5) dx_s1) = Ok 5.
Proof. vm_compute. reflexivity. Qed.
Notation dxstep := (@dstep_fit FloatOps tx_str id 100).
Notation dxsnoc := (@drun_snoc FloatOps tx_str id 100).
Lemma dx_reachable : dreachable tx_str id 100 dx_events dx_s2.
Proof.
  exists 4.
  exact (dxsnoc (d_new 4) [_] dx_s1 _ dx_s2
    (dxsnoc (d_new 4) [] (d_new 4) _ dx_s1 (@drun_nil FloatOps tx_str id 100 (d_new 4))
       (dxstep _ _ _ _ _ _ _ dx_c1 (dx_fst _ _ dx_f1)))
    (dxstep _ _ _ _ _ _ _ dx_c2 (dx_fst _ _ dx_f2))).
Qed.
Lemma dx_good_i c x : c <> "#ContinuousValue#" -> good3 (dx_i c x).
Proof.
  intros Hc. split; [|split].
  - apply NoDup_cons. split; [|apply NoDup_singleton]. intros H. apply elem_of_list_singleton in H. discriminate H.
  - apply Forall_cons_2; [reflexivity|]. apply Forall_cons_2; [reflexivity|]. apply Forall_nil_2.
  - intros a. unfold dx_i. cbn [dget]. destruct (decide (a = AStr "color")).
    + intros [= E]. exact (Hc E).
    + destruct (decide (a = AStr "size")); discriminate.
Qed.
Lemma dx_good : Forall d_good dx_events.
Proof.
  apply Forall_cons_2; [eexists; split; [reflexivity|]; apply dx_good_i; discriminate|].
  apply Forall_cons_2; [eexists; split; [reflexivity|]; apply dx_good_i; discriminate|]. apply Forall_nil_2.
Qed.
(** Two instances are counted as they are, at concept 5. *)
Lemma ex_C59 : n3_count (d_tb dx_s2) = List.length (dhistory dx_events) /\ dreturned dx_events = [Ok 5; Ok 5] /\
  plain (dx_plain "red" 1.5) /\ fst (dx_fit false (dx_plain "red" 1.5) dx_s2) = Ok 5.
Proof.
  destruct (C59_histogram tx_str id 100 dx_events dx_s2 [] dx_reachable dx_good) as (_ & _ & H & _).
  split; [exact H|]. split; [reflexivity|]. split; [|vm_compute; reflexivity]. split.
  - apply NoDup_cons. split; [|apply NoDup_singleton]. intros E. apply elem_of_list_singleton in E. discriminate E.
  - apply Forall_cons_2; [split; eexists; reflexivity|]. apply Forall_cons_2; [split; eexists; reflexivity|]. apply Forall_nil_2.
Qed.
(** With mapping: two instances with differently named components share their
    attributes. *)
Lemma ex_C59_mapping :
  dkeys (n3_av (d_tb (snd (dx_fit true (dx_rel "?x") (snd (dx_fit true (dx_rel "?y") (d_new 4))))))) =
  [ATup [AStr "color"; AStr "?o1"]; ATup [AStr "on"; AStr "?o1"]].
Proof. vm_compute. reflexivity. Qed.


(** After the first of them the second is mapped as in a TrestleTree. *)
Definition dx_r1 := snd (dx_fit true (dx_rel "?y") (d_new 4)).
Definition dx_ri : inst3 FloatOps :=
  [(ATup [AStr "color"; AStr "?o1"], VNom (NStr "red")); (ATup [AStr "on"; AStr "?o1"], VNom (NStr "yes"))].
Definition dx_revents : list (devent FloatOps) := [@DFit FloatOps true (dx_rel "?y") tx_orc (Ok dx_ri) (Ok 5)].
Lemma dx_rc : dx_counted true tx_orc (dx_rel "?y") (d_new 4) = Ok dx_ri.
Proof. vm_cast_no_check (eq_refl (Ok dx_ri)). Qed.
Lemma dx_rf : fst (dx_fit true (dx_rel "?y") (d_new 4)) = Ok 5.
Proof. vm_compute. reflexivity. Qed.
Lemma dx_rreachable : dreachable tx_str id 100 dx_revents dx_r1.
Proof.
  exists 4. exact (dxsnoc (d_new 4) [] (d_new 4) _ dx_r1 (@drun_nil FloatOps tx_str id 100 (d_new 4))
    (dxstep _ _ _ _ _ _ _ dx_rc (dx_fst _ _ dx_rf))).
Qed.
Lemma dx_rgood : Forall d_good dx_revents.
Proof.
  apply Forall_cons_2; [|apply Forall_nil_2]. exists dx_ri. split; [reflexivity|]. split; [|split].
  - apply NoDup_cons. split; [|apply NoDup_singleton]. intros H. apply elem_of_list_singleton in H. discriminate H.
  - apply Forall_cons_2; [reflexivity|]. apply Forall_cons_2; [reflexivity|]. apply Forall_nil_2.
  - intros a. unfold dx_ri. cbn [dget]. repeat (destruct (decide (a = _)); [discriminate|]). discriminate.
Qed.
Lemma ex_C81_maps_like_trestle (x : ctx3 FloatOps) :
  let '(r, _, c) := pipe_tr (stages tx_str id 100 x (d_tb dx_r1) (to_orc tx_orc)) stage_list (dx_rel "?x") new_objs (d_sym dx_r1) in
  d_prepare tx_str id 100 true tx_orc (dx_rel "?x") dx_r1 = (r, c).
Proof.
  apply (C81_maps_like_trestle tx_str id 100 (fun l x => conj (fun H => H) (fun H => H)) dx_revents dx_r1 x tx_orc (dx_rel "?x")
    dx_rreachable dx_rgood).
  - intros j Hj. change (dhistory dx_revents) with [dx_ri] in Hj. apply elem_of_list_singleton in Hj as ->.
    intros a y H. repeat (apply elem_of_cons in H as [H|H]; [discriminate H|]). by apply elem_of_nil in H.
  - repeat (constructor || (intros Hin; repeat (apply elem_of_cons in Hin as [Hin|Hin]); try done; try by apply elem_of_nil in Hin)).
  - repeat constructor; intros v [= <-]; by eexists.
Qed.

(** C81: "the probability of a number can be asked" fails. *)
Lemma dx_p : d_probability (d_tb dx_s2) (AStr "size") (Some (@VNum FloatOps 1.5%float)) = Err AttributeError.
Proof. vm_cast_no_check (eq_refl (@Err (num FloatOps) AttributeError)). Qed.
Theorem C81_probability_refuted : exists evs (s : dst FloatOps) a y,
  dreachable tx_str id 100 evs s /\ Forall d_good evs /\ nums (dhistory evs) a <> [] /\
  d_probability (d_tb s) a (Some (VNum y)) = Err AttributeError.
Proof.
  exists dx_events, dx_s2, (AStr "size"), 1.5%float. split; [exact dx_reachable|]. split; [exact dx_good|]. split.
  - discriminate.
  - exact dx_p.
Qed.

(** C81: with mapping, fitting a second instance with a number in a component
    raises. *)
Definition dx_num : inst FX := tx_inst "?x" "?y" 1.5 "blue".
Definition dx_m1 := snd (dx_fit true dx_num (d_new 4)).
Lemma dx_mc : exists j, dx_counted true tx_orc dx_num (d_new 4) = Ok j.
Proof.
  assert (H : match dx_counted true tx_orc dx_num (d_new 4) with Ok _ => true | Err _ => false end = true) by (vm_compute; reflexivity).
  destruct (dx_counted true tx_orc dx_num (d_new 4)) as [j|e]; [exists j; reflexivity|discriminate H].
Qed.
Lemma dx_mf : fst (dx_fit true dx_num (d_new 4)) = Ok 5.
Proof. vm_compute. reflexivity. Qed.
Lemma dx_mf2 : fst (dx_fit true dx_num dx_m1) = Err AttributeError.
Proof. vm_compute. reflexivity. Qed.
Lemma dx_mi : 5 = d_id dx_m1.
Proof. vm_compute. reflexivity. Qed.
Theorem C81_mapping_refuted : exists evs (s : dst FloatOps) d q,
  dreachable tx_str id 100 evs s /\ dreturned evs = [Ok (d_id s)] /\ (exists e, evs = [e] /\ exists j r, e = DFit true d q (Ok j) r) /\
  fst (d_fit tx_str id 100 true q d s) = Err AttributeError.
Proof.
  destruct dx_mc as (j & Ej).
  exists [DFit true dx_num tx_orc (Ok j) (Ok 5)], dx_m1, dx_num, tx_orc. split; [|split; [|split]].
  - exists 4. exact (dxsnoc (d_new 4) [] (d_new 4) _ dx_m1 (@drun_nil FloatOps tx_str id 100 (d_new 4))
       (dxstep _ _ _ _ _ _ _ Ej (dx_fst _ _ dx_mf))).
  - exact (f_equal (fun n => [Ok n]) dx_mi).
  - eexists. split; [reflexivity|]. exists j, (Ok 5). reflexivity.
  - exact dx_mf2.
Qed.

(** C82: "an ifit that raises leaves the counts as they were" fails: a list
    among the values. *)
Lemma dx_lf : fst (dx_fit false dx_list dx_s2) = Err TypeError.
Proof. vm_compute. reflexivity. Qed.
Lemma dx_lc : n3_count (d_tb (snd (dx_fit false dx_list dx_s2))) <> n3_count (d_tb dx_s2).
Proof. vm_compute. discriminate. Qed.
Theorem C82_failed_fit_refuted : exists evs (s : dst FloatOps) d q e s',
  dreachable tx_str id 100 evs s /\ Forall d_good evs /\
  d_fit tx_str id 100 false q d s = (Err e, s') /\ n3_count (d_tb s') <> n3_count (d_tb s).
Proof.
  exists dx_events, dx_s2, dx_list, tx_orc, TypeError, (snd (dx_fit false dx_list dx_s2)).
  split; [exact dx_reachable|]. split; [exact dx_good|]. split.
  - exact (dx_fst _ _ dx_lf).
  - exact dx_lc.
Qed.

(** ** C98: infer_missing *)
Definition dx_infer (d : inst FX) (s : dst FloatOps) := d_infer ex_rng tx_cmp tx_normal tx_str id 100 tx_orc d "most likely" true 0 s.
Definition dx_given : inst FX := [(AStr "color", sv "green")].
Lemma dx_given_flat : flat_inst dx_given.
Proof.
  split; [apply NoDup_singleton|]. apply Forall_cons_2; [|apply Forall_nil_2].
  split; [exists "color"; split; [reflexivity|]; split; [discriminate|reflexivity]|by eexists].
Qed.
Lemma dx_simple j a : j ∈ dhistory dx_events -> a ∈ map fst j -> simple a.
Proof.
  intros Hj Ha. assert (Hk : map fst j = [AStr "color"; AStr "size"]).
  { change (dhistory dx_events) with [dx_i "red" 1.5; dx_i "blue" 2.5] in Hj.
    apply elem_of_cons in Hj as [->|Hj]; [reflexivity|]. apply elem_of_list_singleton in Hj as ->. reflexivity. }
  rewrite Hk in Ha. apply elem_of_cons in Ha as [->|Ha]; [|apply elem_of_list_singleton in Ha as ->];
    eexists; (split; [reflexivity|split; [discriminate|reflexivity]]).
Qed.
Lemma dx_inferred : fst (dx_infer dx_given dx_s2) = Ok [(AStr "color", sv "green"); (AStr "size", fv 2)].
Proof. vm_cast_no_check (eq_refl (@Ok (inst FX) [(AStr "color", sv "green"); (AStr "size", fv 2)])). Qed.
(** The colour is kept and the mean of the sizes is added. *)
Lemma ex_C98_flat : exists d', fst (dx_infer dx_given dx_s2) = Ok d' /\ dget (AStr "color") d' = Some (sv "green") /\
  from_all tx_normal (d_tb dx_s2) (dhistory dx_events) "most likely" (AStr "size") (fv 2).
Proof.
  eexists. split; [exact dx_inferred|]. split; [reflexivity|].
  destruct (C98_flat ex_rng tx_cmp tx_normal tx_str id 100 dx_events dx_s2 tx_orc dx_given "most likely" true 0 _ _
    ltac:(lia) dx_reachable dx_good dx_given_flat dx_simple (dx_fst _ _ dx_inferred)) as (_ & _ & H & _).
  exact (H (AStr "size") (fv 2) eq_refl eq_refl).
Qed.

(** It does not return for instances with components once there are numbers:
    the mapping needs [scaling]. *)
Definition dx_part : inst FX := [(AStr "?a", PD [(AStr "color", sv "red")])].
Lemma dx_inf_num : fst (dx_infer dx_part dx_m1) = Err AttributeError.
Proof. vm_cast_no_check (eq_refl (@Err (inst FX) AttributeError)). Qed.
Theorem C98_numbers_refuted : exists evs (s : dst FloatOps) d,
  dreachable tx_str id 100 evs s /\ dreturned evs = [Ok (d_id s)] /\ fst (dx_infer d s) = Err AttributeError.
Proof.
  destruct dx_mc as (j & Ej). exists [DFit true dx_num tx_orc (Ok j) (Ok 5)], dx_m1, dx_part. split; [|split].
  - exists 4. exact (dxsnoc (d_new 4) [] (d_new 4) _ dx_m1 (@drun_nil FloatOps tx_str id 100 (d_new 4))
       (dxstep _ _ _ _ _ _ _ Ej (dx_fst _ _ dx_mf))).
  - exact (f_equal (fun n => [Ok n]) dx_mi).
  - exact dx_inf_num.
Qed.

(** It does not return if a component was counted, without mapping, under a
    name that gensym makes: the mapper finds the name on both sides. *)
Definition dx_o1 : inst FX := [(AStr "?o1", PD [(AStr "color", sv "red")])].
Definition dx_c1s := snd (dx_fit false dx_o1 (d_new 4)).
Lemma dx_oc : dx_counted false tx_orc dx_o1 (d_new 4) = Ok [(ATup [AStr "color"; AStr "?o1"], VNom (NStr "red"))].
Proof. vm_cast_no_check (eq_refl (@Ok (inst3 FloatOps) [(ATup [AStr "color"; AStr "?o1"], VNom (NStr "red"))])). Qed.
Lemma dx_of : fst (dx_fit false dx_o1 (d_new 4)) = Ok 5.
Proof. vm_compute. reflexivity. Qed.
Lemma dx_oi : 5 = d_id dx_c1s.
Proof. vm_compute. reflexivity. Qed.
Lemma dx_inf_coll : fst (dx_infer dx_part dx_c1s) = Err OtherException.
Proof. vm_cast_no_check (eq_refl (@Err (inst FX) OtherException)). Qed.
Theorem C98_collision_refuted : exists evs (s : dst FloatOps) d,
  dreachable tx_str id 100 evs s /\ Forall d_good evs /\ dreturned evs = [Ok (d_id s)] /\ fst (dx_infer d s) = Err OtherException.
Proof.
  exists [DFit false dx_o1 tx_orc (Ok [(ATup [AStr "color"; AStr "?o1"], VNom (NStr "red"))]) (Ok 5)], dx_c1s, dx_part. split; [|split; [|split]].
  - exists 4. exact (dxsnoc (d_new 4) [] (d_new 4) _ dx_c1s (@drun_nil FloatOps tx_str id 100 (d_new 4))
       (dxstep _ _ _ _ _ _ _ dx_oc (dx_fst _ _ dx_of))).
  - apply Forall_cons_2; [|apply Forall_nil_2]. eexists. split; [reflexivity|]. split; [|split].
    + apply NoDup_singleton.
    + apply Forall_cons_2; [reflexivity|apply Forall_nil_2].
    + intros a. cbn [dget]. destruct (decide _); discriminate.
  - exact (f_equal (fun n => [Ok n]) dx_oi).
  - exact dx_inf_coll.
Qed.

Print Assumptions ex_C98_flat.
Print Assumptions C98_numbers_refuted.
Print Assumptions C98_collision_refuted.
Print Assumptions C81_probability_refuted.
Print Assumptions C82_failed_fit_refuted.
