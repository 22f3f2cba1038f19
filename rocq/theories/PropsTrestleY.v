(** * What infer_missing of TrestleTree keeps: runs on IEEE doubles (C78). *)
From stdpp Require Import base decidable list gmap strings sets.
From Coq Require Import Floats String ZArith.
From Verif Require Import Base Num FloatNum TreeModel TreeFun TreeScore TreeRefine TreeSorts TreeInv SpecTree TreeState
  Nominal NominalFacts CV Cobweb3 C3Facts Query Query3 PropsC3 PropsQ3 PropsQ3I PyVal Preproc Preproc2 PreStd StructMap StructFacts PropsStruct Trestle SpecTrestle
  TrestleFacts TrestleFresh TrestleVals TrestleTotal TrestleSim TrestleRun PropsTrestle PreObj PathLook PropsTrestleU PropsTrestleK Example PropsTrestleX.
Set Default Proof Using "Type".
Open Scope list_scope.

(** Strings found along paths. *)
Definition ty_at (p : list attr) (d : inst FX) : option string :=
  match plook p (PD d) with Some (PStr s) => Some s | _ => None end.

Lemma ov_obj u s : is_var u = true -> obj (snd (ov u s)).
Proof.
  intros Hu. constructor; [done|nodup|]. entries. exists "a". split; [done|]. split; [done|]. split; [done|]. by right.
Qed.

(** ** A tree without components in components *)
Lemma tx_two_obj : t_obj tx_two.
Proof.
  split; [nodup| |nodup]. entries; (left; split; [done|]; by apply ov_obj).
Qed.
Definition ty_given : inst FX := [ov "?u" "one"; (AStr "kind", sv "pair")].
Lemma ty_given_obj : t_obj ty_given.
Proof. split; [nodup| |nodup]. entries; [left; split; [done|]; by apply ov_obj|right; by split]. Qed.
Definition ty_calls : list (tcall FloatOps) := [TCFit tx_two tx_orc].
Lemma ty_calls_ok : Forall call_ok ty_calls.
Proof.
  apply Forall_cons_2; [|apply Forall_nil_2]. split; [|apply id_oracle_ok].
  repeat (constructor || (intros Hin; repeat (apply elem_of_cons in Hin as [Hin|Hin]); try done; try by apply elem_of_nil in Hin)).
Qed.
Lemma ty_reachable : treachable ex_rng tx_cmp tx_normal tx_str id 100 tx0 (tx_events ty_calls (t_new 0 0 tx0)) tx_one.
Proof. exists 0, 0. exact (texec_run ex_rng tx_cmp tx_normal tx_str id 100 tx0 ty_calls ty_calls_ok (t_new 0 0 tx0)). Qed.
Lemma ty_objs : Forall (t_objs true) (tx_events ty_calls (t_new 0 0 tx0)).
Proof.
  unfold tx_events, ty_calls. cbn [tevents].
  match goal with |- context [texec1 ?a ?b ?c ?d ?e ?f ?g ?h ?i] => destruct (texec1 a b c d e f g h i) as [[r|r|] s] end;
  (apply Forall_cons_2; [first [exact I|exact (conj tx_two_obj (fun _ => eq_refl))]|apply Forall_nil_2]).
Qed.
Lemma ty_clean : Forall t_clean (tx_events ty_calls (t_new 0 0 tx0)).
Proof.
  unfold tx_events, ty_calls. cbn [tevents].
  match goal with |- context [texec1 ?a ?b ?c ?d ?e ?f ?g ?h ?i] => destruct (texec1 a b c d e f g h i) as [[r|r|] s] end;
  (apply Forall_cons_2; [first [exact I|repeat constructor; unfold clean; simpl; done]|apply Forall_nil_2]).
Qed.
Lemma ty_fresh n : 0 < n <= t_sym tx_one -> gensym_name n ∉ pvars (PD ty_given).
Proof.
  assert (t_sym tx_one = 2) as -> by (vm_compute; reflexivity). intros Hn Hin.
  assert (Hn' : n = 1 \/ n = 2) by lia.
  change (pvars (PD ty_given)) with ["?u"] in Hin. apply elem_of_list_singleton in Hin.
  destruct Hn' as [-> | ->]; discriminate Hin.
Qed.
(** The component keeps its name and value; the concept's other component is
    added under the name that the tree has for it. *)
Lemma ex_C78_keeps_flat : exists d' s', t_infer ex_rng tx_cmp tx_normal tx_str id 100 tx_orc ty_given "most likely" true tx_one = (Ok d', s') /\
  ty_at [AStr "?u"; AStr "a"] d' = Some "one" /\ ty_at [AStr "kind"] d' = Some "pair" /\ ty_at [AStr "?o2"; AStr "a"] d' = Some "two" /\
  forall p v, plook p (PD ty_given) = Some v -> plainv v -> plook p (PD d') = Some v.
Proof.
  assert (E : match fst (t_infer ex_rng tx_cmp tx_normal tx_str id 100 tx_orc ty_given "most likely" true tx_one) with
    | Ok d' => (ty_at [AStr "?u"; AStr "a"] d', ty_at [AStr "kind"] d', ty_at [AStr "?o2"; AStr "a"] d') | Err _ => (None, None, None) end =
    (Some "one", Some "pair", Some "two")) by (vm_compute; reflexivity).
  destruct (t_infer ex_rng tx_cmp tx_normal tx_str id 100 tx_orc ty_given "most likely" true tx_one) as [[d'|e] s'] eqn:Ei; cbn [fst] in E; [|discriminate E].
  injection E as E1 E2 E3. exists d', s'. split; [reflexivity|]. split; [exact E1|]. split; [exact E2|]. split; [exact E3|].
  exact (C78_keeps_given_flat ex_rng tx_cmp tx_normal tx_str id 100 tx_normal_mono (fun l x => conj (fun H => H) (fun H => H))
    (Some 0.5%float) true _ tx_one tx_orc ty_given "most likely" true d' s' ty_reachable ty_clean ty_objs ty_given_obj id_oracle_ok ty_fresh Ei).
Qed.

Lemma knows_in {N} (tb : nsum3 N) a : knows tb a -> a ∈ dkeys (n3_av tb).
Proof. intros Hk%knows_key. destruct (dget a (n3_av tb)) eqn:E; [|done]. by eapply dget_Some_key. Qed.

(** ** A tree that has seen a component in a component *)
Definition ty_deep (u v : string) : inst FX := [(AStr u, PD [(AStr v, PD [(AStr "a", sv "one"); (AStr "b", sv "two")])])].
Lemma ty_deep_obj u v : is_var u = true -> is_var v = true -> u <> v -> u <> "" -> v <> "" -> v <> "_" -> t_obj (ty_deep u v).
Proof.
  intros Hu Hv Hne Hu' Hv' Hv2. split; [nodup| |].
  - entries. left. split; [done|]. constructor; [done|nodup|]. entries. exists v.
    split; [done|]; split; [done|]; split; [done|]. left. split; [done|]. constructor; [done|nodup|].
    entries; [exists "a"|exists "b"]; (split; [done|]; split; [done|]; split; [done|]; by right).
  - cbn. apply NoDup_cons_2; [|apply NoDup_cons_2; [apply not_elem_of_nil|apply NoDup_nil_2]].
    intros Hin%elem_of_list_singleton. done.
Qed.
Definition tz_calls : list (tcall FloatOps) := [TCFit (ty_deep "?x" "?y") tx_orc].
Definition tz_one : tst FloatOps := snd (tx_exec tz_calls (t_new 0 0 tx0)).
Lemma tz_calls_ok : Forall call_ok tz_calls.
Proof.
  apply Forall_cons_2; [|apply Forall_nil_2]. split; [|apply id_oracle_ok].
  repeat (constructor || (intros Hin; repeat (apply elem_of_cons in Hin as [Hin|Hin]); try done; try by apply elem_of_nil in Hin)).
Qed.
Lemma tz_reachable : treachable ex_rng tx_cmp tx_normal tx_str id 100 tx0 (tx_events tz_calls (t_new 0 0 tx0)) tz_one.
Proof. exists 0, 0. exact (texec_run ex_rng tx_cmp tx_normal tx_str id 100 tx0 tz_calls tz_calls_ok (t_new 0 0 tx0)). Qed.
Lemma tz_objs : Forall (t_objs false) (tx_events tz_calls (t_new 0 0 tx0)).
Proof.
  assert (H : t_obj (ty_deep "?x" "?y")) by (by apply ty_deep_obj).
  unfold tx_events, tz_calls. cbn [tevents].
  match goal with |- context [texec1 ?a ?b ?c ?d ?e ?f ?g ?h ?i] => destruct (texec1 a b c d e f g h i) as [[r|r|] s] end;
  (apply Forall_cons_2; [first [exact I|split; [exact H|discriminate]]|apply Forall_nil_2]).
Qed.
Lemma tz_clean : Forall t_clean (tx_events tz_calls (t_new 0 0 tx0)).
Proof.
  unfold tx_events, tz_calls. cbn [tevents].
  match goal with |- context [texec1 ?a ?b ?c ?d ?e ?f ?g ?h ?i] => destruct (texec1 a b c d e f g h i) as [[r|r|] s] end;
  (apply Forall_cons_2; [first [exact I|repeat constructor; unfold clean; simpl; done]|apply Forall_nil_2]).
Qed.
Lemma tz_sym : t_sym tz_one = 2.
Proof. vm_compute. reflexivity. Qed.

(** Its own component is in no component; infer_missing puts it into the one
    that the concept knows as its owner: the value is where the instance never
    had it, and not where it had it.  (The base's components are enumerated in
    reverse, so that ?u is mapped to the component with the same attribute.) *)
Definition tz_orc : torc FloatOps := TOrc (Oracle (@rev attr) (o_munkres id_oracle) []) 5 3.
Lemma tz_orc_ok : oracle_ok (to_orc tz_orc).
Proof.
  split; [|apply id_oracle_ok]. intros l. simpl. symmetry. apply Permutation_rev.
Qed.
Definition tz_given : inst FX := [ov "?u" "one"].
Lemma tz_given_obj : t_obj tz_given.
Proof. split; [nodup| |nodup]. entries; left; split; [done|]; by apply ov_obj. Qed.
Lemma tz_fresh n : 0 < n <= t_sym tz_one -> gensym_name n ∉ pvars (PD tz_given).
Proof.
  rewrite tz_sym. intros Hn Hin. assert (Hn' : n = 1 \/ n = 2) by lia.
  change (pvars (PD tz_given)) with ["?u"] in Hin. apply elem_of_list_singleton in Hin.
  destruct Hn' as [-> | ->]; discriminate Hin.
Qed.
Theorem C78_owner_moved_refuted : exists evs s q d d' s',
  treachable ex_rng tx_cmp tx_normal tx_str id 100 tx0 evs s /\ Forall t_clean evs /\ Forall (t_objs false) evs /\
  t_obj d /\ oracle_ok (to_orc q) /\ (forall n, 0 < n <= t_sym s -> gensym_name n ∉ pvars (PD d)) /\
  t_infer ex_rng tx_cmp tx_normal tx_str id 100 q d "most likely" true s = (Ok d', s') /\
  exists p v, plook p (PD d) = Some v /\ plainv v /\ plook p (PD d') = None.
Proof.
  assert (E : match fst (t_infer ex_rng tx_cmp tx_normal tx_str id 100 tz_orc tz_given "most likely" true tz_one) with
    | Ok d' => Some (dkeys d') | Err _ => None end = Some [AStr "?o1"]) by (vm_compute; reflexivity).
  destruct (t_infer ex_rng tx_cmp tx_normal tx_str id 100 tz_orc tz_given "most likely" true tz_one) as [[d'|e] s'] eqn:Ei; cbn [fst] in E; [|discriminate E].
  injection E as E. exists (tx_events tz_calls (t_new 0 0 tx0)), tz_one, tz_orc, tz_given, d', s'.
  split; [exact tz_reachable|]. split; [exact tz_clean|]. split; [exact tz_objs|]. split; [exact tz_given_obj|]. split; [exact tz_orc_ok|].
  split; [exact tz_fresh|]. split; [exact Ei|]. clear Ei.
  exists [AStr "?u"; AStr "a"], (sv "one"). split; [reflexivity|]. split; [exact I|]. cbn [plook].
  assert (dget (AStr "?u") d' = None) as ->; [|reflexivity]. apply dget_None. rewrite E.
  intros Hin%elem_of_list_singleton. discriminate Hin.
Qed.
(** The component still has its value. *)
Lemma ex_C78_components_kept : exists d' s', t_infer ex_rng tx_cmp tx_normal tx_str id 100 tz_orc tz_given "most likely" true tz_one = (Ok d', s') /\
  ty_at [AStr "?o1"; AStr "?u"; AStr "a"] d' = Some "one" /\ ty_at [AStr "?o1"; AStr "?u"; AStr "b"] d' = Some "two" /\
  forall p u a v, plook (p ++ [AStr u; AStr a]) (PD tz_given) = Some v -> plainv v -> exists p', plook (p' ++ [AStr u; AStr a]) (PD d') = Some v.
Proof.
  assert (E : match fst (t_infer ex_rng tx_cmp tx_normal tx_str id 100 tz_orc tz_given "most likely" true tz_one) with
    | Ok d' => (ty_at [AStr "?o1"; AStr "?u"; AStr "a"] d', ty_at [AStr "?o1"; AStr "?u"; AStr "b"] d') | Err _ => (None, None) end =
    (Some "one", Some "two")) by (vm_compute; reflexivity).
  destruct (t_infer ex_rng tx_cmp tx_normal tx_str id 100 tz_orc tz_given "most likely" true tz_one) as [[d'|e] s'] eqn:Ei; cbn [fst] in E; [|discriminate E].
  injection E as E1 E2. exists d', s'. split; [reflexivity|]. split; [exact E1|]. split; [exact E2|].
  exact (proj2 (C78_components_kept ex_rng tx_cmp tx_normal tx_str id 100 tx_normal_mono (fun l x => conj (fun H => H) (fun H => H))
    (Some 0.5%float) true _ tz_one tz_orc tz_given "most likely" true d' s' tz_reachable tz_clean tz_objs tz_given_obj tz_orc_ok tz_fresh Ei)).
Qed.

(** An instance whose component is where the concept has it: the condition on
    owners holds, and all that was given stays where it was. *)
Definition tz_inside : inst FX := [(AStr "?m", PD [ov "?n" "one"])].
Lemma tz_inside_obj : t_obj tz_inside.
Proof.
  split; [nodup| |nodup]. entries. left. split; [done|]. constructor; [done|nodup|]. entries. exists "?n".
  split; [done|]. split; [done|]. split; [done|]. left. split; [done|]. by apply (ov_obj "?n").
Qed.
Lemma tz_inside_fresh n : 0 < n <= t_sym tz_one -> gensym_name n ∉ pvars (PD tz_inside).
Proof.
  rewrite tz_sym. intros Hn Hin. assert (Hn' : n = 1 \/ n = 2) by lia.
  change (pvars (PD tz_inside)) with ["?m"; "?n"] in Hin. apply elem_of_cons in Hin as [Hin|Hin%elem_of_list_singleton];
  destruct Hn' as [-> | ->]; discriminate Hin.
Qed.
Lemma tz_cat : fst (t_cat ex_rng tx_str id 100 tx_orc tz_inside tz_one) = Ok 1.
Proof. vm_compute. reflexivity. Qed.
Definition tz_tb : nsum3 FloatOps := match st_heap (t_tree tz_one) !! 1 with Some n => nd_sum n | None => NSum3 0 [] end.
Lemma tz_table : table_of (t_tree tz_one) 1 tz_tb.
Proof.
  unfold tz_tb, table_of. assert (H : match st_heap (t_tree tz_one) !! 1 with Some _ => true | None => false end = true) by (vm_compute; reflexivity).
  destruct (st_heap (t_tree tz_one) !! 1) as [n|]; [|discriminate H]. exact (ex_intro _ n (conj eq_refl eq_refl)).
Qed.
Lemma tz_keys : dkeys (n3_av tz_tb) =
  [ATup [AStr "has-component"; AStr "?o1"; AStr "?o2"]; ATup [AStr "a"; AStr "?o2"]; ATup [AStr "b"; AStr "?o2"]].
Proof. vm_compute. reflexivity. Qed.
Lemma ex_C78_keeps_given : exists d' s', t_infer ex_rng tx_cmp tx_normal tx_str id 100 tx_orc tz_inside "most likely" true tz_one = (Ok d', s') /\
  ty_at [AStr "?m"; AStr "?n"; AStr "a"] d' = Some "one" /\ ty_at [AStr "?m"; AStr "?n"; AStr "b"] d' = Some "two" /\
  forall p v, plook p (PD tz_inside) = Some v -> plainv v -> plook p (PD d') = Some v.
Proof.
  assert (E : match fst (t_infer ex_rng tx_cmp tx_normal tx_str id 100 tx_orc tz_inside "most likely" true tz_one) with
    | Ok d' => (ty_at [AStr "?m"; AStr "?n"; AStr "a"] d', ty_at [AStr "?m"; AStr "?n"; AStr "b"] d') | Err _ => (None, None) end =
    (Some "one", Some "two")) by (vm_compute; reflexivity).
  assert (Ek : match fst (fst (t_prepare tx_str id 100 tx_orc tz_inside tz_one)) with Ok d1 => Some (map fst d1) | Err _ => None end =
    Some [ATup [AStr "has-component"; AStr "?o1"; AStr "?o2"]; ATup [AStr "a"; AStr "?o2"]]) by (vm_compute; reflexivity).
  destruct (t_prepare tx_str id 100 tx_orc tz_inside tz_one) as [[[d1|e] h] s1] eqn:Ep; cbn [fst] in Ek; [|discriminate Ek]. injection Ek as Ek.
  destruct (t_infer ex_rng tx_cmp tx_normal tx_str id 100 tx_orc tz_inside "most likely" true tz_one) as [[d'|e] s'] eqn:Ei; cbn [fst] in E; [|discriminate E].
  injection E as E1 E2. exists d', s'. split; [reflexivity|]. split; [exact E1|]. split; [exact E2|].
  refine (C78_keeps_given ex_rng tx_cmp tx_normal tx_str id 100 tx_normal_mono (fun l x => conj (fun H => H) (fun H => H))
    (Some 0.5%float) true _ tz_one tx_orc tz_inside "most likely" true d' s' d1 h s1 1 tz_tb
    tz_reachable tz_clean tz_objs tz_inside_obj id_oracle_ok tz_inside_fresh Ep tz_cat tz_table _ Ei).
  intros w o Hk _. rewrite Ek. apply knows_in in Hk as Eg. rewrite tz_keys in Eg. clear Hk.
  apply elem_of_cons in Eg as [Eg|Eg]; [rewrite Eg; left|].
  apply elem_of_cons in Eg as [Eg|Eg]; [discriminate Eg|]. apply elem_of_list_singleton in Eg. discriminate Eg.
Qed.
Print Assumptions C78_owner_moved_refuted.
Print Assumptions ex_C78_keeps_flat.
