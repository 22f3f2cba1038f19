(** * TrestleTree: a run on IEEE doubles, and what infer_missing does not
    promise. *)
From stdpp Require Import base decidable list gmap strings sets.
From Coq Require Import Floats String ZArith.
From Verif Require Import Base Num FloatNum TreeModel TreeFun TreeScore TreeRefine TreeSorts TreeInv SpecTree TreeState
  Nominal NominalFacts CV Cobweb3 C3Facts Query Query3 PropsC3 PropsQ3 PyVal Preproc Preproc2 PreStd StructMap StructFacts PropsStruct Trestle SpecTrestle
  TrestleFacts TrestleFresh TrestleVals TrestleTotal TrestleSim TrestleRun PropsTrestle PreObj PropsTrestleU Example.
Set Default Proof Using "Type".
Open Scope list_scope.
Notation FX := (val3 FloatOps).
Notation FCT := (Cobweb3Class FloatOps).

(** ** A run *)
(** Python would compare the strings; here only the order of the loop over an
    instance depends on it. *)
Definition tx_str (a : attr) : string := match a with AStr s => s | _ => "" end.
Definition tx_cmp (a b : nom) : option bool := Some false.
Definition tx_normal (m sd : num FloatOps) : A (num FloatOps) := fun a => (Ok m, a).
Definition tx0 : ctx3 FloatOps := @new_ctx FloatOps (Some 0.5%float) true.
(** The i-th row is assigned to the i-th column, hill climbing stays there;
    the searches create 5 nodes and draw 3 random numbers. *)
Definition tx_orc : torc FloatOps := TOrc id_oracle 5 3.
Lemma tx_normal_mono m sd : amono (tx_normal m sd).
Proof. intros a. split; simpl; lia. Qed.
Definition sv (s : string) : pv FX := PStr s.
Definition fv (x : float) : pv FX := PX (@VNum FloatOps x).
(** Two components and a relation between them. *)
Definition tx_inst (u v : string) (x : float) (c : string) : inst FX :=
  [ (AStr u, PD [(AStr "color", sv "red"); (AStr "size", fv x)]);
    (AStr v, PD [(AStr "color", sv c)]);
    (ATup [AStr "on"; AStr u; AStr v], sv "yes") ].
(** The second one uses names that the tree generates. *)
Definition tx_calls : list (tcall FloatOps) :=
  [ TCFit (tx_inst "?x" "?y" 1.5 "blue") tx_orc; TCFit (tx_inst "?o2" "?o1" 2.5 "green") tx_orc; TCOther 7 1;
    TCCat (tx_inst "?b" "?a" 2.5 "blue") tx_orc; TCFit (tx_inst "?x" "?z" 2.5 "green") tx_orc ].
Definition tx_exec := texec ex_rng tx_cmp tx_normal tx_str id 100 tx0.
Definition tx_events := tevents ex_rng tx_cmp tx_normal tx_str id 100 tx0.
Definition tx_state : tst FloatOps := snd (tx_exec tx_calls (t_new 0 0 tx0)).

Lemma tx_inst_wf u v x c : u <> v -> pwf (PD (tx_inst u v x c)).
Proof.
  intros H. repeat (constructor || (intros Hin; repeat (apply elem_of_cons in Hin as [Hin|Hin]); try done; try by apply elem_of_nil in Hin)).
  by injection Hin.
Qed.
Lemma tx_inst_clean u v x c : c <> "#ContinuousValue#" -> pV (clean (N:=FloatOps)) (PD (tx_inst u v x c)).
Proof. intros H. repeat constructor; unfold clean; simpl; try done. intros [= ->]. by apply H. Qed.
Lemma tx_calls_ok : Forall call_ok tx_calls.
Proof.
  unfold tx_calls.
  repeat (apply Forall_cons_2; [first [exact I|split; [by apply tx_inst_wf|apply id_oracle_ok]]|]). apply Forall_nil_2.
Qed.
Lemma tx_reachable : treachable ex_rng tx_cmp tx_normal tx_str id 100 tx0 (tx_events tx_calls (t_new 0 0 tx0)) tx_state.
Proof.
  exists 0, 0. exact (texec_run ex_rng tx_cmp tx_normal tx_str id 100 tx0 tx_calls tx_calls_ok (t_new 0 0 tx0)).
Qed.

(** Concepts returned. *)
Definition tx_concepts (l : list (tanswer FloatOps)) : list (option (res nat)) :=
  map (fun x => match x with TConcept r => Some r | _ => None end) l.
(** Instances of components with strings. *)
Definition tx_show (d : inst FX) : list (attr * list (attr * string)) :=
  map (fun e => (fst e, match snd e with
    | PD l => map (fun e => (fst e, match snd e with PStr s => s | _ => "" end)) l
    | PStr s => [(AStr "", s)]
    | _ => []
    end)) d.
(** The root's count and attributes. *)
Definition tx_root (s : tst FloatOps) : option (nat * list attr) :=
  match st_heap (t_tree s) !! st_root (t_tree s) with
  | Some n => let tb : nsum3 FloatOps := nd_sum n in Some (n3_count tb, dkeys (n3_av tb))
  | None => None
  end.
(** The calls return, every component of the second and of the last instance is
    mapped to one of the first: 8 names are generated, the root knows two. *)
Lemma ex_C50_run :
  (tx_concepts (fst (tx_exec tx_calls (t_new 0 0 tx0))), t_sym tx_state, tx_root tx_state) =
    ([Some (Ok 1); Some (Ok 13); None; Some (Ok 13); Some (Ok 13)], 8,
     Some (3, [ATup [AStr "color"; AStr "?o1"]; ATup [AStr "size"; AStr "?o1"]; ATup [AStr "color"; AStr "?o2"];
               ATup [AStr "on"; AStr "?o1"; AStr "?o2"]])).
Proof. vm_compute. reflexivity. Qed.

(** The next instance meets the hypotheses of C50 and C75. *)
Lemma ex_C50 : fst (fst (t_prepare tx_str id 100 tx_orc (tx_inst "?o1" "?o2" 1 "red") tx_state)) <> Err OtherException.
Proof.
  exact (C50_no_collision ex_rng tx_cmp tx_normal tx_str id 100 tx_normal_mono (fun l x => conj (fun H => H) (fun H => H))
    (Some 0.5%float) true _ tx_state tx_orc _ tx_reachable (tx_inst_wf "?o1" "?o2" 1 "red" ltac:(done))).
Qed.
Lemma tx_clean : Forall t_clean (tx_events tx_calls (t_new 0 0 tx0)).
Proof.
  unfold tx_events, tx_calls. cbn [tevents].
  repeat match goal with |- context [texec1 ?a ?b ?c ?d ?e ?f ?g ?h ?i] =>
    let r := fresh "r" in let s := fresh "s" in destruct (texec1 a b c d e f g h i) as [[r|r|] s] end;
  repeat (apply Forall_cons_2; [first [exact I|by apply tx_inst_clean]|]); apply Forall_nil_2.
Qed.
Lemma ex_C75 : hierarchy (t_tree tx_state).
Proof.
  exact (C75_proper_tree ex_rng tx_cmp tx_normal tx_str id 100 tx_normal_mono (fun l x => conj (fun H => H) (fun H => H))
    (Some 0.5%float) true _ tx_state tx_reachable tx_clean).
Qed.
(** What was counted: three mapped instances, "blue" once. *)
Lemma ex_C75_history :
  List.length (thistory (tx_events tx_calls (t_new 0 0 tx0))) = 3 /\
  occ3 (thistory (tx_events tx_calls (t_new 0 0 tx0))) (ATup [AStr "color"; AStr "?o2"]) (NStr "blue") = 1 /\
  nums (thistory (tx_events tx_calls (t_new 0 0 tx0))) (ATup [AStr "size"; AStr "?o1"]) = [1.5; 2.5; 2.5]%float.
Proof. split; [vm_compute; reflexivity|]. split; vm_compute; reflexivity. Qed.
Lemma ex_C25_trestle :
  fst (tx_exec tx_calls (t_clear tx0 tx_state)) =
    fst (tx_exec tx_calls (t_new (am_ctr (st_amb (t_tree tx_state))) (am_rpos (st_amb (t_tree tx_state))) tx0)) /\
  fst (tx_exec tx_calls (t_clear tx0 tx_state)) <> fst (tx_exec tx_calls tx_state).
Proof.
  split.
  2:{ intros E. apply (f_equal tx_concepts) in E. revert E. vm_compute. discriminate. }
  exact (proj1 (C25_trestle_clear_like_new ex_rng tx_cmp tx_normal tx_str id 100 tx_normal_mono (Some 0.5%float) true tx_state tx_calls)).
Qed.

(** ** C78: infer_missing can replace a value that was given. *)
(** The tree has seen one instance, with the components ?x and ?y that it calls
    ?o1 and ?o2.  The given instance has a component that the user calls ?o2;
    it is standardised to ?o3 and mapped to ?o1.  Inference adds the concept's
    ?o2 with its value, and undoing gives the mapped component its old name
    ?o2: the two components are merged. *)
Definition ov (v s : string) : attr * pv FX := (AStr v, PD [(AStr "a", sv s)]).
Definition tx_two : inst FX := [ov "?x" "one"; ov "?y" "two"].
Definition tx_given : inst FX := [ov "?o2" "one"].
Definition tx_one : tst FloatOps := snd (tx_exec [TCFit tx_two tx_orc] (t_new 0 0 tx0)).

(** The claim that fails: a component of the given instance has its values in
    the result. *)
Definition keeps_given (d d' : inst FX) : Prop :=
  forall o e k v, dget o d = Some (PD e) -> dget k e = Some v ->
    exists e', dget o d' = Some (PD e') /\ dget k e' = Some v.
Lemma tx_one_reachable : exists evs, treachable ex_rng tx_cmp tx_normal tx_str id 100 tx0 evs tx_one.
Proof.
  exists (tx_events [TCFit tx_two tx_orc] (t_new 0 0 tx0)), 0, 0.
  refine (texec_run ex_rng tx_cmp tx_normal tx_str id 100 tx0 [TCFit tx_two tx_orc] _ (t_new 0 0 tx0)).
  apply Forall_cons_2; [|apply Forall_nil_2]. split; [|apply id_oracle_ok].
  repeat (constructor || (intros Hin; repeat (apply elem_of_cons in Hin as [Hin|Hin]); try done; try by apply elem_of_nil in Hin)).
Qed.
Lemma tx_given_wf : pwf (PD tx_given).
Proof. repeat (constructor || (intros Hin; repeat (apply elem_of_cons in Hin as [Hin|Hin]); try done; try by apply elem_of_nil in Hin)). Qed.
Theorem C78_infer_adds_refuted : exists evs s q d d',
  treachable ex_rng tx_cmp tx_normal tx_str id 100 tx0 evs s /\ oracle_ok (to_orc q) /\ pwf (PD d) /\
  fst (t_infer ex_rng tx_cmp tx_normal tx_str id 100 q d "most likely" true s) = Ok d' /\ ~ keeps_given d d'.
Proof.
  destruct tx_one_reachable as (evs & Hr).
  assert (E : match fst (t_infer ex_rng tx_cmp tx_normal tx_str id 100 tx_orc tx_given "most likely" true tx_one) with
              | Ok d' => Some (tx_show d') | Err _ => None end = Some [(AStr "?o2", [(AStr "a", "two")])]) by (vm_compute; reflexivity).
  destruct (fst (t_infer ex_rng tx_cmp tx_normal tx_str id 100 tx_orc tx_given "most likely" true tx_one)) as [d'|e] eqn:Ed; [|done].
  injection E as E.
  exists evs, tx_one, tx_orc, tx_given, d'. split; [exact Hr|]. split; [apply id_oracle_ok|]. split; [exact tx_given_wf|]. split; [exact Ed|].
  clear Ed Hr. intros H. destruct (H (AStr "?o2") [(AStr "a", sv "one")] (AStr "a") (sv "one") eq_refl eq_refl) as (e' & E1 & E2).
  destruct d' as [|[o v] [|]]; simpl in E; [done| |done]. injection E as -> E. simpl in E1. injection E1 as ->.
  destruct e' as [|[k w] [|]]; simpl in E; [done| |done]. injection E as -> E. simpl in E2. injection E2 as ->. discriminate E.
Qed.
(** The mapping that was chosen is the one of lowest cost: an exact search would
    choose it too. *)
Lemma ex_C78_mapping :
  match fst (fst (t_prepare tx_str id 100 tx_orc tx_given tx_one)) with
  | Ok d => tx_show d = [(ATup [AStr "a"; AStr "?o1"], [(AStr "", "one")])]
  | Err _ => False
  end /\
  match st_heap (t_tree tx_one) !! st_root (t_tree tx_one) with
  | Some n => map (mapping_cost (st_ctx (t_tree tx_one)) (nd_sum n) [(ATup [AStr "a"; AStr "?o3"], sv "one")])
      [ [(AStr "?o3", AStr "?o1")]; [(AStr "?o3", AStr "?o2")]; [(AStr "?o3", AStr "?o3")] ] =
      [Ok (-0.625)%float; Ok (-0.375)%float; Ok (-0.25)%float]
  | None => False
  end.
Proof. split; vm_compute; reflexivity. Qed.

(** ** C77: an instance with a component in a component, given to [tx_state]. *)
Definition tx_nest : inst FX :=
  [ (AStr "?o2", PD [(AStr "color", sv "red"); (AStr "?lid", PD [(AStr "size", fv 1)])]);
    (AStr "?y", PD [(AStr "color", sv "blue")]);
    (ATup [AStr "on"; AStr "?o2"; AStr "?y"], sv "yes");
    (AStr "kind", sv "stack") ].
Ltac notin := let H := fresh in intros H; repeat (apply elem_of_cons in H as [H|H]; [discriminate H|]); by apply elem_of_nil in H.
Ltac nodup := repeat (apply NoDup_cons_2; [notin|]); apply NoDup_nil_2.
Ltac entries := repeat (apply Forall_cons_2; [|]); [..|apply Forall_nil_2].
Lemma tx_nest_obj : t_obj tx_nest.
Proof.
  assert (Hlid : obj (PD [(AStr "size", fv 1)])).
  { constructor; [done|nodup|]. entries. exists "size". split; [done|]. split; [done|]. split; [done|]. by right. }
  split.
  - nodup.
  - entries.
    + left. split; [done|]. constructor; [done|nodup|]. entries.
      * exists "color". split; [done|]. split; [done|]. split; [done|]. by right.
      * exists "?lid". split; [done|]. split; [done|]. split; [done|]. left. by split.
    + left. split; [done|]. constructor; [done|nodup|]. entries.
      exists "color". split; [done|]. split; [done|]. split; [done|]. by right.
    + split; [done|]. split; [done|]. split; [done|]. entries; (eexists; split; [reflexivity|notin]).
    + right. by split.
  - nodup.
Qed.
Definition tx_stages := stages (N:=FloatOps) tx_str id 100 (st_ctx (t_tree tx_state)).
Definition tx_base : nsum3 FloatOps :=
  match st_heap (t_tree tx_state) !! st_root (t_tree tx_state) with Some n => nd_sum n | None => NSum3 0 [] end.
Definition tx_there (d : inst FX) :=
  pipe_tr (tx_stages tx_base id_oracle) stage_list d (new_objs) (t_sym tx_state).
Definition tx_back (d : inst FX) :=
  match tx_there d with
  | (Ok j, h, _) => pipe_un (tx_stages tx_base id_oracle) stage_list j h
  | (Err e, _, _) => Err e
  end.
(** Its components become ?o1, ?o2 and a name that the tree does not know. *)
Lemma ex_C77_there :
  match fst (fst (tx_there tx_nest)) with Ok j => dkeys j | Err _ => [] end =
    [ ATup [AStr "has-component"; AStr "?o2"; AStr "?o1"]; ATup [AStr "size"; AStr "?o1"]; ATup [AStr "color"; AStr "?o2"];
      ATup [AStr "color"; AStr "?o10"]; AStr "kind"; ATup [AStr "on"; AStr "?o2"; AStr "?o10"] ].
Proof. vm_compute. reflexivity. Qed.
(** ... and the relation between a component and its part has the value True. *)
Lemma ex_C77_there_value :
  match fst (fst (tx_there tx_nest)) with
  | Ok j => match dget (ATup [AStr "has-component"; AStr "?o2"; AStr "?o1"]) j with
            | Some v => match scalar v with Some (VNom w) => Some w | _ => None end
            | None => None
            end
  | Err _ => None
  end = Some (NBool true).
Proof. vm_compute. reflexivity. Qed.
(** A mapper that has not transformed anything cannot undo. *)
Lemma ex_C49_undo_first :
  match pipe_un (tx_stages tx_base id_oracle) [3] tx_nest new_objs with Ok _ => None | Err e => Some e end = Some OtherException.
Proof. vm_compute. reflexivity. Qed.
Lemma ex_C77_back : match tx_back tx_nest with Ok d => tx_show d | Err _ => [] end =
  [ (AStr "?o2", [(AStr "?lid", ""); (AStr "color", "red")]); (AStr "?y", [(AStr "color", "blue")]);
    (AStr "kind", [(AStr "", "stack")]); (ATup [AStr "on"; AStr "?o2"; AStr "?y"], [(AStr "", "yes")]) ].
Proof. vm_compute. reflexivity. Qed.
Lemma ex_C77 : forall d', tx_back tx_nest = Ok d' -> ieq d' tx_nest.
Proof.
  intros d'. unfold tx_back. destruct (tx_there tx_nest) as [[[j|e] h] c'] eqn:E; [|discriminate].
  exact (proj2 (C77_pipeline_undone tx_str id (fun l x => conj (fun H => H) (fun H => H))
    (st_ctx (t_tree tx_state)) tx_base id_oracle tx_nest _ _ _ _ _ (id_oracle_ok) tx_nest_obj E) 100 _ tx_base id_oracle d').
Qed.
(** Without the condition on relations it fails: one that names a component
    inside another one is not restored. *)
Definition tx_nested_rel : inst FX :=
  [ (AStr "?a", PD [(AStr "color", sv "red"); (AStr "?b", PD [(AStr "color", sv "red")])]);
    (ATup [AStr "on"; AStr "?b"; AStr "?a"], sv "yes") ].
Theorem C77_nested_relation_refuted : exists evs s (d j d' : inst FX) h c',
  treachable ex_rng tx_cmp tx_normal tx_str id 100 tx0 evs s /\ pwf (PD d) /\ s = tx_state /\
  tx_there d = (Ok j, h, c') /\ pipe_un (tx_stages tx_base id_oracle) stage_list j h = Ok d' /\
  dget (ATup [AStr "on"; AStr "?b"; AStr "?a"]) d <> None /\ dget (ATup [AStr "on"; AStr "?b"; AStr "?a"]) d' = None.
Proof.
  assert (Hw : pwf (PD tx_nested_rel)).
  { repeat (constructor || (intros Hin; repeat (apply elem_of_cons in Hin as [Hin|Hin]); try done; try by apply elem_of_nil in Hin)). }
  assert (E : match tx_back tx_nested_rel with Ok d => Some (dmem (ATup [AStr "on"; AStr "?b"; AStr "?a"]) d) | Err _ => None end = Some false)
    by (vm_compute; reflexivity).
  unfold tx_back in E. destruct (tx_there tx_nested_rel) as [[[j|e] h] c'] eqn:E1; [|discriminate E].
  destruct (pipe_un (tx_stages tx_base id_oracle) stage_list j h) as [d'|e] eqn:E2; [|discriminate E].
  exists (tx_events tx_calls (t_new 0 0 tx0)), tx_state, tx_nested_rel, j, d', h, c'.
  split; [exact tx_reachable|]. split; [exact Hw|]. split; [reflexivity|]. split; [exact E1|]. split; [exact E2|].
  clear E1 E2 Hw. split; [discriminate|]. injection E as E. unfold dmem in E. destruct (dget _ d'); [discriminate E|reflexivity].
Qed.
(** The instance fitted last: its leaf has no other attributes, so inference
    returns it. *)
Definition tx_again : inst FX := tx_inst "?o2" "?o1" 2.5 "green".
Lemma ex_C78_nothing_missing :
  match fst (t_cat ex_rng tx_str id 100 tx_orc tx_again tx_state), t_prepare tx_str id 100 tx_orc tx_again tx_state with
  | Ok c, (Ok d1, _, _) =>
      match st_heap (t_tree tx_state) !! c with
      | Some n => let tb : nsum3 FloatOps := nd_sum n in
          0 < List.length (dkeys (n3_av tb)) /\ forallb (fun a => dmem a d1) (dkeys (n3_av tb)) = true
      | None => False
      end
  | _, _ => False
  end /\
  match fst (t_infer ex_rng tx_cmp tx_normal tx_str id 100 tx_orc tx_again "most likely" true tx_state) with
  | Ok d => dkeys d = rev (dkeys (firstn 2 tx_again)) ++ dkeys (skipn 2 tx_again)
  | Err _ => False
  end.
Proof. split; vm_compute; [split; [lia|reflexivity]|reflexivity]. Qed.
Print Assumptions C50_names_apart.
Print Assumptions C50_no_collision.
Print Assumptions C25_trestle_clear_like_new.
Print Assumptions C75_mapped_instance.
Print Assumptions C75_proper_tree.
Print Assumptions C75_counts.
Print Assumptions C78_infer_adds_refuted.
Print Assumptions C77_pipeline_undone.
Print Assumptions C77_nested_relation_refuted.
Print Assumptions C78_nothing_missing.
