(** * C96, C97: examples, and what the printed and exported trees do not promise. *)
From stdpp Require Import base decidable list gmap strings pretty.
From Coq Require Import Floats Ascii.
From Verif Require Import Base Num FloatNum TreeModel TreeState SpecTree Nominal NominalFacts CV Cobweb3 C3Facts
  PropsC3X Example Print PropsPrint PropsPrintR PropsCounts.
Local Open Scope string_scope.
Notation FC := (CobwebClass FloatOps).

(** ** Cobweb *)
Definition one (v : nom) : inst := [(AStr "a", v)].
Definition run1 (l : list inst) := exec FC ex_rng tt (map (@CFit _ FC) l) (fresh FC 0 0 tt).
Definition evs1 (l : list inst) : list (event FC) := zip_with event_of (map (@CFit _ FC) l) (fst (run1 l)).
Definition reprX (n : nat) : string := "<" +:+ pretty n +:+ ">".
Definition lab : nsum -> string := cobweb_label repr_attr (repr_nom reprX).

Lemma run1_reach l : reachable FC ex_rng tt (evs1 l) (snd (run1 l)).
Proof. apply exec_reachable. Qed.

Definition ex_two : list inst := [one (NStr "it's"); one (NInt (-2))].
Lemma ex_C96_text : fst (pretty_print FC lab 0 (st_root (snd (run1 ex_two))) (snd (run1 ex_two))) =
  Ok ("|-{'a': {""it's"": 1, -2: 1}}:2" +:+ newline +:+
      tabs 1 +:+ "|-{'a': {""it's"": 1}}:1" +:+ newline +:+
      tabs 1 +:+ "|-{'a': {-2: 1}}:1" +:+ newline).
Proof. vm_compute. reflexivity. Qed.

(** Control characters, backslashes, both kinds of quote, and tuples. *)
Lemma ex_C96_repr :
  repr_str (String "a" (newline +:+ tabs 1 +:+ String (ascii_of_nat 1) "\")) = "'a\n\t\x01\\'" /\
  repr_str "it's ""so""" = "'it\'s ""so""'" /\
  repr_attr (ATup [AStr "x"]) = "('x',)" /\
  repr_attr (ATup [AStr "on"; ANum (-1); ATup []]) = "('on', -1, ())" /\
  repr_nom reprX (NBool true) = "True" /\ str_nom reprX (NStr "it's") = "it's".
Proof. vm_compute. repeat split; reflexivity. Qed.

Lemma ex_two_events : evs1 ex_two = zip_with event_of (map (@CFit _ FC) ex_two) [Ok 1; Ok 3].
Proof.
  assert (HR : fst (run1 ex_two) = [Ok 1%nat; Ok 3%nat]) by (vm_compute; reflexivity).
  unfold evs1. rewrite HR. reflexivity.
Qed.

Lemma one_good v : good (one v).
Proof. split; [apply NoDup_singleton|by repeat constructor]. Qed.

(** The hypotheses of C96_text_determines_tree are met. *)
Lemma ex_C96_hyps : all_inst (C:=FC) good (evs1 ex_two) /\ all_ok (evs1 ex_two) /\
  Forall plain_inst (history (evs1 ex_two)) /\ length (history (evs1 ex_two)) = 2.
Proof.
  rewrite ex_two_events. split; [|split; [|split]].
  - unfold all_inst. simpl. repeat (apply Forall_cons_2; [intros i ->; apply one_good|]). apply Forall_nil_2.
  - unfold all_ok. simpl. repeat (apply Forall_cons_2; [done|]). apply Forall_nil_2.
  - simpl. repeat apply Forall_cons_2; [| |apply Forall_nil_2]; intros a v E; simpl in E; destruct (decide _) in E; by simplify_eq.
  - done.
Qed.

(** The hypotheses of C97_strings are met, with a table of two values. *)
Definition ex_strings : list inst := [one (NStr "v"); one (NStr "w")].
Lemma ex_C97_hyps : all_inst (C:=FC) good (evs1 ex_strings) /\ all_ok (evs1 ex_strings) /\
  only (fun a => exists x, a = AStr x) (fun v => exists x, v = NStr x) (history (evs1 ex_strings)) /\
  match st_heap (snd (run1 ex_strings)) !! st_root (snd (run1 ex_strings)) with
  | Some n => json_counts str_attr (str_nom reprX) (nd_sum n) = [("a", [("v", 1%nat); ("w", 1%nat)])]
  | None => False end.
Proof.
  assert (HR : fst (run1 ex_strings) = [Ok 1%nat; Ok 3%nat]) by (vm_compute; reflexivity).
  split; [|split; [|split]].
  - assert (E : evs1 ex_strings = zip_with event_of (map (@CFit _ FC) ex_strings) [Ok 1%nat; Ok 3%nat]) by (unfold evs1; rewrite HR; reflexivity).
    rewrite E. unfold all_inst. simpl. repeat (apply Forall_cons_2; [intros i ->; apply one_good|]). apply Forall_nil_2.
  - assert (E : evs1 ex_strings = zip_with event_of (map (@CFit _ FC) ex_strings) [Ok 1%nat; Ok 3%nat]) by (unfold evs1; rewrite HR; reflexivity).
    rewrite E. unfold all_ok. simpl. repeat (apply Forall_cons_2; [done|]). apply Forall_nil_2.
  - assert (E : evs1 ex_strings = zip_with event_of (map (@CFit _ FC) ex_strings) [Ok 1%nat; Ok 3%nat]) by (unfold evs1; rewrite HR; reflexivity).
    rewrite E. clear E HR. simpl. intros i a v Hi Ei. apply elem_of_list_In in Hi. simpl in Hi.
    destruct Hi as [<-|[<-|[]]]; simpl in Ei; destruct (decide _) in Ei; simplify_eq; eauto.
  - vm_compute. reflexivity.
Qed.

(** C97: the integer 1 and the string "1" are one key of the exported counts:
    the concept has size 2 and its counts show one occurrence. *)
Theorem C97_same_text_refuted : exists (l : list inst) evs (s : st FC) tb,
  reachable FC ex_rng tt evs s /\ all_ok evs /\ history evs = l /\ table_of s (st_root s) tb /\
  ns_count tb = 2%nat /\ (forall i, i ∈ l -> exists v, dget (AStr "a") i = Some v) /\
  json_counts str_attr (str_nom reprX) tb = [("a", [("1", 1%nat)])].
Proof.
  set (l := [one (NInt 1); one (NStr "1")]).
  assert (HR : fst (run1 l) = [Ok 1%nat; Ok 3%nat]) by (vm_compute; reflexivity).
  assert (E : evs1 l = zip_with event_of (map (@CFit _ FC) l) [Ok 1%nat; Ok 3%nat]) by (unfold evs1; rewrite HR; reflexivity).
  assert (H : match st_heap (snd (run1 l)) !! st_root (snd (run1 l)) with
    | Some n => nd_sum n = NSum 2 [(AStr "a", [(NInt 1, 1%nat); (NStr "1", 1%nat)])] | None => False end) by (vm_compute; reflexivity).
  exists l, (evs1 l), (snd (run1 l)), (NSum 2 [(AStr "a", [(NInt 1, 1%nat); (NStr "1", 1%nat)])]).
  split; [apply run1_reach|]. rewrite E.
  split; [unfold all_ok; simpl; repeat (apply Forall_cons_2; [done|]); apply Forall_nil_2|].
  clear E HR. split; [reflexivity|]. split; [|split; [reflexivity|split]].
  - unfold table_of. destruct (st_heap (snd (run1 l)) !! _) as [n|]; [|done]. by exists n.
  - intros i Hi. apply elem_of_list_In in Hi. simpl in Hi. destruct Hi as [<-|[<-|[]]]; eexists; reflexivity.
  - vm_compute. reflexivity.
Qed.

(** ** Cobweb3 *)
Definition run3 (l : list finst) := exec FC3 ex_rng ex3_ctx (map (@CFit _ FC3) l) (fresh FC3 0 0 ex3_ctx).
Definition evs3 (l : list finst) : list (event FC3) := zip_with event_of (map (@CFit _ FC3) l) (fst (run3 l)).
Definition lab3 (strC : cval FloatOps -> string) : nsum3 FloatOps -> string := cobweb3_label str_attr (str_nom reprX) strC.
Definition one3 (v : string) : finst := [(AStr "a", VNom (NStr v))].
(** A value with line breaks *)
Definition forged : string :=
  "v': 1, 'w': 1}}: 2" +:+ newline +:+ tabs 1 +:+ "|-{'a': {'v': 1}}: 1" +:+ newline +:+ tabs 1 +:+ "|-{'a': {'w".

Lemma kids_two : match st_heap (snd (run3 [one3 "v"; one3 "w"])) !! st_root (snd (run3 [one3 "v"; one3 "w"])) with
  Some n => length (nd_children n) | None => 5 end = 2%nat.
Proof. vm_compute. reflexivity. Qed.
Lemma kids_forged : match st_heap (snd (run3 [one3 forged])) !! st_root (snd (run3 [one3 forged])) with
  Some n => length (nd_children n) | None => 5 end = 0%nat.
Proof. vm_compute. reflexivity. Qed.

(** One instance with this value prints the same text as a tree with two
    leaves. *)
Theorem C96_cobweb3_text_refuted : forall strC, exists (l1 l2 : list finst) x,
  let s1 := snd (run3 l1) in let s2 := snd (run3 l2) in
  Forall good3 (l1 ++ l2) /\
  reachable FC3 ex_rng ex3_ctx (evs3 l1) s1 /\ all_ok (evs3 l1) /\
  reachable FC3 ex_rng ex3_ctx (evs3 l2) s2 /\ all_ok (evs3 l2) /\
  fst (pretty_print FC3 (lab3 strC) 0 (st_root s1) s1) = Ok x /\
  fst (pretty_print FC3 (lab3 strC) 0 (st_root s2) s2) = Ok x /\
  forall R, ~ matches (C:=FC3) R s1 s2 (st_root s1) (st_root s2).
Proof.
  intros strC. exists [one3 "v"; one3 "w"], [one3 forged]. eexists. simpl.
  assert (E1 : fst (run3 [one3 "v"; one3 "w"]) = [Ok 1%nat; Ok 3%nat]) by (vm_compute; reflexivity).
  assert (E2 : fst (run3 [one3 forged]) = [Ok 1%nat]) by (vm_compute; reflexivity).
  split; [|split; [apply exec_reachable|split; [|split; [apply exec_reachable|split; [|split; [|split]]]]]].
  - repeat (apply Forall_cons_2; [apply good3_dec; vm_compute; reflexivity|]). apply Forall_nil_2.
  - unfold evs3. rewrite E1. unfold all_ok. simpl. repeat (apply Forall_cons_2; [done|]). apply Forall_nil_2.
  - unfold evs3. rewrite E2. unfold all_ok. simpl. repeat (apply Forall_cons_2; [done|]). apply Forall_nil_2.
  - vm_compute. reflexivity.
  - vm_compute. reflexivity.
  - pose proof kids_two as K1. pose proof kids_forged as K2.
    revert K1 K2. generalize (snd (run3 [one3 "v"; one3 "w"])) (snd (run3 [one3 forged])). intros s1 s2 K1 K2 R HM.
    inversion HM as [? ? ? ? k1 k2 _ _ _ (n1 & H1 & H1') (n2 & H2 & H2') HF]; subst.
    rewrite H1 in K1. rewrite H2 in K2. apply Forall2_length in HF. lia.
Qed.

(** Nor is the table determined when the shape is: True and "True". *)
Theorem C96_cobweb3_values_refuted : forall strA strC, exists s t : nsum3 FloatOps,
  s <> t /\ n3_count s = n3_count t /\ one_line (cobweb3_label str_attr (str_nom reprX) strC s) /\
  cobweb3_label strA (str_nom reprX) strC s = cobweb3_label strA (str_nom reprX) strC t /\
  s = NSum3 1 [(AStr "a", [(NBool true, Cnt 1)])] /\ t = NSum3 1 [(AStr "a", [(NStr "True", Cnt 1)])].
Proof.
  intros strA strC. exists (NSum3 1 [(AStr "a", [(NBool true, Cnt 1)])]), (NSum3 1 [(AStr "a", [(NStr "True", Cnt 1)])]).
  split; [discriminate|]. split; [done|]. split; [|split; [done|done]].
  apply one_line_every. vm_compute. repeat (split; [discriminate|]). done.
Qed.

(** The hypotheses of C97_counts3 are met, with a value and a number. *)
Definition ex_mixed : list finst := [one3 "v"; [(AStr "a", @VNum FloatOps 2%float)]].
Lemma ex_mixed_results : fst (run3 ex_mixed) = [Ok 1%nat; Ok 3%nat].
Proof. vm_compute. reflexivity. Qed.
Lemma ex_C97_hyps3 : Forall good3 ex_mixed /\ all_ok (evs3 ex_mixed) /\ history (evs3 ex_mixed) = ex_mixed /\
  distinct_on (fun a => exists x, a = AStr x) str_attr /\
  distinct_on (fun v => exists x, v = NStr x /\ x <> "#ContinuousValue#") (str_nom reprX) /\
  (forall v, (exists x, v = NStr x /\ x <> "#ContinuousValue#") -> v <> cv_key /\ str_nom reprX v <> "#ContinuousValue#") /\
  only3 (N:=FloatOps) (fun a => exists x, a = AStr x) (fun v => exists x, v = NStr x /\ x <> "#ContinuousValue#") ex_mixed.
Proof.
  split; [repeat (apply Forall_cons_2; [apply good3_dec; vm_compute; reflexivity|]); apply Forall_nil_2|].
  split; [unfold evs3; rewrite ex_mixed_results; unfold all_ok; simpl; repeat (apply Forall_cons_2; [done|]); apply Forall_nil_2|].
  split; [unfold evs3; rewrite ex_mixed_results; reflexivity|].
  split; [intros ? ? (x & ->) (y & ->) E; simpl in E; by subst|].
  split; [intros ? ? (x & -> & _) (y & -> & _) E; simpl in E; by subst|].
  split; [intros ? (x & -> & Hx); split; [intros E; by injection E as ->|done]|].
  intros i a v Hi Ei. apply elem_of_list_In in Hi. simpl in Hi.
  destruct Hi as [<-|[<-|[]]]; simpl in Ei; destruct (decide (a = AStr "a")) as [->|]; [|done| |done];
    injection Ei as <-; (split; [eauto|]); [|done]. exists "v". by split.
Qed.
