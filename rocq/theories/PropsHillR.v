(** * C110, continued: hill climbing with the cost of the structure mapper; exact
    arithmetic. *)
From Coq Require Import Reals Lra.
From stdpp Require Import base decidable tactics list gmap strings.
From Coq Require Import ZArith.
From Verif Require Import Base Num TreeModel TreeFun TreeScore TreeRefine TreeSorts TreeInv
  SpecTree TreeState TreeTotal TreeLeaf TreeGen RSum Nominal NominalFacts ScoreR CV CVFacts Cobweb3 C3Facts C3Scales C3R C3Tree C3Total
  Query Query3 PyVal Preproc PreStd StructMap StructFacts PropsStruct StructTab
  Trestle TrestleFacts PropsTotal PropsC3 PropsC3R PropsC3E PropsCU PropsCU3 PropsStructTab PropsSearch PropsSearchR PropsHill.
Set Default Proof Using "Type".
Open Scope list_scope.
Open Scope nat_scope.

Section Cost.
  Context (rng : nat -> num ROps) (sc : option R) (inner : bool).
  Notation x0 := (@new_ctx ROps sc inner).

  Lemma between_separates (tk bk K cn : list attr) m :
    (forall o, o ∈ K <-> component tk o) -> (forall c, c ∈ cn <-> component bk c) ->
    mapping_between K cn m -> separates tk bk m.
  Proof.
    intros HK Hcn [H1 H2 H3 H4]. split; [done| | |done].
    - intros o c Ho. apply HK, H2, elem_of_list_fmap. by exists (o, c).
    - intros o c Ho. destruct (H3 _ _ Ho) as [->|H]; [by left|right; by apply Hcn].
  Qed.

  (** Against any concept of any tree, from any mapping: hill climbing ends after
      fewer moves than there are mappings.  What it ends with expects the concept
      to guess at least as well, once the instance is added to it, as the mapping
      it started from, and no single change of a match does better. *)
  Theorem C110_mapping_ends evs s id (base : nsum3 ROps) d (i : I3) K cn m :
    reachable C3 rng x0 evs s -> all_inst (C:=C3) (fits3 (N:=ROps)) evs -> all_ok evs ->
    in_tree s id -> table_of s id base -> is_instance d i -> fits3 i ->
    (forall o, component (map fst i) o -> ~ component (map fst (n3_av base)) o) ->
    (forall o, o ∈ K <-> component (map fst i) o) -> (forall c, c ∈ cn <-> component (map fst (n3_av base)) c) ->
    mapping_between K cn m ->
    exists path q h f f' g g',
      hill_climb Rlt (mapping_cost (st_ctx s) base d) path (start_state m cn) q /\
      List.length path < S (List.length cn) ^ List.length m /\
      mapping_between K cn (fst q) /\ locally_best Rlt (mapping_cost (st_ctx s) base d) K cn (fst q) /\
      tabulates3 base h /\ stands_for m f /\ stands_for (fst q) f' /\
      guess_rate3 (unit_of sc inner (history evs)) (rename_all f i :: h) g /\
      guess_rate3 (unit_of sc inner (history evs)) (rename_all f' i :: h) g' /\ (g <= g')%R.
  Proof.
    intros Hr Hg Hao Hin Ht Hdi Hi Hd HK Hcn Hm.
    assert (Hdisj : forall x, x ∈ K -> x ∉ cn) by (intros x Hx Hc; apply HK in Hx; apply Hcn in Hc; by apply (Hd x)).
    destruct (concept_hist rng sc inner evs s id base Hr Hg Hao Hin Ht) as (h & Hh & Hsub & _).
    assert (Hx : scales_ok (st_ctx s)) by (by eapply reach_scales_ok).
    assert (Hu : forall a, unit_of sc inner (history evs) a = eff_scale (escale (st_ctx s) a)) by (intros a; by eapply unit_eff).
    assert (Hc : forall m1, mapping_between K cn m1 -> exists f g, stands_for m1 f /\
      mapping_cost (st_ctx s) base d m1 = Ok (- g)%R /\ guess_rate3 (unit_of sc inner (history evs)) (rename_all f i :: h) g).
    { intros m1 Hm1. pose proof (between_separates _ _ _ _ _ HK Hcn Hm1) as Hs1. destruct (separates_stands _ _ _ Hs1) as (f & Hf).
      destruct (inst_cost _ _ base h d i m1 f Hh Hx Hdi Hi Hs1 Hf Hd Hu) as (g & E & Hrate). by exists f, g. }
    destruct (C110_ends Rlt Rlt_irrefl Rlt_trans (mapping_cost (st_ctx s) base d) K cn m Hdisj Hm) as (path & q & Hh1).
    { intros m1 Hm1. destruct (Hc m1 Hm1) as (f & g & _ & E & _). by exists (- g)%R. }
    { intros x y. destruct (Rlt_dec x y); [by left|by right]. }
    destruct (C110_locally_best Rlt Rlt_trans _ K cn m path q Hdisj Hm Hh1) as (Hb & Hle & Hbest).
    pose proof (C110_moves_bounded Rlt Rlt_irrefl Rlt_trans _ K cn m path q Hdisj Hm (proj1 Hh1)) as Hn.
    destruct (Hc m Hm) as (f & g & Hf & E & Hrate). destruct (Hc (fst q) Hb) as (f' & g' & Hf' & E' & Hrate').
    exists path, q, h, f, f', g, g'. split; [done|]. split; [done|]. split; [done|]. split; [done|].
    split; [by apply HistR_tabulates|]. split; [done|]. split; [done|]. split; [done|]. split; [done|].
    destruct Hle as [Heq|(c & c' & Ec & Ec' & Hlt)].
    - rewrite Heq, E in E'. injection E'. lra.
    - rewrite E in Ec'. rewrite E' in Ec. injection Ec' as <-. injection Ec as <-. lra.
  Qed.
End Cost.

(** The hypotheses are met: the component ?x, unmatched at the start. *)
Lemma ex_C110 : exists (evs : list (event RC3)) s (base : nsum3 ROps) d path q,
  reachable RC3 ex_draws (@new_ctx ROps (Some 0.5%R) true) evs s /\ all_inst (C:=RC3) (fits3 (N:=ROps)) evs /\ all_ok evs /\
  in_tree s (st_root s) /\ table_of s (st_root s) base /\ is_instance d (red "?x") /\ fits3 (red "?x") /\
  mapping_between [AStr "?x"] [AStr "?o1"] x_to_x /\
  hill_climb Rlt (mapping_cost (st_ctx s) base d) path (start_state x_to_x [AStr "?o1"]) q.
Proof.
  destruct ex_C95_optimum as (evs & s & base & d & Hr & Hg & Hao & Hin & Ht & Hdi & Hf & _ & Hd & HK & Hcn & Hm & _).
  destruct (C110_mapping_ends ex_draws (Some 0.5%R) true evs s (st_root s) base d (red "?x") _ _ x_to_x
    Hr Hg Hao Hin Ht Hdi Hf Hd HK Hcn Hm) as (path & q & _ & _ & _ & _ & _ & Hh & _).
  exists evs, s, base, d, path, q. done.
Qed.

(** A search with a move: two components, and a cost that counts how many of
    them are not matched as they should be. *)
Definition wrong_of (m : list (attr * attr)) : res nat :=
  Ok (List.length (List.filter (fun e => negb (bool_decide (e ∈ sx_map "?o1" "?o2"))) m)).
Lemma ex_C110_moves : (forall x, x ∈ sx_K -> x ∉ sx_cn) /\ mapping_between sx_K sx_cn (sx_map "?o2" "?o1") /\
  hill_climb Nat.lt wrong_of [0] (start_state (sx_map "?o2" "?o1") sx_cn) (start_state (sx_map "?o1" "?o2") sx_cn) /\
  cheaper Nat.lt wrong_of (sx_map "?o1" "?o2") (sx_map "?o2" "?o1").
Proof.
  assert (Hc : cheaper Nat.lt wrong_of (sx_map "?o1" "?o2") (sx_map "?o2" "?o1")).
  { exists 0, 2. split; [by vm_compute|]. split; [by vm_compute|]. lia. }
  split; [apply ex_C95_reachable|]. split; [apply sx_between; auto; discriminate|]. split; [|done]. split.
  - apply (de_move _ _ 0 [] _ (start_state (sx_map "?o1" "?o2") sx_cn)); [by vm_compute|exact Hc|constructor].
  - intros s' _ (a & b & _ & Eb & Hlt). assert (b = 0) as ->; [|lia]. revert Eb. vm_compute. by intros [= <-].
Qed.

(** A [flat_match] that stops where it started. *)
Lemma ex_C110_flat_match : exists m, oracle_ok (id_oracle (F:=nat)) /\
  flat_match wrong_of id_oracle None [rel_a "?x"; rel_a "?y"] [rel_a "?o1"; rel_a "?o2"] = Ok m /\
  component [rel_a "?x"; rel_a "?y"] (AStr "?x") /\ component [rel_a "?o1"; rel_a "?o2"] (AStr "?o1") /\
  m = sx_map "?o1" "?o2" /\ hill_climb Nat.lt wrong_of (o_path (id_oracle (F:=nat))) (start_state m sx_cn) (start_state m sx_cn).
Proof.
  exists (sx_map "?o1" "?o2"). split; [apply id_oracle_ok|]. split; [by vm_compute|].
  split; [apply component_kvars; exists "?x"; split; [done|]; exists (rel_a "?x"); split; [left|]; cbn; by left|].
  split; [apply component_kvars; exists "?o1"; split; [done|]; exists (rel_a "?o1"); split; [left|]; cbn; by left|].
  split; [done|]. split; [constructor|].
  intros s' _ (a & b & _ & Eb & Hlt). assert (b = 0) as ->; [|lia]. revert Eb. vm_compute. by intros [= <-].
Qed.

Print Assumptions C110_mapping_ends.
