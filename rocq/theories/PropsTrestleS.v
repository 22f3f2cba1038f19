(** * The sanity check of TrestleTree (C89), for any arithmetic. *)
From stdpp Require Import base decidable list gmap strings sets.
From Coq Require Import Floats String ZArith.
From Verif Require Import Base Num FloatNum TreeModel TreeFun TreeSorts SpecTree TreeState
  Nominal NominalFacts Utils CV Cobweb3 Query Query3 PyVal Preproc Preproc2 StructMap StructFacts PropsStruct Trestle SpecTrestle
  TrestleFacts TrestleFresh TrestleRun TrestleTotal PreObj Example PropsTrestleX.
Set Default Proof Using "Type".
Open Scope list_scope.

(** Names that [name[0]] raises for, and relations with such a name in them, at
    any depth. *)
Inductive bad_name : attr -> Prop :=
| bn_number z : bad_name (ANum z)
| bn_empty : bad_name (AStr "")
| bn_nothing : bad_name (ATup [])
| bn_inside l x : x ∈ l -> bad_name x -> bad_name (ATup l).

Lemma bad_name_spec a : bad_name a <-> attr_ok a && sane_rel a = false.
Proof.
  split.
  - induction 1 as [z| | |l x Hin Hb IH]; try done. cbn [sane_rel]. apply andb_false_iff. right.
    apply not_true_is_false. intros Hall. rewrite forallb_forall in Hall. apply elem_of_list_In in Hin. rewrite (Hall x Hin) in IH. done.
  - induction a as [s|l IH|z] using attr_ind'.
    + destruct s; [constructor|done].
    + destruct l as [|y l]; [constructor|]. intros E. apply andb_false_iff in E as [E|E]; [done|].
      cbn [sane_rel] in E. assert (Hx : exists x, x ∈ y :: l /\ attr_ok x && sane_rel x = false).
      { clear IH. induction (y :: l) as [|x k IHk]; [done|]. cbn [forallb] in E. apply andb_false_iff in E as [E|E].
        - exists x. split; [left|done].
        - destruct (IHk E) as (z & Hz & ?). exists z. split; [by right|done]. }
      destruct Hx as (x & Hin & Ex). rewrite Forall_forall in IH. apply (bn_inside _ x Hin). by apply IH.
    + constructor.
Qed.

Section Check.
  Context {N : NumOps} (rng : nat -> num N).
  Notation C := (Cobweb3Class N).
  Notation X := (val3 N).
  Context (pystr : attr -> string) (setord : list attr -> list attr) (rlimit : nat).
  Notation t_prepare := (t_prepare (N:=N) pystr setord rlimit).
  Notation t_ready := (t_ready (N:=N) pystr setord rlimit).
  Notation t_fit := (t_fit rng pystr setord rlimit).
  Notation t_cat := (t_cat rng pystr setord rlimit).

  (** ifit and categorize refuse a mapped instance with such an attribute or an
      unhashable value, with ValueError, before they touch a concept. *)
  Theorem C89_rejects q d (s : tst N) (d1 : inst X) h s1 a v :
    t_prepare q d s = (Ok d1, h, s1) -> (a, v) ∈ d1 -> bad_name a \/ (exists l, v = PL l) ->
    t_fit q d s = (Err ValueError, s1) /\ t_cat q d s = (Err ValueError, s1) /\
    st_heap (t_tree s1) = st_heap (t_tree s) /\ st_root (t_tree s1) = st_root (t_tree s) /\ st_ctx (t_tree s1) = st_ctx (t_tree s).
  Proof.
    intros Ep Hin Hb. pose proof (prepare_grown pystr setord rlimit _ _ _ _ _ _ Ep) as (G1 & G2 & G3 & _).
    assert (Es : t_sane d1 = false).
    { unfold t_sane. cbn [sane_val]. apply not_true_is_false. intros Hall. rewrite forallb_forall in Hall.
      apply elem_of_list_In in Hin. specialize (Hall _ Hin). cbn [fst snd] in Hall. apply andb_true_iff in Hall as [H1 H2].
      destruct Hb as [Hb|(l & ->)]; [|done]. apply bad_name_spec in Hb. congruence. }
    unfold Trestle.t_fit, Trestle.t_cat, Trestle.t_ready. rewrite Ep, Es. done.
  Qed.

  (** Otherwise they count or sort it: the check raises nothing. *)
  Theorem C89_accepts q d (s : tst N) (d1 : inst X) h s1 :
    t_prepare q d s = (Ok d1, h, s1) -> Forall (fun e => ~ bad_name (fst e) /\ plainv (snd e)) d1 ->
    exists j, map fst j = map fst d1 /\ map (fun e => Some (snd e)) j = map (fun e => scalar (snd e)) d1 /\
      t_fit q d s = on_tree s1 (cobweb C rng j (t_tree s1)) /\
      t_cat q d s = on_tree s1 (cobweb_categorize C rng j (t_tree s1)).
  Proof.
    intros Ep HF. assert (Es : t_sane d1 = true).
    { unfold t_sane. cbn [sane_val]. apply forallb_forall. intros e He. apply elem_of_list_In in He. rewrite Forall_forall in HF.
      destruct (HF e He) as [Hn Hp]. apply andb_true_iff. split; [|by destruct (snd e)].
      apply not_false_is_true. intros E. by apply Hn, bad_name_spec. }
    assert (Hj : exists j, hashed d1 = Ok j /\ map fst j = map fst d1 /\ map (fun e => Some (snd e)) j = map (fun e => scalar (snd e)) d1).
    { clear -HF. induction HF as [|[a v] d1 [_ Hp] HF (j & E & E1 & E2)]; [by exists []|]. cbn [snd fst] in Hp. unfold hashed in *. cbn [rmapM snd fst].
      destruct (scalar v) as [x|] eqn:Ex; [|by destruct v]. cbn [rbind]. rewrite E. cbn [rbind]. exists ((a, x) :: j). split; [done|].
      cbn [map fst snd]. rewrite E1, E2, Ex. done. }
    destruct Hj as (j & Ej & E1 & E2). exists j. split; [done|]. split; [done|].
    unfold Trestle.t_fit, Trestle.t_cat, Trestle.t_ready. rewrite Ep, Es, Ej. done.
  Qed.

  (** A call that returns had nothing of the kind. *)
  Theorem C89_returned q d (s : tst N) c s' :
    t_fit q d s = (Ok c, s') \/ t_cat q d s = (Ok c, s') ->
    exists (d1 : inst X) h s1, t_prepare q d s = (Ok d1, h, s1) /\ Forall (fun e => ~ bad_name (fst e) /\ plainv (snd e)) d1.
  Proof.
    intros H. unfold Trestle.t_fit, Trestle.t_cat, Trestle.t_ready in H.
    destruct (t_prepare q d s) as [[r h] s1]; [|done..]. destruct r as [d1|e]; [|by destruct H].
    destruct (t_sane d1) eqn:Es; [|by destruct H]. exists d1, h, s1. split; [done|].
    destruct (hashed d1) as [j|e] eqn:Ej; [|by destruct H]. clear H.
    unfold t_sane in Es. cbn [sane_val] in Es. rewrite forallb_forall in Es. apply Forall_forall. intros e He.
    pose proof (proj1 (elem_of_list_In _ _) He) as He'. apply Es in He'. apply andb_true_iff in He' as [H1 H2]. split.
    - intros Hb%bad_name_spec. congruence.
    - clear Es H1 H2. revert j Ej. induction d1 as [|[a v] d1 IH]; [by apply elem_of_nil in He|].
      intros j Ej. unfold hashed in Ej. cbn [rmapM snd fst] in Ej. destruct (scalar v) as [x|] eqn:Ex; [|done]. cbn [rbind] in Ej.
      destruct (rmapM _ d1) as [j'|] eqn:Ej' in Ej; [|done].
      apply elem_of_cons in He as [->|He]; [cbn [snd]; by destruct v|]. by eapply IH.
  Qed.
End Check.

(** A list, given to the tree of PropsTrestleX.  (In a component it would
    already make the structure mapper raise, TypeError.) *)
Definition ts_list : inst FX := [(AStr "colors", PL [sv "red"; sv "blue"])].
Lemma ex_C89 : exists s1,
  t_fit ex_rng tx_str id 100 tx_orc ts_list tx_state = (Err ValueError, s1) /\
  t_cat ex_rng tx_str id 100 tx_orc ts_list tx_state = (Err ValueError, s1).
Proof.
  assert (E : match fst (fst (t_prepare tx_str id 100 tx_orc ts_list tx_state)) with
    | Ok [(a, PL _)] => Some a | _ => None end = Some (AStr "colors")) by (vm_compute; reflexivity).
  destruct (t_prepare tx_str id 100 tx_orc ts_list tx_state) as [[r h] s1] eqn:Ep. cbn [fst] in E.
  destruct r as [d1|]; [|discriminate E]. destruct d1 as [|[a v] [|]]; try discriminate E. 2:{ destruct v; discriminate E. }
  destruct v as [| |l|]; try discriminate E. exists s1.
  destruct (C89_rejects ex_rng tx_str id 100 tx_orc ts_list tx_state _ h s1 a (PL l) Ep ltac:(left) (or_intror (ex_intro _ l eq_refl))) as (H1 & H2 & _).
  exact (conj H1 H2).
Qed.
Lemma ex_C89_component : fst (fst (t_prepare tx_str id 100 tx_orc [(AStr "?x", PD [(AStr "color", PL [sv "red"])])] tx_state)) = Err TypeError.
Proof.
  assert (E : match fst (fst (t_prepare tx_str id 100 tx_orc [(AStr "?x", PD [(AStr "color", PL [sv "red"])])] tx_state)) with
    | Err e => Some e | Ok _ => None end = Some TypeError) by (vm_compute; reflexivity).
  destruct (fst (fst (t_prepare tx_str id 100 tx_orc [(AStr "?x", PD [(AStr "color", PL [sv "red"])])] tx_state))); [discriminate E|].
  injection E as ->. reflexivity.
Qed.
Print Assumptions C89_rejects.
Print Assumptions C89_accepts.
Print Assumptions C89_returned.
