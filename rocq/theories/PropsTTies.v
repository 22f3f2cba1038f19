(** * Random numbers only break ties, in a TrestleTree (C105).

    The answers of the mapping search belong to the calls ([torc]); what is
    compared are the draws of the Cobweb/3 code that sorts the mapped instance
    (trestle.py:209-256, cobweb.py:447-574).  infer_missing is left out: its
    predictions may draw by themselves. *)
From stdpp Require Import base decidable list gmap strings sets.
From Coq Require Import Ascii String ZArith Floats.
From Verif Require Import Base Num FloatNum TreeModel SpecTree Nominal Query Query3 CV Cobweb3
  PyVal Preproc Preproc2 StructMap PropsStruct Trestle SpecTrestle PropsTies Example PropsTrestleX.
Set Default Proof Using "Type".
Open Scope list_scope.

Section Ties.
  Context {N : NumOps}.
  Notation F := (num N).
  Notation C := (Cobweb3Class N).
  Context (ncmp : nom -> nom -> option bool) (normal : F -> F -> A F).
  Context (pystr : attr -> string) (setord : list attr -> list attr) (rlimit : nat).

  (** No tie while the mapped instance is sorted. *)
  Definition t_untied (rng : nat -> F) (c : tcall N) (s : tst N) : Prop :=
    match c with
    | TCFit d q => forall j s1, t_ready pystr setord rlimit q d s = (Ok j, s1) -> untied_call C rng (CFit (C:=C) j) (t_tree s1)
    | TCCat d q => forall j s1, t_ready pystr setord rlimit q d s = (Ok j, s1) -> untied_call C rng (CCat (C:=C) j) (t_tree s1)
    | TCInfer _ _ _ _ => False
    | TCOther _ _ | TCClear => True
    end.
  Fixpoint t_untied_calls (rng : nat -> F) (x0 : ctx3 N) (cs : list (tcall N)) (s : tst N) : Prop :=
    match cs with
    | [] => True
    | c :: cs => t_untied rng c s /\ t_untied_calls rng x0 cs (snd (texec1 rng ncmp normal pystr setord rlimit x0 c s))
    end.

  Lemma texec1_indep rng rng' x0 c s : t_untied rng c s ->
    texec1 rng ncmp normal pystr setord rlimit x0 c s = texec1 rng' ncmp normal pystr setord rlimit x0 c s.
  Proof.
    destruct c as [d q|d q|d f b q|dc dr|]; intros Hu; [| |done..]; simpl in *.
    - unfold t_fit. destruct (t_ready pystr setord rlimit q d s) as [[j|e] s1]; [|done].
      pose proof (exec1_indep C rng rng' x0 (CFit (C:=C) j) _ (Hu j s1 eq_refl)) as E. simpl in E. by rewrite E.
    - unfold t_cat. destruct (t_ready pystr setord rlimit q d s) as [[j|e] s1]; [|done].
      pose proof (exec1_indep C rng rng' x0 (CCat (C:=C) j) _ (Hu j s1 eq_refl)) as E. simpl in E. by rewrite E.
  Qed.

  (** The answers of all calls and the final object: tree, scales, counter of
      names, identifiers and draws used. *)
  Theorem C105_trestle rng rng' x0 cs : forall s, t_untied_calls rng x0 cs s ->
    texec rng' ncmp normal pystr setord rlimit x0 cs s = texec rng ncmp normal pystr setord rlimit x0 cs s.
  Proof.
    induction cs as [|c cs IH]; intros s; [done|]. cbn [t_untied_calls texec]. intros [H1 H2].
    rewrite <- (texec1_indep rng rng' x0 c s H1).
    destruct (texec1 rng ncmp normal pystr setord rlimit x0 c s) as [r s1]. cbn [snd] in H2. by rewrite (IH s1 H2).
  Qed.

  Theorem C105_trestle_ties rng rng' x0 cs : forall s, t_untied_calls rng x0 cs s -> t_untied_calls rng' x0 cs s.
  Proof.
    induction cs as [|c cs IH]; intros s; [done|]. cbn [t_untied_calls]. intros [H1 H2].
    rewrite <- (texec1_indep rng rng' x0 c s H1). split; [|by apply IH].
    destruct c as [d q|d q|d f b q|dc dr|]; [| |done..]; simpl in *; intros j s1 E.
    - exact (proj1 (C105_ties_do_not_depend_on_draws C rng rng' x0 [CFit (C:=C) j] _ (conj (H1 j s1 E) I))).
    - exact (proj1 (C105_ties_do_not_depend_on_draws C rng rng' x0 [CCat (C:=C) j] _ (conj (H1 j s1 E) I))).
  Qed.

  (** Decides [t_untied_calls]. *)
  Definition t_untied_b (rng : nat -> F) (fuel : nat) (x0 : ctx3 N) (c : tcall N) (s : tst N) : bool :=
    match c with
    | TCFit d q => match t_ready pystr setord rlimit q d s with
                   | (Ok j, s1) => untied_calls_b C rng fuel x0 [CFit (C:=C) j] (t_tree s1) | _ => true end
    | TCCat d q => match t_ready pystr setord rlimit q d s with
                   | (Ok j, s1) => untied_calls_b C rng fuel x0 [CCat (C:=C) j] (t_tree s1) | _ => true end
    | TCInfer _ _ _ _ => false
    | _ => true
    end.
  Fixpoint t_untied_calls_b rng fuel x0 cs s : bool :=
    match cs with
    | [] => true
    | c :: cs => t_untied_b rng fuel x0 c s && t_untied_calls_b rng fuel x0 cs (snd (texec1 rng ncmp normal pystr setord rlimit x0 c s))
    end.
  Lemma t_untied_calls_b_ok rng fuel x0 cs : forall s, t_untied_calls_b rng fuel x0 cs s = true -> t_untied_calls rng x0 cs s.
  Proof.
    induction cs as [|c cs IH]; intros s; [done|]. cbn [t_untied_calls_b t_untied_calls]. intros [H1 H2]%andb_prop.
    split; [|by apply IH]. destruct c as [d q|d q|d f b q|dc dr|]; try done; simpl t_untied_b in H1; intros j s1 E; rewrite E in H1.
    - exact (proj1 (untied_calls_b_ok C rng fuel x0 [CFit (C:=C) j] _ H1)).
    - exact (proj1 (untied_calls_b_ok C rng fuel x0 [CCat (C:=C) j] _ H1)).
  Qed.
End Ties.

(** Seven calls on doubles; the tree gets two levels. *)
Definition tie_calls : list (tcall FloatOps) :=
  [ TCFit (tx_inst "?x" "?y" 1.5 "blue") tx_orc; TCFit (tx_inst "?o2" "?o1" 9.5 "green") tx_orc; TCOther 7 1;
    TCFit (tx_inst "?x" "?z" 9.5 "green") tx_orc; TCCat (tx_inst "?b" "?a" 9.5 "green") tx_orc;
    TCFit (tx_inst "?x" "?z" 9.5 "green") tx_orc; TCCat (tx_inst "?b" "?a" 1.5 "blue") tx_orc ].
Lemma ex_C105_trestle : forall rng : nat -> num FloatOps,
  t_untied_calls tx_cmp tx_normal tx_str id 100 rng tx0 tie_calls (t_new 0 0 tx0) /\
  tx_concepts (fst (texec rng tx_cmp tx_normal tx_str id 100 tx0 tie_calls (t_new 0 0 tx0))) =
    [Some (Ok 1); Some (Ok 13); None; Some (Ok 13); Some (Ok 13); Some (Ok 13); Some (Ok 1)].
Proof.
  intros rng.
  assert (H : t_untied_calls tx_cmp tx_normal tx_str id 100 ex_rng tx0 tie_calls (t_new 0 0 tx0)).
  { apply (t_untied_calls_b_ok tx_cmp tx_normal tx_str id 100 ex_rng 20). vm_compute. reflexivity. }
  split; [by eapply C105_trestle_ties|]. rewrite (C105_trestle tx_cmp tx_normal tx_str id 100 ex_rng rng tx0 _ _ H).
  vm_compute. reflexivity.
Qed.
Print Assumptions C105_trestle.
