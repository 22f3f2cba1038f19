(** * Hidden attributes do not influence CobwebTree. *)
From stdpp Require Import base decidable list gmap strings.
From Verif Require Import Base Num TreeModel TreeRel Nominal NominalFacts.

Definition vis_tables (s1 s2 : nsum) : Prop :=
  ns_count s1 = ns_count s2 /\ dfilter visible (ns_av s1) = dfilter visible (ns_av s2).
Definition vis_insts (i1 i2 : inst) : Prop := dfilter visible i1 = dfilter visible i2.

Lemma inc_fold_filter (i : inst) : forall av,
  dfilter visible (fold_left (fun av p => avadd (fst p) (snd p) 1 av) i av) =
  fold_left (fun av p => avadd (fst p) (snd p) 1 av) (dfilter visible i) (dfilter visible av).
Proof.
  induction i as [|[a v] i IH]; intros av; [done|]. simpl. rewrite IH.
  unfold avadd at 2. rewrite dset_dfilter. destruct (visible a) eqn:Ha; [|done].
  simpl. unfold avadd at 3. by rewrite dget_dfilter, Ha.
Qed.

Lemma merge_fold_filter (o : list (attr * list (nom * nat))) : forall av,
  dfilter visible (fold_left avmerge1 o av) =
  fold_left avmerge1 (dfilter visible o) (dfilter visible av).
Proof.
  induction o as [|[a e] o IH]; intros av; [done|]. simpl. rewrite IH.
  unfold avmerge1 at 2. cbn [fst snd]. rewrite dset_dfilter.
  destruct (visible a) eqn:Ha; [|done].
  simpl. unfold avmerge1 at 3. cbn [fst snd]. by rewrite dget_dfilter, Ha.
Qed.

Lemma vis_dget {V} (d1 d2 : list (attr * V)) a : dfilter visible d1 = dfilter visible d2 ->
  visible a = true -> dget a d1 = dget a d2.
Proof.
  intros E Ha. pose proof (dget_dfilter visible a d1) as H1.
  pose proof (dget_dfilter visible a d2) as H2. rewrite Ha in *. congruence.
Qed.

Lemma vis_key {V} (d1 d2 : list (attr * V)) a : dfilter visible d1 = dfilter visible d2 ->
  visible a = true -> a ∈ dkeys d1 -> a ∈ dkeys d2.
Proof.
  intros E Ha [v Hv]%dget_key_Some. rewrite (vis_dget d1 d2 a E Ha) in Hv.
  by eapply dget_Some_key.
Qed.

Lemma exact_vis s1 s2 i1 i2 : vis_tables s1 s2 -> vis_insts i1 i2 ->
  ns_exact s1 i1 = true -> ns_exact s2 i2 = true.
Proof.
  intros [Hc Hs] Hi. rewrite !exact_true. intros Hx a Ha Hin.
  destruct (Hx a Ha) as (v & d & c & H1 & H2 & H3 & H4).
  - destruct Hin as [Hin|Hin]; [left|right]; eapply vis_key; [| |exact Hin| | |exact Hin]; done.
  - exists v, d, c. rewrite <- (vis_dget _ _ a Hi Ha), <- (vis_dget _ _ a Hs Ha), <- Hc. done.
Qed.

Lemma hidden_sim (N : NumOps) :
  simulation (CobwebClass N) (CobwebClass N) vis_tables vis_insts eq.
Proof.
  split; [split|]; simpl.
  - done.
  - by intros s1 s2 [? _].
  - intros s1 s2 i1 i2 [Hc Hs] Hi. split; [|done]. split; simpl; [by rewrite Hc|].
    by rewrite !inc_fold_filter, Hs, Hi.
  - intros s1 s2 o1 o2 [Hc Hs] [Hc' Ho]. split; [|done]. split; simpl; [by rewrite Hc, Hc'|].
    by rewrite !merge_fold_filter, Hs, Ho.
  - intros x1 x2 s1 s2 _ [Hc Hs]. unfold ns_ecg. by rewrite Hc, Hs.
  - intros s1 s2 i1 i2 Hs Hi. f_equal.
    destruct (ns_exact s1 i1) eqn:E1, (ns_exact s2 i2) eqn:E2; try done.
    + by rewrite (exact_vis s1 s2 i1 i2 Hs Hi E1) in E2.
    + rewrite (exact_vis s2 s1 i2 i1) in E1; [done| | |done].
      * destruct Hs. split; done.
      * by symmetry.
  - done.
Qed.
