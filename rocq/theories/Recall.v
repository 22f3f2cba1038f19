(** * How much a concept gains by an instance (C108); exact arithmetic.

    When all instances have the same visible attributes, the gain of a concept
    is decided by how far its instances are from the new one. *)
From Coq Require Import Reals Lra Lia.
From stdpp Require Import base decidable tactics gmap strings list.
From Verif Require Import Base Num TreeModel TreeFun TreeScore TreeRefine TreeSorts TreeInv
  RSum Nominal NominalFacts ScoreR NominalR TreeLead.
Set Default Proof Using "Type".
Open Scope list_scope.
Local Open Scope R_scope.

Notation RCn := (CobwebClass ROps).

(** The visible attributes of [j] are those of [attrs]. *)
Definition complete (attrs : list attr) (j : inst) : Prop :=
  forall a, visible a = true -> a ∈ attrs <-> a ∈ dkeys j.

Lemma occ_app l1 l2 a v : (occ (l1 ++ l2) a v = occ l1 a v + occ l2 a v)%nat.
Proof. induction l1 as [|j l1 IH]; simpl; [done|]. rewrite IH. lia. Qed.

Lemma occ_full l a v : (occ l a v <= length l)%nat /\
  (occ l a v = length l -> forall j, j ∈ l -> dget a j = Some v).
Proof.
  induction l as [|k l [IH1 IH2]]; simpl; [split; [lia|]; intros _ j Hj; inversion Hj|].
  destruct (decide (dget a k = Some v)) as [E|E]; simpl; (split; [lia|]); intros H j Hj; [|lia].
  apply elem_of_cons in Hj as [->|Hj]; [done|]. apply IH2; [lia|done].
Qed.

Section Gain.
  Set Default Proof Using "All".
  Context (i : inst) (attrs : list attr) (U : list (attr * nom)).
  Hypothesis HQ : NoDup attrs.
  Hypothesis HQv : forall a, a ∈ attrs -> visible a = true.
  Hypothesis HU : NoDup U.
  Hypothesis HUv : forall a v, (a, v) ∈ U -> visible a = true.

  (** An instance over these attributes and values. *)
  Definition fits (j : inst) : Prop :=
    complete attrs j /\ forall a v, visible a = true -> dget a j = Some v -> (a, v) ∈ U.
  Hypothesis Hi : fits i.
  Hypothesis Hne : attrs <> [].

  Definition delta (q : attr * nom) : R := if decide (dget (fst q) i = Some (snd q)) then 1 else 0.
  Definition xdev (l : list inst) (q : attr * nom) : R := INR (occ l (fst q) (snd q)) - INR (length l) * delta q.
  Definition dist (l : list inst) : R := Rsum (fun q => xdev l q ^ 2) U.
  Definition cross (l : list inst) : R := Rsum (fun q => xdev l q * delta q) U.
  Definition gap (l : list inst) : R := dist l / (INR (length l) * (INR (length l) + 1)).
  Notation K := (INR (length attrs)).

  Lemma K_pos : 0 < K.
  Proof. apply lt_0_INR. destruct attrs; [done|simpl; lia]. Qed.

  Lemma delta_sq q : delta q * delta q = delta q.
  Proof. unfold delta. destruct (decide _); lra. Qed.

  Lemma delta_sum : Rsum delta U = K.
  Proof.
    set (P := map (fun a => (a, default (NInt 0) (dget a i))) attrs).
    assert (HP : forall a, a ∈ attrs -> dget a i = Some (default (NInt 0) (dget a i))).
    { intros a Ha. pose proof Ha as Hk. apply (proj1 Hi a (HQv a Ha)) in Hk. by apply dget_key_Some in Hk as (v & ->). }
    rewrite (Rsum_superset delta P U).
    - rewrite (Rsum_ext delta (fun _ => 1)).
      + rewrite Rsum_const. unfold P. rewrite map_length. lra.
      + intros q Hq. apply elem_of_list_fmap in Hq as (a & -> & Ha). unfold delta. simpl. rewrite decide_True; [done|]. by apply HP.
    - unfold P. apply NoDup_map_inj; [|done]. by intros a b [= -> _].
    - intros q Hq. apply elem_of_list_fmap in Hq as (a & -> & Ha). apply (proj2 Hi); [by apply HQv|by apply HP].
    - done.
    - intros [a v] Hq Hn. unfold delta. simpl. rewrite decide_False; [done|]. intros E. apply Hn.
      apply elem_of_list_fmap. exists a. rewrite E. split; [done|]. apply (proj1 Hi a); [by eapply HUv|by eapply dget_Some_key].
  Qed.

  Lemma xdev_cons l q : xdev (i :: l) q = xdev l q.
  Proof.
    unfold xdev, delta. destruct q as [a v]. cbn [fst snd length occ]. rewrite S_INR.
    destruct (decide (dget a i = Some v)); [rewrite plus_INR; simpl (INR 1); lra|simpl; lra].
  Qed.
  Lemma xdev_app l1 l2 q : xdev (l1 ++ l2) q = xdev l1 q + xdev l2 q.
  Proof. unfold xdev. rewrite occ_app, app_length, !plus_INR. lra. Qed.
  Lemma dist_cons l : dist (i :: l) = dist l.
  Proof. apply Rsum_ext. intros q _. by rewrite xdev_cons. Qed.
  Lemma cross_cons l : cross (i :: l) = cross l.
  Proof. apply Rsum_ext. intros q _. by rewrite xdev_cons. Qed.
  Lemma dist_nonneg l : 0 <= dist l.
  Proof. apply Rsum_nonneg. intros q _. apply pow2_ge_0. Qed.

  Lemma occ_sum l : Rsum (fun q => INR (occ l (fst q) (snd q)) ^ 2) U =
    dist l + 2 * INR (length l) * cross l + INR (length l) ^ 2 * K.
  Proof.
    rewrite <- delta_sum. unfold dist, cross. rewrite <- !Rsum_scal, <- !Rsum_plus. apply Rsum_ext. intros q _.
    pose proof (delta_sq q) as Hd. unfold xdev. set (c := INR (occ l (fst q) (snd q))). set (n := INR (length l)).
    set (d := delta q) in *. replace (n ^ 2 * d) with (n ^ 2 * (d * d)) by (by rewrite Hd). ring.
  Qed.

  (** The instances all look like [i] when their distance is zero. *)
  Lemma dist_zero l : (forall j, j ∈ l -> fits j) -> dist l = 0 -> forall j, j ∈ l -> same_visible i j.
  Proof.
    intros Hl Hd j Hj a Ha. destruct (dget a i) as [v|] eqn:Ei.
    - symmetry. assert (Hq : (a, v) ∈ U) by (by apply (proj2 Hi)).
      assert (Hx : xdev l (a, v) ^ 2 = 0).
      { symmetry. apply (Rsum_le_eq (fun _ => 0) (fun q => xdev l q ^ 2) U).
        - intros q _. apply pow2_ge_0.
        - rewrite Rsum_const, Rmult_0_r. symmetry. exact Hd.
        - done. }
      assert (Hx' : xdev l (a, v) = 0) by nra. unfold xdev, delta in Hx'. cbn [fst snd] in Hx'.
      rewrite decide_True in Hx' by done. apply (proj2 (occ_full l a v)); [|done]. apply INR_eq. lra.
    - destruct (dget a j) as [v|] eqn:Ej; [|done]. exfalso. apply dget_Some_key in Ej.
      apply (proj1 (Hl j Hj) a Ha), (proj1 Hi a Ha) in Ej. apply dget_key_Some in Ej as (w & Ew). congruence.
  Qed.

  Lemma dist_app l1 l2 : l1 <> [] -> l2 <> [] ->
    dist (l1 ++ l2) <= (INR (length l1) + INR (length l2)) / INR (length l1) * dist l1
      + (INR (length l1) + INR (length l2)) / INR (length l2) * dist l2.
  Proof.
    intros H1 H2. assert (P1 : 0 < INR (length l1)) by (apply lt_0_INR; destruct l1; [done|simpl; lia]).
    assert (P2 : 0 < INR (length l2)) by (apply lt_0_INR; destruct l2; [done|simpl; lia]).
    unfold dist. rewrite <- !Rsum_scal, <- Rsum_plus. apply Rsum_le. intros q _. rewrite xdev_app.
    set (x := xdev l1 q). set (y := xdev l2 q). set (n := INR (length l1)) in *. set (m := INR (length l2)) in *.
    assert (E : (n + m) / n * x ^ 2 + (n + m) / m * y ^ 2 - (x + y) ^ 2 = (m * x - n * y) ^ 2 / (n * m)) by (field; lra).
    assert (0 <= (m * x - n * y) ^ 2 / (n * m)); [|lra].
    apply Rmult_le_pos; [apply pow2_ge_0|]. left. apply Rinv_0_lt_compat. by apply Rmult_lt_0_compat.
  Qed.

  (** ** Tables *)
  Lemma ecg_dist s l : Hist s l -> l <> [] -> (forall j, j ∈ l -> fits j) ->
    ns_ecg ROps s = Ok ((dist l + 2 * INR (length l) * cross l + INR (length l) ^ 2 * K) / (INR (length l) ^ 2 * K)).
  Proof.
    intros Hh Hl Hf. assert (Hc : ns_count s = length l) by apply Hh. assert (Hwf : dwf (ns_av s)) by apply Hh.
    assert (Hn : (0 < length l)%nat) by (destruct l; [done|simpl; lia]).
    assert (Hvis : forall a, a ∈ map fst (vis s) <-> a ∈ attrs).
    { intros a. split.
      - intros Ha. apply elem_of_list_fmap in Ha as ([b d] & -> & Hp). apply vis_in in Hp as [Hb Hd]; [|done]. simpl.
        apply dget_Some_key in Hd. apply (Hist_key s l b Hh) in Hd as (j & Hj & Hk). by apply (proj1 (Hf j Hj) b Hb).
      - intros Ha. pose proof (HQv a Ha) as Hv. destruct l as [|j l']; [done|].
        assert (Hk : a ∈ dkeys (ns_av s)).
        { apply (Hist_key s _ a Hh). exists j. split; [left|]. apply (proj1 (Hf j ltac:(left)) a Hv), Ha. }
        apply dget_key_Some in Hk as (d & Hd). apply elem_of_list_fmap. exists (a, d). split; [done|]. by apply vis_in. }
    assert (Hlen : length (vis s) = length attrs).
    { rewrite <- (map_length fst (vis s)). apply Permutation_length, NoDup_Permutation; [by apply dwf_dfilter|done|done]. }
    rewrite ecg_value; [|lia|intros E; rewrite E in Hlen; by destruct attrs].
    f_equal. rewrite Hlen, (guess_sum_pairs s l Hh).
    rewrite <- (Rsum_superset _ (gpairs s) U).
    - rewrite (Rsum_ext _ (fun q => / (INR (length l) ^ 2) * INR (occ l (fst q) (snd q)) ^ 2)).
      + rewrite Rsum_scal, occ_sum. pose proof K_pos. apply lt_INR in Hn. simpl (INR 0) in Hn.
        match goal with |- ?a = ?b => change (@eq R a b) end. field. lra.
      + intros q _. apply lt_INR in Hn. simpl (INR 0) in Hn. field. lra.
    - by eapply gpairs_nodup.
    - intros [a v] Hq. apply (gpairs_spec s l a v Hh) in Hq as [Ha Ho]. apply occ_pos in Ho as (j & Hj & Ej).
      by apply (proj2 (Hf j Hj)).
    - done.
    - intros [a v] Hq Hnq. cbn [fst snd]. destruct (decide (0 < occ l a v)%nat) as [Ho|Ho].
      + exfalso. apply Hnq, (gpairs_spec s l a v Hh). split; [by eapply HUv|done].
      + replace (occ l a v) with 0%nat by lia. simpl (INR 0). unfold Rdiv. rewrite Rmult_0_l. simpl. lra.
  Qed.

  Lemma gain_value s l : Hist s l -> l <> [] -> (forall j, j ∈ l -> fits j) -> good i ->
    relative_cu_for_insert RCn tt s i = Ok (1 - gap l / K).
  Proof.
    intros Hh Hl Hf Hg. destruct (sl_inc _ _ _ _ (hist_laws ROps) s l i Hh Hg) as (s' & Es & Hh').
    assert (Hcp : copies RCn s) by (apply cwf_copies; split; [apply Hh|]; intros a d Hd; apply (Hist_dict s l a d Hh); apply In_dget; [apply Hh|done]).
    unfold relative_cu_for_insert. rewrite Hcp. cbn [rbind]. unfold tinc. rewrite Es. cbn [rbind].
    change (nc_ecg RCn tt s') with (ns_ecg ROps s'). change (nc_ecg RCn tt s) with (ns_ecg ROps s).
    rewrite (ecg_dist s' (i :: l)); [|done|done|]. 2:{ intros j Hj. apply elem_of_cons in Hj as [->|Hj]; auto. }
    rewrite (ecg_dist s l) by done. cbn [rbind]. f_equal. rewrite dist_cons, cross_cons.
    assert (Hc : nc_count RCn s = length l) by apply Hh.
    change (nsub ROps) with Rminus. change (nmul ROps) with Rmult. change (nofnat ROps) with INR. rewrite Hc.
    change (length (i :: l)) with (S (length l)). rewrite Nat.add_1_r, S_INR. unfold gap.
    assert (Hn : 0 < INR (length l)) by (apply lt_0_INR; destruct l; [done|simpl; lia]). pose proof K_pos.
    match goal with |- ?a = ?b => change (@eq R a b) end. field. lra.
  Qed.

  Lemma better_gap s l s' l' : Hist s l -> l <> [] -> (forall j, j ∈ l -> fits j) ->
    Hist s' l' -> l' <> [] -> (forall j, j ∈ l' -> fits j) -> good i ->
    better RCn tt i s s' <-> gap l <= gap l'.
  Proof.
    intros Hh Hl Hf Hh' Hl' Hf' Hg. unfold better. rewrite (gain_value s l), (gain_value s' l') by done.
    pose proof K_pos as HK. assert (HKi : 0 < / K) by (by apply Rinv_0_lt_compat). unfold Rdiv. split.
    - intros (r & r' & [= <-] & [= <-] & H). apply (Rmult_le_reg_r (/ K)); lra.
    - intros H. eexists _, _. split; [done|]. split; [done|]. apply (Rmult_le_compat_r (/ K)) in H; lra.
  Qed.

  Lemma gap_nonneg l : 0 <= gap l.
  Proof.
    unfold gap. destruct (decide (length l = 0%nat)) as [->|Hn].
    - simpl (INR 0). unfold Rdiv. rewrite Rmult_0_l, Rinv_0. lra.
    - assert (0 < INR (length l)) by (apply lt_0_INR; lia). apply Rmult_le_pos; [apply dist_nonneg|].
      left. apply Rinv_0_lt_compat. nra.
  Qed.
  Lemma gap_zero l : l <> [] -> gap l = 0 -> dist l = 0.
  Proof.
    intros Hl Hg. assert (0 < INR (length l)) by (apply lt_0_INR; destruct l; [done|simpl; lia]).
    unfold gap in Hg. replace (dist l) with (dist l / (INR (length l) * (INR (length l) + 1)) * (INR (length l) * (INR (length l) + 1))) by (field; lra).
    rewrite Hg. lra.
  Qed.

  (** Taking the instance in makes a concept gain more. *)
  Lemma gap_cons l : l <> [] -> dist l <> 0 -> gap (i :: l) < gap l.
  Proof.
    intros Hl Hd. pose proof (dist_nonneg l). assert (Hn : 0 < INR (length l)) by (apply lt_0_INR; destruct l; [done|simpl; lia]).
    unfold gap. rewrite dist_cons. change (length (i :: l)) with (S (length l)). rewrite S_INR.
    unfold Rdiv. apply Rmult_lt_compat_l; [lra|]. apply Rinv_lt_contravar; nra.
  Qed.
  Lemma gap_cons_le l : l <> [] -> gap (i :: l) <= gap l.
  Proof.
    intros Hl. destruct (Req_dec (dist l) 0) as [E|E].
    - unfold gap. rewrite dist_cons, E. unfold Rdiv. rewrite !Rmult_0_l. lra.
    - left. by apply gap_cons.
  Qed.
  Lemma gap_merge l1 l2 c : l1 <> [] -> l2 <> [] -> 0 < c -> gap l1 <= c -> gap l2 <= c -> gap (i :: l1 ++ l2) < c.
  Proof.
    intros H1 H2 Hc G1 G2. assert (P1 : 0 < INR (length l1)) by (apply lt_0_INR; destruct l1; [done|simpl; lia]).
    assert (P2 : 0 < INR (length l2)) by (apply lt_0_INR; destruct l2; [done|simpl; lia]).
    pose proof (dist_app l1 l2 H1 H2) as Ha. unfold gap in *. rewrite dist_cons.
    change (length (i :: l1 ++ l2)) with (S (length (l1 ++ l2))). rewrite S_INR, app_length, plus_INR.
    set (n := INR (length l1)) in *. set (m := INR (length l2)) in *.
    assert (E1 : dist l1 <= c * (n * (n + 1))).
    { replace (dist l1) with (dist l1 / (n * (n + 1)) * (n * (n + 1))) by (field; lra). apply Rmult_le_compat_r; [nra|done]. }
    assert (E2 : dist l2 <= c * (m * (m + 1))).
    { replace (dist l2) with (dist l2 / (m * (m + 1)) * (m * (m + 1))) by (field; lra). apply Rmult_le_compat_r; [nra|done]. }
    assert (F1 : (n + m) / n * dist l1 <= (n + m) * (c * (n + 1))).
    { replace ((n + m) * (c * (n + 1))) with ((n + m) / n * (c * (n * (n + 1)))) by (field; lra).
      apply Rmult_le_compat_l; [|done]. left. apply Rdiv_lt_0_compat; lra. }
    assert (F2 : (n + m) / m * dist l2 <= (n + m) * (c * (m + 1))).
    { replace ((n + m) * (c * (m + 1))) with ((n + m) / m * (c * (m * (m + 1)))) by (field; lra).
      apply Rmult_le_compat_l; [|done]. left. apply Rdiv_lt_0_compat; lra. }
    assert (F : dist (l1 ++ l2) <= c * ((n + m) * (n + m + 2))) by nra.
    apply (Rmult_lt_reg_r ((n + m + 1) * (n + m + 1 + 1))); [nra|].
    unfold Rdiv. rewrite Rmult_assoc, Rinv_l, Rmult_1_r by nra. nra.
  Qed.
End Gain.
