(** * Read-only questions to Cobweb3 concepts, reduced to nominal ones.

    For the choice among values a ContinuousValue is one more value, with the
    number of its observations as count. *)
From Coq Require Import Reals Lra.
From stdpp Require Import base decidable tactics gmap strings list.
From Verif Require Import Base Num TreeModel SpecTree RSum Nominal NominalFacts NominalR Utils PropsUtils Query QueryR
  QueryFacts QueryPredict CV CVFacts Cobweb3 C3Facts C3R C3Nominal Query3 PropsC3.

(** Number of instances in which [a] is missing ([None]), a number
    ([Some cv_key]) or the nominal value [v] ([Some v]). *)
Fixpoint lacks3 {N} (l : list (inst3 N)) (a : attr) : nat :=
  match l with
  | [] => 0
  | i :: l => (match dget a i with None => 1 | Some _ => 0 end + lacks3 l a)%nat
  end.
Definition share3 {N} (l : list (inst3 N)) (a : attr) (k : option nom) : nat :=
  match k with
  | None => lacks3 l a
  | Some v => if decide (v = cv_key) then length (nums l a) else occ3 l a v
  end.

Section Flat.
  Context {N : NumOps}.
  Variable cvP : cval N -> list (num N) -> Prop.
  Hypothesis cv_len : forall c xs, cvP c xs -> cv_num c = length xs.

  Definition flat_val (v : val3 N) : nom := match v with VNom v => v | VNum _ => cv_key end.
  Definition flat_inst (i : inst3 N) : inst := map (fun p => (fst p, flat_val (snd p))) i.
  Definition cell_num (q : cell N) : nat := match q with Cnt n => n | CVc c => cv_num c end.
  Definition flat_dict (d : list (nom * cell N)) : list (nom * nat) := map (fun q => (fst q, cell_num (snd q))) d.
  Definition flat_table (s : nsum3 N) : nsum :=
    NSum (n3_count s) (map (fun p => (fst p, flat_dict (snd p))) (n3_av s)).

  Lemma dget_flat_inst a i : dget a (flat_inst i) = option_map flat_val (dget a i).
  Proof. apply dget_map. Qed.
  Lemma dget_flat_dict v d : dget v (flat_dict d) = option_map cell_num (dget v d).
  Proof. apply dget_map. Qed.
  Lemma dget_flat_table a s : dget a (ns_av (flat_table s)) = option_map flat_dict (dget a (n3_av s)).
  Proof. apply dget_map. Qed.
  Lemma dkeys_flat {K V W} (f : V -> W) (d : list (K * V)) : dkeys (map (fun q => (fst q, f (snd q))) d) = dkeys d.
  Proof. unfold dkeys. rewrite map_map. done. Qed.

  Definition plain (i : inst3 N) : Prop := forall a, dget a i <> Some (VNom cv_key).

  Lemma flat_occ l a : occ3 l a cv_key = 0 -> forall v,
    occ (map flat_inst l) a v = if decide (v = cv_key) then length (nums l a) else occ3 l a v.
  Proof.
    induction l as [|i l IH]; intros H0 v; [by destruct (decide _)|]. cbn [map occ3 nums] in *.
    cbn [occ]. rewrite dget_flat_inst. rewrite IH by lia.
    destruct (dget a i) as [[w|y]|] eqn:E; cbn [option_map flat_val].
    - destruct (decide (w = cv_key)) as [->|Hw]; [lia|].
      repeat case_decide; simplify_eq; done.
    - repeat case_decide; simplify_eq; done.
    - repeat case_decide; simplify_eq; done.
  Qed.
  Lemma flat_lacks l a : lacks (map flat_inst l) a = lacks3 l a.
  Proof.
    induction l as [|i l IH]; [done|]. cbn [map lacks lacks3]. rewrite dget_flat_inst, IH. by destruct (dget a i).
  Qed.
  Lemma flat_share l a k : occ3 l a cv_key = 0 -> share (map flat_inst l) a k = share3 l a k.
  Proof. intros H0. destruct k; simpl; [by apply flat_occ|by apply flat_lacks]. Qed.

  Lemma hist_no_key s l a : Hist3 cvP s l -> occ3 l a cv_key = 0.
  Proof using Type. intros (_ & _ & _ & H). apply (H a). Qed.

  Lemma flat_hist s l : Hist3 cvP s l -> Hist (flat_table s) (map flat_inst l).
  Proof.
    intros HH. pose proof HH as (Hc & Hwf & Hne & Hcells). split; [by rewrite map_length|]. split.
    - split; [unfold dwf; simpl; by rewrite dkeys_flat|]. intros a d. rewrite dget_flat_table.
      destruct (dget a (n3_av s)) as [d0|] eqn:Ed; [|done]. intros [= <-].
      pose proof (Hcells a) as Hca. rewrite Ed in Hca. simpl in Hca. destruct Hca as (Hd & H0 & Hn & Hx).
      split; [unfold dwf, flat_dict; by rewrite dkeys_flat|].
      split; [intros E; apply (Hne a d0 Ed); by destruct d0|].
      intros v c. rewrite dget_flat_dict. destruct (dget v d0) as [q|] eqn:Eq; [|done]. intros [= <-].
      destruct (decide (v = cv_key)) as [->|Hv].
      + destruct (nums l a) as [|x xs]; [congruence|]. destruct Hx as (c & E & Hp). rewrite E in Eq.
        injection Eq as <-. simpl. rewrite (cv_len c _ Hp). simpl. lia.
      + rewrite (Hn v Hv) in Eq. case_decide; [done|]. injection Eq as <-. simpl. lia.
    - intros a v. rewrite (flat_occ l a (hist_no_key s l a HH)). unfold entry.
      rewrite dget_flat_table. specialize (Hcells a). destruct (dget a (n3_av s)) as [d|] eqn:Ed; simpl in Hcells |- *;
        destruct Hcells as (Hd & H0 & Hn & Hx).
      + rewrite dget_flat_dict. case_decide as Hv.
        * subst v. destruct (nums l a) as [|x xs]; [by rewrite Hx|]. destruct Hx as (c & -> & Hp). simpl.
          by rewrite (cv_len c _ Hp).
        * rewrite (Hn v Hv). case_decide as E; simpl; [by rewrite E|done].
      + case_decide as Hv.
        * subst v. destruct (nums l a); [done|]. by destruct Hx as (c & ? & _).
        * specialize (Hn v Hv). case_decide; done.
  Qed.

  Lemma cell_count_ok s l a d q : Hist3 cvP s l -> dget a (n3_av s) = Some d -> q ∈ d ->
    cell_count q = Ok (cell_num (snd q)).
  Proof.
    intros (_ & _ & _ & Hcells) Hd Hq. specialize (Hcells a). rewrite Hd in Hcells. simpl in Hcells.
    destruct Hcells as (Hwf & H0 & Hn & Hx). destruct q as [v q]. apply (In_dget v q d Hwf) in Hq.
    unfold cell_count. cbn [fst snd]. destruct (decide (v = cv_key)) as [->|Hv].
    - destruct (nums l a); [congruence|]. destruct Hx as (c & E & _). rewrite E in Hq. by injection Hq as <-.
    - rewrite (Hn v Hv) in Hq. case_decide; [done|]. by injection Hq as <-.
  Qed.

  Lemma weighted_flat s l a b : Hist3 cvP s l ->
    get_weighted_values3 s a b = get_weighted_values (N:=N) (flat_table s) a b.
  Proof.
    intros HH. unfold get_weighted_values3, get_weighted_values. rewrite dget_flat_table.
    destruct (dget a (n3_av s)) as [d|] eqn:Ed; [|done]. cbn [option_map].
    assert (Hc : forall q, q ∈ d -> cell_count q = Ok (cell_num (snd q))) by (intros q; by eapply cell_count_ok).
    assert (Hv : vcount (flat_dict d) = sumn (map (fun q : nom * cell N => cell_num (snd q)) d)).
    { unfold vcount, flat_dict. by rewrite map_map. }
    rewrite Hv. clear Hv. cbn [ns_count flat_table].
    set (g := fun q : nom * cell N => rbind (cell_count q) (fun c =>
      rbind (pydiv N (nofnat N c) (nofnat N (n3_count s))) (fun p => Ok (fst q, c, p)))).
    set (g2 := fun q : nom * nat => rbind (pydiv N (nofnat N (snd q)) (nofnat N (n3_count s)))
      (fun p => Ok (Some (fst q), p))).
    assert (Hm : match rmapM g d with
      | Ok l => rmapM g2 (flat_dict d) = Ok (map (fun y : nom * nat * num N => (Some (fst (fst y)), snd y)) l) /\
                sumn (map (fun y : nom * nat * num N => snd (fst y)) l) = sumn (map (fun q : nom * cell N => cell_num (snd q)) d)
      | Err e => rmapM g2 (flat_dict d) = Err e
      end).
    { clear Ed. induction d as [|q d IH]; [done|]. cbn [rmapM flat_dict map].
      change (map (fun q : nom * cell N => (fst q, cell_num (snd q))) d) with (flat_dict d).
      unfold g at 1, g2 at 1 3. rewrite Hc by left. cbn [rbind fst snd].
      destruct (pydiv N (nofnat N (cell_num (snd q))) (nofnat N (n3_count s))) as [p|e]; [|done]. cbn [rbind].
      specialize (IH (fun q Hq => Hc q (elem_of_list_further _ _ _ Hq))).
      destruct (rmapM g d) as [l0|e]; cbn [rbind].
      - destruct IH as [-> IH2]. cbn [rbind map sumn fst snd]. split; [done|]. by rewrite IH2.
      - by rewrite IH. }
    fold g. destruct (rmapM g d) as [l0|e].
    - destruct Hm as [E1 E2]. cbn [rbind]. rewrite E1. cbn [rbind]. by rewrite E2.
    - by rewrite Hm.
  Qed.

  Lemma probability_flat s l (x : ctx3 N) a k : Hist3 cvP s l -> k <> Some cv_key ->
    probability3 x s a (option_map VNom k) = probability (N:=N) (flat_table s) a k.
  Proof.
    intros HH Hk. destruct k as [v|]; cbn [option_map probability3 probability]; rewrite dget_flat_table.
    - destruct (dget a (n3_av s)) as [d|] eqn:Ed; [|done]. cbn [option_map]. rewrite dget_flat_dict.
      destruct (dget v d) as [q|] eqn:Eq; [|done]. cbn [option_map].
      apply dget_In in Eq. pose proof (cell_count_ok s l a d (v, q) HH Ed Eq) as Hc.
      unfold cell_count in Hc. cbn [fst snd] in Hc. rewrite decide_False in Hc by congruence.
      destruct q; [done|]. done.
    - destruct (dget a (n3_av s)) as [d|] eqn:Ed; [|done]. cbn [option_map].
      assert (E : rmapM cell_count d = Ok (map snd (flat_dict d))).
      { assert (Hc : forall q, q ∈ d -> cell_count q = Ok (cell_num (snd q))) by (intros q; by eapply cell_count_ok).
        clear Ed. induction d as [|q d IH]; [done|]. cbn [rmapM flat_dict map]. rewrite Hc by left. cbn [rbind].
        rewrite IH; [done|]. intros q' Hq'. apply Hc. by right. }
      rewrite E. done.
  Qed.

  (** From the value chosen for the flattened table to the prediction. *)
  Definition unflat (normal : num N -> num N -> A (num N)) (d : list (nom * cell N)) (c : chooser) (v : option nom) : A (option (val3 N)) :=
    match v with
    | None => aret None
    | Some w =>
      if decide (w = cv_key) then
        match dget cv_key d, c with
        | Some (CVc cv), MostLikely => aret (Some (VNum (cv_mean cv)))
        | Some (CVc cv), Sampled =>
          abind (alift (cv_unbiased_std cv)) (fun sd =>
          abind (normal (cv_unbiased_mean cv) sd) (fun y => aret (Some (VNum y))))
        | Some (Cnt _), _ => araise AttributeError
        | None, _ => araise KeyError
        end
      else aret (Some (VNom w))
    end.

  Lemma predict_flat rng ncmp normal s l a f b am c d : Hist3 cvP s l -> choose_fn f = Some c ->
    dget a (n3_av s) = Some d ->
    predict3 rng ncmp normal s a f b am =
    abind (predict (N:=N) rng ncmp (flat_table s) a f b) (unflat normal d c) am.
  Proof.
    intros HH Hf Hd. unfold predict3, predict. rewrite Hf, Hd, dget_flat_table, Hd. cbn [option_map].
    rewrite (weighted_flat s l a b HH).
    destruct (get_weighted_values (N:=N) (flat_table s) a b) as [ws|e]; [|done].
    unfold abind, alift. cbn [fst snd]. destruct (choose rng ncmp c ws am) as [[v|e] am']; [|done].
    done.
  Qed.

  Lemma predict_absent rng ncmp normal (s : nsum3 N) a f b am c : choose_fn f = Some c -> dget a (n3_av s) = None ->
    predict3 rng ncmp normal s a f b am = (Ok None, am).
  Proof using Type. intros Hf Hd. unfold predict3. by rewrite Hf, Hd. Qed.
End Flat.
