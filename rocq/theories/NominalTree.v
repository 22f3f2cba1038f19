(** * CobwebTree: facts about whole histories, for any arithmetic. *)
From stdpp Require Import base decidable list gmap strings.
From Verif Require Import Base Num TreeModel TreeFun TreeScore TreeRefine TreeSorts TreeInv
  SpecTree TreeState TreeRel TreeSim TreeLeaf Nominal NominalFacts.

Section Cobweb.
  Context {N : NumOps} (rng : nat -> num N).
  Notation C := (CobwebClass N).

  Lemma cob_closed (i : inst) : closed C (fun _ => True) i.
  Proof. split; simpl; eauto. Qed.

  Definition someHist (s : nsum) : Prop := exists l, Hist s l.
  Definition leafHist (s : nsum) : Prop := exists l, Hist s l /\ LeafV l.

  Lemma hist_closed (i : inst) : good i -> closed C someHist i.
  Proof.
    intros Hg. split; simpl.
    - exists []. apply Hist_empty.
    - intros s [l Hl]. eexists. split; [done|]. exists (i :: l). by apply Hist_inc.
    - intros s1 s2 [l1 H1] [l2 H2]. eexists. split; [done|]. exists (l1 ++ l2). by apply Hist_add.
  Qed.

  Lemma leafHist_empty : leafHist (NSum 0 []).
  Proof. exists []. split; [apply Hist_empty|]. intros i j Hi. inversion Hi. Qed.

  Lemma leafHist_inc (i : inst) s s' : good i -> nc_inc C s i = (s', None) -> someHist s -> leafHist s ->
    s = nc_empty C \/ nc_exact C s i = Ok true \/ nc_count C s = 0 -> leafHist s'.
  Proof.
    simpl. intros Hg [= <-] _ (l & Hl & Hv) Hc. exists (i :: l). split; [by apply Hist_inc|].
    assert (Hnil : l = [] -> LeafV (i :: l)).
    { intros -> a b ->%elem_of_list_singleton ->%elem_of_list_singleton. by intros ? ?. }
    destruct Hc as [->|[[= Hx]|Hz]].
    - apply Hnil. destruct Hl as [Hc _]. destruct l; [done|simpl in Hc; lia].
    - by eapply LeafV_exact.
    - apply Hnil. destruct Hl as [Hc _]. destruct l; [done|simpl in Hc; lia].
  Qed.

  (** What [leafHist] means. *)
  Lemma leafHist_single s a d : leafHist s -> visible a = true -> dget a (ns_av s) = Some d ->
    exists v, d = [(v, ns_count s)].
  Proof.
    intros (l & (Hc & [Hwf Hav] & He) & Hv) Ha Hd.
    destruct (Hav _ _ Hd) as (Hdw & Hne & Hpos).
    assert (Hkey : forall v c, (v, c) ∈ d -> c = ns_count s /\ forall i, i ∈ l -> dget a i = Some v).
    { intros v c Hin. apply (In_dget v c) in Hin; [|done].
      specialize (Hpos _ _ Hin). specialize (He a v). unfold entry in He. rewrite Hd, Hin in He.
      simpl in He. assert (0 < occ l a v) as (i & Hi & E)%occ_pos by lia.
      assert (Hall : forall j, j ∈ l -> dget a j = Some v).
      { intros j Hj. rewrite <- E. by apply Hv. }
      split; [|done]. rewrite He, Hc. by apply occ_all_2. }
    destruct d as [|[v c] d]; [done|].
    destruct (Hkey v c) as [-> Hall]; [left|]. exists v.
    destruct d as [|[w c'] d]; [done|]. exfalso.
    destruct (Hkey w c') as [-> Hall']; [right; left|].
    assert (exists i, i ∈ l) as [i Hi].
    { destruct l as [|i l]; [|exists i; left].
      specialize (Hpos v (ns_count s)). rewrite Hc in Hpos. simpl in Hpos.
      rewrite decide_True in Hpos by done. specialize (Hpos eq_refl). lia. }
    assert (v = w) as -> by (pose proof (Hall i Hi); pose proof (Hall' i Hi); congruence).
    apply dwf_cons in Hdw as [Hni _]. apply Hni. left.
  Qed.

  Lemma leafHist_inst s (i : inst) : leafHist (ns_inc s i) -> good i ->
    (exists l, Hist s l) ->
    0 < ns_count (ns_inc s i) /\
    (forall a v, visible a = true -> dget a i = Some v ->
       dget a (ns_av (ns_inc s i)) = Some [(v, ns_count (ns_inc s i))]) /\
    (forall a, visible a = true -> dget a i = None -> dget a (ns_av (ns_inc s i)) = None).
  Proof.
    intros (l & Hl & Hv) Hg (l0 & H0).
    pose proof (Hist_inc _ _ _ H0 Hg) as H1.
    (* l and i :: l0 have the same occurrence counts *)
    assert (Hocc : forall a v, occ l a v = occ (i :: l0) a v).
    { intros a v. destruct Hl as (_ & _ & <-), H1 as (_ & _ & <-). done. }
    assert (Hlen : length l = S (length l0)).
    { destruct Hl as (E1 & _), H1 as (E2 & _). simpl in *. congruence. }
    split; [simpl; lia|].
    assert (Hsome : forall a v, visible a = true -> dget a i = Some v ->
       dget a (ns_av (ns_inc s i)) = Some [(v, ns_count (ns_inc s i))]).
    { intros a v Ha Hi.
      assert (Hpos : 0 < entry (ns_inc s i) a v).
      { destruct H1 as (_ & _ & He). rewrite He. simpl. rewrite decide_True by done. lia. }
      unfold entry in Hpos. destruct (dget a (ns_av (ns_inc s i))) as [d|] eqn:Hd; [|lia].
      destruct (leafHist_single (ns_inc s i) a d) as [w ->]; [by exists l|done|done|].
      simpl in Hpos. destruct (decide (v = w)) as [->|]; [done|simpl in Hpos; lia]. }
    split; [done|].
    intros a Ha Hi. destruct (dget a (ns_av (ns_inc s i))) as [d|] eqn:Hd; [|done]. exfalso.
    destruct (leafHist_single (ns_inc s i) a d) as [w ->]; [by exists l|done|done|].
    destruct Hl as (Hc & _ & He). specialize (He a w). unfold entry in He. rewrite Hd in He.
    simpl in He. rewrite decide_True in He by done. simpl in He.
    assert (Hx : occ (i :: l0) a w = S (length l0)) by (rewrite <- Hocc, <- He, <- Hlen; done).
    assert (Hy : dget a i = Some w).
    { apply (occ_all (i :: l0)); [done|left]. }
    congruence.
  Qed.

  (** Persistence: same visible contents, larger count. *)
  Definition sees (s : nsum) (a : attr) (v : nom) : Prop :=
    exists d, dget a (ns_av s) = Some d /\ v ∈ dkeys d.
  Definition grows (s s' : nsum) : Prop :=
    ns_count s <= ns_count s' /\ forall a v, visible a = true -> sees s a v <-> sees s' a v.

  Lemma Hist_sees s l a v : Hist s l -> sees s a v <-> 0 < occ l a v.
  Proof.
    intros (_ & [_ Hav] & He). split.
    - intros (d & Hd & Hv). destruct (Hav _ _ Hd) as (Hdw & _ & Hpos).
      apply dget_key_Some in Hv as [c Hc]. specialize (Hpos _ _ Hc).
      specialize (He a v). unfold entry in He. rewrite Hd, Hc in He. simpl in He. lia.
    - intros Ho. rewrite <- He in Ho. unfold entry in Ho.
      destruct (dget a (ns_av s)) as [d|] eqn:Hd; [|lia]. exists d. split; [done|].
      destruct (dget v d) as [c|] eqn:Hc; [by eapply dget_Some_key|simpl in Ho; lia].
  Qed.

  Lemma grows_inc (i : inst) s s' : good i -> someHist s -> 0 < ns_count s ->
    nc_inc C s i = (s', None) -> nc_exact C s i = Ok true \/ nc_count C s = 0 ->
    grows s s' /\ 0 < ns_count s'.
  Proof.
    simpl. intros Hg [l Hl] Hpos [= <-] [[= Hx]|Hz]; [|lia].
    split; [|simpl; lia]. split; [simpl; lia|]. intros a v Ha.
    rewrite (Hist_sees _ _ _ _ Hl), (Hist_sees _ _ _ _ (Hist_inc _ _ _ Hl Hg)). simpl.
    destruct (decide (dget a i = Some v)) as [Hi|]; [|lia].
    split; [lia|]. intros _. rewrite exact_true in Hx.
    destruct (Hx a Ha) as (v' & d & c & H1 & H2 & H3 & H4).
    { left. by eapply dget_Some_key. }
    rewrite Hi in H1. injection H1 as <-.
    destruct Hl as (_ & _ & He). rewrite <- He. unfold entry. rewrite H2, H3. simpl. lia.
  Qed.
End Cobweb.

(** ** Raw calls *)
Fixpoint rocc (l : list raw) (a : attr) (v : nom) : nat :=
  match l with
  | [] => 0
  | i :: l => (if decide (dget a i = Some (PVal v)) then 1 else 0) + rocc l a v
  end.

Lemma rocc_perm l l' a v : Permutation l l' -> rocc l a v = rocc l' a v.
Proof. induction 1; simpl; lia. Qed.
Lemma rocc_app l l' a v : rocc (l ++ l') a v = rocc l a v + rocc l' a v.
Proof. induction l as [|i l IH]; simpl; [done|]. rewrite IH. lia. Qed.

Lemma sanity_dget i j a v : sanity i = Ok j -> dget a i = Some (PVal v) <-> dget a j = Some v.
Proof.
  intros [-> _]%sanity_ok. induction j as [|[b w] j IH]; simpl; [done|].
  destruct (decide (a = b)); [|done]. split; congruence.
Qed.

Section Raw.
  Context {N : NumOps} (rng : nat -> num N).
  Notation C := (CobwebClass N).

  Lemma ifit_all_tinv (l : list raw) : forall s t h s',
    state_ok C s t -> tinv C Hist LeafV t h -> Forall (fun i : raw => dwf i) l ->
    ifit_all rng l s = (Ok tt, s') ->
    exists t' h', state_ok C s' t' /\ tinv C Hist LeafV t' h' /\
      length h' = length h + length l /\ forall a v, occ h' a v = occ h a v + rocc l a v.
  Proof.
    induction l as [|i l IH]; intros s t h s' Hok Ht Hwf E.
    - injection E as <-. exists t, h. split; [done|]. split; [done|]. simpl. split; [lia|]. intros; lia.
    - apply Forall_cons in Hwf as [Hi Hwf]. simpl in E. unfold mbind in E.
      unfold ifit in E. destruct (sanity i) as [j|e] eqn:Hsan; [|done].
      destruct (cobweb C rng j s) as [[r|e] s1] eqn:Ec; [|done].
      pose proof (sanity_good _ _ Hi Hsan) as Hg.
      assert (Hall : tall C (somesum C Hist) t) by (by eapply tinv_tall).
      destruct (cobweb_sorts C rng (somesum C Hist) good (summ_closed C Hist LeafV good (hist_laws N))
        s t j (Ok r) s1 Hok Hall Hg Ec) as (t1 & mv & Hs & Hok1 & _).
      pose proof (sorts_tinv C Hist LeafV good (hist_laws N) j _ t t1 mv r h Hs Hg Ht) as Ht1.
      destruct (IH s1 t1 (j :: h) s' Hok1 Ht1 Hwf E) as (t' & h' & Hok' & Ht' & Hlen & Hocc).
      exists t', h'. split; [done|]. split; [done|]. split; [simpl in *; lia|].
      intros a v. rewrite Hocc. simpl.
      pose proof (sanity_dget i j a v Hsan) as Hiff.
      destruct (decide (dget a j = Some v)), (decide (dget a i = Some (PVal v))); try tauto; lia.
  Qed.

  Lemma fit_loop_tinv perms : (forall k l, Permutation (perms k l) l) ->
    forall iters k (l : list raw) s t h s',
    state_ok C s t -> tinv C Hist LeafV t h -> Forall (fun i : raw => dwf i) l ->
    fit_loop rng perms k iters l s = (Ok tt, s') ->
    exists t' h', state_ok C s' t' /\ tinv C Hist LeafV t' h' /\
      length h' = length h + iters * length l /\
      forall a v, occ h' a v = occ h a v + iters * rocc l a v.
  Proof.
    intros Hp. induction iters as [|iters IH]; intros k l s t h s' Hok Ht Hwf E.
    - injection E as <-. exists t, h. split; [done|]. split; [done|]. split; [lia|]. intros; lia.
    - simpl in E. unfold mbind in E.
      destruct (ifit_all rng l s) as [[[]|e] s1] eqn:E1; [|done].
      destruct (ifit_all_tinv l s t h s1 Hok Ht Hwf E1) as (t1 & h1 & Hok1 & Ht1 & Hl1 & Ho1).
      destruct (IH (S k) (perms k l) s1 t1 h1 s' Hok1 Ht1) as (t2 & h2 & Hok2 & Ht2 & Hl2 & Ho2);
        [by rewrite Hp|done|].
      exists t2, h2. split; [done|]. split; [done|].
      rewrite (Permutation_length (Hp k l)) in Hl2. split; [lia|].
      intros a v. rewrite Ho2, Ho1, (rocc_perm _ _ _ _ (Hp k l)). lia.
  Qed.
End Raw.
