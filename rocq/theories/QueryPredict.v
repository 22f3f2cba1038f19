(** * What predict returns for a table that summarises a list of instances, over
    the reals. *)
From Coq Require Import Reals Lra.
From stdpp Require Import base decidable tactics gmap strings list.
From Verif Require Import Base Num TreeModel RSum Nominal NominalFacts NominalR Utils PropsUtils Query QueryR QueryFacts.
Set Default Proof Using "Type*".

Definition likely (f : string) : Prop := f = "most likely"%string \/ f = "m"%string.
Definition sampling (f : string) : Prop := f = "sampled"%string \/ f = "s"%string.

Lemma likely_fn f : likely f -> choose_fn f = Some MostLikely.
Proof. intros [->| ->]; done. Qed.
Lemma sampling_fn f : sampling f -> choose_fn f = Some Sampled.
Proof. intros [->| ->]; done. Qed.

Section Predict.
  Context (rng : nat -> R) (ncmp : nom -> nom -> option bool).
  Section Table.
    Context (tb : nsum) (l : list inst).
    Hypothesis Hh : Hist tb l.
    Hypothesis Hl : l <> [].

    (** The options put to the choice function, for a known attribute. *)
    Lemma options a d b : dget a (ns_av tb) = Some d -> exists ws,
      get_weighted_values (N:=ROps) tb a b = Ok ws /\ ws <> [] /\ nonneg ws /\ (0 < total ws)%R /\
      (forall v w, (v, w) ∈ ws -> probability (N:=ROps) tb a v = Ok w /\ (b = false -> v <> None)) /\
      (forall v p, probability (N:=ROps) tb a v = Ok p -> (0 < p)%R -> (b = false -> v <> None) -> (v, p) ∈ ws).
    Proof.
      intros Hd. 
      destruct (weighted_distribution tb l Hh Hl a) as (ws & E & Hnd & Hsum & Hw & Hall).
      pose proof E as E'. rewrite (weighted_known tb l Hh Hl a d true Hd) in E'. injection E' as E'.
      destruct (Hist_dict tb l a d Hh Hd) as (Hwf & Hdne & Hocc & _).
      destruct b.
      - exists ws. split; [done|]. split; [intros ->; simpl in Hsum; lra|].
        split; [apply Forall_forall; intros [v w] Hv; by apply Hw in Hv as [? _]|].
        split; [unfold total; lra|]. split.
        + intros v w Hv. split; [by apply Hw in Hv as [_ ?]|done].
        + intros v p Hp Hpos _. by apply Hall.
      - exists (choices tb d). rewrite (weighted_known tb l Hh Hl a d false Hd), app_nil_r.
        split; [done|].
        assert (Hcw : forall v w, (v, w) ∈ choices tb d -> (0 < w)%R /\ probability (N:=ROps) tb a v = Ok w /\ v <> None).
        { intros v w Hv. destruct (choices_in tb l Hh Hl d a v w Hd Hv) as (Hp & Hpr & u & -> & _). done. }
        split; [by destruct d|]. split.
        { apply Forall_forall. intros [v w] Hv. apply Hcw in Hv. simpl. lra. }
        split.
        { destruct d as [|[v c] d]; [done|]. unfold total, choices. cbn [map Rsum].
          pose proof (Hcw (Some v) (INR c / INR (ns_count tb))%R) as Hx.
          destruct Hx as [Hx _]; [left|]. cbn [snd fst].
          assert (0 <= Rsum snd (map (fun q : nom * nat => (Some (fst q), (INR (snd q) / INR (ns_count tb))%R)) d))%R; [|lra].
          apply total_nonneg. apply Forall_forall. intros [v' w'] Hv'.
          destruct (Hcw v' w') as [Hy _]; [right; exact Hv'|]. simpl. lra. }
        split.
        + intros v w Hv. destruct (Hcw v w Hv) as (_ & Hp & Hn). done.
        + intros v p Hp Hpos Hn. specialize (Hall v p Hp Hpos). rewrite <- E' in Hall.
          apply elem_of_app in Hall as [Hall|Hall]; [done|].
          apply elem_of_list_singleton in Hall. injection Hall as -> _. by destruct (Hn eq_refl).
    Qed.

    (** Attributes no instance of the concept has are predicted to be missing. *)
    Lemma predict_unknown_attribute a f b am : (forall v, entry tb a v = 0%nat) -> likely f \/ sampling f ->
      fst (predict (N:=ROps) rng ncmp tb a f b am) = Ok None /\
      probability (N:=ROps) tb a None = Ok 1%R.
    Proof.
      intros Ha Hf. 
      assert (Hd : dget a (ns_av tb) = None).
      { destruct (dget a (ns_av tb)) as [d|] eqn:Ed; [|done].
        destruct (Hist_dict tb l a d Hh Ed) as (Hwf & Hne & Hocc & _). destruct d as [|[v c] d]; [done|].
        specialize (Ha v). unfold entry in Ha. rewrite Ed in Ha. simpl in Ha. rewrite decide_True in Ha by done.
        simpl in Ha. destruct (Hocc v c); [left|lia]. }
      split.
      - unfold predict. rewrite Hd. destruct Hf as [Hf|Hf]; [by rewrite (likely_fn f Hf)|by rewrite (sampling_fn f Hf)].
      - rewrite (probability_share tb l Hh Hl). simpl.
        pose proof (lacks_nhas l a) as Hn. rewrite (nhas_absent tb l a Hh Hd), Nat.add_0_r in Hn.
        rewrite Hn. f_equal. apply Rinv_r. apply not_0_INR. destruct l; [done|]. done.
    Qed.

    Lemma predict_most_likely a f b am v : likely f ->
      fst (predict (N:=ROps) rng ncmp tb a f b am) = Ok v ->
      exists p, probability (N:=ROps) tb a v = Ok p /\
        forall w q, (b = false -> (exists u, 0 < entry tb a u)%nat -> w <> None) ->
          probability (N:=ROps) tb a w = Ok q -> (q <= p)%R.
    Proof.
      intros Hf E. 
      destruct (dget a (ns_av tb)) as [d|] eqn:Hd.
      - unfold predict in E. rewrite (likely_fn f Hf), Hd in E.
        destruct (options a d b Hd) as (ws & Ew & _ & _ & _ & Hw & Hall).
        unfold abind, alift in E. rewrite Ew in E. simpl in E.
        apply C40_maximal in E as (_ & k & p & Hk & Hmax).
        apply elem_of_list_lookup_2 in Hk as Hin'. exists p. split; [by apply Hw in Hin' as [? _]|].
        intros w q Hb Hq. destruct (Rlt_dec 0 q) as [Hpos|Hneg].
        + assert (Hm : (w, q) ∈ ws).
          { apply Hall; [done|done|]. intros Hbf. apply Hb; [done|].
            destruct (Hist_dict tb l a d Hh Hd) as (Hwf & Hne & Hocc & _). destruct d as [|[u c] d]; [done|].
            exists u. unfold entry. rewrite Hd. simpl. rewrite decide_True by done. simpl. apply (Hocc u c). left. }
          apply elem_of_list_lookup in Hm as (k' & Hk'). by apply (Hmax k' w q Hk').
        + apply Hw in Hin' as [Hp _]. destruct (probability_bounds tb l Hh Hl a v) as (p' & Hp' & Hb').
          rewrite Hp in Hp'. injection Hp' as <-. lra.
      - assert (Ha : forall u, entry tb a u = 0%nat) by (intros u; unfold entry; by rewrite Hd).
        destruct (predict_unknown_attribute a f b am Ha (or_introl Hf)) as [E' Hp].
        rewrite E in E'. injection E' as ->. exists 1%R. split; [done|]. intros w q _ Hq.
        destruct (probability_bounds tb l Hh Hl a w) as (p' & Hp' & Hb'). rewrite Hq in Hp'. injection Hp' as <-. lra.
    Qed.

    Lemma predict_sampled a f b am v : sampling f -> (forall n, 0 <= rng n < 1)%R ->
      fst (predict (N:=ROps) rng ncmp tb a f b am) = Ok v ->
      exists p, probability (N:=ROps) tb a v = Ok p /\ (0 < p)%R.
    Proof.
      intros Hf Hrng E. destruct (dget a (ns_av tb)) as [d|] eqn:Hd.
      - unfold predict in E. rewrite (sampling_fn f Hf), Hd in E.
        destruct (options a d b Hd) as (ws & Ew & _ & Hnn & _ & Hw & Hall).
        unfold abind, alift in E. rewrite Ew in E. simpl in E.
        apply C39_chosen in E as (k & w & Hk & Hpos & _); [|done|apply Hrng].
        apply elem_of_list_lookup_2 in Hk. exists w. split; [by apply Hw in Hk as [? _]|done].
      - assert (Ha : forall u, entry tb a u = 0%nat) by (intros u; unfold entry; by rewrite Hd).
        destruct (predict_unknown_attribute a f b am Ha (or_intror Hf)) as [E' Hp].
        rewrite E in E'. injection E' as ->. exists 1%R. split; [done|lra].
    Qed.

    (** How often: the draws that make predict return [v] form an interval
        whose length is the probability of [v]. *)
    Lemma predict_sampling_frequency a f am v p : sampling f ->
      (exists u, 0 < entry tb a u)%nat -> probability (N:=ROps) tb a v = Ok p -> (0 < p)%R ->
      exists lo, forall x, (0 <= x < 1)%R -> rng (am_rpos am) = x ->
        (fst (predict (N:=ROps) rng ncmp tb a f true am) = Ok v <-> (lo <= x < lo + p)%R).
    Proof.
      intros Hf (u & Hu) Hp Hpos. 
      unfold entry in Hu. destruct (dget a (ns_av tb)) as [d|] eqn:Hd; [|lia].
      destruct (weighted_distribution tb l Hh Hl a) as (ws & E & Hnd & Hsum & Hw & Hall).
      assert (Hnn : nonneg ws) by (apply Forall_forall; intros [v' w'] Hv; by apply Hw in Hv as [? _]).
      pose proof (Hall v p Hp Hpos) as (k & Hk)%elem_of_list_lookup.
      exists (before ws k). intros x Hx Hrx.
      assert (Ep : fst (predict (N:=ROps) rng ncmp tb a f true am) = fst (weighted_choice (N:=ROps) rng ws am)).
      { unfold predict. rewrite (sampling_fn f Hf), Hd. unfold abind, alift. by rewrite E. }
      rewrite Ep. assert (Ht1 : total ws = 1%R) by exact Hsum. split.
      - intros Ec. apply C39_chosen in Ec as (k' & w' & Hk' & _ & Hb); [|done|by rewrite Hrx].
        assert (k' = k) as ->.
        { assert (Hm : forall n w, ws !! n = Some (v, w) -> map fst ws !! n = Some v).
          { intros n w Hn. change (map fst ws) with (fst <$> ws). by rewrite list_lookup_fmap, Hn. }
          exact (NoDup_lookup (map fst ws) k' k v Hnd (Hm _ _ Hk') (Hm _ _ Hk)). }
        assert (w' = p) as -> by (pose proof (eq_trans (eq_sym Hk') Hk) as Hq; by injection Hq).
        rewrite Hrx, Ht1 in Hb. split; lra.
      - intros Hb. apply (C39_interval rng ws am k v p Hnn Hk). rewrite Hrx, Ht1. lra.
    Qed.

    Lemma predict_never_none a f am v u : (0 < entry tb a u)%nat ->
      fst (predict (N:=ROps) rng ncmp tb a f false am) = Ok v -> v <> None.
    Proof.
      intros Hu E. apply predict_known in E as [_ E]. destruct (E eq_refl) as (w & ->); [|done].
      unfold entry in Hu. destruct (dget a (ns_av tb)) eqn:Hd; [by apply dget_Some_key in Hd|lia].
    Qed.

    (** It returns: always when sampling; for the most likely value unless two
        draws coincide. *)
    Lemma predict_returns a f b am :
      sampling f /\ (forall n, 0 <= rng n < 1)%R \/ likely f /\ (forall j k, j <> k -> rng j <> rng k) ->
      exists v, fst (predict (N:=ROps) rng ncmp tb a f b am) = Ok v.
    Proof.
      intros H. unfold predict. destruct (dget a (ns_av tb)) as [d|] eqn:Hd.
      - destruct (options a d b Hd) as (ws & Ew & Hne & Hnn & Htot & _).
        unfold abind, alift. destruct H as [[Hf Hrng]|[Hf Hdis]].
        + rewrite (sampling_fn f Hf), Ew. simpl.
          destruct (fst (weighted_choice (N:=ROps) rng ws am)) as [v|e] eqn:Ec; [eauto|]. exfalso.
          apply C39_raises in Ec as (_ & [->|[(q & Hq & Hlt)|H0]]); [done| |lra|apply Hrng].
          unfold nonneg in Hnn. rewrite Forall_forall in Hnn. specialize (Hnn q Hq). simpl in Hnn. lra.
        + rewrite (likely_fn f Hf), Ew. simpl. by apply C40_returns.
      - destruct H as [[Hf _]|[Hf _]]; [rewrite (sampling_fn f Hf)|rewrite (likely_fn f Hf)]; eauto.
    Qed.
  End Table.
End Predict.
