(** * Read-only questions to Cobweb3 concepts, in exact arithmetic (C72, C73),
      and the statistics of utils.py (C71). *)
From Coq Require Import Reals Lra.
From stdpp Require Import base decidable tactics gmap strings list.
From Verif Require Import Base Num TreeModel TreeFun TreeScore TreeRefine TreeSorts TreeInv
  SpecTree TreeState TreeTotal RSum Nominal NominalFacts NominalR Utils PropsUtils Query QueryR
  QueryFacts QueryPredict CV CVFacts Cobweb3 C3Facts C3Scales C3R C3Total C3Nominal C3Query Query3 TreeLeaf PropsTotal PropsC3 PropsC3R PropsC3E.
Local Notation sqrt := R_sqrt.sqrt.

(** ** C71 *)
Lemma fold_Rplus0 (l : list R) : fold_left (nadd ROps) l (nofnat ROps 0) = Rsum (fun x => x) l.
Proof. change (fold_left Rplus l 0 = Rsum (fun x => x) l)%R. rewrite fold_Rplus. lra. Qed.

Theorem C71_mean (l : list R) :
  Utils.mean ROps l = if decide (l = []) then Err ValueError else Ok (Rsum (fun x => x) l / INR (length l))%R.
Proof.
  destruct l as [|x l]; [done|]. rewrite decide_False by done. unfold Utils.mean. rewrite fold_Rplus0.
  apply pydiv_ok. apply not_0_INR. done.
Qed.

(** The standard deviation is the square root of the average squared distance
    from the average (divided by n, not n - 1). *)
Theorem C71_std (l : list R) :
  Utils.std ROps l =
  if decide (l = []) then Err ValueError
  else let m := (Rsum (fun x => x) l / INR (length l))%R in
       Ok (sqrt (Rsum (fun x => (x - m) * (x - m))%R l / INR (length l))).
Proof.
  pose proof (C71_mean l) as Hm. destruct l as [|x0 l0]; [done|]. rewrite decide_False in Hm |- * by done.
  unfold Utils.std. cbn [rbind]. rewrite Hm. set (l := x0 :: l0). cbn [rbind].
  set (m := (Rsum (fun x => x) l / INR (length l))%R).
  rewrite fold_Rplus0.
  assert (Es : Rsum (fun x => x) (map (fun v => nmul ROps (nsub ROps v m) (nsub ROps v m)) l) = Rsum (fun x => (x - m) * (x - m))%R l).
  { clearbody m. clear Hm. clearbody l. induction l as [|y l IH]; [done|]. cbn [map Rsum]. rewrite IH. done. }
  rewrite Es. assert (Hpos : (0 < INR (length l))%R) by (apply lt_0_INR; simpl; lia).
  assert (0 <= Rsum (fun x => (x - m) * (x - m)) l)%R.
  { clear. clearbody m. clearbody l. induction l as [|y l IH]; simpl; [lra|]. pose proof (sq_nonneg (y - m)). lra. }
  etransitivity; [apply (f_equal (fun r => rbind r _)); apply pydiv_ok, Rgt_not_eq, Hpos|].
  cbn [rbind]. apply pysqrt_ok. by apply div_nonneg.
Qed.

(** ** C72 *)
(** What an instance has for an attribute, when all numbers are taken as one
    value: nothing, a number, or a nominal value. *)
Inductive kind := Missing | Number | Nominal (v : nom).
Global Instance kind_eq_dec : EqDecision kind.
Proof. solve_decision. Defined.
Definition kind_of {N} (v : option (val3 N)) : kind :=
  match v with None => Missing | Some (VNum _) => Number | Some (VNom v) => Nominal v end.
(** How many instances have the kind [k] for [a]. *)
Definition having {N} (l : list (inst3 N)) (a : attr) (k : kind) : nat :=
  length (filter (fun i => kind_of (dget a i) = k) l).
Lemma having_cons {N} (i : inst3 N) l a k :
  having (i :: l) a k = ((if decide (kind_of (dget a i) = k) then 1 else 0) + having l a k)%nat.
Proof. unfold having. rewrite filter_cons. by case_decide. Qed.

(** The options of get_weighted_values: numbers are listed under a reserved
    key. *)
Definition key_kind (k : option nom) : kind :=
  match k with None => Missing | Some v => if decide (v = cv_key) then Number else Nominal v end.

(** The table [tb] describes exactly the instances [l]. *)
Definition describes (tb : nsum3 ROps) (l : list (inst3 ROps)) : Prop :=
  n3_count tb = length l /\ (forall a v, count_of tb a v = occ3 l a v) /\
  (forall a, numeric_of tb a = summary_of (nums l a)).

Lemma HistR_describes tb l : HistR tb l -> describes tb l.
Proof.
  intros H. split; [apply H|]. split; [intros; by eapply hist_count|intros; by apply hist_summary].
Qed.

Lemma summ_len c xs : summarises c xs -> cv_num c = length xs.
Proof. intros ->. done. Qed.

Section Table.
  Context (tb : nsum3 ROps) (l : list (inst3 ROps)).
  Hypothesis Hh : HistR tb l.
  Hypothesis Hl : l <> [].

  Notation ft := (flat_table tb).
  Notation fl := (map (flat_inst (N:=ROps)) l).

  Lemma flat_Hist : Hist ft fl.
  Proof. exact (flat_hist summarises summ_len tb l Hh). Qed.
  Lemma flat_ne : fl <> [].
  Proof. clear Hh. by destruct l. Qed.

  Lemma no_key i a : i ∈ l -> dget a i <> Some (VNom cv_key).
  Proof.
    intros Hi E. assert (H0 : occ3 l a cv_key = 0%nat) by (by eapply hist_no_key).
    clear -Hi E H0. induction l as [|j m IH]; [inversion Hi|]. cbn [occ3] in H0.
    apply elem_of_cons in Hi as [<-|Hi]; [|apply IH; [done|lia]]. rewrite E in H0.
    rewrite decide_True in H0 by done. lia.
  Qed.

  Lemma share_having a k : share fl a k = having l a (key_kind k).
  Proof.
    rewrite (flat_share (N:=ROps) l a k) by (by eapply hist_no_key).
    unfold having. pose proof no_key as Hk. clear Hh Hl.
    induction l as [|i m IH]; [by destruct k as [v|]; [simpl; destruct (decide _)|]|].
    specialize (IH (fun j b Hj => Hk j b (elem_of_list_further _ _ _ Hj))).
    specialize (Hk i a (elem_of_list_here _ _)).
    destruct k as [v|]; cbn [share3 key_kind] in *.
    - destruct (decide (v = cv_key)) as [->|Hv]; rewrite filter_cons.
      + cbn [nums]. destruct (dget a i) as [[w|y]|]; cbn [kind_of]; case_decide; try done.
        cbn [length]. by rewrite IH.
      + cbn [occ3]. destruct (dget a i) as [[w|y]|]; cbn [kind_of]; repeat case_decide; simplify_eq; try done; cbn [length]. by rewrite IH.
    - rewrite filter_cons. cbn [lacks3]. destruct (dget a i) as [[w|y]|]; cbn [kind_of]; case_decide; try done; cbn [length]; by rewrite IH.
  Qed.

  Lemma prob_having a k : probability (N:=ROps) ft a k = Ok (INR (having l a (key_kind k)) / INR (length l))%R.
  Proof.
    rewrite (probability_share ft fl flat_Hist flat_ne a k), share_having, map_length. done.
  Qed.

  Lemma known_flat a : (exists k, 0 < entry ft a k)%nat <-> exists i, i ∈ l /\ dget a i <> None.
  Proof.
    destruct flat_Hist as (_ & _ & He). split.
    - intros (v & Hv). rewrite He in Hv. apply (occ_pos fl a v) in Hv as (j & Hj & Ej).
      apply elem_of_list_fmap in Hj as (i & -> & Hi). exists i. split; [done|].
      rewrite dget_flat_inst in Ej. by destruct (dget a i).
    - intros (i & Hi & Hn). destruct (dget a i) as [v|] eqn:Ev; [|done]. exists (flat_val v). rewrite He.
      apply occ_pos. exists (flat_inst i). split; [by apply elem_of_list_fmap_1|]. by rewrite dget_flat_inst, Ev.
  Qed.

  Lemma known_table a : (exists i, i ∈ l /\ dget a i <> None) <-> dget a (n3_av tb) <> None.
  Proof.
    rewrite <- known_flat. unfold entry. rewrite dget_flat_table.
    pose proof flat_Hist as (_ & [_ Hav] & _). specialize (Hav a). rewrite dget_flat_table in Hav.
    destruct (dget a (n3_av tb)) as [d|]; simpl in *.
    - split; [done|]. intros _. destruct (Hav _ eq_refl) as (_ & Hne & Hp).
      destruct (flat_dict d) as [|[k c] r] eqn:E; [done|]. exists k. simpl.
      rewrite decide_True by done. simpl. apply (Hp k c). simpl. by rewrite decide_True.
    - split; [intros (k & Hk); lia|done].
  Qed.
End Table.

Section Concepts.
  Context (rng : nat -> num ROps) (ncmp : nom -> nom -> option bool) (normal : R -> R -> A R).
  Context (sc : option R) (inner : bool).
  Notation C := (Cobweb3Class ROps).
  Notation x0 := (@new_ctx ROps sc inner).
  Notation good := (good3 (N:=ROps)).

  (** The concept [id] with table [tb] describes the non-empty list [l] of
      fitted instances; then [P l]. *)
  Definition about (evs : list (event C)) (tb : nsum3 ROps) (P : list (inst3 ROps) -> Prop) : Prop :=
    exists l, l <> [] /\ (forall i, i ∈ l -> i ∈ history evs) /\ describes tb l /\ P l.

  Lemma concept_about evs s id tb (P : list (inst3 ROps) -> Prop) :
    reachable C rng x0 evs s -> all_inst (C:=C) good evs -> in_tree s id -> table_of s id tb ->
    (0 < n3_count tb)%nat -> (forall l, HistR tb l -> l <> [] -> P l) -> about evs tb P.
  Proof.
    intros Hr Hg Hin Ht Hc HP. destruct (reach_hist rng sc inner evs s id tb Hr Hg Hin Ht) as (l & Hl & Hsub).
    assert (Hne : l <> []) by (intros ->; destruct Hl as [Hl _]; simpl in Hl; lia).
    exists l. split; [done|]. split; [done|]. split; [by apply HistR_describes|]. by apply HP.
  Qed.

  Lemma predict3_returns tb l a f b am : HistR tb l -> l <> [] ->
      sampling f /\ (forall n, 0 <= rng n < 1)%R /\ (forall m d am', exists y, fst (normal m d am') = Ok y) \/
      likely f /\ (forall j k, j <> k -> rng j <> rng k) ->
      exists r, fst (predict3 rng ncmp normal tb a f b am) = Ok r.
  Proof.
      intros Hh Hl H.
      assert (Hf : exists c, choose_fn f = Some c /\ (c = Sampled -> forall m d am', exists y, fst (normal m d am') = Ok y)).
      { destruct H as [[Hf [_ Hn]]|[Hf _]]; [exists Sampled|exists MostLikely].
        - split; [by apply sampling_fn|done].
        - split; [by apply likely_fn|done]. }
      destruct Hf as (c & Hf & Hn).
      destruct (dget a (n3_av tb)) as [d|] eqn:Hd.
      2:{ exists None. by rewrite (predict_absent rng ncmp normal tb a f b am c Hf Hd). }
      rewrite (predict_flat summarises rng ncmp normal tb l a f b am c d Hh Hf Hd).
      destruct (predict_returns rng ncmp _ _ (flat_Hist tb l Hh) (flat_ne l Hl) a f b am) as (v & Ev).
      { destruct H as [[? [? _]]|?]; auto. }
      unfold abind. destruct (predict (N:=ROps) rng ncmp (flat_table tb) a f b am) as [rv am'] eqn:Ep.
      simpl in Ev. subst rv. destruct v as [v|]; cbn [unflat]; [|by eexists].
      destruct (decide (v = cv_key)) as [->|Hv]; [|by eexists].
      assert (Ep' : fst (predict (N:=ROps) rng ncmp (flat_table tb) a f b am) = Ok (Some cv_key)) by (by rewrite Ep).
      apply predict_known in Ep' as [Hk _]. destruct (Hk _ eq_refl) as (d' & Hd' & Hkey).
      rewrite dget_flat_table, Hd in Hd'. injection Hd' as <-. unfold flat_dict in Hkey. rewrite dkeys_flat in Hkey.
      apply dget_key_Some in Hkey as (q & Hq).
      pose proof Hh as (_ & _ & _ & Hcells). specialize (Hcells a). rewrite Hd in Hcells. simpl in Hcells.
      destruct Hcells as (_ & _ & _ & Hx). destruct (nums l a) as [|z zs]; [congruence|].
      destruct Hx as (cv & Hcv & Hsum). rewrite Hcv. destruct c; [by eexists|].
      destruct (ustd_ok cv) as [Es _]; [rewrite Hsum; apply ssd_nonneg|].
      unfold alift, abind. rewrite Es.
      destruct (Hn eq_refl (cv_unbiased_mean cv) (ustd cv) am') as (y & Ey).
      destruct (normal (cv_unbiased_mean cv) (ustd cv) am') as [ry am2]. simpl in Ey. subst ry. by eexists.
    Qed.

    (** predict returns what choosing among the options gives: *)
    Lemma predict_runs tb l a f b am r c : HistR tb l -> l <> [] -> choose_fn f = Some c ->
      fst (predict3 rng ncmp normal tb a f b am) = Ok r -> exists v,
        fst (predict (N:=ROps) rng ncmp (flat_table tb) a f b am) = Ok v /\
        kind_of r = key_kind v /\
        match r with
        | Some (VNum y) => exists cv, summary_of (nums l a) = Some cv /\
          match c with
          | MostLikely => y = cv_mean cv
          | Sampled => exists sd am1 am2, cv_unbiased_std cv = Ok sd /\ normal (cv_mean cv) sd am1 = (Ok y, am2)
          end
        | _ => True
        end.
    Proof.
      intros Hh Hl Hf E. destruct (dget a (n3_av tb)) as [d|] eqn:Hd.
      - rewrite (predict_flat summarises rng ncmp normal tb l a f b am c d Hh Hf Hd) in E.
        unfold abind in E. destruct (predict (N:=ROps) rng ncmp (flat_table tb) a f b am) as [[v|e] am'] eqn:Ep; [|done].
        exists v. split; [done|]. destruct v as [v|]; cbn [unflat] in E; [|by injection E as <-].
        cbn [key_kind]. destruct (decide (v = cv_key)) as [->|Hv]; [|by injection E as <-].
        assert (Hn : forall cv, dget cv_key d = Some (CVc cv) -> summary_of (nums l a) = Some cv).
        { intros cv Hcv. rewrite <- (hist_summary tb l a Hh). unfold numeric_of. by rewrite Hd, Hcv. }
        destruct (dget cv_key d) as [[n|cv]|]; [done| |done]. specialize (Hn cv eq_refl).
        destruct c; [by injection E as <-; eauto|].
        unfold alift, abind in E. destruct (cv_unbiased_std cv) as [sd|e] eqn:Es; [|done].
        destruct (normal (cv_unbiased_mean cv) sd am') as [[y|e] am2] eqn:En; [|done]. injection E as <-.
        split; [done|]. exists cv. split; [done|]. exists sd, am', am2. done.
      - assert (Hd' : dget a (ns_av (flat_table tb)) = None) by (by rewrite dget_flat_table, Hd).
        rewrite (predict_absent rng ncmp normal tb a f b am c Hf Hd) in E. injection E as <-.
        exists None. split; [|done]. unfold predict. by rewrite Hf, Hd'.
    Qed.

    Lemma predict3_mode tb l a f b am r : HistR tb l -> l <> [] -> likely f ->
      fst (predict3 rng ncmp normal tb a f b am) = Ok r ->
      (forall k, (b = false -> (exists i, i ∈ l /\ dget a i <> None) -> k <> Missing) ->
         (having l a k <= having l a (kind_of r))%nat) /\
      forall y, r = Some (VNum y) ->
        nums l a <> [] /\ y = (Rsum (fun x => x) (nums l a) / INR (length (nums l a)))%R.
    Proof.
      intros Hh Hl Hf E.
      destruct (predict_runs tb l a f b am r MostLikely Hh Hl (likely_fn f Hf) E) as (v & Ep & Hk & Hy).
      destruct (predict_most_likely rng ncmp _ _ (flat_Hist tb l Hh) (flat_ne l Hl) a f b am v Hf Ep) as (p & Hp & Hmax).
      rewrite (prob_having tb l Hh Hl) in Hp. injection Hp as <-. rewrite Hk. split.
      - intros k Hb. destruct (decide (having l a k = 0%nat)) as [->|Hpos]; [lia|].
        set (w := match k with Missing => None | Number => Some cv_key | Nominal v => Some v end).
        assert (Ek : key_kind w = k).
        { destruct k as [| |u]; unfold w; cbn [key_kind]; [done|by rewrite decide_True|].
          rewrite decide_False; [done|]. intros ->. unfold having in Hpos.
          destruct (filter _ l) as [|i m] eqn:Ef; [done|].
          assert (Hi : i ∈ i :: m) by left. rewrite <- Ef in Hi. apply elem_of_list_filter in Hi as [Hi1 Hi2].
          apply (no_key tb l Hh i a Hi2). destruct (dget a i) as [[u|y]|]; cbn [kind_of] in Hi1; try done.
          congruence. }
        specialize (Hmax w (INR (having l a k) / INR (length l))%R).
        assert (Hle : (INR (having l a k) / INR (length l) <= INR (having l a (key_kind v)) / INR (length l))%R).
        { apply Hmax.
          - intros Hbf Hu Hw. apply (known_flat tb l Hh) in Hu. apply (Hb Hbf Hu). by destruct k.
          - by rewrite (prob_having tb l Hh Hl), Ek. }
        assert (Hlen : (0 < INR (length l))%R) by (apply lt_0_INR; destruct l; [done|simpl; lia]).
        apply INR_le. apply Rmult_le_reg_r with (/ INR (length l))%R; [by apply Rinv_0_lt_compat|]. exact Hle.
      - intros y ->. destruct Hy as (cv & Hs & ->). unfold summary_of in Hs.
        destruct (nums l a) as [|z zs] eqn:En; [done|]. injection Hs as <-. done.
    Qed.

  Section One.
    Context (evs : list (event C)) (s : st C) (id : nat) (tb : nsum3 ROps).
    Hypothesis Hr : reachable C rng x0 evs s.
    Hypothesis Hg : all_inst (C:=C) good evs.
    Hypothesis Hin : in_tree s id.
    Hypothesis Ht : table_of s id tb.
    Hypothesis Hc : (0 < n3_count tb)%nat.

    (** probability of a missing or nominal value is the share of the concept's
        instances that have it. *)
    Theorem C72_probability_is_share (x : ctx3 ROps) a :
      about evs tb (fun l =>
        probability3 x tb a None = Ok (INR (having l a Missing) / INR (length l))%R /\
        forall v, v <> cv_key ->
          probability3 x tb a (Some (VNom v)) = Ok (INR (having l a (Nominal v)) / INR (length l))%R).
    Proof.
      apply (concept_about evs s id tb _ Hr Hg Hin Ht Hc). intros l Hh Hl. split.
      - etransitivity; [exact (probability_flat summarises tb l x a None Hh ltac:(done))|].
        exact (prob_having tb l Hh Hl a None).
      - intros v Hv. etransitivity; [apply (probability_flat summarises tb l x a (Some v) Hh); congruence|].
        rewrite (prob_having tb l Hh Hl a (Some v)). cbn [key_kind]. by rewrite decide_False.
    Qed.

    (** get_weighted_values(attr, True) is a probability distribution: each
        option with its share, every kind that occurs among them, once. *)
    Theorem C72_weights_are_distribution a :
      about evs tb (fun l => exists ws,
        get_weighted_values3 tb a true = Ok ws /\ NoDup (map fst ws) /\ Rsum snd ws = 1%R /\
        (forall k w, (k, w) ∈ ws -> w = (INR (having l a (key_kind k)) / INR (length l))%R) /\
        (forall k, (0 < having l a k)%nat -> exists k' w, (k', w) ∈ ws /\ key_kind k' = k)).
    Proof.
      apply (concept_about evs s id tb _ Hr Hg Hin Ht Hc). intros l Hh Hl.
      destruct (weighted_distribution _ _ (flat_Hist tb l Hh) (flat_ne l Hl) a) as (ws & E & Hnd & Hsum & Hw & Hall).
      exists ws. split; [by rewrite (weighted_flat summarises tb l a true Hh)|].
      split; [done|]. split; [done|]. split.
      - intros k w Hk. destruct (Hw k w Hk) as [_ Hp]. rewrite (prob_having tb l Hh Hl) in Hp. by injection Hp.
      - intros k Hk. set (k' := match k with Missing => None | Number => Some cv_key | Nominal v => Some v end).
        assert (Ek : key_kind k' = k).
        { destruct k as [| |v]; unfold k'; cbn [key_kind]; [done|by rewrite decide_True|].
          rewrite decide_False; [done|]. intros ->. unfold having in Hk.
          destruct (filter _ l) as [|i m] eqn:Ef; [simpl in Hk; lia|].
          assert (Hi : i ∈ i :: m) by left. rewrite <- Ef in Hi. apply elem_of_list_filter in Hi as [Hi1 Hi2].
          apply (no_key tb l Hh i a Hi2). destruct (dget a i) as [[w|y]|]; cbn [kind_of] in Hi1; try done.
          congruence. }
        exists k', (INR (having l a k) / INR (length l))%R. split; [|done]. apply Hall.
        + rewrite (prob_having tb l Hh Hl), Ek. done.
        + apply Rdiv_lt_0_compat; apply lt_0_INR; [done|]. destruct l; [done|simpl; lia].
    Qed.

    (** Without the missing option, for an attribute some instance has. *)
    Theorem C72_weights_without_missing a :
      about evs tb (fun l => (exists i, i ∈ l /\ dget a i <> None) -> exists ws p,
        get_weighted_values3 tb a false = Ok ws /\ get_weighted_values3 tb a true = Ok (ws ++ [(None, p)])).
    Proof.
      apply (concept_about evs s id tb _ Hr Hg Hin Ht Hc). intros l Hh Hl Hk.
      apply (known_table tb l Hh) in Hk. destruct (dget a (n3_av tb)) as [d|] eqn:Hd; [|done].
      rewrite !(weighted_flat summarises tb l a _ Hh).
      assert (Hd' : dget a (ns_av (flat_table tb)) = Some (flat_dict d)) by (by rewrite dget_flat_table, Hd).
      rewrite !(weighted_known _ _ (flat_Hist tb l Hh) (flat_ne l Hl) a _ _ Hd').
      eexists _, _. rewrite app_nil_r. done.
    Qed.

    (** 'most likely': no kind of value is more frequent (with
        allow_none=False "missing" does not compete, for attributes some
        instance has); a predicted number is the mean of the concept's numbers. *)
    Theorem C72_most_likely a f b am r : likely f ->
      fst (predict3 rng ncmp normal tb a f b am) = Ok r ->
      about evs tb (fun l =>
        (forall k, (b = false -> (exists i, i ∈ l /\ dget a i <> None) -> k <> Missing) ->
           (having l a k <= having l a (kind_of r))%nat) /\
        forall y, r = Some (VNum y) ->
          nums l a <> [] /\ y = (Rsum (fun x => x) (nums l a) / INR (length (nums l a)))%R).
    Proof.
      intros Hf E. apply (concept_about evs s id tb _ Hr Hg Hin Ht Hc). intros l Hh Hl.
      exact (predict3_mode tb l a f b am r Hh Hl Hf E).
    Qed.

    (** 'sampled': the kind of the result occurs; a predicted number was drawn
        by random.normalvariate with the mean and the unbiased standard
        deviation of the concept's numbers. *)
    Theorem C72_sampled a f b am r : sampling f -> (forall n, 0 <= rng n < 1)%R ->
      fst (predict3 rng ncmp normal tb a f b am) = Ok r ->
      about evs tb (fun l =>
        (0 < having l a (kind_of r))%nat /\
        forall y, r = Some (VNum y) -> exists cv sd am1 am2,
          summary_of (nums l a) = Some cv /\ cv_unbiased_std cv = Ok sd /\
          normal (cv_mean cv) sd am1 = (Ok y, am2)).
    Proof.
      intros Hf Hrng E. apply (concept_about evs s id tb _ Hr Hg Hin Ht Hc). intros l Hh Hl.
      destruct (predict_runs tb l a f b am r Sampled Hh Hl (sampling_fn f Hf) E) as (v & Ep & Hk & Hy).
      destruct (predict_sampled rng ncmp _ _ (flat_Hist tb l Hh) (flat_ne l Hl) a f b am v Hf Hrng Ep) as (p & Hp & Hpos).
      rewrite (prob_having tb l Hh Hl) in Hp. injection Hp as <-. rewrite Hk. split.
      - destruct (having l a (key_kind v)); [|lia]. simpl in Hpos. unfold Rdiv in Hpos. lra.
      - intros y ->. destruct Hy as (cv & Hs & sd & am1 & am2 & H1 & H2). by exists cv, sd, am1, am2.
    Qed.

    (** How often: the draws for which a value of kind [k] is predicted form an
        interval as long as the share of [k] (when normalvariate returns). *)
    Theorem C72_sampling_frequency a f am : sampling f ->
      (forall m d am', exists y, fst (normal m d am') = Ok y) ->
      about evs tb (fun l => forall k, (exists i, i ∈ l /\ dget a i <> None) -> (0 < having l a k)%nat ->
        exists lo, forall x, (0 <= x < 1)%R -> rng (am_rpos am) = x ->
          ((exists r, fst (predict3 rng ncmp normal tb a f true am) = Ok r /\ kind_of r = k) <->
           (lo <= x < lo + INR (having l a k) / INR (length l))%R)).
    Proof.
      intros Hf Hn. apply (concept_about evs s id tb _ Hr Hg Hin Ht Hc). intros l Hh Hl k Hknown Hpos.
      set (w := match k with Missing => None | Number => Some cv_key | Nominal v => Some v end).
      assert (Ek : key_kind w = k).
      { destruct k as [| |u]; unfold w; cbn [key_kind]; [done|by rewrite decide_True|].
        rewrite decide_False; [done|]. intros ->. unfold having in Hpos.
        destruct (filter _ l) as [|i m] eqn:Ef; [simpl in Hpos; lia|].
        assert (Hi : i ∈ i :: m) by left. rewrite <- Ef in Hi. apply elem_of_list_filter in Hi as [Hi1 Hi2].
        apply (no_key tb l Hh i a Hi2). destruct (dget a i) as [[u|y]|]; cbn [kind_of] in Hi1; try done.
        congruence. }
      assert (Hinj : forall v, key_kind v = k -> v = w).
      { intros v Hv. unfold w. destruct v as [v|]; cbn [key_kind] in Hv; [|by rewrite <- Hv].
        destruct (decide (v = cv_key)) as [->|]; by rewrite <- Hv. }
      clearbody w.
      apply (known_flat tb l Hh) in Hknown as Hk2.
      assert (Hp0 : (0 < INR (having l a k) / INR (length l))%R).
      { apply Rdiv_lt_0_compat; apply lt_0_INR; [done|]. destruct l; [done|simpl; lia]. }
      destruct (predict_sampling_frequency rng ncmp _ _ (flat_Hist tb l Hh) (flat_ne l Hl) a f am w
        (INR (having l a k) / INR (length l))%R Hf Hk2) as (lo & Hlo).
      { by rewrite (prob_having tb l Hh Hl), Ek. }
      { done. }
      exists lo. intros x Hx Hrx. rewrite <- (Hlo x Hx Hrx). split.
      - intros (r & E & Er). destruct (predict_runs tb l a f true am r Sampled Hh Hl (sampling_fn f Hf) E) as (v & Ep & Hv & _).
        rewrite Ep. f_equal. apply Hinj. congruence.
      - intros E. apply (known_table tb l Hh) in Hknown. destruct (dget a (n3_av tb)) as [d|] eqn:Hd; [|done].
        rewrite (predict_flat summarises rng ncmp normal tb l a f true am Sampled d Hh (sampling_fn f Hf) Hd).
        unfold abind. destruct (predict (N:=ROps) rng ncmp (flat_table tb) a f true am) as [rv am'] eqn:Ep.
        simpl in E. subst rv. destruct w as [u|]; cbn [unflat]; [|exists None; by split].
        cbn [key_kind] in Ek. destruct (decide (u = cv_key)) as [->|Hu]; [|by exists (Some (VNom u))].
        subst k. assert (Hx' := hist_summary tb l a Hh). unfold numeric_of in Hx'. rewrite Hd in Hx'.
        destruct (nums l a) as [|z zs] eqn:En.
        { exfalso. unfold having in Hpos. destruct (filter _ l) as [|i m] eqn:Ef; [simpl in Hpos; lia|].
          assert (Hi : i ∈ i :: m) by left. rewrite <- Ef in Hi. apply elem_of_list_filter in Hi as [Hi1 Hi2].
          clear -En Hi1 Hi2. induction l as [|j m' IH]; [inversion Hi2|]. cbn [nums] in En.
          apply elem_of_cons in Hi2 as [<-|Hi2].
          - destruct (dget a i) as [[?|?]|]; done.
          - apply IH; [|done]. by destruct (dget a j) as [[?|?]|]. }
        destruct (dget cv_key d) as [[n|cv]|] eqn:Hcv; [done| |done].
        assert (Hs : exists sd, cv_unbiased_std cv = Ok sd).
        { pose proof Hh as (_ & _ & _ & Hcells). specialize (Hcells a). rewrite Hd, En in Hcells. simpl in Hcells.
          destruct Hcells as (_ & _ & _ & c' & Ec' & Hsum). rewrite Hcv in Ec'. injection Ec' as ->.
          rewrite Hsum. eexists. apply ustd_ok, ssd_nonneg. }
        destruct Hs as (sd & Es). unfold alift, abind. rewrite Es.
        destruct (Hn (cv_unbiased_mean cv) sd am') as (y & Ey).
        destruct (normal (cv_unbiased_mean cv) sd am') as [ry am2]. simpl in Ey. subst ry.
        by exists (Some (@VNum ROps y)).
    Qed.

    (** With allow_none=False an attribute that some instance of the concept
        has is never predicted to be missing. *)
    Theorem C72_never_missing a f am r :
      fst (predict3 rng ncmp normal tb a f false am) = Ok r ->
      about evs tb (fun l => (exists i, i ∈ l /\ dget a i <> None) -> r <> None).
    Proof.
      intros E. apply (concept_about evs s id tb _ Hr Hg Hin Ht Hc). intros l Hh Hl Hk ->.
      destruct (choose_fn f) as [c|] eqn:Hf; [|unfold predict3 in E; by rewrite Hf in E].
      destruct (predict_runs tb l a f false am None c Hh Hl Hf E) as (v & Ep & Hv & _).
      apply (known_flat tb l Hh) in Hk as (u & Hu).
      pose proof (predict_never_none rng ncmp _ _ (flat_Hist tb l Hh) (flat_ne l Hl) a f am v u Hu Ep) as Hnn.
      destruct v as [v|]; [|done]. cbn [key_kind kind_of] in Hv. by destruct (decide (v = cv_key)).
    Qed.

    (** It returns: always when sampling (if normalvariate does); for the most
        likely value unless two draws coincide. *)
    Theorem C72_returns a f b am :
      sampling f /\ (forall n, 0 <= rng n < 1)%R /\ (forall m d am', exists y, fst (normal m d am') = Ok y) \/
      likely f /\ (forall j k, j <> k -> rng j <> rng k) ->
      exists r, fst (predict3 rng ncmp normal tb a f b am) = Ok r.
    Proof.
      intros H. destruct (concept_about evs s id tb (HistR tb) Hr Hg Hin Ht Hc (fun l Hh _ => Hh)) as (l & Hl & _ & _ & Hh).
      exact (predict3_returns tb l a f b am Hh Hl H).
    Qed.
  End One.

  Lemma infer_loop3_returns (tb : nsum3 ROps) f b attrs :
    (forall a am, exists v, fst (predict3 rng ncmp normal tb a f b am) = Ok v) ->
    forall (i : inst3 ROps) (s : st C), exists j, fst (infer_loop C (Cobweb3Query rng ncmp normal) tb f b attrs i s) = Ok j.
  Proof.
    intros Hp. induction attrs as [|a attrs IH]; intros i s; simpl; [by eexists|].
    change (nq_has (Cobweb3Query rng ncmp normal) i a) with (dmem a i). destruct (dmem a i); [apply IH|].
    unfold mbind, mamb.
    change (nq_predict (Cobweb3Query rng ncmp normal) (st_ctx s) tb a f b) with (predict3 rng ncmp normal tb a f b).
    destruct (Hp a (st_amb s)) as (v & E). destruct (predict3 rng ncmp normal tb a f b (st_amb s)) as [r a'].
    simpl in E. subst r. apply IH.
  Qed.

  (** ** C73: infer_missing returns. *)
  Theorem C73_infer_returns evs s (r : raw3 ROps) f b :
    reachable C rng x0 evs s -> all_inst (C:=C) (fits3 (N:=ROps)) evs -> history evs <> [] ->
    (forall j k, j <> k -> rng j <> rng k) -> (forall n, 0 <= rng n < 1)%R ->
    (forall m d am, exists y, fst (normal m d am) = Ok y) ->
    (exists i, r = map (fun p => (fst p, PVal3 (snd p))) i /\ fits3 i) ->
    likely f \/ sampling f ->
    exists j, fst (infer_missing3 rng ncmp normal r f b s) = Ok j.
  Proof.
    intros Hr Hgv Hne Hdis Hrng Hn (i & -> & Hi) Hf.
    assert (Hg : all_inst (C:=C) good evs).
    { eapply Forall_impl; [exact Hgv|]. intros e He j Hj. by apply He. }
    assert (Hdd : distinct_draws (N:=ROps) rng).
    { intros j k Hjk. apply Reqb_false. by apply Hdis. }
    destruct (C63_fitting_never_raises rng sc inner Hdd evs s Hr Hgv) as [Hex Hnext].
    assert (Hao : all_ok evs).
    { unfold all_ok. eapply Forall_impl; [exact Hex|]. intros [j [?|?]|j [?|?]| |] He; done. }
    destruct Hi as [Hi1 Hi2]. destruct (Hnext i Hi1 Hi2) as [_ (c & Ec)].
    assert (Es : sanity3 (map (fun p => (fst p, PVal3 (snd p))) i) = Ok i).
    { destruct Hi1 as (_ & Hk & _). clear -Hk. induction i as [|[a v] i IH]; [done|]. simpl in *.
      inversion Hk as [|? ? Ha HF]; subst. rewrite Ha, (IH HF). done. }
    unfold infer_missing3. rewrite Es. unfold infer_checked, mbind at 1.
    destruct (cobweb_categorize C rng i s) as [rc s1] eqn:E1. simpl in Ec. subst rc.
    destruct (C62_categorize_read_only rng sc inner evs s i _ s1 Hr E1) as (Hh & Hro & _ & Hleaf).
    destruct (Hleaf c eq_refl) as [Hin (nd & Hnd & Hch)].
    unfold mbind, mget. rewrite Hh, Hnd. apply infer_loop3_returns. intros a am.
    assert (Ht : table_of s c (nd_sum nd)) by (by exists nd).
    apply (C72_returns evs s c (nd_sum nd) Hr Hg Hin Ht).
    - destruct (reachable_tinv C rng HistR LeafR good histR_laws x0 evs s Hr Hg Hao) as (t & Hok' & Hti).
      destruct (proj1 (in_tree_sub C s t c Hok') Hin) as (v & Hv' & <-).
      destruct (tinv_sub C HistR LeafR good histR_laws t _ v Hti Hv') as (lu & Htu & _ & Hroot).
      rewrite (table_of_det _ _ _ _ _ Ht (sub_table _ _ _ _ Hok' Hv')).
      apply tinv_summ in Htu as Hs. assert (Hlu : lu <> []).
      { destruct Hroot as [->|?]; [|done]. intros ->. apply tinv_summ in Hti.
        destruct Hti as [Hc1 _], Hs as [Hc2 _]. rewrite Hc2 in Hc1. symmetry in Hc1.
        by apply nil_length_inv in Hc1. }
      destruct Hs as [-> _]. destruct lu; simpl; [done|lia].
    - destruct Hf; [right|left]; done.
  Qed.
End Concepts.

(** ** The hypotheses are met *)
(** In the tree of ex_C31 the root has seen the numbers 1, 3, 1, 7 under x and
    p, q, p, q under c; the most likely x is 3, their mean. *)
Lemma ex_C72 : exists evs s tb, reachable RC3 ex_draws (@new_ctx ROps (Some 0.5%R) true) evs s /\
  all_inst (C:=RC3) (good3 (N:=ROps)) evs /\ in_tree s (st_root s) /\ table_of s (st_root s) tb /\
  n3_count tb = 4%nat /\
  forall normal am, fst (predict3 ex_draws (fun _ _ => None) normal tb (AStr "x") "most likely" true am) = Ok (Some (@VNum ROps 3%R)).
Proof.
  destruct ex_C31 as (evs & s & Hr & Hg & Hok & Hh).
  assert (Hg' : all_inst (C:=RC3) (good3 (N:=ROps)) evs).
  { eapply Forall_impl; [exact Hg|]. intros e He i Hi. by apply He. }
  destruct (C31_root_summaries ex_draws (Some 0.5%R) true evs s Hr Hg' Hok) as (tb & Htb & Hcnt & Hc & Hnum).
  assert (Hin : in_tree s (st_root s)) by (by apply desc_refl).
  assert (H4 : n3_count tb = 4%nat) by (by rewrite Hcnt, Hh).
  exists evs, s, tb. split; [done|]. split; [done|]. split; [done|]. split; [done|]. split; [done|].
  intros normal am.
  destruct (C72_returns ex_draws (fun _ _ => None) normal (Some 0.5%R) true evs s (st_root s) tb Hr Hg' Hin Htb ltac:(lia)
    (AStr "x") "most likely" true am) as (r & Er).
  { right. split; [by left|]. exact (fun j k H => proj1 (Reqb_false _ _) (ex_draws_distinct j k H)). }
  rewrite Er.
  pose proof (C72_most_likely ex_draws (fun _ _ => None) normal (Some 0.5%R) true evs s (st_root s) tb Hr Hg' Hin Htb ltac:(lia)
    (AStr "x") "most likely" true am r ltac:(by left) Er) as (l & Hl & _ & (Hd1 & Hd2 & Hd3) & Hmax & Hy).
  assert (En : summary_of (nums l (AStr "x")) = summary_of [1; 3; 1; 7]%R).
  { rewrite <- Hd3, Hnum, Hh. done. }
  assert (Elen : length (nums l (AStr "x")) = 4%nat).
  { unfold summary_of in En. destruct (nums l (AStr "x")) as [|z zs]; [done|].
    exact (f_equal (fun o : option (cval ROps) => match o with Some c => cv_num c | None => 0%nat end) En). }
  assert (Hall : having l (AStr "x") Number = 4%nat).
  { rewrite <- Elen. clear. unfold having. induction l as [|i l IH]; [done|]. rewrite filter_cons. cbn [nums].
    destruct (dget (AStr "x") i) as [[?|?]|]; cbn [kind_of]; case_decide; try done. cbn [length]. by rewrite <- IH. }
  assert (Hk : kind_of r = Number).
  { destruct (decide (kind_of r = Number)) as [|Hne]; [done|]. exfalso.
    specialize (Hmax Number (fun H => ltac:(discriminate H))). rewrite Hall in Hmax.
    assert (Hsum : (having l (AStr "x") Number + having l (AStr "x") (kind_of r) <= length l)%nat).
    { clear -Hne. induction l as [|i l IH]; [done|]. rewrite !having_cons.
      repeat case_decide; try congruence; cbn [length]; lia. }
    rewrite <- Hd1, H4, Hall in Hsum. lia. }
  destruct r as [[v|y]|]; try done. destruct (Hy y eq_refl) as [_ ->]. f_equal. f_equal. f_equal.
  unfold summary_of in En. destruct (nums l (AStr "x")) as [|z zs]; [done|]. 
  pose proof (f_equal (fun o : option (cval ROps) => match o with Some c => cv_mean c | None => 0%R end) En) as Em.
  etransitivity; [exact Em|]. simpl. lra.
Qed.

Print Assumptions C71_std.
Print Assumptions C72_most_likely.
Print Assumptions C72_sampling_frequency.
Print Assumptions C73_infer_returns.
