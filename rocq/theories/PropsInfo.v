(** * What AIC, AICc and BIC compute (C86), in exact arithmetic. *)
From Coq Require Import Reals Lra.
From stdpp Require Import base decidable tactics gmap strings list.
From Verif Require Import Base Num TreeModel TreeFun TreeScore TreeRefine TreeSorts TreeInv
  SpecTree SpecCluster TreeState TreeTotal TreeLeaf RSum Nominal NominalFacts NominalTotal NominalTree NominalR Utils PropsUtils Query QueryR
  QueryFacts QueryPredict QueryLinks CV CVFacts C4Facts PropsCV Cobweb3 C3Facts C3Scales C3R C3Total C3Nominal C3Query
  PropsTree PropsTotal PropsQuery Query3 PropsC3 PropsC3R PropsC3E PropsQ3 PropsLL
  Cluster ClusterFacts ClusterLoop ClusterCU PropsCluster PropsClusterT ScoreHeap ScoreStep PropsCU Info.
Set Default Proof Using "Type".
Open Scope list_scope.

(** ** The specification *)
(** The log-likelihood of the instance [i] among [l]: over the visible
    attributes that occur in [l], the logarithm of the share of [l] that has the
    same value as [i] (or lacks the attribute too). *)
Definition loglik (l : list inst) (i : inst) (x : R) : Prop :=
  exists attrs : list attr, NoDup attrs /\
    (forall a, a ∈ attrs <-> visible a = true /\ exists j, j ∈ l /\ dget a j <> None) /\
    x = Rsum (fun a => ln (INR (length (filter (fun j => dget a j = dget a i) l)) / INR (length l)))%R attrs.
(** The number of visible attribute values that occur in [l]; the value that is
    spelt like the key of numbers counts twice. *)
Definition parameters (l : list inst) (k : nat) : Prop :=
  exists pairs : list (attr * nom), NoDup pairs /\
    (forall a v, (a, v) ∈ pairs <-> visible a = true /\ exists i, i ∈ l /\ dget a i = Some v) /\
    k = sumn (map (fun q : attr * nom => if decide (snd q = cv_key) then 2 else 1) pairs).

(** Cobweb/3: numbers by the density, two parameters for the numbers of an
    attribute. *)
Definition loglik3 (l : list (inst3 ROps)) (i : inst3 ROps) (x : R) : Prop :=
  exists attrs : list attr, NoDup attrs /\
    (forall a, a ∈ attrs <-> visible a = true /\ exists j, j ∈ l /\ dget a j <> None) /\
    x = Rsum (fun a => ln (likelihood l a (dget a i))) attrs.
Definition parameters3 (l : list (inst3 ROps)) (k : nat) : Prop :=
  exists pairs : list (attr * kind), NoDup pairs /\
    (forall a q, (a, q) ∈ pairs <-> visible a = true /\ q <> Missing /\ exists i, i ∈ l /\ kind_of (dget a i) = q) /\
    k = sumn (map (fun q : attr * kind => if decide (snd q = Number) then 2 else 1) pairs).

(** The three criteria from the log-likelihood [x], the parameters [k] and the
    number of leaves [n]. *)
Definition aic (x : R) (k : nat) : R := (2 * INR k - 2 * x)%R.
Definition aicc (x : R) (k n : nat) : R := (aic x k + 2 * INR k * (INR k + 1) / (INR n - INR k - 1))%R.
Definition bic (x : R) (k n : nat) : R := (INR k * ln (INR n) - 2 * x)%R.

Lemma loglik_det l i x y : loglik l i x -> loglik l i y -> x = y.
Proof.
  intros (l1 & N1 & H1 & ->) (l2 & N2 & H2 & ->). apply Rsum_perm. apply NoDup_Permutation; [done|done|].
  intros a. by rewrite H1, H2.
Qed.
Lemma sumn_perm l l' : Permutation l l' -> sumn l = sumn l'.
Proof. induction 1; simpl; lia. Qed.
Lemma parameters_det l k k' : parameters l k -> parameters l k' -> k = k'.
Proof.
  intros (l1 & N1 & H1 & ->) (l2 & N2 & H2 & ->). apply sumn_perm, Permutation_map, NoDup_Permutation; [done|done|].
  intros [a v]. by rewrite H1, H2.
Qed.

(** ** The criteria, for any node class *)
Lemma foldl_sum (xs : list R) : forall b, foldl (nadd ROps) b xs = (b + Rsum (fun x => x) xs)%R.
Proof.
  induction xs as [|x xs IH]; intros b; cbn [foldl Rsum]; [lra|]. rewrite IH. change (nadd ROps b x) with (b + x)%R. lra.
Qed.

Section Values.
  Context (C : NodeClass ROps) (ni : NodeInfo C) (setord : list nat -> list nat).

  Theorem criteria_value s leaves labels xs ks inf : length leaves = length labels ->
    Forall2 (ll_of C ni s) (zip leaves labels) xs ->
    Forall2 (fun c k => exists tb, table_of s c tb /\ k = ni_params ni tb) (setord labels) ks ->
    let x := Rsum (fun x => x) xs in let k := sumn ks in let n := length leaves in
    AIC C ni setord labels leaves s = (Ok (aic x k), s) /\
    (AICc C ni setord inf labels leaves s = (Ok (if (n <=? k + 1)%nat then inf else aicc x k n), s)) /\
    (leaves <> [] -> BIC C ni setord labels leaves s = (Ok (bic x k n), s)).
  Proof.
    intros Hlen Hll Hk x k n.
    pose proof (ll_sum_value C ni s labels leaves xs (nofnat ROps 0) Hlen Hll) as E1. rewrite foldl_sum in E1.
    replace (nofnat ROps 0 + Rsum (fun x => x) xs)%R with x in E1 by (change (nofnat ROps 0) with 0%R; unfold x; lra).
    pose proof (params_value C ni setord s labels ks Hk) as E2.
    assert (H2k : (INR (2 * k) = 2 * INR k)%R) by (rewrite mult_INR; simpl; lra).
    split; [|split].
    - unfold AIC. rewrite (mbind_ok C _ _ _ _ _ E1), (mbind_ok C _ _ _ _ _ E2). unfold mret. do 2 f_equal.
      change (nofnat ROps) with INR. change (nsub ROps) with Rminus. change (nmul ROps) with Rmult. unfold aic. fold k.
      rewrite H2k. simpl (INR 2). lra.
    - unfold AICc. rewrite (mbind_ok C _ _ _ _ _ E1), (mbind_ok C _ _ _ _ _ E2). fold k n. cbv zeta.
      destruct (Nat.leb_spec n (k + 1)) as [Hn|Hn]; [done|].
      change (nofnat ROps) with INR.
      assert (Hpos : (0 < INR n - INR k - 1)%R).
      { apply lt_INR in Hn. rewrite plus_INR in Hn. simpl in Hn. lra. }
      assert (Ed : INR (n - k - 1) = (INR n - INR k - 1)%R).
      { rewrite !minus_INR by lia. simpl. lra. }
      rewrite Ed. assert (Eq : pydiv ROps (INR (2 * k * (k + 1))) (INR n - INR k - 1)%R = Ok (2 * INR k * (INR k + 1) / (INR n - INR k - 1))%R).
      { rewrite CVFacts.pydiv_ok by lra. f_equal. rewrite mult_INR, H2k, plus_INR. done. }
      unfold mbind at 1, mlift at 1. rewrite Eq. unfold mret. do 2 f_equal.
      change (nsub ROps) with Rminus. change (nmul ROps) with Rmult. change (nadd ROps) with Rplus. unfold aicc, aic.
      rewrite H2k. simpl (INR 2). lra.
    - intros Hne. unfold BIC. rewrite (mbind_ok C _ _ _ _ _ E1), (mbind_ok C _ _ _ _ _ E2). fold k n.
      change (nofnat ROps) with INR. unfold mbind at 1, mlift at 1. rewrite pylog_ok.
      2:{ apply lt_0_INR. unfold n. destruct leaves; [done|simpl; lia]. }
      unfold mret. do 2 f_equal. unfold nneg, bic. change (nofnat ROps 0) with 0%R.
      change (nsub ROps) with Rminus. change (nmul ROps) with Rmult. change (nadd ROps) with Rplus. simpl (INR 2). lra.
  Qed.
End Values.

(** The criteria are at least what the parameters alone give. *)
Lemma criteria_bounds (x : R) k n : (x <= 0)%R ->
  (2 * INR k <= aic x k)%R /\ ((k + 1 < n)%nat -> (aic x k <= aicc x k n)%R) /\ ((0 < n)%nat -> (0 <= bic x k n)%R).
Proof.
  intros Hx. pose proof (pos_INR k) as Hk. unfold aic, aicc, bic. split; [lra|]. split.
  - intros Hn. apply lt_INR in Hn. rewrite plus_INR in Hn. simpl in Hn.
    assert (0 <= 2 * INR k * (INR k + 1) / (INR n - INR k - 1))%R; [|unfold aic; lra].
    apply Rmult_le_pos; [|left; apply Rinv_0_lt_compat; lra]. apply Rmult_le_pos; lra.
  - intros Hn. assert (0 <= ln (INR n))%R.
    { rewrite <- ln_1. apply le_INR in Hn. simpl in Hn. destruct (Req_dec (INR n) 1) as [->|]; [lra|]. left. apply ln_increasing; lra. }
    assert (0 <= INR k * ln (INR n))%R by (by apply Rmult_le_pos). lra.
Qed.

Lemma Rsum_nonpos {X} (f : X -> R) l : (forall x, x ∈ l -> (f x <= 0)%R) -> (Rsum f l <= 0)%R.
Proof.
  induction l as [|x l IH]; intros H; simpl; [lra|]. specialize (IH (fun y Hy => H y (elem_of_list_further _ _ _ Hy))).
  specialize (H x (elem_of_list_here _ _)). lra.
Qed.

(** ** Cobweb *)
Lemma share_filter l a v : share l a v = length (filter (fun j => dget a j = v) l).
Proof.
  induction l as [|i l IH]; [by destruct v|]. rewrite filter_cons. destruct v as [v|]; cbn [share occ lacks] in *.
  - case_decide; cbn [length]; by rewrite IH.
  - rewrite IH. destruct (dget a i); case_decide; done.
Qed.
Lemma ratio_range (h n : R) : (0 < h)%R -> (h <= n)%R -> (0 < h / n <= 1)%R.
Proof.
  intros Hh Hn. split; [apply Rdiv_lt_0_compat; lra|]. apply Rmult_le_reg_r with n; [lra|]. unfold Rdiv.
  rewrite Rmult_assoc, Rinv_l by lra. lra.
Qed.
Lemma loglik_nonpos l i x : loglik l i x -> i ∈ l -> (x <= 0)%R.
Proof.
  intros (attrs & _ & _ & ->) Hi. apply Rsum_nonpos. intros a _.
  assert (Hl : (0 < INR (length l))%R) by (apply lt_0_INR; destruct l; [inversion Hi|simpl; lia]).
  assert (Hs : (0 < share l a (dget a i))%nat) by (apply share_pos; eauto). rewrite share_filter in Hs.
  pose proof (filter_length (fun j => dget a j = dget a i) l) as Hle. apply le_INR in Hle. apply lt_0_INR in Hs.
  rewrite <- ln_1. set (p := (_ / _)%R).
  assert (Hp : (0 < p <= 1)%R).
  { exact (ratio_range _ _ Hs Hle). }
  destruct (Req_dec p 1) as [->|]; [lra|]. left. apply ln_increasing; lra.
Qed.

Lemma params_gpairs (s : nsum) : params_of (ns_av s) = sumn (map (fun q : attr * nom => if decide (snd q = cv_key) then 2 else 1) (gpairs s)).
Proof.
  unfold params_of, gpairs, vis. induction (ns_av s) as [|[a d] av IH]; [done|]. cbn [map sumn fst snd]. rewrite IH. clear IH.
  unfold dfilter. cbn [List.filter fst]. destruct (visible a); [|done].
  cbn [map concat snd fst]. rewrite map_app, map_map. cbn [snd].
  assert (Happ : forall l l', sumn (l ++ l') = sumn l + sumn l') by (clear; induction l; intros; simpl; [done|rewrite IHl; lia]).
  rewrite Happ. done.
Qed.
Lemma params_table (s : nsum) l : Hist s l -> parameters l (params_of (ns_av s)).
Proof.
  intros Hh. exists (gpairs s). split; [by eapply gpairs_nodup|]. split; [|apply params_gpairs].
  intros a v. rewrite (gpairs_spec s l a v Hh). by rewrite occ_pos.
Qed.

(** The table of [c] counts the instances [l]. *)
Definition counts (s : st RC) (c : nat) (l : list inst) : Prop := exists tb : nsum, table_of s c tb /\ tabulates tb l.
(** All that the leaf [j] counts have the visible values of [i]. *)
Definition leaf_like (s : st RC) (j : nat) (i : inst) : Prop :=
  exists tb : nsum, table_of s j tb /\ (0 < ns_count tb)%nat /\
    forall a v, visible a = true -> entry tb a v = if decide (dget a i = Some v) then ns_count tb else 0%nat.

Section Cobweb.
  Context (rng : nat -> num ROps) (setord : list nat -> list nat) (ord : nsum -> nsum -> list attr * (attr -> list (option nom))) (inf : R).
  Hypothesis Hset : forall l x, x ∈ setord l <-> x ∈ l.
  Hypothesis Hord : forall tb tl, ll_order tb tl (fst (ord tb tl)) (snd (ord tb tl)).
  Notation ni := (CobwebInfo ROps ord).

  (** [s0]: the tree after the instances were sorted, [s]: after some splits.
      [xs] are the log-likelihoods of the leaves in their clusters, [ks] the
      parameters of the clusters. *)
  Theorem C86_criteria evs s0 s leaves labels :
    reachable RC rng tt evs s0 -> all_inst (C:=RC) good evs -> all_ok evs -> history evs <> [] ->
    split_from RC s0 s -> clustering s leaves labels -> Forall (is_leaf s0) leaves -> leaves <> [] ->
    exists (xs : list R) (ks : list nat),
      Forall2 (fun p x => exists l i, counts s (snd p) l /\ (forall j, j ∈ l -> j ∈ history evs) /\
        leaf_like s (fst p) i /\ i ∈ l /\ loglik l i x) (zip leaves labels) xs /\
      Forall2 (fun c k => exists l, counts s c l /\ (forall j, j ∈ l -> j ∈ history evs) /\ parameters l k) (setord labels) ks /\
      let x := Rsum (fun x => x) xs in let k := sumn ks in let n := length leaves in
      (x <= 0)%R /\
      AIC RC ni setord labels leaves s = (Ok (aic x k), s) /\
      AICc RC ni setord inf labels leaves s = (Ok (if (n <=? k + 1)%nat then inf else aicc x k n), s) /\
      BIC RC ni setord labels leaves s = (Ok (bic x k n), s).
  Proof using Hset Hord.
    intros Hr Hg Hao Hh Hsp [Hcl _] Hlf Hne.
    destruct (reachable_tinv RC rng Hist LeafV good (hist_laws ROps) tt evs s0 Hr Hg Hao) as (t0 & Hok0 & Ht0).
    assert (Htab : forall c, in_tree s0 c -> exists (tb : nsum) l, table_of s0 c tb /\ Hist tb l /\ l <> [] /\ forall j, j ∈ l -> j ∈ history evs).
    { intros c Hc. destruct (proj1 (in_tree_sub RC s0 t0 c Hok0) Hc) as (v & Hv & <-).
      destruct (tinv_sub RC Hist LeafV good (hist_laws ROps) t0 _ v Ht0 Hv) as (lv & Htv & Hlv & Hnl).
      exists (tsum v), lv. split; [by apply (sub_table RC s0 t0 v Hok0)|]. split; [by apply tinv_summ in Htv|]. split; [|done].
      destruct Hnl as [->|Hnl]; [|done]. apply tinv_summ in Htv as [E1 _], Ht0 as [E2 _]. intros ->.
      destruct (history evs); [done|]. rewrite E1 in E2. simpl in E2. lia. }
    assert (Hxs : exists xs, Forall2 (fun p x => ll_of RC ni s p x /\ exists l i, counts s (snd p) l /\ (forall j, j ∈ l -> j ∈ history evs) /\
        leaf_like s (fst p) i /\ i ∈ l /\ loglik l i x) (zip leaves labels) xs).
    { clear Hne. induction Hcl as [|leaf lab leaves labels [Hl1 Hl2] Hcl IH]; [exists []; constructor|].
      apply Forall_cons in Hlf as [Hlf1 Hlf]. destruct (IH Hlf) as (xs & HF).
      assert (Hin : in_tree s leaf) by (exact (desc_trans RC s _ _ _ Hl1 Hl2)).
      destruct (split_from_back RC s0 t0 s lab leaf Hok0 Hsp Hl1 Hl2) as (Hi0 & Hd0 & tb & Htb & Htb0).
      destruct (split_from_back RC s0 t0 s leaf leaf Hok0 Hsp Hin (desc_refl RC s leaf)) as (Hil0 & _ & tl & Htl & Htl0).
      destruct (Htab leaf Hil0) as (tl' & lw & Htl' & Hhl & Hnl & _). rewrite (table_of_det _ _ _ _ _ Htl' Htl0) in *.
      assert (Hc : (0 < ns_count tl)%nat). { destruct Hhl as [Hc _]. destruct lw; [done|]. simpl in Hc. lia. }
      destruct (log_likelihood_hist rng evs s0 lab leaf tb tl _ _ Hr Hg Hao Hi0 Hd0 Hlf1 Htb0 Htl0 Hc (Hord tb tl))
        as (l & m & i & H1 & H2 & H3 & H4 & H5 & H6 & H7).
      eexists (_ :: xs). cbn [zip_with]. constructor; [|exact HF]. cbn [fst snd]. split.
      { exists tl, tb. split; [done|]. split; [done|]. exact H7. }
      exists l, i. split; [exists tb; split; [done|by apply Hist_tabulates]|]. split; [done|].
      split; [by exists tl|]. split; [done|]. exists (fst (ord tb tl)). destruct (Hord tb tl) as [[Hnd Hat] _].
      split; [done|]. split; [|apply Rsum_ext; intros a _; by rewrite share_filter].
      intros a. rewrite Hat. apply and_iff_compat_l. split.
      - assert (Hk : a ∈ dkeys (ns_av tb) \/ a ∈ dkeys (ns_av tl) -> exists j, j ∈ l /\ a ∈ dkeys j).
        { intros [Ha|Ha]; [by apply (Hist_key tb l a H3)|]. apply (Hist_key tl m a H4) in Ha as (j & Hj & Ha). exists j. split; [by apply H5|done]. }
        intros (j & Hj & Ha)%Hk. exists j. split; [done|]. apply dget_key_Some in Ha as (v & ->). done.
      - intros (j & Hj & Ha). left. apply (Hist_key tb l a H3). exists j. split; [done|]. destruct (dget a j) as [v|] eqn:E; [|done].
        by eapply dget_Some_key. }
    destruct Hxs as (xs & Hxs).
    assert (Hlab : forall c, c ∈ setord labels -> in_tree s c).
    { intros c Hc. apply (proj1 (Hset labels c)) in Hc. apply elem_of_list_lookup in Hc as (k & Hc).
      by destruct (Forall2_lookup_r _ _ _ _ _ Hcl Hc) as (j & Hj & Hx & Hd). }
    assert (Hks : exists ks, Forall2 (fun c k => (exists tb : nsum, table_of s c tb /\ k = params_of (ns_av tb)) /\
        exists l, counts s c l /\ (forall j, j ∈ l -> j ∈ history evs) /\ parameters l k) (setord labels) ks).
    { induction (setord labels) as [|c cs IH]; [exists []; constructor|].
      destruct IH as (ks & HF); [intros c' Hc'; apply Hlab; by right|].
      assert (Hc : in_tree s c) by (apply Hlab; left).
      destruct (split_from_back RC s0 t0 s c c Hok0 Hsp Hc (desc_refl RC s c)) as (Hc0 & _ & tb & Htb & Htb0).
      destruct (Htab c Hc0) as (tb' & l & Htb' & Hhl & Hnl & Hsub). rewrite (table_of_det _ _ _ _ _ Htb' Htb0) in *.
      exists (params_of (ns_av tb) :: ks). constructor; [|done]. split; [by exists tb|]. exists l.
      split; [exists tb; split; [done|by apply Hist_tabulates]|]. split; [done|]. by apply params_table. }
    destruct Hks as (ks & Hks). exists xs, ks.
    split; [eapply Forall2_impl; [exact Hxs|]; by intros ? ? [_ ?]|].
    split; [eapply Forall2_impl; [exact Hks|]; by intros ? ? [_ ?]|]. cbv zeta.
    split. { apply Rsum_nonpos. intros x Hx. apply elem_of_list_lookup in Hx as (n & Hx).
      destruct (Forall2_lookup_r _ _ _ _ _ Hxs Hx) as (p & _ & _ & l & i & _ & _ & _ & Hi & Hll). by eapply loglik_nonpos. }
    destruct (criteria_value RC ni setord s leaves labels xs ks inf (Forall2_length _ _ _ Hcl)) as (E1 & E2 & E3).
    - eapply Forall2_impl; [exact Hxs|]. by intros ? ? [? _].
    - eapply Forall2_impl; [exact Hks|]. intros c k [(tb & H1 & H2) _]. exists tb. split; [exact H1|exact H2].
    - split; [done|]. split; [done|]. by apply E3.
  Qed.
End Cobweb.

(** ** Cobweb/3 *)
Notation RC3' := (Cobweb3Class ROps).
Definition counts3 (s : st RC3') (c : nat) (l : list (inst3 ROps)) : Prop := exists tb : nsum3 ROps, table_of s c tb /\ describes tb l.

Lemma params_flat (s : nsum3 ROps) : params_of (n3_av s) = params_of (ns_av (flat_table s)).
Proof.
  unfold params_of, flat_table. cbn [ns_av]. rewrite map_map. f_equal. apply map_ext. intros [a d]. cbn [fst snd].
  destruct (visible a); [|done]. unfold flat_dict. by rewrite map_map.
Qed.
Lemma key_kind_inj v w : key_kind (Some v) = key_kind (Some w) -> v = w.
Proof. cbn [key_kind]. intros H. repeat case_decide; congruence. Qed.
Lemma params_table3 (s : nsum3 ROps) l : HistR s l -> parameters3 l (params_of (n3_av s)).
Proof.
  intros Hh. destruct (params_table _ _ (flat_Hist s l Hh)) as (pairs & Hnd & Hp & E). rewrite params_flat, E.
  exists (map (fun q : attr * nom => (fst q, key_kind (Some (snd q)))) pairs). split; [|split].
  - apply NoDup_map_inj; [|done]. intros [a v] [b w] [= -> Hk%key_kind_inj]. by subst.
  - intros a q. rewrite elem_of_list_fmap. split.
    + intros ([b v] & [= -> ->] & Hb). cbn [fst snd] in *. apply Hp in Hb as (Hb & i & Hi & Ev). split; [done|].
      apply elem_of_list_fmap in Hi as (i0 & -> & Hi). rewrite dget_flat_inst in Ev.
      destruct (dget b i0) as [w|] eqn:Ew; [|done]. injection Ev as <-.
      split; [by case_decide|]. exists i0. split; [done|]. rewrite Ew.
      destruct w as [w|y]; cbn [flat_val kind_of]; [|by rewrite decide_True].
      rewrite decide_False; [done|]. intros ->. by apply (no_key s l Hh i0 b Hi).
    + intros (Ha & Hq & i & Hi & <-). destruct (dget a i) as [w|] eqn:Ew; [|done]. exists (a, flat_val w). cbn [fst snd]. split.
      * f_equal. destruct w as [w|y]; cbn [flat_val kind_of key_kind]; [|by rewrite decide_True].
        rewrite decide_False; [done|]. intros ->. by apply (no_key s l Hh i a Hi).
      * apply Hp. split; [done|]. exists (flat_inst i). split; [by apply elem_of_list_fmap_1|]. by rewrite dget_flat_inst, Ew.
  - rewrite map_map. f_equal. apply map_ext. intros [a v]. cbn [fst snd key_kind]. destruct (decide (v = cv_key)); repeat case_decide; done.
Qed.

Section Cobweb3.
  Context (rng : nat -> num ROps) (sc : option R) (inner : bool) (setord : list nat -> list nat)
    (ord : nsum3 ROps -> nsum3 ROps -> list attr * (attr -> list (option nom))) (inf : R).
  Notation x0 := (@new_ctx ROps sc inner).
  Hypothesis Hset : forall l x, x ∈ setord l <-> x ∈ l.
  Hypothesis Hord : forall tb tl, ll_order3 tb tl (fst (ord tb tl)) (snd (ord tb tl)).
  Notation ni := (Cobweb3Info ROps ord).

  (** [i]: an instance of the leaf; the others there have the same visible values. *)
  Theorem C86_criteria3 evs s0 s leaves labels :
    reachable RC3' rng x0 evs s0 -> all_inst (C:=RC3') (good3 (N:=ROps)) evs -> all_ok evs -> history evs <> [] ->
    split_from RC3' s0 s -> clustering s leaves labels -> Forall (is_leaf s0) leaves -> leaves <> [] ->
    exists (xs : list R) (ks : list nat),
      Forall2 (fun p x => exists l m i, counts3 s (snd p) l /\ (forall j, j ∈ l -> j ∈ history evs) /\
        counts3 s (fst p) m /\ (forall j, j ∈ m -> j ∈ l) /\ i ∈ m /\
        (forall a j, visible a = true -> j ∈ m -> dget a j = dget a i) /\ loglik3 l i x) (zip leaves labels) xs /\
      Forall2 (fun c k => exists l, counts3 s c l /\ (forall j, j ∈ l -> j ∈ history evs) /\ parameters3 l k) (setord labels) ks /\
      let x := Rsum (fun x => x) xs in let k := sumn ks in let n := length leaves in
      (x <= 0)%R /\
      AIC RC3' ni setord labels leaves s = (Ok (aic x k), s) /\
      AICc RC3' ni setord inf labels leaves s = (Ok (if (n <=? k + 1)%nat then inf else aicc x k n), s) /\
      BIC RC3' ni setord labels leaves s = (Ok (bic x k n), s).
  Proof using Hset Hord.
    intros Hr Hg Hao Hh Hsp [Hcl _] Hlf Hne.
    destruct (reachable_tinv RC3' rng HistR LeafR good3 histR_laws x0 evs s0 Hr Hg Hao) as (t0 & Hok0 & Ht0).
    assert (Htab : forall c, in_tree s0 c -> exists (tb : nsum3 ROps) l, table_of s0 c tb /\ HistR tb l /\ l <> [] /\ forall j, j ∈ l -> j ∈ history evs).
    { intros c Hc. destruct (proj1 (in_tree_sub RC3' s0 t0 c Hok0) Hc) as (v & Hv & <-).
      destruct (tinv_sub RC3' HistR LeafR good3 histR_laws t0 _ v Ht0 Hv) as (lv & Htv & Hlv & Hnl).
      exists (tsum v), lv. split; [by apply (sub_table RC3' s0 t0 v Hok0)|]. split; [by apply tinv_summ in Htv|]. split; [|done].
      destruct Hnl as [->|Hnl]; [|done]. apply tinv_summ in Htv as [E1 _], Ht0 as [E2 _]. intros ->.
      destruct (history evs); [done|]. rewrite E1 in E2. simpl in E2. lia. }
    assert (Hxs : exists xs, Forall2 (fun p x => ll_of RC3' ni s p x /\ (x <= 0)%R /\ exists l m i, counts3 s (snd p) l /\ (forall j, j ∈ l -> j ∈ history evs) /\
        counts3 s (fst p) m /\ (forall j, j ∈ m -> j ∈ l) /\ i ∈ m /\
        (forall a j, visible a = true -> j ∈ m -> dget a j = dget a i) /\ loglik3 l i x) (zip leaves labels) xs).
    { clear Hne. induction Hcl as [|leaf lab leaves labels [Hl1 Hl2] Hcl IH]; [exists []; constructor|].
      apply Forall_cons in Hlf as [Hlf1 Hlf]. destruct (IH Hlf) as (xs & HF).
      assert (Hin : in_tree s leaf) by (exact (desc_trans RC3' s _ _ _ Hl1 Hl2)).
      destruct (split_from_back RC3' s0 t0 s lab leaf Hok0 Hsp Hl1 Hl2) as (Hi0 & Hd0 & tb & Htb & Htb0).
      destruct (split_from_back RC3' s0 t0 s leaf leaf Hok0 Hsp Hin (desc_refl RC3' s leaf)) as (Hil0 & _ & tl & Htl & Htl0).
      destruct (Htab leaf Hil0) as (tl' & lw & Htl' & Hhl & Hnl & _). rewrite (table_of_det _ _ _ _ _ Htl' Htl0) in *.
      assert (Hc : (0 < n3_count tl)%nat). { destruct Hhl as [Hc _]. destruct lw; [done|]. simpl in Hc. lia. }
      destruct (log_likelihood3_hist rng sc inner evs s0 lab leaf tb tl _ _ (st_ctx s) Hr Hg Hao Hi0 Hd0 Hlf1 Htb0 Htl0 Hc (Hord tb tl))
        as (l & m & i & H1 & H2 & H3 & H4 & H5 & H6 & H7 & H8).
      destruct (Hord tb tl) as [[Hnd Hat] _].
      eexists (_ :: xs). cbn [zip_with]. constructor; [|exact HF]. cbn [fst snd]. split; [|split].
      { exists tl, tb. split; [done|]. split; [done|]. exact H7. }
      { apply Rsum_nonpos. intros a Ha. apply Hat in Ha as [Ha _]. destruct (H8 a Ha) as [G1 G2]. rewrite <- ln_1.
        destruct (Req_dec (likelihood l a (dget a i)) 1) as [->|]; [lra|]. left. apply ln_increasing; lra. }
      exists l, m, i. split; [exists tb; split; [done|by apply HistR_describes]|]. split; [done|].
      split; [exists tl; split; [done|by apply HistR_describes]|]. split; [done|]. split; [done|]. split; [done|].
      exists (fst (ord tb tl)). split; [done|]. split; [|done].
      assert (Hkey : forall (d : nsum3 ROps) h a, HistR d h -> a ∈ dkeys (n3_av d) <-> exists j, j ∈ h /\ dget a j <> None).
      { clear. intros d h a Hd. rewrite (known_table d h Hd a). split.
        - intros Ha. by apply dget_key_Some in Ha as (v & ->).
        - intros Ha. destruct (dget a (n3_av d)) eqn:E; [|done]. by eapply dget_Some_key. }
      intros a. rewrite Hat. apply and_iff_compat_l. rewrite (Hkey tb l a H4), (Hkey tl m a H5). split; [|by left].
      intros [?|(j & Hj & Ha)]; [done|]. exists j. split; [by apply H2|done]. }
    destruct Hxs as (xs & Hxs).
    assert (Hlab : forall c, c ∈ setord labels -> in_tree s c).
    { intros c Hc. apply (proj1 (Hset labels c)) in Hc. apply elem_of_list_lookup in Hc as (k & Hc).
      by destruct (Forall2_lookup_r _ _ _ _ _ Hcl Hc) as (j & Hj & Hx & Hd). }
    assert (Hks : exists ks, Forall2 (fun c k => (exists tb : nsum3 ROps, table_of s c tb /\ k = params_of (n3_av tb)) /\
        exists l, counts3 s c l /\ (forall j, j ∈ l -> j ∈ history evs) /\ parameters3 l k) (setord labels) ks).
    { induction (setord labels) as [|c cs IH]; [exists []; constructor|].
      destruct IH as (ks & HF); [intros c' Hc'; apply Hlab; by right|].
      assert (Hc : in_tree s c) by (apply Hlab; left).
      destruct (split_from_back RC3' s0 t0 s c c Hok0 Hsp Hc (desc_refl RC3' s c)) as (Hc0 & _ & tb & Htb & Htb0).
      destruct (Htab c Hc0) as (tb' & l & Htb' & Hhl & Hnl & Hsub). rewrite (table_of_det _ _ _ _ _ Htb' Htb0) in *.
      exists (params_of (n3_av tb) :: ks). constructor; [|done]. split; [by exists tb|]. exists l.
      split; [exists tb; split; [done|by apply HistR_describes]|]. split; [done|]. by apply params_table3. }
    destruct Hks as (ks & Hks). exists xs, ks.
    split; [eapply Forall2_impl; [exact Hxs|]; by intros ? ? (_ & _ & ?)|].
    split; [eapply Forall2_impl; [exact Hks|]; by intros ? ? [_ ?]|]. cbv zeta.
    split. { apply Rsum_nonpos. intros x Hx. apply elem_of_list_lookup in Hx as (n & Hx).
      by destruct (Forall2_lookup_r _ _ _ _ _ Hxs Hx) as (p & _ & _ & H & _). }
    destruct (criteria_value RC3' ni setord s leaves labels xs ks inf (Forall2_length _ _ _ Hcl)) as (E1 & E2 & E3).
    - eapply Forall2_impl; [exact Hxs|]. by intros ? ? [? _].
    - eapply Forall2_impl; [exact Hks|]. intros c k [(tb & H1 & H2) _]. exists tb. split; [exact H1|exact H2].
    - split; [done|]. split; [done|]. by apply E3.
  Qed.
End Cobweb3.
