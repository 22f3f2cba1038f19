(** * Cobweb3Tree: histories, leaves, scales. *)
From Coq Require Import Reals Lra.
From stdpp Require Import base decidable tactics gmap strings list.
From Verif Require Import Base Num TreeModel TreeFun TreeScore TreeRefine TreeSorts TreeInv
  SpecTree TreeState TreeTotal TreeRel TreeSim TreeLeaf TreeGen RSum Nominal NominalFacts
  CV CVFacts Cobweb3 C3Facts C3Scales C3R.

Lemma single_key {K V} `{EqDecision K} (d : list (K * V)) k : dwf d -> d <> [] ->
  (forall k', k' ∈ dkeys d -> k' = k) -> exists q, d = [(k, q)].
Proof.
  intros Hwf Hne Hk. destruct d as [|[k1 q1] [|[k2 q2] d]]; [done| |].
  - exists q1. by rewrite (Hk k1) by left.
  - exfalso. assert (k1 = k) as -> by (apply Hk; left). assert (k2 = k) as -> by (apply Hk; right; left).
    apply dwf_cons in Hwf as [Hni _]. apply Hni. left.
Qed.

(** ** Leaves in exact arithmetic *)
Notation C3 := (Cobweb3Class ROps).
Definition someR := some3 summarises.
Definition leafR := leaf3 summarises eq.

Lemma summ_const (xs : list R) (x : R) : xs <> [] -> (forall y, y ∈ xs -> y = x) ->
  summ xs = @CVal ROps (length xs) x 0%R.
Proof.
  intros Hne Hx. apply cval_eq; [done| |].
  - unfold Rmean. assert (E : Rsum (fun x => x) xs = (INR (length xs) * x)%R).
    { transitivity (Rsum (fun _ : R => x) xs); [|apply Rsum_const].
      apply Rsum_ext. intros a Ha. by apply Hx. }
    rewrite E. pose proof (len_pos xs Hne). field. lra.
  - apply ssd_zero. intros a b Ha Hb. by rewrite (Hx a Ha), (Hx b Hb).
Qed.

(** The dict of a visible attribute in a leaf holding [n] instances with value
    [v] for it. *)
Definition only (v : val3 ROps) (n : nat) : list (nom * cell ROps) :=
  match v with
  | VNom v => [(v, Cnt n)]
  | VNum x => [(cv_key, CVc (@CVal ROps n x 0%R))]
  end.

Lemma HistR_only s l a v : HistR s l -> l <> [] -> (forall i, i ∈ l -> dget a i = Some v) ->
  dget a (n3_av s) = Some (only v (n3_count s)).
Proof.
  intros HH Hl Hv. pose proof HH as (Hc & Hwf & Hne & Hcells). specialize (Hcells a).
  destruct l as [|i0 l0] eqn:El; [done|]. rewrite <- El in *.
  assert (Hi0 : i0 ∈ l) by (rewrite El; left). clear El Hl.
  destruct (dget a (n3_av s)) as [d|] eqn:Ed.
  2:{ exfalso. assert (Hk : a ∈ dkeys (n3_av s)).
      { apply (Hist3_key summarises s l a HH). exists i0. split; [done|]. eapply dget_Some_key. by apply Hv. }
      apply dget_None in Ed. done. }
  simpl in Hcells. destruct Hcells as (Hd & H0 & Hn & Hcv). f_equal.
  destruct v as [v|x].
  - assert (Hx : nums l a = []).
    { destruct (nums l a) as [|y ys] eqn:E; [done|].
      assert (y ∈ nums l a) as (i & Hi & Ei)%nums_in by (rewrite E; left).
      rewrite (Hv i Hi) in Ei. done. }
    rewrite Hx in Hcv.
    assert (Hvk : v <> cv_key).
    { intros ->. assert (0 < occ3 l a cv_key) by (apply occ3_pos; eauto). lia. }
    destruct (single_key d v Hd) as [q ->]; [by eapply Hne| |].
    + intros k Hk. apply dget_key_Some in Hk as [q Hq].
      destruct (decide (k = cv_key)) as [->|Hkk]; [congruence|].
      rewrite (Hn k Hkk) in Hq. case_decide; [done|].
      assert (0 < occ3 l a k) as (i & Hi & Ei)%occ3_pos by lia. rewrite (Hv i Hi) in Ei. congruence.
    + specialize (Hn v Hvk). simpl in Hn. rewrite decide_True in Hn by done.
      case_decide; [done|]. injection Hn as ->. simpl. rewrite Hc.
      by rewrite (occ3_all_2 l a v Hv).
  - assert (Hocc : forall v, occ3 l a v = 0).
    { intros v. destruct (decide (occ3 l a v = 0)) as [|Hp]; [done|].
      assert (0 < occ3 l a v) as (i & Hi & Ei)%occ3_pos by lia. rewrite (Hv i Hi) in Ei. done. }
    assert (Hall : forall y, y ∈ nums l a -> y = x).
    { intros y (i & Hi & Ei)%nums_in. rewrite (Hv i Hi) in Ei. congruence. }
    assert (Hlen : length (nums l a) = length l).
    { clear -Hv. induction l as [|i l IH]; [done|]. simpl. rewrite (Hv i) by left. simpl. f_equal.
      apply IH. intros j Hj. apply Hv. by right. }
    destruct (nums l a) as [|y ys] eqn:E.
    { destruct l; [inversion Hi0|]. simpl in Hlen. lia. }
    destruct Hcv as (c & Ec & Hs). unfold summarises in Hs. rewrite (summ_const _ x) in Hs by done.
    destruct (single_key d cv_key Hd) as [q ->]; [by eapply Hne| |].
    + intros k Hk. apply dget_key_Some in Hk as [q Hq].
      destruct (decide (k = cv_key)) as [->|Hkk]; [done|].
      rewrite (Hn k Hkk) in Hq. rewrite decide_True in Hq by done. done.
    + simpl in Ec. injection Ec as ->. cbn [only]. rewrite Hs, Hc, <- Hlen. done.
Qed.

Lemma leafR_agree l a i0 v : LeafR l -> visible a = true -> i0 ∈ l -> dget a i0 = Some v ->
  forall i, i ∈ l -> dget a i = Some v.
Proof.
  intros Hl Ha Hi0 Hv i Hi. pose proof (Hl i0 i Hi0 Hi a Ha) as H. rewrite Hv in H.
  destruct (dget a i) as [w|]; [|done]. destruct v, w; simpl in H; by subst.
Qed.

Lemma leafR_single s a d : leafR s -> visible a = true -> dget a (n3_av s) = Some d ->
  exists v, d = only v (n3_count s) /\ 0 < n3_count s.
Proof.
  intros (l & HH & Hv) Ha Hd.
  assert (Hk : a ∈ dkeys (n3_av s)) by (by eapply dget_Some_key).
  apply (Hist3_key summarises s l a HH) in Hk as (i0 & Hi0 & (v & Hv0)%dget_key_Some).
  exists v. split.
  - assert (E : dget a (n3_av s) = Some (only v (n3_count s))).
    { eapply HistR_only; [exact HH|intros ->; inversion Hi0|]. by eapply leafR_agree. }
    congruence.
  - destruct HH as (-> & _). destruct l; [inversion Hi0|simpl; lia].
Qed.

Lemma summ_eq_nums l1 l2 (d : list (nom * cell ROps)) f g : cells_ok summarises d f l1 -> cells_ok summarises d g l2 ->
  (forall v, f v = g v) /\ length l1 = length l2 /\ summ l1 = summ l2.
Proof.
  intros (_ & F0 & Fn & Fc) (_ & G0 & Gn & Gc). split; [|].
  - intros v. destruct (decide (v = cv_key)) as [->|Hv]; [congruence|].
    specialize (Fn v Hv). specialize (Gn v Hv). rewrite Fn in Gn. repeat case_decide; congruence.
  - destruct l1 as [|x l1], l2 as [|y l2].
    + done.
    + destruct Gc as (c & E & _). congruence.
    + destruct Fc as (c & E & _). congruence.
    + destruct Fc as (c & E & Hc), Gc as (c' & E' & Hc'). assert (c = c') by congruence. subst c'.
      unfold summarises in *. rewrite Hc in Hc'. split; [|done]. exact (f_equal (@cv_num ROps) Hc').
Qed.

Lemma summ_zero_spread (xs : list R) n (x : R) : summ xs = @CVal ROps n x 0%R -> forall y, y ∈ xs -> y = x.
Proof.
  intros E y Hy. unfold summ in E. assert (Hs : Rssd xs = 0%R) by (injection E; done).
  assert (Hm : Rmean xs = x) by (injection E; done). apply ssd_zero in Hs.
  rewrite <- Hm. unfold Rmean.
  assert (E2 : Rsum (fun x => x) xs = (INR (length xs) * y)%R).
  { transitivity (Rsum (fun _ : R => y) xs); [|apply Rsum_const].
    apply Rsum_ext. intros a Ha. by apply Hs. }
  rewrite E2. assert (0 < INR (length xs))%R by (apply len_pos; intros ->; inversion Hy). field. lra.
Qed.

(** A leaf that has just received [i]. *)
Lemma leafR_inst s s' i : n3_inc s i = (s', None) -> leafR s' -> good3 i -> someR s ->
  0 < n3_count s' /\
  (forall a v, visible a = true -> dget a i = Some v -> dget a (n3_av s') = Some (only v (n3_count s'))) /\
  (forall a, visible a = true -> dget a i = None -> dget a (n3_av s') = None).
Proof.
  intros E (l & Hl & Hv) Hg (l0 & H0).
  destruct (Hist3_inc summarises eq summarises_laws s l0 i H0 Hg) as (s2 & E2 & H1).
  assert (s2 = s') as -> by congruence. clear E2.
  assert (Hpos : 0 < n3_count s') by (destruct H1 as (-> & _); simpl; lia).
  assert (Hne : l <> []) by (intros ->; destruct Hl as (Hl & _); simpl in Hl; lia).
  split; [done|].
  assert (Hlen : length l = length (i :: l0)) by (destruct Hl as (E1 & _), H1 as (E2 & _); congruence).
  assert (Hcell : forall a, (forall v, occ3 l a v = occ3 (i :: l0) a v) /\
    length (nums l a) = length (nums (i :: l0) a) /\ summ (nums l a) = summ (nums (i :: l0) a)).
  { intros a. destruct Hl as (_ & _ & _ & Hl), H1 as (_ & _ & _ & H1). by eapply summ_eq_nums. }
  assert (Hsome : forall a v, visible a = true -> dget a i = Some v -> dget a (n3_av s') = Some (only v (n3_count s'))).
  { intros a v Ha Hi.
    assert (Hk : a ∈ dkeys (n3_av s')).
    { apply (Hist3_key summarises s' (i :: l0) a H1). exists i. split; [left|]. by eapply dget_Some_key. }
    apply (Hist3_key summarises s' l a Hl) in Hk as (i1 & Hi1 & (w & Hw)%dget_key_Some).
    assert (Hall : forall k, k ∈ l -> dget a k = Some w) by (by eapply leafR_agree).
    assert (v = w) as ->; [|exact (HistR_only s' l a w Hl Hne Hall)].
    destruct (Hcell a) as (Ho & Hnl & Hs).
    destruct w as [w|y].
    - pose proof (occ3_all_2 l a w Hall) as Hf. rewrite Ho, Hlen in Hf.
      pose proof (occ3_all (i :: l0) a w Hf i ltac:(left)). congruence.
    - assert (Hln : length (nums (i :: l0) a) = length (i :: l0)).
      { rewrite <- Hnl, <- Hlen. clear -Hall. induction l as [|k l IH]; [done|]. simpl.
        rewrite (Hall k) by left. simpl. f_equal. apply IH. intros j Hj. apply Hall. by right. }
      destruct (nums_all (i :: l0) a Hln i ltac:(left)) as (z & Hz & Hzin).
      assert (v = VNum z) as -> by congruence. f_equal.
      apply (summ_zero_spread (nums (i :: l0) a) (length (nums l a)) y); [|done].
      rewrite <- Hs. apply summ_const.
      + intros En. rewrite En, Hln in Hnl. cbn [length] in Hnl. lia.
      + intros u Hu. apply (nums_in (N:=ROps) l a u) in Hu as (k & Hk & Ek).
        rewrite (Hall k Hk) in Ek. congruence. }
  split; [done|].
  intros a Ha Hi. destruct (dget a (n3_av s')) as [d|] eqn:Hd; [|done]. exfalso.
  assert (Hk : a ∈ dkeys (n3_av s')) by (by eapply dget_Some_key).
  apply (Hist3_key summarises s' l a Hl) in Hk as (i1 & Hi1 & (w & Hw)%dget_key_Some).
  assert (Hall : forall k, k ∈ l -> dget a k = Some w) by (by eapply leafR_agree).
  destruct (Hcell a) as (Ho & Hnl & Hs).
  destruct w as [w|y].
  - pose proof (occ3_all_2 l a w Hall) as Hf. rewrite Ho, Hlen in Hf.
    pose proof (occ3_all (i :: l0) a w Hf i ltac:(left)). congruence.
  - assert (Hln : length (nums (i :: l0) a) = length (i :: l0)).
    { rewrite <- Hnl, <- Hlen. clear -Hall. induction l as [|k l IH]; [done|]. simpl.
      rewrite (Hall k) by left. simpl. f_equal. apply IH. intros j Hj. apply Hall. by right. }
    destruct (nums_all (i :: l0) a Hln i ltac:(left)) as (z & Hz & _). congruence.
Qed.
