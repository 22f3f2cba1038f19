(** * Properties of ContinuousValue and of the c4 table (C27-C30, C34). *)
From Coq Require Import Reals Lra ZArith.
From stdpp Require Import base decidable tactics strings list.
From Verif Require Import Base Num RSum CV CVFacts C4Facts.
Local Open Scope R_scope.
Local Notation sqrt := R_sqrt.sqrt.

(** ** C27: update_batch computes count, mean and sum of squared deviations. *)
Theorem C27_update_batch (xs : list R) :
  let c := cv_update_batch (cv_new ROps) xs in
  cv_num c = length xs /\
  (xs <> [] -> cv_mean c = Rsum (fun x => x) xs / INR (length xs)) /\
  cv_msq c = Rsum (fun x => (x - cv_mean c) * (x - cv_mean c)) xs.
Proof. cbv zeta. rewrite <- summ_nil, batch_summ. done. Qed.

(** Further updates of a summary keep it exact. *)
Theorem C27_updates_extend (xs ys : list R) : cv_update_batch (summ xs) ys = summ (xs ++ ys).
Proof. apply batch_summ. Qed.

Lemma ex_C27 : cv_update_batch (cv_new ROps) [1; 2; 6] = @CVal ROps 3 3 14.
Proof. rewrite <- summ_nil, batch_summ. apply cval_eq; [done| |]; unfold Rssd, Rmean; simpl; lra. Qed.

(** ** C28: combine is concatenation. *)
Theorem C28_combine (xs ys : list R) : xs ++ ys <> [] ->
  cv_combine (cv_update_batch (cv_new ROps) xs) (cv_update_batch (cv_new ROps) ys) =
  Ok (cv_update_batch (cv_new ROps) (xs ++ ys)).
Proof. intros H. rewrite <- summ_nil, !batch_summ. simpl app. by apply combine_summ. Qed.

Theorem C28_combine_empty :
  cv_combine (cv_update_batch (cv_new ROps) []) (cv_update_batch (cv_new ROps) []) = Err ZeroDivisionError.
Proof. done. Qed.

(** Commutative for any two summaries, reached or not. *)
Theorem C28_commutative (a b : cval ROps) : cv_combine a b = cv_combine b a.
Proof.
  unfold cv_combine. rewrite (Nat.add_comm (cv_num b)).
  destruct (decide _) as [|Hn]; [done|]. f_equal.
  change (nofnat ROps) with INR. change (ndiv ROps) with Rdiv. change (nadd ROps) with Rplus.
  change (nsub ROps) with Rminus. change (nmul ROps) with Rmult.
  assert (INR (cv_num a + cv_num b) <> 0) by (apply not_0_INR; lia).
  apply cval_eq; [done| |]; field; done.
Qed.

(** Associative: both groupings give the same result, for any three non-empty
    summaries. *)
Theorem C28_associative (a b c : cval ROps) :
  (0 < cv_num a)%nat -> (0 < cv_num b)%nat -> (0 < cv_num c)%nat ->
  rbind (cv_combine a b) (fun ab => cv_combine ab c) = rbind (cv_combine b c) (fun bc => cv_combine a bc).
Proof.
  intros Ha Hb Hc. unfold cv_combine at 1 3. rewrite !decide_False by lia. cbn [rbind].
  unfold cv_combine. cbn [cv_num cv_mean cv_msq]. rewrite !decide_False by lia. f_equal.
  change (nofnat ROps) with INR. change (ndiv ROps) with Rdiv. change (nadd ROps) with Rplus.
  change (nsub ROps) with Rminus. change (nmul ROps) with Rmult.
  apply lt_0_INR in Ha, Hb, Hc. rewrite !plus_INR.
  apply cval_eq; [lia| |]; field; lra.
Qed.

(** The order of updates is irrelevant. *)
Theorem C28_order (xs ys : list R) : Permutation xs ys ->
  cv_update_batch (cv_new ROps) xs = cv_update_batch (cv_new ROps) ys.
Proof. intros H. rewrite <- summ_nil, !batch_summ. by apply summ_perm. Qed.

Lemma ex_C28 : cv_combine (cv_update_batch (cv_new ROps) [1; 2]) (cv_update_batch (cv_new ROps) [6]) = Ok (@CVal ROps 3 3 14).
Proof. rewrite C28_combine by done. f_equal. apply ex_C27. Qed.

(** ** C29: standard deviations. *)
Theorem C29_biased_std (xs : list R) : xs <> [] -> exists sd,
  cv_biased_std (cv_update_batch (cv_new ROps) xs) = Ok sd /\ 0 <= sd /\
  sd * sd = Rsum (fun x => (x - Rmean xs) * (x - Rmean xs)) xs / INR (length xs) /\
  (sd = 0 <-> all_equal xs).
Proof. intros H. rewrite <- summ_nil, batch_summ. by apply biased_spec. Qed.

Theorem C29_biased_std_empty : cv_biased_std (cv_update_batch (cv_new ROps) []) = Err ZeroDivisionError.
Proof. done. Qed.

Theorem C29_unbiased_std (xs : list R) : exists sd,
  cv_unbiased_std (cv_update_batch (cv_new ROps) xs) = Ok sd /\ 0 <= sd /\ (sd = 0 <-> all_equal xs).
Proof.
  rewrite <- summ_nil, batch_summ. simpl app. exists (ustd (summ xs)).
  destruct (ustd_ok (summ xs)) as [H1 H2]; [apply ssd_nonneg|]. split; [done|]. split; [done|]. apply ustd_summ.
Qed.

(** With at least two values the estimate is the corrected sample deviation. *)
Theorem C29_unbiased_std_value (xs : list R) : (2 <= length xs)%nat -> exists sd k,
  cv_unbiased_std (cv_update_batch (cv_new ROps) xs) = Ok sd /\ c4 ROps (Z.of_nat (length xs)) = Ok k /\
  sd * k * (sd * k) = Rsum (fun x => (x - Rmean xs) * (x - Rmean xs)) xs / (INR (length xs) - 1).
Proof.
  intros Hn. destruct (c4_range (Z.of_nat (length xs))) as (k & Hk & Hr); [lia|].
  rewrite <- summ_nil, batch_summ. simpl app. eexists _, k.
  rewrite (unbiased_formula (summ xs) k); [|done|apply ssd_nonneg|done]. split; [done|]. split; [done|].
  cbn [cv_msq cv_num summ]. fold (Rssd xs).
  assert (Hp : 0 < INR (length xs - 1)) by (apply lt_0_INR; lia).
  assert (H0 : 0 <= Rssd xs / INR (length xs - 1)) by (apply div_nonneg; [apply ssd_nonneg|done]).
  set (s := sqrt _). assert (Hs : s * s = Rssd xs / INR (length xs - 1)) by (by apply sqrt_sqrt).
  replace (s / k * k * (s / k * k)) with (s * s) by (field; lra). rewrite Hs.
  rewrite minus_INR by lia. done.
Qed.

(** The scaled variants divide by the scale, a scale of 0 or less counting as 1. *)
Theorem C29_scaled (xs : list R) (s : R) :
  let c := cv_update_batch (cv_new ROps) xs in
  let e := if Rle_dec s 0 then 1 else s in
  (exists sd, cv_unbiased_std c = Ok sd /\ cv_scaled_unbiased_std c s = Ok (sd / e)) /\
  (xs <> [] -> exists sd, cv_biased_std c = Ok sd /\ cv_scaled_biased_std c s = Ok (sd / e)) /\
  (forall shift, cv_scaled_unbiased_mean c shift s = Ok ((cv_mean c - shift) / e)).
Proof.
  cbv zeta. rewrite <- summ_nil, batch_summ. simpl app. fold (eff_scale s). pose proof (eff_scale_pos s). split; [|split].
  - destruct (ustd_ok (summ xs)) as [H1 H2]; [apply ssd_nonneg|]. eexists. split; [done|].
    apply scaled_unbiased_ok, ssd_nonneg.
  - intros Hne. destruct (biased_spec xs Hne) as (sd & Hsd & _). exists sd. split; [done|].
    unfold cv_scaled_biased_std. rewrite Hsd. cbn [rbind]. rewrite fix_scale_eff. apply pydiv_ok. lra.
  - intros sh. unfold cv_scaled_unbiased_mean. rewrite fix_scale_eff. apply pydiv_ok. lra.
Qed.

Lemma ex_C29 : cv_biased_std (cv_update_batch (cv_new ROps) [1; 5]) = Ok 2.
Proof.
  destruct (C29_biased_std [1; 5]) as (sd & -> & Hp & Hsq & _); [done|]. f_equal.
  assert (E : sd * sd = 2 * 2) by (rewrite Hsq; unfold Rmean; simpl; lra).
  apply Rsqr_inj; [done|lra|done].
Qed.

(** ** C30: the c4 table. *)
Theorem C30_c4_defined (n : Z) : (2 <= n)%Z -> exists k, c4 ROps n = Ok k /\ 0 < k <= 1.
Proof. apply c4_range. Qed.

Theorem C30_c4_raises (n : Z) : (n <= 1)%Z -> c4 ROps n = Err ValueError.
Proof. intros H. unfold c4. by rewrite decide_True by done. Qed.

Theorem C30_c4_monotone (n m : Z) (a b : R) : (2 <= n <= m)%Z -> c4 ROps n = Ok a -> c4 ROps m = Ok b -> a <= b.
Proof.
  intros [H2 Hnm]. revert a b. pattern m. revert m Hnm.
  apply (Zlt_lower_bound_ind _ n). intros m IH Hm a b Ha Hb.
  destruct (decide (n = m)) as [->|Hne].
  { rewrite Ha in Hb. injection Hb as ->. lra. }
  destruct (c4_range (m - 1)) as (c & Hc & Hcr); [lia|].
  assert (Hac : a <= c) by (eapply (IH (m - 1)%Z); [lia|done|done]).
  enough (c <= b) by lra.
  destruct (decide (m < 30)%Z) as [Hlt|Hge].
  - destruct (c4_table (m - 1)) as (z1 & Hz1 & Hr1 & E1); [lia|].
    destruct (c4_table m) as (z2 & Hz2 & Hr2 & E2); [lia|].
    rewrite Hc in E1. rewrite Hb in E2.
    assert (Ec : c = IZR z1 / 10 ^ 16) by congruence. assert (Eb : b = IZR z2 / 10 ^ 16) by congruence.
    rewrite Ec, Eb.
    pose proof c4_digits_mono as Hmono. rewrite forallb_forall in Hmono.
    specialize (Hmono (Z.to_nat (m - 1))). rewrite in_seq in Hmono. specialize (Hmono ltac:(lia)).
    replace (S (Z.to_nat (m - 1))) with (Z.to_nat m) in Hmono by lia.
    rewrite Hz1, Hz2 in Hmono. apply Z.ltb_lt, IZR_lt in Hmono.
    apply Rmult_le_compat_r; [|lra]. left. apply Rinv_0_lt_compat, pow_lt. lra.
  - unfold c4 in Hb. rewrite !decide_False in Hb by lia. injection Hb as <-. simpl. lra.
Qed.

(** The table agrees with sqrt(2/(n-1)) Gamma(n/2) / Gamma((n-1)/2), where [G n]
    is Gamma(n/2): Gamma(1/2) = sqrt pi, Gamma(1) = 1, Gamma(x+1) = x Gamma(x). *)
Theorem C30_c4_gamma (G : nat -> R) (n : nat) (k : R) :
  G 1%nat = sqrt PI -> G 2%nat = 1 -> (forall n, (1 <= n)%nat -> G (n + 2)%nat = INR n / 2 * G n) ->
  (2 <= n <= 29)%nat -> c4 ROps (Z.of_nat n) = Ok k ->
  Rabs (k - sqrt (2 / (INR n - 1)) * (G n / G (n - 1)%nat)) <= 3 / 10 ^ 16.
Proof.
  intros G1 G2 HG Hn Hk. destruct (c4_table (Z.of_nat n)) as (m & Hm & _ & E); [lia|].
  rewrite Hk in E. assert (k = IZR m / 10 ^ 16) as -> by congruence. rewrite Nat2Z.id in Hm.
  apply (c4_close G n m); [done|lia|done].
Qed.

Lemma ex_C30 : exists G : nat -> R,
  G 1%nat = sqrt PI /\ G 2%nat = 1 /\ (forall n, (1 <= n)%nat -> G (n + 2)%nat = INR n / 2 * G n) /\
  exists k, c4 ROps 7 = Ok k.
Proof.
  destruct gamma_half_pair as (G & H1 & H2 & H3). exists G. split; [done|]. split; [done|]. split; [done|].
  destruct (C30_c4_defined 7) as (k & Hk & _); [lia|]. by exists k.
Qed.

(** ** C34: integral_of_gaussian_product. *)
Definition spread (a b : cval ROps) : R := ustd a * ustd a + ustd b * ustd b + / (2 * PI).

Lemma integral_value (a b : cval ROps) : 0 <= cv_msq a -> 0 <= cv_msq b ->
  cv_integral a b = Ok (1 / sqrt (2 * PI * spread a b) *
    exp (- ((cv_mean a - cv_mean b) * (cv_mean a - cv_mean b)) / (2 * spread a b))).
Proof.
  intros Ha Hb. unfold cv_integral.
  destruct (ustd_ok a Ha) as [-> Ha0]. cbn [rbind]. destruct (ustd_ok b Hb) as [-> Hb0]. cbn [rbind].
  pose proof PI_RGT_0 as Hpi.
  change (nmul ROps (nofnat ROps 4) (npi ROps)) with (INR 4 * PI).
  replace (INR 4) with 4 by (simpl; lra).
  change (nofnat ROps 1) with 1. rewrite (pydiv_ok 1 (4 * PI)) by lra. cbn [rbind].
  change (nadd ROps) with Rplus. change (nmul ROps) with Rmult.
  assert (Hn : 0 < 1 / (4 * PI)) by (apply Rdiv_lt_0_compat; lra).
  assert (Ha2 : 0 <= ustd a * ustd a) by apply Rle_0_sqr. assert (Hb2 : 0 <= ustd b * ustd b) by apply Rle_0_sqr.
  assert (Ha3 : 0 <= ustd a * ustd a + 1 / (4 * PI)) by lra. assert (Hb3 : 0 <= ustd b * ustd b + 1 / (4 * PI)) by lra.
  rewrite (pysqrt_ok _ Ha3). cbn [rbind]. rewrite (pysqrt_ok _ Hb3). cbn [rbind]. cbv zeta.
  rewrite (sqrt_sqrt _ Ha3), (sqrt_sqrt _ Hb3).
  replace (ustd a * ustd a + 1 / (4 * PI) + (ustd b * ustd b + 1 / (4 * PI))) with (spread a b)
    by (unfold spread; field; lra).
  assert (Hs : 0 < spread a b).
  { unfold spread. pose proof (Rinv_0_lt_compat (2 * PI) ltac:(lra)). lra. }
  change (nofnat ROps 2 * npi ROps * spread a b) with (INR 2 * PI * spread a b).
  replace (INR 2) with 2 by (simpl; lra).
  assert (Hp : 0 < 2 * PI * spread a b) by (apply Rmult_lt_0_compat; lra).
  rewrite (pysqrt_ok (2 * PI * spread a b)) by lra. cbn [rbind].
  pose proof (sqrt_lt_R0 _ Hp). rewrite (pydiv_ok 1 _) by lra. cbn [rbind].
  change (nofnat ROps 2 * spread a b) with (INR 2 * spread a b). replace (INR 2) with 2 by (simpl; lra).
  rewrite (pydiv_ok _ (2 * spread a b)) by lra. cbn [rbind]. f_equal.
  change (nexp ROps) with exp. f_equal. f_equal. unfold cv_unbiased_mean, nneg.
  change (nsub ROps) with Rminus. change (nofnat ROps 0) with 0. change (nofnat ROps 1) with 1. field. lra.
Qed.

Theorem C34_integral_symmetric (a b : cval ROps) : 0 <= cv_msq a -> 0 <= cv_msq b ->
  cv_integral a b = cv_integral b a.
Proof.
  intros Ha Hb. rewrite !integral_value by done.
  replace (spread b a) with (spread a b) by (unfold spread; ring).
  replace (- ((cv_mean b - cv_mean a) * (cv_mean b - cv_mean a))) with (- ((cv_mean a - cv_mean b) * (cv_mean a - cv_mean b))) by ring.
  done.
Qed.

Lemma exp_neg_le1 x : x <= 0 -> exp x <= 1.
Proof. intros H. rewrite <- exp_0. destruct (Rle_lt_or_eq_dec _ _ H) as [Hlt| ->]; [left; by apply exp_increasing|lra]. Qed.

Theorem C34_integral_range (a b : cval ROps) : 0 <= cv_msq a -> 0 <= cv_msq b ->
  exists p, cv_integral a b = Ok p /\ 0 < p <= 1 /\
    (p = 1 <-> cv_unbiased_std a = Ok 0 /\ cv_unbiased_std b = Ok 0 /\ cv_mean a = cv_mean b).
Proof.
  intros Ha Hb. eexists. split; [by apply integral_value|].
  destruct (ustd_ok a Ha) as [Hua Ha0]. destruct (ustd_ok b Hb) as [Hub Hb0]. rewrite Hua, Hub.
  pose proof PI_RGT_0 as Hpi. pose proof (Rinv_0_lt_compat (2 * PI) ltac:(lra)) as Hi.
  assert (Ha2 : 0 <= ustd a * ustd a) by apply Rle_0_sqr. assert (Hb2 : 0 <= ustd b * ustd b) by apply Rle_0_sqr.
  assert (Hs : 0 < spread a b) by (unfold spread; lra).
  assert (Hk : 2 * PI * spread a b = 1 + 2 * PI * (ustd a * ustd a + ustd b * ustd b)).
  { unfold spread. field. lra. }
  assert (Hge : 1 <= 2 * PI * spread a b).
  { rewrite Hk. assert (0 <= 2 * PI * (ustd a * ustd a + ustd b * ustd b)) by (apply Rmult_le_pos; lra). lra. }
  assert (Hq : 1 <= sqrt (2 * PI * spread a b)) by (rewrite <- sqrt_1; by apply sqrt_le_1_alt).
  set (q := sqrt (2 * PI * spread a b)) in *.
  set (d := cv_mean a - cv_mean b).
  assert (Hd : 0 <= d * d) by apply Rle_0_sqr.
  assert (He0 : - (d * d) / (2 * spread a b) <= 0).
  { unfold Rdiv. rewrite <- Ropp_mult_distr_l. assert (0 <= d * d * / (2 * spread a b)); [|lra].
    apply Rmult_le_pos; [done|]. left. apply Rinv_0_lt_compat. lra. }
  pose proof (exp_neg_le1 _ He0) as Hx1. pose proof (exp_pos (- (d * d) / (2 * spread a b))) as Hx0.
  assert (Hx2 : exp (- (d * d) / (2 * spread a b)) = 1 -> d = 0).
  { intros E. rewrite <- exp_0 in E. apply exp_inv in E. unfold Rdiv in E.
    apply Rmult_integral in E as [E|E].
    - assert (d * d = 0) as E' by lra. by apply Rmult_integral in E' as [?|?].
    - pose proof (Rinv_0_lt_compat (2 * spread a b) ltac:(lra)). lra. }
  set (x := exp _) in *.
  assert (Hr : 0 < 1 / q <= 1).
  { unfold Rdiv. rewrite Rmult_1_l. split; [apply Rinv_0_lt_compat; lra|]. rewrite <- Rinv_1. apply Rinv_le_contravar; lra. }
  split; [split|].
  - apply Rmult_lt_0_compat; lra.
  - rewrite <- (Rmult_1_r 1). apply Rmult_le_compat; lra.
  - split.
    + intros E.
      assert (Hxe : x = 1).
      { apply Rle_antisym; [done|]. rewrite <- E. rewrite <- (Rmult_1_l x) at 2. apply Rmult_le_compat_r; lra. }
      rewrite Hxe, Rmult_1_r in E.
      assert (Hq1 : q = 1).
      { unfold Rdiv in E. rewrite Rmult_1_l in E. rewrite <- (Rinv_inv q), E. lra. }
      assert (Hsq : 2 * PI * spread a b = 1).
      { assert (q * q = 2 * PI * spread a b) as Hqq by (apply sqrt_sqrt; lra). rewrite Hq1 in Hqq. lra. }
      assert (Hz : ustd a * ustd a + ustd b * ustd b = 0).
      { rewrite Hk in Hsq. assert (H0 : 2 * PI * (ustd a * ustd a + ustd b * ustd b) = 0) by lra.
        apply Rmult_integral in H0 as [H0|H0]; lra. }
      assert (Hza : ustd a * ustd a = 0) by lra. assert (Hzb : ustd b * ustd b = 0) by lra.
      assert (Hza' : ustd a = 0) by (by apply Rmult_integral in Hza as [?|?]).
      assert (Hzb' : ustd b = 0) by (by apply Rmult_integral in Hzb as [?|?]).
      apply Hx2 in Hxe. unfold d in Hxe. rewrite Hza', Hzb'. split; [done|]. split; [done|]. lra.
    + intros (E1 & E2 & E3). injection E1 as E1. injection E2 as E2.
      assert (Hq1 : q = 1).
      { unfold q. rewrite Hk, E1, E2. transitivity (sqrt 1); [f_equal; ring|apply sqrt_1]. }
      assert (Hxe : x = 1).
      { unfold x, d. rewrite E3. replace (- ((cv_mean b - cv_mean b) * (cv_mean b - cv_mean b)) / (2 * spread a b)) with 0.
        - apply exp_0. - field. lra. }
      transitivity (1 / 1 * 1); [by rewrite Hq1, Hxe|lra].
Qed.

(** Every summary of data qualifies, and the score is 1 for equal constant data. *)
Theorem C34_integral_of_data (xs ys : list R) (x : R) :
  let a := cv_update_batch (cv_new ROps) xs in let b := cv_update_batch (cv_new ROps) ys in
  (exists p, cv_integral a b = Ok p /\ cv_integral b a = Ok p /\ 0 < p <= 1) /\
  (xs <> [] -> ys <> [] -> (forall y, y ∈ xs ++ ys -> y = x) -> cv_integral a b = Ok 1).
Proof.
  cbv zeta. rewrite <- summ_nil, !batch_summ. simpl app.
  assert (Ha : 0 <= cv_msq (summ xs)) by apply ssd_nonneg. assert (Hb : 0 <= cv_msq (summ ys)) by apply ssd_nonneg.
  destruct (C34_integral_range _ _ Ha Hb) as (p & Hp & Hr & H1). split.
  - exists p. split; [done|]. split; [|done]. rewrite <- Hp. by apply C34_integral_symmetric.
  - intros Hx Hy Hc. rewrite Hp. f_equal. apply H1.
    assert (Hm : forall zs, zs <> [] -> (forall y, y ∈ zs -> y = x) -> Rmean zs = x /\ all_equal zs).
    { intros zs Hz Hall. split.
      - unfold Rmean. rewrite (Rsum_ext _ (fun _ => x)) by done. rewrite Rsum_const. pose proof (len_pos zs Hz). field. lra.
      - intros u v Hu Hv. by rewrite (Hall u Hu), (Hall v Hv). }
    destruct (Hm xs Hx) as [Hmx Hax]; [intros y Hyy; apply Hc, elem_of_app; by left|].
    destruct (Hm ys Hy) as [Hmy Hay]; [intros y Hyy; apply Hc, elem_of_app; by right|].
    apply ustd_summ in Hax, Hay. destruct (ustd_ok _ Ha) as [-> _]. destruct (ustd_ok _ Hb) as [-> _].
    rewrite Hax, Hay. split; [done|]. split; [done|]. cbn [cv_mean summ]. by rewrite Hmx, Hmy.
Qed.

Lemma ex_C34 : cv_integral (cv_update_batch (cv_new ROps) [4; 4]) (cv_update_batch (cv_new ROps) [4]) = Ok 1.
Proof. apply (C34_integral_of_data _ _ 4); [done|done|]. intros y Hy. simpl in Hy. repeat (apply elem_of_cons in Hy as [Hy|Hy]; [done|]). inversion Hy. Qed.
