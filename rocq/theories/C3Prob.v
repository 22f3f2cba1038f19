(** * Cobweb3Node.probability in exact arithmetic. *)
From Coq Require Import Reals Lra.
From stdpp Require Import base decidable tactics gmap strings list.
From Verif Require Import Base Num TreeModel RSum Nominal CV CVFacts Cobweb3 C3Facts C3R Query3.
Local Notation sqrt := R_sqrt.sqrt.
Local Open Scope R_scope.

(** The factor by which numbers of attribute [a] are divided. *)
Definition pscale (x : ctx3 ROps) (a : attr) : R :=
  match scaling_on x, dget (inner_attr x a) (x_scales x) with
  | Some k, Some c => let s := 1 / k * ustd c in if Req_EM_T s 0 then 1 else s
  | _, _ => 1
  end.
Lemma pscale_nz x a : pscale x a <> 0.
Proof.
  unfold pscale. destruct (scaling_on x); [|lra]. destruct (dget _ _); [|lra]. cbv zeta.
  destruct (Req_EM_T _ 0); lra.
Qed.

(** The standard deviation used by probability, with both noise terms. *)
Definition pstd (c : cval ROps) (s : R) : R :=
  sqrt (ustd c / eff_scale s * (ustd c / eff_scale s) + 1 / (2 * PI)).

Lemma noise2_pos : 0 < 1 / (2 * PI).
Proof. pose proof PI_RGT_0. apply Rdiv_lt_0_compat; lra. Qed.
Lemma pstd_arg c s : 0 < ustd c / eff_scale s * (ustd c / eff_scale s) + 1 / (2 * PI).
Proof. pose proof noise2_pos. pose proof (sq_nonneg (ustd c / eff_scale s)). lra. Qed.
Lemma pstd_pos c s : 0 < pstd c s.
Proof. apply sqrt_lt_R0, pstd_arg. Qed.

Definition gauss (c : cval ROps) (s y : R) : R :=
  1 / (sqrt (2 * PI) * pstd c s) *
  exp (- ((y - cv_mean c) / s * ((y - cv_mean c) / s)) / (2 * pstd c s * pstd c s)).

Lemma peak_range c s : 0 < 1 / (sqrt (2 * PI) * pstd c s) <= 1.
Proof.
  pose proof PI_RGT_0 as Hpi. assert (H2pi : 0 < 2 * PI) by lra.
  pose proof (sqrt_lt_R0 _ H2pi) as Hs. pose proof (pstd_pos c s) as Hp.
  assert (E : 1 <= sqrt (2 * PI) * pstd c s).
  { unfold pstd. rewrite <- sqrt_mult; [|lra|pose proof (pstd_arg c s); lra].
    rewrite <- sqrt_1 at 1. apply sqrt_le_1; [lra| |].
    - apply Rmult_le_pos; [lra|]. pose proof (pstd_arg c s); lra.
    - rewrite Rmult_plus_distr_l. replace (2 * PI * (1 / (2 * PI))) with 1 by (field; lra).
      pose proof (sq_nonneg (ustd c / eff_scale s)).
      assert (0 <= 2 * PI * (ustd c / eff_scale s * (ustd c / eff_scale s))) by (apply Rmult_le_pos; lra). lra. }
  split; [apply Rdiv_lt_0_compat; lra|].
  apply Rmult_le_reg_r with (sqrt (2 * PI) * pstd c s); [lra|].
  unfold Rdiv. rewrite Rmult_assoc, Rinv_l by lra. lra.
Qed.

Lemma gauss_mono (c : cval ROps) (s y z : R) : s <> 0 -> Rabs (y - cv_mean c) <= Rabs (z - cv_mean c) ->
  gauss c s z <= gauss c s y.
Proof.
  intros Hs Hyz. unfold gauss. pose proof (peak_range c s) as [Hp _]. pose proof (pstd_pos c s) as Hsd.
  apply Rmult_le_compat_l; [lra|].
  assert (Hsq : (y - cv_mean c) * (y - cv_mean c) <= (z - cv_mean c) * (z - cv_mean c)).
  { change (Rsqr (y - cv_mean c) <= Rsqr (z - cv_mean c)). by apply Rsqr_le_abs_1. }
  assert (Hd : forall u, - ((u - cv_mean c) / s * ((u - cv_mean c) / s)) / (2 * pstd c s * pstd c s) =
    - ((u - cv_mean c) * (u - cv_mean c)) * (/ (s * s) * / (2 * pstd c s * pstd c s))).
  { intros u. field. split; lra. }
  rewrite (Hd y), (Hd z).
  assert (H1 : 0 < / (s * s)).
  { apply Rinv_0_lt_compat. destruct (Rtotal_order s 0) as [?|[?|?]]; nra. }
  assert (H2 : 0 < / (2 * pstd c s * pstd c s)) by (apply Rinv_0_lt_compat; nra).
  assert (H3 : 0 < / (s * s) * / (2 * pstd c s * pstd c s)) by (by apply Rmult_lt_0_compat).
  assert (Hle : - ((z - cv_mean c) * (z - cv_mean c)) * (/ (s * s) * / (2 * pstd c s * pstd c s)) <=
                - ((y - cv_mean c) * (y - cv_mean c)) * (/ (s * s) * / (2 * pstd c s * pstd c s))).
  { apply Rmult_le_compat_r; lra. }
  destruct Hle as [Hlt|Heq]; [left; by apply exp_increasing|right; by rewrite Heq].
Qed.

Lemma gauss_range (c : cval ROps) (s y : R) : s <> 0 -> 0 < gauss c s y <= 1.
Proof.
  intros Hs. pose proof (peak_range c s) as [Hp Hp1]. split.
  - unfold gauss. apply Rmult_lt_0_compat; [lra|]. apply exp_pos.
  - apply Rle_trans with (gauss c s (cv_mean c)).
    + apply gauss_mono; [done|]. rewrite Rminus_diag_eq by done. rewrite Rabs_R0. apply Rabs_pos.
    + unfold gauss. replace (cv_mean c - cv_mean c) with 0 by lra.
      replace (- (0 / s * (0 / s)) / (2 * pstd c s * pstd c s)) with 0.
      * rewrite exp_0. lra.
      * pose proof (pstd_pos c s). field. split; lra.
Qed.

Lemma prob_num_ok (x : ctx3 ROps) n a (c : cval ROps) (y : R) : scales_ok x -> (0 < n)%nat -> 0 <= cv_msq c ->
  (scaling_on x <> None -> dget (inner_attr x a) (x_scales x) <> None) ->
  prob_num x n a c y = Ok (INR (cv_num c) / INR n * gauss c (pscale x a) y).
Proof.
  intros Hx Hn Hc Hsc. unfold prob_num.
  assert (Hn0 : INR n <> 0) by (apply not_0_INR; lia).
  change (nofnat ROps) with INR. rewrite pydiv_ok by done. cbn [rbind].
  assert (Hps : exists sh, prob_scale x a = Ok (pscale x a, sh) /\ (scaling_on x = None -> pscale x a = 1 /\ sh = 0)).
  { unfold prob_scale, pscale. change (nofnat ROps) with INR.
    destruct (scaling_on x) as [k|] eqn:Ek.
    - destruct (dget (inner_attr x a) (x_scales x)) as [ci|] eqn:Ec; [|by destruct Hsc].
      assert (Hk : k <> 0).
      { unfold scaling_on in Ek. destruct (x_scaling x) as [k'|]; [|done].
        destruct (neqb ROps k' (nofnat ROps 0)) eqn:E0; [done|]. injection Ek as ->. by apply Reqb_false in E0. }
      rewrite pydiv_ok by done. cbn [rbind]. destruct (ustd_ok ci (Hx _ _ Ec)) as [-> _]. cbn [rbind].
      exists (cv_mean ci). split; [|done].
      change (nmul ROps (INR 1 / k) (ustd ci)) with (1 / k * ustd ci). cbv zeta.
      change (neqb ROps) with Reqb. change (INR 0) with 0.
      destruct (Req_EM_T (1 / k * ustd ci) 0) as [E|E].
      + rewrite (proj2 (Reqb_true _ _)) by done. done.
      + rewrite (proj2 (Reqb_false _ _)) by done. done.
    - exists 0. done. }
  destruct Hps as (sh & -> & Hnone). cbn [rbind].
  pose proof (pscale_nz x a) as Hs0. set (s := pscale x a) in *.
  assert (Hy : (match scaling_on x with None => @Ok (num ROps) y | Some _ => pydiv ROps (nsub ROps y sh) s end) =
     @Ok (num ROps) ((y - sh) / s)).
  { destruct (scaling_on x) eqn:Ek.
    - by rewrite pydiv_ok by done.
    - destruct (Hnone eq_refl) as [-> ->]. f_equal. change ((y : R) = (y - 0) / 1). field. }
  rewrite Hy. cbn [rbind].
  rewrite pydiv_ok by done. cbn [rbind].
  rewrite scaled_unbiased_ok by done. cbn [rbind].
  pose proof PI_RGT_0 as Hpi.
  assert (E2 : nmul ROps (INR 2) (npi ROps) = 2 * PI) by (change (INR 2 * PI = 2 * PI); simpl; lra).
  rewrite E2. rewrite pydiv_ok by lra. cbn [rbind].
  change (nadd ROps (nmul ROps ?u ?v) ?w) with (u * v + w).
  change (INR 1 / (2 * PI)) with (1 / (2 * PI)).
  pose proof (pstd_arg c s) as Ha. rewrite pysqrt_ok by lra. cbn [rbind]. fold (pstd c s).
  rewrite pysqrt_ok by lra. cbn [rbind].
  pose proof (pstd_pos c s) as Hp. assert (H2pi : 0 < 2 * PI) by lra. pose proof (sqrt_lt_R0 _ H2pi) as Hsq.
  change (nmul ROps (sqrt (2 * PI)) (pstd c s)) with (sqrt (2 * PI) * pstd c s).
  assert (Hq : 0 < sqrt (2 * PI) * pstd c s) by (by apply Rmult_lt_0_compat).
  rewrite pydiv_ok by lra. cbn [rbind].
  assert (E3 : nmul ROps (nmul ROps (INR 2) (pstd c s)) (pstd c s) = 2 * pstd c s * pstd c s).
  { change (INR 2 * pstd c s * pstd c s = 2 * pstd c s * pstd c s). simpl. lra. }
  rewrite E3. assert (0 < 2 * pstd c s * pstd c s) by nra. rewrite pydiv_ok by lra. cbn [rbind].
  f_equal. unfold gauss. change (nexp ROps) with exp. change (nmul ROps) with Rmult. change (nsub ROps) with Rminus.
  change (INR 1) with 1.
  assert (En : nneg ROps (((y - sh) / s - (cv_mean c - sh) / s) * ((y - sh) / s - (cv_mean c - sh) / s)) =
    - ((y - cv_mean c) / s * ((y - cv_mean c) / s))).
  { unfold nneg. change (nsub ROps) with Rminus. change (nofnat ROps) with INR. simpl. field. done. }
  rewrite En. rewrite Rmult_assoc. done.
Qed.
