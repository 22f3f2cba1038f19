(** * ContinuousValue over the reals. *)
From Coq Require Import Reals Lra ZArith.
From stdpp Require Import base decidable tactics strings list.
From Verif Require Import Base Num RSum CV.
Local Open Scope R_scope.
Local Notation sqrt := R_sqrt.sqrt.

(** Arithmetic mean, and sum of squared deviations from it. *)
Definition Rmean (xs : list R) : R := Rsum (fun x => x) xs / INR (length xs).
Definition Rssd (xs : list R) : R := Rsum (fun x => (x - Rmean xs) * (x - Rmean xs)) xs.
(** The summary of a list of numbers. *)
Definition summ (xs : list R) : cval ROps := @CVal ROps (length xs) (Rmean xs) (Rssd xs).

Lemma cval_eq (n m : nat) (x y u v : R) : n = m -> x = y -> u = v ->
  @CVal ROps n x u = @CVal ROps m y v.
Proof. by intros -> -> ->. Qed.

Lemma len_pos {X} (xs : list X) : xs <> [] -> 0 < INR (length xs).
Proof. intros H. apply lt_0_INR. destruct xs; simpl; [done|lia]. Qed.

Definition S1 (xs : list R) := Rsum (fun x => x) xs.
Definition S2 (xs : list R) := Rsum (fun x => x * x) xs.

Lemma dev_about xs m : Rsum (fun x => (x - m) * (x - m)) xs =
  S2 xs - 2 * m * S1 xs + INR (length xs) * (m * m).
Proof.
  unfold S1, S2. induction xs as [|x xs IH]; [simpl; lra|].
  change (length (x :: xs)) with (S (length xs)). rewrite S_INR.
  cbn [Rsum]. rewrite IH. lra.
Qed.

Lemma ssd_alt xs : xs <> [] -> Rssd xs = S2 xs - S1 xs * S1 xs / INR (length xs).
Proof.
  intros H. unfold Rssd. rewrite dev_about. unfold Rmean. fold (S1 xs).
  pose proof (len_pos xs H). field. lra.
Qed.

Lemma ssd_nonneg xs : 0 <= Rssd xs.
Proof. apply Rsum_nonneg. intros x _. apply Rle_0_sqr. Qed.

Lemma summ_nil : summ [] = cv_new ROps.
Proof. apply cval_eq; [done| |done]. unfold Rmean. simpl. unfold Rdiv. lra. Qed.

Lemma summ_perm xs ys : Permutation xs ys -> summ xs = summ ys.
Proof.
  intros Hp. assert (Hl : length xs = length ys) by (by rewrite Hp).
  assert (Hm : Rmean xs = Rmean ys) by (unfold Rmean; by rewrite Hl, (Rsum_perm _ _ _ Hp)).
  apply cval_eq; [done|done|]. unfold Rssd. rewrite Hm. by apply Rsum_perm.
Qed.

Lemma update_summ xs x : cv_update (summ xs) x = summ (xs ++ [x]).
Proof.
  rewrite (summ_perm (xs ++ [x]) (x :: xs)) by (symmetry; apply Permutation_cons_append).
  destruct (decide (xs = [])) as [->|Hne].
  { rewrite summ_nil. unfold cv_update, summ, Rmean, Rssd, Rmean. simpl.
    apply cval_eq; [done|field|field]. }
  assert (Hp := len_pos xs Hne).
  assert (HS : INR (S (length xs)) = INR (length xs) + 1) by apply S_INR.
  unfold cv_update. cbn [cv_num cv_mean cv_msq summ].
  change (nofnat ROps) with INR. change (ndiv ROps) with Rdiv. change (nadd ROps) with Rplus.
  change (nsub ROps) with Rminus. change (nmul ROps) with Rmult.
  assert (E : Rmean xs + (x - Rmean xs) / INR (S (length xs)) = Rmean (x :: xs)).
  { unfold Rmean. cbn [Rsum length]. rewrite HS. fold (S1 xs). field. lra. }
  unfold summ. apply cval_eq; [done|done|]. rewrite E, (ssd_alt (x :: xs)) by done. rewrite (ssd_alt xs Hne).
  unfold Rmean, S1, S2. cbn [Rsum length]. rewrite HS. fold (S1 xs). fold (S2 xs). field. lra.
Qed.

Lemma batch_summ ys : forall xs, cv_update_batch (summ xs) ys = summ (xs ++ ys).
Proof.
  induction ys as [|y ys IH]; intros xs; simpl; [by rewrite app_nil_r|].
  rewrite update_summ, IH. by rewrite <- app_assoc.
Qed.

Lemma combine_summ xs ys : xs ++ ys <> [] -> cv_combine (summ xs) (summ ys) = Ok (summ (xs ++ ys)).
Proof.
  intros Hne. unfold cv_combine. cbn [cv_num cv_mean cv_msq summ].
  rewrite <- app_length. rewrite decide_False; [|intros E; by apply nil_length_inv in E].
  f_equal. change (nofnat ROps) with INR. change (ndiv ROps) with Rdiv. change (nadd ROps) with Rplus.
  change (nsub ROps) with Rminus. change (nmul ROps) with Rmult.
  assert (Hl : INR (length (xs ++ ys)) = INR (length xs) + INR (length ys)) by (by rewrite app_length, plus_INR).
  assert (Hs : S1 (xs ++ ys) = S1 xs + S1 ys) by apply Rsum_app.
  assert (Hq : S2 (xs ++ ys) = S2 xs + S2 ys) by apply Rsum_app.
  assert (Hn1 : forall zs, INR (length zs) * Rmean zs = S1 zs).
  { intros zs. destruct (decide (zs = [])) as [->|Hz]; [unfold S1; simpl; lra|].
    pose proof (len_pos zs Hz). unfold Rmean. fold (S1 zs). field. lra. }
  assert (Hp := len_pos (xs ++ ys) Hne). rewrite Hl in Hp.
  unfold summ. apply cval_eq.
  - done.
  - rewrite !Hn1, <- Hs. done.
  - rewrite (ssd_alt (xs ++ ys) Hne), Hl, Hs, Hq.
    destruct (decide (xs = [])) as [->|Hx]; [|destruct (decide (ys = [])) as [->|Hy]].
    + simpl in Hp. rewrite Rplus_0_l in Hp. assert (Hy : ys <> []) by (intros ->; simpl in Hp; lra).
      rewrite (ssd_alt ys Hy). unfold Rssd, S1, S2. simpl. field. lra.
    + simpl in Hp. rewrite Rplus_0_r in Hp.
      rewrite (ssd_alt xs Hx). unfold Rssd, S1, S2. simpl. field. lra.
    + rewrite (ssd_alt xs Hx), (ssd_alt ys Hy). unfold Rmean. fold (S1 xs). fold (S1 ys).
      pose proof (len_pos xs Hx). pose proof (len_pos ys Hy). field. lra.
Qed.

(** ** Spread *)
Definition all_equal (xs : list R) : Prop := forall x y, x ∈ xs -> y ∈ xs -> x = y.

Lemma ssd_zero xs : Rssd xs = 0 <-> all_equal xs.
Proof.
  split.
  - intros H. assert (Hm : forall x, x ∈ xs -> x = Rmean xs).
    { intros x Hx.
      assert (H0 : 0 = (x - Rmean xs) * (x - Rmean xs)).
      { apply (Rsum_le_eq (fun _ => 0) (fun x => (x - Rmean xs) * (x - Rmean xs)) xs); [| |done].
        - intros y _. apply Rle_0_sqr.
        - rewrite Rsum_zero; [|done]. by rewrite <- H. }
      symmetry in H0. apply Rmult_integral in H0 as [?|?]; lra. }
    intros x y Hx Hy. rewrite (Hm x Hx), (Hm y Hy). done.
  - intros Heq. destruct xs as [|z xs]; [done|].
    assert (Hc : forall x, x ∈ z :: xs -> x = z) by (intros x Hx; apply Heq; [done|left]).
    assert (Hm : Rmean (z :: xs) = z).
    { unfold Rmean. rewrite (Rsum_ext _ (fun _ => z)) by done. rewrite Rsum_const.
      assert (Hp := len_pos (z :: xs) ltac:(done)). field. lra. }
    unfold Rssd. apply Rsum_zero. intros x Hx. rewrite Hm, (Hc x Hx). lra.
Qed.

(** ** The c4 table: defined, positive, at most 1, increasing. *)
Definition c4_ok (p : nat * Z) : bool := (0 <? snd p)%Z && (snd p <=? 10 ^ 16)%Z.

Lemma c4_digits_ok : forallb c4_ok c4_digits = true.
Proof. vm_compute. done. Qed.

Lemma c4_digits_all : forallb (fun n => bool_decide (is_Some (dget n c4_digits))) (seq 2 28) = true.
Proof. vm_compute. done. Qed.

Lemma c4_digits_mono : forallb (fun n => match dget n c4_digits, dget (S n) c4_digits with
    Some a, Some b => (a <? b)%Z | _, _ => false end) (seq 2 27) = true.
Proof. vm_compute. done. Qed.

Lemma c4_entry n : (2 <= n < 30)%nat -> exists m, dget n c4_digits = Some m /\ (0 < m <= 10 ^ 16)%Z.
Proof.
  intros Hn. pose proof c4_digits_all as Ha. rewrite forallb_forall in Ha.
  specialize (Ha n). rewrite bool_decide_eq_true in Ha. destruct Ha as [m Hm].
  { apply in_seq. lia. }
  exists m. split; [done|]. apply dget_In in Hm. pose proof c4_digits_ok as Hk.
  rewrite forallb_forall in Hk. apply elem_of_list_In in Hm. apply Hk in Hm. unfold c4_ok in Hm. simpl in Hm.
  apply andb_true_iff in Hm as [H1 H2]. lia.
Qed.

Lemma c4_table (n : Z) : (2 <= n < 30)%Z -> exists m, dget (Z.to_nat n) c4_digits = Some m /\ (0 < m <= 10 ^ 16)%Z /\
  c4 ROps n = Ok (IZR m / 10 ^ 16).
Proof.
  intros Hn. destruct (c4_entry (Z.to_nat n)) as (m & Hm & Hr); [lia|]. exists m. split; [done|]. split; [done|].
  unfold c4. rewrite decide_False by lia. rewrite decide_True by lia. rewrite Hm. done.
Qed.

Lemma pow16 : 10 ^ 16 = IZR (10 ^ 16).
Proof. exact (pow_IZR 10 16). Qed.

Lemma c4_range (n : Z) : (2 <= n)%Z -> exists k, c4 ROps n = Ok k /\ 0 < k <= 1.
Proof.
  intros Hn. destruct (decide (n < 30)%Z) as [Hlt|Hge].
  - destruct (c4_table n) as (m & _ & [H1 H2] & ->); [lia|]. eexists. split; [done|].
    rewrite pow16. apply IZR_lt in H1. apply IZR_le in H2. change (IZR 0) with 0 in H1.
    assert (0 < IZR (10 ^ 16)) by (by apply IZR_lt). split.
    + by apply Rdiv_lt_0_compat.
    + apply Rmult_le_reg_r with (IZR (10 ^ 16)); [done|]. unfold Rdiv. rewrite Rmult_assoc, Rinv_l; lra.
  - exists 1. unfold c4. rewrite decide_False by lia. rewrite decide_False by lia. split; [done|lra].
Qed.

(** ** Standard deviations *)
Lemma pysqrt_ok (x : R) : 0 <= x -> pysqrt ROps x = Ok (sqrt x).
Proof.
  intros H. unfold pysqrt. change (nltb ROps x (nofnat ROps 0)) with (Rltb x 0).
  destruct (Rltb x 0) eqn:E; [apply Rltb_true in E; lra|]. done.
Qed.
Lemma pydiv_ok (x y : R) : y <> 0 -> pydiv ROps x y = Ok (x / y).
Proof.
  intros H. unfold pydiv. change (neqb ROps y (nofnat ROps 0)) with (Reqb y 0).
  destruct (Reqb y 0) eqn:E; [by apply Reqb_true in E|]. done.
Qed.

Lemma div_nonneg x y : 0 <= x -> 0 < y -> 0 <= x / y.
Proof. intros Hx Hy. apply Rmult_le_pos; [done|]. left. by apply Rinv_0_lt_compat. Qed.

Lemma biased_spec xs : xs <> [] -> exists sd, cv_biased_std (summ xs) = Ok sd /\ 0 <= sd /\
  sd * sd = Rssd xs / INR (length xs) /\ (sd = 0 <-> all_equal xs).
Proof.
  intros Hne. pose proof (len_pos xs Hne) as Hp. pose proof (ssd_nonneg xs) as Hn.
  exists (sqrt (Rssd xs / INR (length xs))). unfold cv_biased_std. cbn [cv_num cv_msq summ].
  rewrite decide_False by (intros E; by apply nil_length_inv in E).
  assert (H0 : 0 <= Rssd xs / INR (length xs)) by (by apply div_nonneg).
  split; [exact (pysqrt_ok _ H0)|]. split; [apply sqrt_pos|]. split; [by apply sqrt_sqrt|].
  rewrite <- ssd_zero. split; intros H.
  - apply sqrt_eq_0 in H; [|done]. unfold Rdiv in H. apply Rmult_integral in H as [H|H]; [done|].
    assert (0 < / INR (length xs)) by (by apply Rinv_0_lt_compat). lra.
  - rewrite H. unfold Rdiv. rewrite Rmult_0_l. apply sqrt_0.
Qed.

(** The estimate computed by unbiased_std. *)
Definition ustd (c : cval ROps) : R :=
  match cv_unbiased_std c with Ok s => s | Err _ => 0 end.

Lemma unbiased_formula (c : cval ROps) k : (2 <= cv_num c)%nat -> 0 <= cv_msq c -> c4 ROps (Z.of_nat (cv_num c)) = Ok k ->
  cv_unbiased_std c = Ok (sqrt (cv_msq c / INR (cv_num c - 1)) / k).
Proof.
  intros Hn Hm Hk. unfold cv_unbiased_std. rewrite decide_False by lia.
  assert (Hp : 0 < INR (cv_num c - 1)) by (apply lt_0_INR; lia).
  assert (H0 : 0 <= cv_msq c / INR (cv_num c - 1)) by (by apply div_nonneg).
  change (ndiv ROps (cv_msq c) (nofnat ROps (cv_num c - 1))) with (cv_msq c / INR (cv_num c - 1)).
  rewrite (pysqrt_ok _ H0). cbn [rbind]. rewrite Hk. cbn [rbind].
  destruct (c4_range (Z.of_nat (cv_num c)) ltac:(lia)) as (k' & Hk' & Hr). rewrite Hk in Hk'. injection Hk' as <-.
  apply pydiv_ok. lra.
Qed.

Lemma ustd_ok (c : cval ROps) : 0 <= cv_msq c -> cv_unbiased_std c = Ok (ustd c) /\ 0 <= ustd c.
Proof.
  intros Hm. unfold ustd. destruct (decide (cv_num c < 2)%nat) as [Hlt|Hge].
  - unfold cv_unbiased_std. rewrite decide_True by done. split; [done|]. simpl. lra.
  - destruct (c4_range (Z.of_nat (cv_num c))) as (k & Hk & Hr); [lia|].
    rewrite (unbiased_formula c k) by (lia || done). split; [done|].
    apply div_nonneg; [apply sqrt_pos|lra].
Qed.

Lemma ustd_summ xs : ustd (summ xs) = 0 <-> all_equal xs.
Proof.
  unfold ustd. destruct (decide (length xs < 2)%nat) as [Hlt|Hge].
  - unfold cv_unbiased_std. cbn [cv_num summ]. rewrite decide_True by done. split; [|done]. intros _.
    destruct xs as [|x [|y xs]]; [| |simpl in Hlt; lia].
    + intros x y Hx. inversion Hx.
    + intros u v ->%elem_of_list_singleton ->%elem_of_list_singleton. done.
  - destruct (c4_range (Z.of_nat (length xs))) as (k & Hk & Hr); [lia|].
    rewrite (unbiased_formula (summ xs) k); [|simpl; lia|apply ssd_nonneg|done].
    cbn [cv_num cv_msq summ]. rewrite <- ssd_zero.
    assert (Hp : 0 < INR (length xs - 1)) by (apply lt_0_INR; lia).
    pose proof (ssd_nonneg xs) as Hn.
    assert (Hq : 0 <= Rssd xs / INR (length xs - 1)) by (by apply div_nonneg). split; intros H.
    + unfold Rdiv at 1 in H. apply Rmult_integral in H as [H|H].
      * apply sqrt_eq_0 in H; [|done]. unfold Rdiv in H. apply Rmult_integral in H as [H|H]; [done|].
        assert (0 < / INR (length xs - 1)) by (by apply Rinv_0_lt_compat). lra.
      * assert (0 < / k) by (apply Rinv_0_lt_compat; lra). lra.
    + rewrite H. unfold Rdiv. rewrite Rmult_0_l, sqrt_0. lra.
Qed.

(** The scale in use. *)
Definition eff_scale (s : R) : R := if Rle_dec s 0 then 1 else s.
Lemma eff_scale_pos s : 0 < eff_scale s.
Proof. unfold eff_scale. destruct (Rle_dec s 0); lra. Qed.
Lemma fix_scale_eff (s : R) : fix_scale ROps s = eff_scale s.
Proof.
  unfold fix_scale, eff_scale. change (nltb ROps s (nofnat ROps 0)) with (Rltb s 0).
  change (neqb ROps s (nofnat ROps 0)) with (Reqb s 0).
  destruct (Rltb s 0) eqn:E1; simpl.
  - apply Rltb_true in E1. destruct (Rle_dec s 0); [done|lra].
  - apply Rltb_false in E1. destruct (Reqb s 0) eqn:E2.
    + apply Reqb_true in E2. destruct (Rle_dec s 0); [done|lra].
    + apply Reqb_false in E2. destruct (Rle_dec s 0); [lra|done].
Qed.

Lemma scaled_unbiased_ok (c : cval ROps) s : 0 <= cv_msq c ->
  cv_scaled_unbiased_std c s = Ok (ustd c / eff_scale s).
Proof.
  intros Hm. unfold cv_scaled_unbiased_std. destruct (ustd_ok c Hm) as [-> _]. cbn [rbind].
  rewrite fix_scale_eff. apply pydiv_ok. pose proof (eff_scale_pos s). lra.
Qed.
