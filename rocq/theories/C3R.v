(** * Cobweb3Node tables and scores in exact arithmetic. *)
From Coq Require Import Reals Lra.
From stdpp Require Import base decidable tactics gmap strings list.
From Verif Require Import Base Num TreeModel TreeSorts TreeInv TreeTotal RSum Nominal NominalFacts
  CV CVFacts Cobweb3 C3Facts.
Local Notation sqrt := R_sqrt.sqrt.

(** [c] has the number, mean and sum of squared deviations of [xs]. *)
Definition summarises (c : cval ROps) (xs : list R) : Prop := c = summ xs.

Lemma summarises_laws : cv_laws ROps summarises eq.
Proof.
  split; unfold summarises; simpl.
  - by intros c xs ->.
  - intros c xs ys -> Hp. by apply summ_perm.
  - symmetry. apply summ_nil.
  - intros c xs x ->. rewrite update_summ. apply summ_perm. symmetry. apply Permutation_cons_append.
  - intros c o xs ys -> -> Hne. eexists. split; [|done]. apply combine_summ.
    destruct xs; [done|done].
  - done.
  - done.
  - intros c xs x u -> Hu Hz Hm y Hy.
    assert (Hs : cv_unbiased_std (summ xs) = Ok (ustd (summ xs))).
    { apply ustd_ok. simpl. apply ssd_nonneg. }
    rewrite Hs in Hu. injection Hu as <-. apply Reqb_true in Hz.
    apply ustd_summ in Hz. apply Reqb_true in Hm. unfold cv_unbiased_mean in Hm. simpl in Hm.
    rewrite <- Hm. unfold Rmean.
    assert (E : Rsum (fun x => x) xs = (INR (length xs) * y)%R).
    { clear -Hz Hy. transitivity (Rsum (fun _ : R => y) xs).
      - apply Rsum_ext. intros a Ha. by apply Hz.
      - apply Rsum_const. }
    rewrite E. assert (0 < INR (length xs))%R by (apply len_pos; intros ->; inversion Hy).
    field. lra.
Qed.

Definition HistR := Hist3 summarises.
Definition LeafR := LeafV3 (N:=ROps) eq.
Definition histR_laws : summ_laws (Cobweb3Class ROps) HistR LeafR good3 := hist3_laws summarises eq summarises_laws.

(** ** Summaries in use *)
Definition scales_ok (x : ctx3 ROps) : Prop :=
  forall b c, dget b (x_scales x) = Some c -> (0 <= cv_msq c)%R.
(** A value dict on which scoring does not raise. *)
Definition cell_fine (q : nom * cell ROps) : Prop :=
  match snd q with
  | Cnt _ => fst q <> cv_key
  | CVc c => fst q = cv_key /\ (0 <= cv_msq c)%R
  end.

Lemma HistR_fine s l a d q : HistR s l -> dget a (n3_av s) = Some d -> q ∈ d -> cell_fine q.
Proof.
  intros (_ & _ & _ & Hcells) Hd Hq. specialize (Hcells a). rewrite Hd in Hcells. simpl in Hcells.
  destruct Hcells as (Hwf & H0 & Hn & Hc). destruct q as [v q].
  apply (In_dget v q d Hwf) in Hq. unfold cell_fine. simpl.
  destruct (decide (v = cv_key)) as [->|Hv].
  - destruct (nums l a) as [|x xs]; [congruence|]. destruct Hc as (c & E & Hx).
    rewrite E in Hq. injection Hq as <-. split; [done|]. unfold summarises in Hx. subst c. apply ssd_nonneg.
  - rewrite (Hn v Hv) in Hq. case_decide; [done|]. by injection Hq as <-.
Qed.

(** ** expected_correct_guesses *)
Local Open Scope R_scope.
(** The scale of an attribute. *)
Definition escale (x : ctx3 ROps) (a : attr) : R :=
  match scaling_on x with
  | None => 1
  | Some k => match dget (inner_attr x a) (x_scales x) with
              | None => 1
              | Some c => 1 / k * ustd c
              end
  end.

Lemma escale_ok x a : scales_ok x -> ecg_scale x a = Ok (escale x a).
Proof.
  intros Hx. unfold ecg_scale, escale. destruct (scaling_on x) as [k|] eqn:Ek; [|done].
  destruct (dget (inner_attr x a) (x_scales x)) as [c|] eqn:Ec; [|done].
  unfold scaling_on in Ek. destruct (x_scaling x) as [k'|]; [|done].
  destruct (neqb ROps k' (nofnat ROps 0)) eqn:E0; [done|]. injection Ek as ->.
  apply Reqb_false in E0.
  rewrite (pydiv_ok 1 k E0 : pydiv ROps (nofnat ROps 1) k = _). cbn [rbind].
  destruct (ustd_ok c (Hx _ _ Ec)) as [-> _]. done.
Qed.

(** The noisy standard deviation, and the chance of guessing a number. *)
Definition noisy (c : cval ROps) (s : R) : R :=
  sqrt (ustd c / eff_scale s * (ustd c / eff_scale s) + 1 / (4 * PI)).
Definition guess (c : cval ROps) (s : R) : R := 1 / (2 * sqrt PI * noisy c s).

Lemma noise_pos : 0 < 1 / (4 * PI).
Proof. pose proof PI_RGT_0. apply Rdiv_lt_0_compat; lra. Qed.
Lemma sq_nonneg r : 0 <= r * r.
Proof. apply Rle_0_sqr. Qed.
Lemma noisy_arg c s : 0 < ustd c / eff_scale s * (ustd c / eff_scale s) + 1 / (4 * PI).
Proof. pose proof noise_pos. pose proof (sq_nonneg (ustd c / eff_scale s)). lra. Qed.

Lemma noisy_ge c s : 1 / (2 * sqrt PI) <= noisy c s.
Proof.
  pose proof PI_RGT_0 as Hpi. pose proof (sqrt_lt_R0 PI Hpi) as Hs.
  assert (E : 1 / (2 * sqrt PI) = sqrt (1 / (4 * PI))).
  { symmetry. apply sqrt_lem_1.
    - pose proof noise_pos. lra.
    - apply div_nonneg; lra.
    - pose proof (sqrt_sqrt PI ltac:(lra)) as Hss.
      replace (1 / (2 * sqrt PI) * (1 / (2 * sqrt PI))) with (1 / (4 * (sqrt PI * sqrt PI))) by (field; lra).
      by rewrite Hss. }
  rewrite E. apply sqrt_le_1.
  - pose proof noise_pos. lra.
  - pose proof (noisy_arg c s). lra.
  - pose proof (sq_nonneg (ustd c / eff_scale s)). lra.
Qed.

Lemma noisy_pos c s : 0 < noisy c s.
Proof. apply sqrt_lt_R0, noisy_arg. Qed.

Lemma guess_range c s : 0 < guess c s <= 1.
Proof.
  pose proof PI_RGT_0 as Hpi. pose proof (sqrt_lt_R0 PI Hpi) as Hs.
  pose proof (noisy_pos c s) as Hn. pose proof (noisy_ge c s) as Hge.
  assert (H2 : 0 < 2 * sqrt PI * noisy c s) by (apply Rmult_lt_0_compat; lra).
  unfold guess. split; [by apply Rdiv_lt_0_compat; [lra|]|].
  apply Rmult_le_reg_r with (2 * sqrt PI * noisy c s); [done|].
  unfold Rdiv. rewrite Rmult_assoc, Rinv_l by lra.
  assert (H1 : 2 * sqrt PI * (1 / (2 * sqrt PI)) = 1) by (field; lra).
  assert (2 * sqrt PI * (1 / (2 * sqrt PI)) <= 2 * sqrt PI * noisy c s) by (apply Rmult_le_compat_l; lra).
  lra.
Qed.

(** How many instances a cell stands for. *)
Definition weight (q : cell ROps) : nat := match q with Cnt n => n | CVc c => cv_num c end.
(** What a cell contributes for scale [s] among [n] instances. *)
Definition contrib (s : R) (n : nat) (q : cell ROps) : R :=
  let p := INR (weight q) / INR n in
  match q with Cnt _ => p * p | CVc c => p * p * guess c s end.

Lemma ecg_value_ok x n a q : scales_ok x -> (0 < n)%nat -> cell_fine q ->
  Cobweb3.ecg_value x n a q = Ok (contrib (escale x a) n (snd q)).
Proof.
  intros Hx Hn Hq. destruct q as [v q]. unfold cell_fine in Hq. unfold Cobweb3.ecg_value. cbn [fst snd] in *.
  assert (Hn0 : INR n <> 0) by (apply not_0_INR; lia).
  destruct q as [m|c].
  - rewrite decide_False by done. change (nofnat ROps) with INR.
    rewrite (pydiv_ok (INR m) (INR n) Hn0). done.
  - destruct Hq as [-> Hm]. rewrite decide_True by done. rewrite (escale_ok x a Hx). cbn [rbind].
    rewrite (scaled_unbiased_ok c (escale x a) Hm). cbn [rbind].
    pose proof PI_RGT_0 as Hpi. pose proof (sqrt_lt_R0 PI Hpi) as Hs.
    assert (E4 : nmul ROps (nofnat ROps 4) (npi ROps) = 4 * PI).
    { change (INR 4 * PI = 4 * PI). simpl. lra. }
    rewrite E4. change (nofnat ROps 1) with 1.
    rewrite (pydiv_ok 1 (4 * PI)) by lra. cbn [rbind].
    change (nadd ROps (nmul ROps ?u ?v) ?w) with (u * v + w).
    pose proof (noisy_arg c (escale x a)) as Ha.
    rewrite pysqrt_ok by lra. cbn [rbind]. fold (noisy c (escale x a)).
    change (nofnat ROps) with INR. change (npi ROps) with PI.
    rewrite (pydiv_ok (INR (cv_num c)) (INR n) Hn0). cbn [rbind].
    rewrite (pysqrt_ok PI) by lra. cbn [rbind].
    change (nmul ROps (nmul ROps (INR 2) (sqrt PI)) (noisy c (escale x a)))
      with (2 * sqrt PI * noisy c (escale x a)).
    pose proof (noisy_pos c (escale x a)) as Hnp.
    assert (0 < 2 * sqrt PI * noisy c (escale x a)) by (apply Rmult_lt_0_compat; lra).
    rewrite pydiv_ok by lra. done.
Qed.

Definition vis3 (s : nsum3 ROps) := dfilter visible (n3_av s).
Definition guesses3 (x : ctx3 ROps) (s : nsum3 ROps) : R :=
  Rsum (fun p : attr * list (nom * cell ROps) =>
    Rsum (fun q => contrib (escale x (fst p)) (n3_count s) (snd q)) (snd p)) (vis3 s).

Definition fine (s : nsum3 ROps) : Prop :=
  forall p, p ∈ vis3 s -> forall q, q ∈ snd p -> cell_fine q.

Lemma HistR_all_fine s l : HistR s l -> fine s.
Proof.
  intros HH [a d] Hp q Hq. unfold vis3 in Hp. apply elem_of_filterb in Hp as [Hp _].
  simpl in Hq. eapply HistR_fine; [exact HH| |exact Hq].
  apply In_dget; [|exact Hp]. by destruct HH as (_ & Hwf & _).
Qed.

Lemma n3_ecg_ok x s : scales_ok x -> fine s -> (0 < n3_count s)%nat -> vis3 s <> [] ->
  n3_ecg x s = Ok (guesses3 x s / INR (length (vis3 s))).
Proof.
  intros Hx Hf Hn Hv. unfold n3_ecg. fold (vis3 s).
  assert (Hd : forall a (d : list (nom * cell ROps)), (forall q, q ∈ d -> cell_fine q) ->
    forall acc : R, rfold (fun acc q =>
      rbind (Cobweb3.ecg_value x (n3_count s) a q) (fun g => Ok (nadd ROps acc g))) acc d =
      Ok (acc + Rsum (fun q => contrib (escale x a) (n3_count s) (snd q)) d)).
  { intros a. induction d as [|q d IH]; intros Hq acc; cbn [rfold Rsum]; [by rewrite Rplus_0_r|].
    rewrite ecg_value_ok by (done || apply Hq; left). cbn [rbind].
    etransitivity; [apply IH; intros q' Hq'; apply Hq; by right|]. f_equal.
    change (nadd ROps) with Rplus. lra. }
  assert (Hl : forall l, (forall p, p ∈ l -> forall q, q ∈ snd p -> cell_fine q) -> forall acc : R,
    rfold (fun acc p => rfold (fun acc q =>
      rbind (Cobweb3.ecg_value x (n3_count s) (fst p) q) (fun g => Ok (nadd ROps acc g))) acc (snd p)) acc l =
      Ok (acc + Rsum (fun p : attr * list (nom * cell ROps) =>
        Rsum (fun q => contrib (escale x (fst p)) (n3_count s) (snd q)) (snd p)) l)).
  { induction l as [|p l IH]; intros Hp acc; cbn [rfold Rsum]; [by rewrite Rplus_0_r|].
    rewrite Hd by (apply Hp; left). cbn [rbind].
    etransitivity; [apply IH; intros p' Hp'; apply Hp; by right|]. f_equal. lra. }
  rewrite (Hl (vis3 s) Hf (nofnat ROps 0)). cbn [rbind].
  assert (Hlen : 0 < INR (length (vis3 s))) by (by apply len_pos).
  change (nofnat ROps) with INR. rewrite pydiv_ok by lra. do 2 f_equal. simpl. unfold guesses3. lra.
Qed.

(** ** An attribute stands for at most all instances *)
Lemma sumn_map_le {X} (f g : X -> nat) l : (forall x, x ∈ l -> (f x <= g x)%nat) ->
  (sumn (map f l) <= sumn (map g l))%nat.
Proof.
  induction l as [|x l IH]; simpl; intros H; [lia|].
  assert (f x <= g x)%nat by (apply H; left).
  assert (sumn (map f l) <= sumn (map g l))%nat by (apply IH; intros; apply H; by right). lia.
Qed.

Lemma sumn_map_add {X} (f g : X -> nat) l :
  sumn (map (fun x => f x + g x)%nat l) = (sumn (map f l) + sumn (map g l))%nat.
Proof. induction l as [|x l IH]; simpl; [done|]. rewrite IH. lia. Qed.

Lemma cells_weight (l : list (inst3 ROps)) a (ks : list nom) : NoDup ks ->
  (sumn (map (fun k => if decide (k = cv_key) then length (nums l a) else occ3 l a k) ks) <= length l)%nat.
Proof.
  intros Hnd. induction l as [|i l IH]; simpl.
  { clear Hnd. induction ks as [|k ks IH]; simpl; [lia|]. case_decide; simpl; lia. }
  set (w := fun k : nom => (match dget a i with
    | Some (VNom v) => if decide (k = cv_key) then 0 else if decide (v = k) then 1 else 0
    | Some (VNum _) => if decide (k = cv_key) then 1 else 0
    | None => 0 end)%nat).
  assert (Hw : (sumn (map w ks) <= 1)%nat).
  { clear IH. assert (Hz : forall k0 ks, k0 ∉ ks -> (forall k, k <> k0 -> w k = 0%nat) -> sumn (map w ks) = 0%nat).
    { intros k0 ks'. induction ks' as [|k ks' IH']; intros Hni H0; [done|].
      apply not_elem_of_cons in Hni as [H1 H2]. simpl. rewrite H0, IH' by done. done. }
    assert (Hone : forall k0, (forall k, k <> k0 -> w k = 0%nat) -> (forall k, w k <= 1)%nat ->
      (sumn (map w ks) <= 1)%nat).
    { intros k0 H0 H1. induction ks as [|k ks' IH']; simpl; [lia|].
      apply NoDup_cons in Hnd as [Hni Hnd]. specialize (IH' Hnd).
      destruct (decide (k = k0)) as [->|Hne].
      - rewrite (Hz k0 ks' Hni H0). specialize (H1 k0). lia.
      - rewrite (H0 k Hne). lia. }
    unfold w. destruct (dget a i) as [[v|x]|].
    - apply (Hone v).
      + intros k Hk. unfold w. case_decide; [done|]. by rewrite decide_False.
      + intros k. unfold w. case_decide; [lia|]. case_decide; lia.
    - apply (Hone cv_key).
      + intros k Hk. unfold w. by rewrite decide_False.
      + intros k. unfold w. case_decide; lia.
    - apply (Hone cv_key); [done|]. intros; unfold w; lia. }
  etransitivity; [apply (sumn_map_le _ (fun k => w k +
    if decide (k = cv_key) then length (nums l a) else occ3 l a k)%nat)|].
  { intros k _. unfold w. destruct (decide (k = cv_key)) as [->|Hk];
      destruct (dget a i) as [[v|x]|]; simpl; lia. }
  rewrite sumn_map_add. lia.
Qed.

Lemma HistR_weight s l a d : HistR s l -> dget a (n3_av s) = Some d ->
  (sumn (map (fun q => weight (snd q)) d) <= length l)%nat.
Proof.
  intros (_ & _ & _ & Hcells) Hd. specialize (Hcells a). rewrite Hd in Hcells. simpl in Hcells.
  destruct Hcells as (Hwf & H0 & Hn & Hc).
  etransitivity; [|exact (cells_weight l a (dkeys d) Hwf)].
  unfold dkeys. rewrite map_map. apply sumn_map_le. intros [v q] Hq. simpl.
  apply (In_dget v q d Hwf) in Hq. destruct (decide (v = cv_key)) as [->|Hv].
  - destruct (nums l a) as [|x xs]; [congruence|]. destruct Hc as (c & E & Hx).
    rewrite E in Hq. injection Hq as <-. unfold summarises in Hx. subst c. simpl. lia.
  - rewrite (Hn v Hv) in Hq. case_decide; [done|]. injection Hq as <-. simpl. lia.
Qed.

Lemma HistR_weight_pos s l a d q : HistR s l -> dget a (n3_av s) = Some d -> q ∈ d -> (0 < weight (snd q))%nat.
Proof.
  intros (_ & _ & _ & Hcells) Hd Hq. specialize (Hcells a). rewrite Hd in Hcells. simpl in Hcells.
  destruct Hcells as (Hwf & H0 & Hn & Hc). destruct q as [v q]. simpl.
  apply (In_dget v q d Hwf) in Hq. destruct (decide (v = cv_key)) as [->|Hv].
  - destruct (nums l a) as [|x xs]; [congruence|]. destruct Hc as (c & E & Hx).
    rewrite E in Hq. injection Hq as <-. unfold summarises in Hx. subst c. simpl. lia.
  - rewrite (Hn v Hv) in Hq. case_decide; [done|]. injection Hq as <-. simpl. lia.
Qed.

Lemma contrib_range s n q : (0 < weight q <= n)%nat ->
  0 < contrib s n q /\ contrib s n q <= INR (weight q) / INR n * (INR (weight q) / INR n).
Proof.
  intros [H1 H2]. unfold contrib.
  assert (Hp : 0 < INR (weight q) / INR n).
  { apply Rdiv_lt_0_compat; apply lt_0_INR; lia. }
  set (p := INR (weight q) / INR n) in *. assert (0 < p * p) by nra.
  destruct q as [m|c].
  - split; lra.
  - pose proof (guess_range c s). split; [apply Rmult_lt_0_compat; lra|]. nra.
Qed.

Lemma Rsum_sq_le {X} (w : X -> nat) (l : list X) n : (0 < n)%nat -> (sumn (map w l) <= n)%nat ->
  Rsum (fun q => INR (w q) / INR n * (INR (w q) / INR n)) l <= 1.
Proof.
  intros Hn Hs. assert (HnR : 0 < INR n) by (apply lt_0_INR; lia).
  assert (Hle : Rsum (fun q => INR (w q) / INR n * (INR (w q) / INR n)) l <=
    INR (sumn (map w l)) / INR n).
  { revert Hs. induction l as [|q l IH]; simpl; intros Hs.
    - unfold Rdiv. rewrite Rmult_0_l. lra.
    - assert (H1 : INR (w q) / INR n <= 1).
      { apply Rmult_le_reg_r with (INR n); [done|]. unfold Rdiv. rewrite Rmult_assoc, Rinv_l by lra.
        rewrite Rmult_1_r, Rmult_1_l. apply le_INR. lia. }
      assert (H0 : 0 <= INR (w q) / INR n) by (apply div_nonneg; [apply pos_INR|done]).
      specialize (IH ltac:(lia)). rewrite plus_INR. unfold Rdiv in *. rewrite Rmult_plus_distr_r. nra. }
  assert (INR (sumn (map w l)) / INR n <= 1); [|lra].
  apply Rmult_le_reg_r with (INR n); [done|]. unfold Rdiv. rewrite Rmult_assoc, Rinv_l by lra.
  rewrite Rmult_1_r, Rmult_1_l. apply le_INR. lia.
Qed.

Theorem ecg3_bounds x s l : scales_ok x -> HistR s l -> l <> [] -> vis3 s <> [] ->
  exists g, n3_ecg x s = Ok g /\ 0 < g <= 1.
Proof.
  intros Hx HH Hl Hv. pose proof HH as (Hc & Hwf & Hne & _).
  assert (Hn : (0 < n3_count s)%nat) by (rewrite Hc; destruct l; simpl; [done|lia]).
  exists (guesses3 x s / INR (length (vis3 s))). split.
  { apply n3_ecg_ok; try done. by eapply HistR_all_fine. }
  assert (Hlen : 0 < INR (length (vis3 s))) by (by apply len_pos).
  assert (Hp : forall p, p ∈ vis3 s -> dget (fst p) (n3_av s) = Some (snd p)).
  { intros [a d] Hp. unfold vis3 in Hp. apply elem_of_filterb in Hp as [Hp _]. by apply In_dget. }
  assert (Hq : forall p q, p ∈ vis3 s -> q ∈ snd p -> (0 < weight (snd q) <= n3_count s)%nat).
  { intros p q Hpp Hqq. split; [by eapply HistR_weight_pos; eauto|].
    rewrite Hc. etransitivity; [|by eapply HistR_weight; [exact HH|apply Hp]].
    clear -Hqq. induction (snd p) as [|q' d IH]; [inversion Hqq|]. simpl.
    apply elem_of_cons in Hqq as [->|Hqq]; [lia|]. specialize (IH Hqq). lia. }
  split.
  - apply Rdiv_lt_0_compat; [|done]. apply Rsum_pos; [done|]. intros p Hpp.
    apply Rsum_pos; [by eapply Hne, Hp|]. intros q Hqq. apply contrib_range. by eapply Hq.
  - apply Rmult_le_reg_r with (INR (length (vis3 s))); [done|].
    unfold Rdiv. rewrite Rmult_assoc, Rinv_l by lra. rewrite Rmult_1_r.
    unfold guesses3. apply Rle_trans with (Rsum (fun _ : attr * list (nom * cell ROps) => 1) (vis3 s)).
    + apply Rsum_le. intros p Hpp.
      eapply Rle_trans; [apply Rsum_le; intros q Hqq; apply (contrib_range (escale x (fst p)) (n3_count s) (snd q)); by eapply Hq|].
      apply (Rsum_sq_le (fun q : nom * cell ROps => weight (snd q))); [done|]. rewrite Hc.
      by eapply HistR_weight; [exact HH|apply Hp].
    + rewrite Rsum_const. lra.
Qed.
