(** * The c4 table against the gamma function. *)
From Coq Require Import Reals Lra ZArith QArith Qreals Machin.
From stdpp Require Import base decidable tactics strings list.
From Verif Require Import Base Num RSum CV CVFacts.
Local Open Scope R_scope.
Local Notation sqrt := R_sqrt.sqrt.

(** ** Rational bounds for pi *)
Fixpoint sumQ (g : nat -> Q) (n : nat) : Q :=
  match n with O => g O | S n => Qred (sumQ g n + g (S n)) end.

Lemma Q2R_red q : Q2R (Qred q) = Q2R q.
Proof. apply Qeq_eqR. apply Qred_correct. Qed.

Lemma sumQ_ok f g n : (forall i, f i = Q2R (g i)) -> sum_f_R0 f n = Q2R (sumQ g n).
Proof.
  intros H. induction n as [|n IH]; simpl; [apply H|]. by rewrite IH, H, Q2R_red, Q2R_plus.
Qed.

Fixpoint powQ (q : Q) (n : nat) : Q := match n with O => 1%Q | S n => Qred (q * powQ q n) end.
Lemma powQ_ok q n : Q2R (powQ q n) = Q2R q ^ n.
Proof.
  induction n as [|n IH]; cbn [powQ Rpow_def.pow]; [unfold Q2R; simpl; lra|]. by rewrite Q2R_red, Q2R_mult, IH.
Qed.

Definition qn (n : nat) : Q := Z.of_nat n # 1.
Lemma qn_ok n : Q2R (qn n) = INR n.
Proof. unfold qn, Q2R. simpl. rewrite INR_IZR_INZ. lra. Qed.

Definition term (i : nat) : Q :=
  powQ (-1 # 1) i *
  (2 * (powQ (1 # 3) (2 * i + 1) / qn (2 * i + 1)) + powQ (1 # 7) (2 * i + 1) / qn (2 * i + 1)).

Lemma term_ok i : tg_alt PI_2_3_7_tg i = Q2R (term i).
Proof.
  assert (Hn : Q2R (qn (2 * i + 1)) <> 0) by (rewrite qn_ok; apply not_0_INR; lia).
  assert (Hz : ~ (qn (2 * i + 1) == 0)%Q).
  { intros E. apply Hn. rewrite (Qeq_eqR _ _ E). unfold Q2R. simpl. lra. }
  unfold term, tg_alt, PI_2_3_7_tg, Ratan_seq.
  rewrite Q2R_mult, powQ_ok, Q2R_plus, Q2R_mult, !Q2R_div, !powQ_ok, qn_ok by done.
  replace (Q2R (-1 # 1)) with (-1) by (unfold Q2R; simpl; lra).
  replace (Q2R 2) with 2 by (unfold Q2R; simpl; lra).
  replace (Q2R (1 # 3)) with (/ 3) by (unfold Q2R; simpl; lra).
  replace (Q2R (1 # 7)) with (/ 7) by (unfold Q2R; simpl; lra). done.
Qed.

Definition pi_lo : Q := 3141592653589793238462 # 1000000000000000000000.
Definition pi_hi : Q := 3141592653589793238463 # 1000000000000000000000.

Lemma pi_bounds : Q2R pi_lo <= PI <= Q2R pi_hi.
Proof.
  pose proof (PI_2_3_7_ineq 24) as [H1 H2].
  rewrite (sumQ_ok _ term) in H1 by apply term_ok. rewrite (sumQ_ok _ term) in H2 by apply term_ok.
  assert (L : Q2R (pi_lo / 4) <= Q2R (sumQ term (S (2 * 24)))).
  { apply Qle_Rle. apply Qle_bool_iff. vm_compute. done. }
  assert (U : Q2R (sumQ term (2 * 24)) <= Q2R (pi_hi / 4)).
  { apply Qle_Rle. apply Qle_bool_iff. vm_compute. done. }
  rewrite Q2R_div in L, U by done. replace (Q2R 4) with 4 in L, U by (unfold Q2R; simpl; lra). lra.
Qed.

(** ** Gamma at half integers: [G n] stands for Gamma(n/2). *)
Definition gamma_half (G : nat -> R) : Prop :=
  G 1%nat = sqrt PI /\ G 2%nat = 1 /\ (forall n, (1 <= n)%nat -> G (n + 2)%nat = INR n / 2 * G n).

Lemma gamma_half_pair : exists G, gamma_half G.
Proof.
  set (G := fix G (n : nat) : R := match n with
    | O => 0 | S n' => match n' with O => sqrt PI | S m => match m with O => 1 | _ => INR m / 2 * G m end end end).
  exists G. split; [done|]. split; [done|]. intros n Hn. destruct n as [|n]; [lia|].
  replace (S n + 2)%nat with (S (S (S n))) by lia. done.
Qed.

Lemma gamma_pos G : gamma_half G -> forall n, (1 <= n)%nat -> 0 < G n.
Proof.
  intros (G1 & G2 & HG). enough (H : forall n, 0 < G (S n) /\ 0 < G (S (S n))).
  { intros n Hn. destruct n as [|n]; [lia|]. apply H. }
  induction n as [|n [IH1 IH2]].
  - rewrite G1, G2. split; [apply sqrt_lt_R0, PI_RGT_0|lra].
  - split; [done|]. replace (S (S (S n))) with (S n + 2)%nat by lia. rewrite HG by lia.
    apply Rmult_lt_0_compat; [|done]. assert (0 < INR (S n)) by (apply lt_0_INR; lia). lra.
Qed.

(** (G (n+1) / G n)^2 is rational times pi or 1/pi. *)
Fixpoint ratio (n : nat) : Q :=  (* for G (n+2) / G (n+1) *)
  match n with
  | O => 1
  | S m => Qred (qn n * qn n / (4 * ratio m))
  end.

Definition piw (n : nat) : R := if Nat.even n then / PI else PI.

Lemma ratio_ne n : ~ (ratio n == 0)%Q.
Proof.
  intros E. assert (H : (0 < ratio n)%Q); [|rewrite E in H; by inversion H]. clear E.
  induction n as [|n IH]; [done|]. cbn [ratio]. rewrite Qred_correct. unfold Qdiv.
  assert (Hq : (0 < qn (S n))%Q) by (unfold qn, Qlt; simpl; lia).
  apply Qmult_lt_0_compat; [by apply Qmult_lt_0_compat|]. apply Qinv_lt_0_compat. by apply Qmult_lt_0_compat.
Qed.

Lemma Q2R_ne q : ~ (q == 0)%Q -> Q2R q <> 0.
Proof. intros H E. apply H. apply eqR_Qeq. rewrite E. unfold Q2R. simpl. lra. Qed.

Lemma ratio_ok G : gamma_half G -> forall n,
  (G (n + 2)%nat / G (n + 1)%nat) * (G (n + 2)%nat / G (n + 1)%nat) = Q2R (ratio n) * piw n.
Proof.
  intros HG. pose proof (gamma_pos G HG) as Hp. destruct HG as (G1 & G2 & HG). pose proof PI_RGT_0.
  induction n as [|n IH].
  - simpl. rewrite G1, G2. unfold piw. simpl. replace (Q2R 1) with 1 by (unfold Q2R; simpl; lra).
    assert (Hs : sqrt PI * sqrt PI = PI) by (apply sqrt_sqrt; lra).
    assert (0 < sqrt PI) by (apply sqrt_lt_R0; lra). rewrite <- Hs at 3. field. lra.
  - replace (S n + 2)%nat with ((n + 1) + 2)%nat by lia. rewrite HG by lia.
    replace (S n + 1)%nat with (n + 2)%nat by lia.
    pose proof (Hp (n + 1)%nat ltac:(lia)). pose proof (Hp (n + 2)%nat ltac:(lia)).
    pose proof (ratio_ne n) as Hr. apply Q2R_ne in Hr as Hr'.
    assert (Hpw : piw (S n) = / piw n).
    { unfold piw. rewrite Nat.even_succ, <- Nat.negb_even. destruct (Nat.even n); simpl; [|done]. by rewrite Rinv_inv. }
    assert (Hpn : piw n <> 0).
    { unfold piw. destruct (Nat.even n); [|lra]. pose proof (Rinv_0_lt_compat PI ltac:(lra)). lra. }
    replace (INR (n + 1) / 2 * G (n + 1)%nat / G (n + 2)%nat * (INR (n + 1) / 2 * G (n + 1)%nat / G (n + 2)%nat))
      with (INR (n + 1) * INR (n + 1) / 4 / (G (n + 2)%nat / G (n + 1)%nat * (G (n + 2)%nat / G (n + 1)%nat)))
      by (field; lra).
    rewrite IH, Hpw. cbn [ratio]. rewrite Q2R_red, Q2R_div, !Q2R_mult, qn_ok.
    2:{ intros E. apply Hr. apply Qmult_integral in E as [E|E]; [done|done]. }
    replace (Q2R 4) with 4 by (unfold Q2R; simpl; lra).
    replace (n + 1)%nat with (S n) by lia. field. done.
Qed.

(** c4(n) = sqrt(2/(n-1)) Gamma(n/2) / Gamma((n-1)/2) *)
Definition c4_exact (G : nat -> R) (n : nat) : R := sqrt (2 / (INR n - 1)) * (G n / G (n - 1)%nat).

Lemma c4_exact_sq G n : gamma_half G -> (2 <= n)%nat -> 0 < c4_exact G n /\
  c4_exact G n * c4_exact G n = 2 / INR (n - 1) * (Q2R (ratio (n - 2)) * piw n).
Proof.
  intros HG Hn. pose proof (gamma_pos G HG) as Hp.
  assert (Hi : INR n - 1 = INR (n - 1)) by (rewrite minus_INR by lia; simpl; lra).
  assert (H0 : 0 < INR (n - 1)) by (apply lt_0_INR; lia).
  assert (H2 : 0 < 2 / INR (n - 1)) by (apply Rdiv_lt_0_compat; lra).
  unfold c4_exact. rewrite Hi. split.
  - apply Rmult_lt_0_compat; [by apply sqrt_lt_R0|]. apply Rdiv_lt_0_compat; apply Hp; lia.
  - pose proof (ratio_ok G HG (n - 2)) as Hr.
    replace (n - 2 + 2)%nat with n in Hr by lia. replace (n - 2 + 1)%nat with (n - 1)%nat in Hr by lia.
    assert (Hw : piw (n - 2) = piw n).
    { unfold piw. destruct n as [|[|n]]; [lia|lia|]. replace (S (S n) - 2)%nat with n by lia. done. }
    rewrite Hw in Hr. rewrite <- Hr.
    transitivity (sqrt (2 / INR (n - 1)) * sqrt (2 / INR (n - 1)) * (G n / G (n - 1)%nat * (G n / G (n - 1)%nat))); [ring|].
    rewrite sqrt_sqrt by lra. done.
Qed.

(** ** The table agrees to three units of its sixteenth digit. *)
Definition eps : Q := 3 # 10000000000000000.
Definition entry_ok (n : nat) : bool :=
  match dget n c4_digits with
  | None => false
  | Some m =>
      let t := (m # 10000000000000000)%Q in
      let r := (2 / qn (n - 1) * ratio (n - 2))%Q in
      let lo := if Nat.even n then (r / pi_hi)%Q else (r * pi_lo)%Q in
      let hi := if Nat.even n then (r / pi_lo)%Q else (r * pi_hi)%Q in
      Qle_bool eps t && Qle_bool ((t - eps) * (t - eps)) lo && Qle_bool hi ((t + eps) * (t + eps))
  end.

Lemma entries_ok : forallb entry_ok (seq 2 28) = true.
Proof. vm_compute. done. Qed.

Lemma sq_le_le x y : 0 <= y -> x * x <= y * y -> x <= y.
Proof. intros Hy H. apply Rnot_lt_le. intros Hlt. assert (y * y < x * x) by (apply Rmult_le_0_lt_compat; lra). lra. Qed.

Lemma c4_close G (n : nat) m : gamma_half G -> (2 <= n < 30)%nat -> dget n c4_digits = Some m ->
  Rabs (IZR m / 10 ^ 16 - c4_exact G n) <= 3 / 10 ^ 16.
Proof.
  intros HG Hn Hm. pose proof entries_ok as He. rewrite forallb_forall in He.
  specialize (He n (proj2 (in_seq 28 2 n) ltac:(lia))). unfold entry_ok in He. rewrite Hm in He.
  apply andb_true_iff in He as [He H3]. apply andb_true_iff in He as [H1 H2].
  apply Qle_bool_iff, Qle_Rle in H1. apply Qle_bool_iff, Qle_Rle in H2. apply Qle_bool_iff, Qle_Rle in H3.
  rewrite Q2R_mult in H2, H3. rewrite Q2R_minus in H2. rewrite Q2R_plus in H3.
  assert (Ht : Q2R (m # 10000000000000000) = IZR m / 10 ^ 16).
  { unfold Q2R. rewrite pow16. done. }
  rewrite Ht in H1, H2, H3. set (t := IZR m / 10 ^ 16) in *.
  assert (Hee : Q2R eps = 3 / 10 ^ 16).
  { unfold Q2R, eps. cbn [Qnum Qden]. rewrite pow16. done. }
  rewrite Hee in H1, H2, H3. set (e := 3 / 10 ^ 16) in *.
  destruct (c4_exact_sq G n HG ltac:(lia)) as [Hc Hsq]. set (c := c4_exact G n) in *.
  assert (Hne : ~ (qn (n - 1) == 0)%Q).
  { unfold qn, Qeq. simpl. lia. }
  set (r := (2 / qn (n - 1) * ratio (n - 2))%Q) in *.
  assert (Hr : Q2R r = 2 / INR (n - 1) * Q2R (ratio (n - 2))).
  { unfold r. rewrite Q2R_mult, Q2R_div, qn_ok by done. replace (Q2R 2) with 2 by (unfold Q2R; simpl; lra). done. }
  rewrite <- Rmult_assoc, <- Hr in Hsq.
  assert (Hr0 : 0 <= Q2R r).
  { pose proof PI_RGT_0. assert (Hw : 0 < piw n).
    { unfold piw. destruct (Nat.even n); [by apply Rinv_0_lt_compat|done]. }
    apply Rmult_le_reg_r with (piw n); [done|]. rewrite <- Hsq, Rmult_0_l. apply Rle_0_sqr. }
  pose proof pi_bounds as [Pl Ph].
  assert (Hl0 : 0 < Q2R pi_lo) by (unfold Q2R, pi_lo; simpl; lra).
  assert (Hlo : (t - e) * (t - e) <= c * c /\ c * c <= (t + e) * (t + e)).
  { rewrite Hsq. unfold piw. destruct (Nat.even n).
    - rewrite Q2R_div in H2, H3 by done. assert (/ Q2R pi_hi <= / PI) by (apply Rinv_le_contravar; lra).
      assert (/ PI <= / Q2R pi_lo) by (apply Rinv_le_contravar; lra). unfold Rdiv in H2, H3.
      split; [eapply Rle_trans; [exact H2|]; by apply Rmult_le_compat_l|
              eapply Rle_trans; [|exact H3]; by apply Rmult_le_compat_l].
    - rewrite Q2R_mult in H2, H3.
      split; [eapply Rle_trans; [exact H2|]; by apply Rmult_le_compat_l|
              eapply Rle_trans; [|exact H3]; by apply Rmult_le_compat_l]. }
  destruct Hlo as [Hlo Hhi]. apply sq_le_le in Hlo; [|lra].
  assert (0 < e) by (unfold e; apply Rdiv_lt_0_compat; [lra|apply pow_lt; lra]).
  apply sq_le_le in Hhi; [|lra]. apply Rabs_le. lra.
Qed.
