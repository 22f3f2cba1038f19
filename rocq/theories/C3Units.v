(** * Changing the unit of numeric attributes. *)
From Coq Require Import Reals Lra.
From stdpp Require Import base decidable tactics gmap strings list.
From Verif Require Import Base Num TreeModel TreeFun TreeScore TreeRefine TreeSorts TreeInv
  SpecTree TreeState TreeTotal TreeRel TreeSim TreeWorld RSum Nominal NominalFacts
  CV CVFacts Cobweb3 C3Facts C3Scales C3R C3Tree C3Total.
Local Notation sqrt := R_sqrt.sqrt.
Local Open Scope R_scope.

(** Two dictionaries with the same keys and related values have the same sums. *)
Lemma dict_keys_perm {K V V'} `{EqDecision K} (d : list (K * V)) (d' : list (K * V')) :
  dwf d -> dwf d' -> (forall k, dget k d = None <-> dget k d' = None) ->
  Permutation (dkeys d) (dkeys d').
Proof.
  intros H1 H2 Hk. apply NoDup_Permutation; [done|done|]. intros k. specialize (Hk k).
  rewrite !dget_None in Hk. destruct (decide (k ∈ dkeys d)), (decide (k ∈ dkeys d')); tauto.
Qed.

Lemma Rsum_keys {K V} `{EqDecision K} (f : K * V -> R) (d : list (K * V)) : dwf d ->
  Rsum f d = Rsum (fun k => match dget k d with Some v => f (k, v) | None => 0 end) (dkeys d).
Proof.
  intros Hd. unfold dkeys. rewrite Rsum_map. apply Rsum_ext. intros [k v] Hin.
  rewrite (In_dget k v d Hd Hin). done.
Qed.

Lemma Rsum_dict {K V V'} `{EqDecision K} (f : K * V -> R) (g : K * V' -> R) d d' :
  dwf d -> dwf d' ->
  (forall k, match dget k d, dget k d' with
             | Some v, Some v' => f (k, v) = g (k, v')
             | None, None => True
             | _, _ => False
             end) ->
  Rsum f d = Rsum g d' /\ length d = length d'.
Proof.
  intros H1 H2 Hk.
  assert (Hp : Permutation (dkeys d) (dkeys d')).
  { apply dict_keys_perm; [done|done|]. intros k. specialize (Hk k).
    by destruct (dget k d), (dget k d'). }
  split.
  - rewrite (Rsum_keys f d H1), (Rsum_keys g d' H2), (Rsum_perm _ _ _ Hp).
    apply Rsum_ext. intros k _. specialize (Hk k). by destruct (dget k d), (dget k d').
  - apply Permutation_length in Hp. unfold dkeys in Hp. by rewrite !map_length in Hp.
Qed.

(** ** Affine maps and summaries *)
Lemma mean_aff k t xs : xs <> [] -> Rmean (map (fun y => k * y + t) xs) = k * Rmean xs + t.
Proof.
  intros Hne. unfold Rmean. rewrite Rsum_map, map_length, Rsum_plus, Rsum_scal, Rsum_const.
  pose proof (len_pos xs Hne). field. lra.
Qed.
Lemma ssd_aff k t xs : xs <> [] -> Rssd (map (fun y => k * y + t) xs) = k * k * Rssd xs.
Proof.
  intros Hne. unfold Rssd. rewrite (mean_aff k t xs Hne), Rsum_map, <- Rsum_scal.
  apply Rsum_ext. intros y _. lra.
Qed.
Lemma ustd_aff k t xs : 0 < k -> xs <> [] ->
  ustd (summ (map (fun y => k * y + t) xs)) = k * ustd (summ xs).
Proof.
  intros Hk Hne. destruct (decide (length xs < 2)%nat) as [Hlt|Hge].
  - unfold ustd, cv_unbiased_std. cbn [cv_num summ]. rewrite map_length, decide_True, decide_True by done.
    simpl. lra.
  - destruct (c4_range (Z.of_nat (length xs))) as (c & Hc & Hr); [lia|].
    unfold ustd.
    rewrite (unbiased_formula (summ (map _ xs)) c);
      [|simpl; rewrite map_length; lia|apply ssd_nonneg|simpl; by rewrite map_length].
    rewrite (unbiased_formula (summ xs) c); [|simpl; lia|apply ssd_nonneg|done].
    cbn [cv_num cv_msq summ]. rewrite map_length, (ssd_aff k t xs Hne).
    assert (Hp : 0 < INR (length xs - 1)) by (apply lt_0_INR; lia).
    replace (k * k * Rssd xs / INR (length xs - 1)) with ((k * k) * (Rssd xs / INR (length xs - 1)))
      by (field; lra).
    rewrite sqrt_mult; [|nra|apply div_nonneg; [apply ssd_nonneg|done]].
    rewrite sqrt_square by lra. field. lra.
Qed.

(** ** Units *)
Section Units.
  (** The number [y] of an attribute whose inner attribute is [b] is written
      [K b * y + T b] in the new unit. *)
  Context (K T : attr -> R) (HK : forall b, 0 < K b) (inner : bool).
  Notation C := (Cobweb3Class ROps).
  Notation inst := (inst3 ROps).

  Definition unit_val (a : attr) (v : val3 ROps) : val3 ROps :=
    match v with
    | VNum y => @VNum ROps (K (inner_of inner a) * y + T (inner_of inner a))
    | VNom w => VNom w
    end.
  Definition unit_inst (i : inst) : inst := map (fun p => (fst p, unit_val (fst p) (snd p))) i.

  Lemma dget_unit i a : dget a (unit_inst i) = option_map (unit_val a) (dget a i).
  Proof.
    induction i as [|[b v] i IH]; simpl; [done|]. case_decide as Hd; [by subst|]. exact IH.
  Qed.
  Lemma dkeys_unit i : dkeys (unit_inst i) = dkeys i.
  Proof. unfold dkeys, unit_inst. by rewrite map_map. Qed.
  Lemma good_unit i : good3 i -> good3 (unit_inst i).
  Proof.
    intros (H1 & H2 & H3). split; [unfold dwf; by rewrite dkeys_unit|].
    split; [by rewrite dkeys_unit|]. intros a. rewrite dget_unit. specialize (H3 a).
    destruct (dget a i) as [[w|y]|]; simpl; congruence.
  Qed.
  Lemma occ_unit l a v : occ3 (map unit_inst l) a v = occ3 l a v.
  Proof.
    induction l as [|i l IH]; [done|]. cbn [map occ3]. rewrite dget_unit, IH.
    by destruct (dget a i) as [[w|y]|].
  Qed.
  Definition aff (a : attr) (y : R) : R := K (inner_of inner a) * y + T (inner_of inner a).
  Lemma nums_unit l a : nums (map unit_inst l) a = map (aff a) (nums l a).
  Proof.
    induction l as [|i l IH]; [done|]. cbn [map nums]. rewrite dget_unit, IH.
    by destruct (dget a i) as [[w|y]|].
  Qed.
  Lemma inner_unit l b :
    inner_nums (N:=ROps) inner (map unit_inst l) b = map (fun y => K b * y + T b) (inner_nums inner l b).
  Proof.
    unfold inner_nums. induction l as [|i l IH]; [done|]. cbn [map concat]. rewrite map_app.
    f_equal; [|exact IH]. clear IH. induction i as [|[a v] i IH]; [done|]. cbn [unit_inst map concat].
    rewrite map_app. fold (unit_inst i). f_equal; [|exact IH]. unfold under. cbn [fst snd].
    destruct v as [w|y]; simpl; [done|]. case_decide as Hd; [|done]. by rewrite Hd.
  Qed.

  (** The numbers of [i] are covered by those already fitted: each either
      occurs among them, or these are not all equal. *)
  Definition covered (h : list inst) (i : inst) : Prop :=
    forall a y, (a, @VNum ROps y) ∈ i ->
      y ∈ inner_nums inner h (inner_of inner a) \/ ~ all_equal (inner_nums inner h (inner_of inner a)).

  Lemma covered_self h i : covered (h ++ [i]) i.
  Proof.
    intros a y Hy. left. apply inner_nums_in. exists i, a. split; [|done].
    apply elem_of_app. right. by left.
  Qed.
  Lemma inner_nums_app h h' b : inner_nums (N:=ROps) inner (h ++ h') b = inner_nums inner h b ++ inner_nums inner h' b.
  Proof. unfold inner_nums. by rewrite map_app, concat_app. Qed.
  Lemma covered_more h i j : covered h i -> covered (h ++ [j]) i.
  Proof.
    intros Hc a y Hy. rewrite inner_nums_app. destruct (Hc a y Hy) as [H|H].
    - left. apply elem_of_app. by left.
    - right. intros He. apply H. intros u v Hu Hv. apply He; apply elem_of_app; by left.
  Qed.

  Definition unit_tables (h : list inst) (s s' : nsum3 ROps) : Prop :=
    exists l, HistR s l /\ HistR s' (map unit_inst l) /\ forall i, i ∈ l -> covered h i.

  (** Value dicts of the two tables. *)
  Definition unit_cell (xs : list R) (a : attr) (q q' : cell ROps) : Prop :=
    match q, q' with
    | Cnt n, Cnt m => n = m
    | CVc c, CVc c' => c = summ xs /\ c' = summ (map (aff a) xs) /\ xs <> []
    | _, _ => False
    end.

  Lemma cells_unit s s' l a v : HistR s l -> HistR s' (map unit_inst l) ->
    match dget v (default [] (dget a (n3_av s))), dget v (default [] (dget a (n3_av s'))) with
    | Some q, Some q' => unit_cell (nums l a) a q q' /\ (v = cv_key <-> exists c, q = CVc c)
    | None, None => True
    | _, _ => False
    end.
  Proof.
    intros (_ & _ & _ & H1) (_ & _ & _ & H2). specialize (H1 a). specialize (H2 a).
    destruct H1 as (_ & _ & Hn & Hx), H2 as (_ & _ & Hn' & Hx').
    rewrite nums_unit in Hx'. destruct (decide (v = cv_key)) as [->|Hv].
    - destruct (nums l a) as [|y ys] eqn:E; [by rewrite Hx, Hx'|].
      destruct Hx as (c & -> & Hc), Hx' as (c' & -> & Hc'). unfold summarises in *.
      split; [|split; [eauto|done]]. done.
    - rewrite (Hn v Hv), (Hn' v Hv), occ_unit. case_decide; [done|]. split; [done|].
      split; [done|]. by intros [c ?].
  Qed.

  Lemma attrs_unit s s' l a : HistR s l -> HistR s' (map unit_inst l) ->
    dget a (n3_av s) = None <-> dget a (n3_av s') = None.
  Proof.
    intros H1 H2. pose proof (fun v => cells_unit s s' l a v H1 H2) as Hc.
    destruct H1 as (_ & _ & Hne & _), H2 as (_ & _ & Hne' & _).
    destruct (dget a (n3_av s)) as [d|] eqn:E, (dget a (n3_av s')) as [d'|] eqn:E'; [done| | |done];
      simpl in Hc; exfalso.
    - destruct d as [|[v q] d]; [by apply (Hne a [])|]. specialize (Hc v). simpl in Hc.
      by rewrite decide_True in Hc.
    - destruct d' as [|[v q] d']; [by apply (Hne' a [])|]. specialize (Hc v). simpl in Hc.
      by rewrite decide_True in Hc.
  Qed.

  Lemma hist_cells_wf s l a d : HistR s l -> dget a (n3_av s) = Some d -> dwf d.
  Proof. intros (_ & _ & _ & H) E. specialize (H a). rewrite E in H. apply H. Qed.

  (** ** Scores *)
  Definition ctx_of (k : R) (h : list inst) : ctx3 ROps :=
    fold_left update_scales h (@new_ctx ROps (Some k) inner).

  Lemma ctx_of_scales k h b : dget b (x_scales (ctx_of k h)) =
    match inner_nums inner h b with [] => None | ys => Some (summ ys) end.
  Proof.
    destruct (scales_fold h (@new_ctx ROps (Some k) inner) (fun _ => [])) as (_ & _ & H); [done|].
    unfold ctx_of. rewrite H. etransitivity; [exact (batch_scale (inner_nums (N:=ROps) inner h b))|].
    by destruct (inner_nums inner h b).
  Qed.

  Lemma ctx_of_scale k h a : 0 < k -> inner_nums inner h (inner_of inner a) <> [] ->
    escale (ctx_of k h) a = 1 / k * ustd (summ (inner_nums inner h (inner_of inner a))).
  Proof.
    intros Hk Hne. unfold escale.
    destruct (scales_fold h (@new_ctx ROps (Some k) inner) (fun _ => [])) as (Hi & Hs & _); [done|].
    assert (Eon : scaling_on (ctx_of k h) = Some k).
    { unfold scaling_on, ctx_of. rewrite Hs. cbn [x_scaling new_ctx].
      destruct (neqb ROps k (nofnat ROps 0)) eqn:E; [|done]. apply Reqb_true in E. simpl in E. lra. }
    rewrite Eon.
    assert (Ein : inner_attr (ctx_of k h) a = inner_of inner a).
    { unfold ctx_of, inner_attr. rewrite Hi. cbn [x_inner new_ctx]. by destruct a as [|[]|]. }
    rewrite Ein, ctx_of_scales. by destruct (inner_nums inner h (inner_of inner a)).
  Qed.

  Lemma all_equal_aff k t xs : 0 < k -> all_equal (map (fun y => k * y + t) xs) <-> all_equal xs.
  Proof.
    intros Hk. split; intros H u v Hu Hv.
    - assert (k * u + t = k * v + t); [|nra].
      apply H; apply elem_of_list_fmap; eauto.
    - apply elem_of_list_fmap in Hu as (u' & -> & Hu). apply elem_of_list_fmap in Hv as (v' & -> & Hv).
      by rewrite (H u' v').
  Qed.

  Lemma guess_unit k (h : list inst) a (xs : list R) : 0 < k -> xs <> [] ->
    (forall y, y ∈ xs -> y ∈ inner_nums inner h (inner_of inner a) \/
       ~ all_equal (inner_nums inner h (inner_of inner a))) ->
    guess (summ xs) (escale (ctx_of k h) a) =
    guess (summ (map (aff a) xs)) (escale (ctx_of k (map unit_inst h)) a).
  Proof.
    intros Hk Hne Hc. set (b := inner_of inner a) in *. set (ys := inner_nums inner h b) in *.
    assert (Hys : ys <> []).
    { destruct xs as [|y xs]; [done|]. destruct (Hc y) as [H|H]; [left| |].
      - intros E. rewrite E in H. inversion H.
      - intros E. apply H. rewrite E. intros u v Hu. inversion Hu. }
    rewrite ctx_of_scale by done. rewrite ctx_of_scale; [|done|].
    2:{ rewrite inner_unit. fold b ys. by destruct ys. }
    rewrite inner_unit. fold b ys.
    rewrite (ustd_aff (K b) (T b) ys (HK b) Hys).
    unfold aff. fold b. unfold guess, noisy. rewrite (ustd_aff (K b) (T b) xs (HK b) Hne).
    pose proof (HK b) as HKb.
    assert (E : ustd (summ xs) / eff_scale (1 / k * ustd (summ ys)) =
                K b * ustd (summ xs) / eff_scale (1 / k * (K b * ustd (summ ys)))).
    { destruct (Rle_lt_dec (ustd (summ ys)) 0) as [Hz|Hp].
      - assert (H0 : 0 <= ustd (summ ys)) by (apply ustd_ok, ssd_nonneg).
        assert (Hu : ustd (summ ys) = 0) by lra. apply ustd_summ in Hu.
        assert (Hx : ustd (summ xs) = 0).
        { apply ustd_summ. intros u v Hu' Hv'. apply Hu.
          - by destruct (Hc u Hu').
          - by destruct (Hc v Hv'). }
        rewrite Hx. unfold Rdiv. rewrite Rmult_0_r, !Rmult_0_l. done.
      - assert (Hk' : 0 < 1 / k) by (apply Rdiv_lt_0_compat; lra).
        assert (Hp1 : 0 < 1 / k * ustd (summ ys)) by nra.
        assert (Hp2 : 0 < K b * ustd (summ ys)) by nra.
        assert (Hp3 : 0 < 1 / k * (K b * ustd (summ ys))) by nra.
        unfold eff_scale. destruct (Rle_dec _ 0) as [?|_]; [lra|].
        destruct (Rle_dec _ 0) as [?|_]; [lra|]. field. lra. }
    by rewrite E.
  Qed.

  Lemma ecg_unit k h s s' : 0 < k -> unit_tables h s s' ->
    n3_ecg (ctx_of k h) s = n3_ecg (ctx_of k (map unit_inst h)) s'.
  Proof.
    intros Hk (l & H1 & H2 & Hc).
    assert (Hcount : n3_count s = n3_count s').
    { destruct H1 as (-> & _), H2 as (-> & _). by rewrite map_length. }
    assert (Hsc : forall h', scales_ok (ctx_of k h')) by (intros h'; apply fold_scales_ok, scales_ok_new).
    pose proof (HistR_all_fine _ _ H1) as Hf1. pose proof (HistR_all_fine _ _ H2) as Hf2.
    pose proof H1 as (_ & Hwf & _). pose proof H2 as (_ & Hwf' & _).
    assert (Hd : guesses3 (ctx_of k h) s = guesses3 (ctx_of k (map unit_inst h)) s' /\
      length (vis3 s) = length (vis3 s')).
    { unfold guesses3. apply Rsum_dict; [by apply dwf_dfilter|by apply dwf_dfilter|].
      intros a. unfold vis3. rewrite !dget_dfilter.
      destruct (visible a); [|done].
      pose proof (attrs_unit s s' l a H1 H2) as Ha.
      pose proof (fun v => cells_unit s s' l a v H1 H2) as Hcell.
      destruct (dget a (n3_av s)) as [d|] eqn:E, (dget a (n3_av s')) as [d'|] eqn:E'; [|naive_solver..].
      simpl in Hcell. cbn [fst snd].
      apply Rsum_dict; [exact (hist_cells_wf s l a d H1 E)|exact (hist_cells_wf s' _ a d' H2 E')|].
      intros v. specialize (Hcell v). destruct (dget v d) as [q|], (dget v d') as [q'|]; try done.
      cbn [fst snd]. destruct Hcell as [Hq _]. unfold unit_cell in Hq. unfold contrib. rewrite Hcount.
      destruct q as [n|c], q' as [m|c']; try done.
      - by subst m.
      - destruct Hq as (-> & -> & Hne). cbn [weight cv_num summ]. rewrite map_length.
        rewrite (guess_unit k h a (nums l a) Hk Hne); [done|].
        intros y Hyn. destruct (proj1 (nums_in (N:=ROps) l a y) Hyn) as (i & Hi & Hy). apply (Hc i Hi a y). by apply dget_In. }
    destruct Hd as [Hg Hlen].
    destruct (decide (vis3 s = [])) as [Hv|Hv].
    - assert (Hv' : vis3 s' = []) by (rewrite Hv in Hlen; by destruct (vis3 s')).
      unfold n3_ecg. fold (vis3 s) (vis3 s'). by rewrite Hv, Hv'.
    - assert (Hv' : vis3 s' <> []) by (intros E; rewrite E in Hlen; by destruct (vis3 s)).
      assert (Hn : (0 < n3_count s)%nat).
      { destruct H1 as (Hn & _ & Hne & Hcells). rewrite Hn. destruct l as [|i l]; [|simpl; lia].
        exfalso. destruct (vis3 s) as [|[a d] ds] eqn:E; [done|].
        assert (Hd : (a, d) ∈ n3_av s).
        { assert (Hin : (a, d) ∈ vis3 s) by (rewrite E; left). unfold vis3 in Hin.
          by apply elem_of_filterb in Hin as [? _]. }
        apply (In_dget a d _ Hwf) in Hd. specialize (Hcells a). rewrite Hd in Hcells. simpl in Hcells.
        destruct Hcells as (_ & _ & Hno & Hcv). destruct d as [|[v q] d]; [by apply (Hne a [])|].
        destruct (decide (v = cv_key)) as [->|Hvk].
        - apply dget_None in Hcv. apply Hcv. left.
        - specialize (Hno v Hvk). rewrite (decide_True (P:=0%nat = 0%nat)) in Hno by done.
          apply dget_None in Hno. apply Hno. left. }
      rewrite (n3_ecg_ok _ s (Hsc h) Hf1 Hn Hv).
      rewrite (n3_ecg_ok _ s' (Hsc _) Hf2) by (done || by rewrite <- Hcount).
      by rewrite Hg, Hlen.
  Qed.

  Lemma exact1_unit s s' l i a : HistR s l -> HistR s' (map unit_inst l) -> good3 i ->
    exact1 s i a = exact1 s' (unit_inst i) a.
  Proof.
    intros H1 H2 (_ & _ & Hp). unfold exact1. destruct (hidden a); [done|].
    rewrite dget_unit. pose proof (attrs_unit s s' l a H1 H2) as Ha.
    pose proof (fun v => cells_unit s s' l a v H1 H2) as Hcell.
    assert (Hcount : n3_count s = n3_count s').
    { destruct H1 as (-> & _), H2 as (-> & _). by rewrite map_length. }
    specialize (Hp a).
    destruct (dget a (n3_av s)) as [d|] eqn:E, (dget a (n3_av s')) as [d'|] eqn:E'; [|naive_solver..|].
    2:{ by destruct (dget a i) as [[w|y]|]. }
    simpl in Hcell. destruct (dget a i) as [[w|y]|]; cbn [option_map unit_val]; [| |done].
    - specialize (Hcell w). destruct (dget w d) as [q|], (dget w d') as [q'|]; try done.
      destruct Hcell as [Hq Hw]. destruct q as [n|c], q' as [m|c']; try done. simpl in Hq. subst m.
      by rewrite Hcount.
    - assert (Hlen : length d = length d').
      { apply (Rsum_dict (fun _ => 0) (fun _ => 0)); [exact (hist_cells_wf s l a d H1 E)|exact (hist_cells_wf s' _ a d' H2 E')|].
        intros v. specialize (Hcell v). by destruct (dget v d), (dget v d'). }
      specialize (Hcell cv_key).
      destruct (dget cv_key d) as [q|], (dget cv_key d') as [q'|]; try done.
      rewrite Hlen. destruct (negb (length d' =? 1)%nat); [done|].
      destruct Hcell as [Hq Hw]. destruct q as [n|c], q' as [m|c']; try done.
      destruct Hq as (-> & -> & Hne). cbn [cv_num summ]. rewrite map_length, Hcount.
      change (@length (num ROps) (nums l a)) with (@length R (nums l a)).
      destruct (negb (@length R (nums l a) =? n3_count s')%nat); [done|].
      destruct (ustd_ok (summ (nums l a))) as [-> _]; [apply ssd_nonneg|].
      destruct (ustd_ok (summ (map (aff a) (nums l a)))) as [-> _]; [apply ssd_nonneg|].
      cbn [rbind]. unfold aff. set (b := inner_of inner a).
      rewrite (ustd_aff (K b) (T b) _ (HK b) Hne). pose proof (HK b) as HKb.
      assert (Hz : neqb ROps (ustd (summ (nums l a))) (nofnat ROps 0) =
                   neqb ROps (K b * ustd (summ (nums l a))) (nofnat ROps 0)).
      { change (Reqb (ustd (summ (nums l a))) 0 = Reqb (K b * ustd (summ (nums l a))) 0).
        destruct (Reqb (ustd (summ (nums l a))) 0) eqn:Z, (Reqb (K b * ustd (summ (nums l a))) 0) eqn:Z'; try done.
        - apply Reqb_true in Z. apply Reqb_false in Z'. rewrite Z in Z'. lra.
        - apply Reqb_false in Z. apply Reqb_true in Z'. apply Rmult_integral in Z'. lra. }
      rewrite <- Hz. destruct (negb _); [done|]. f_equal.
      unfold cv_unbiased_mean. cbn [cv_mean summ]. rewrite (mean_aff (K b) (T b) _ Hne).
      change (Reqb (Rmean (nums l a)) y = Reqb (K b * Rmean (nums l a) + T b) (K b * y + T b)).
      destruct (Reqb (Rmean (nums l a)) y) eqn:Z, (Reqb (K b * Rmean (nums l a) + T b) (K b * y + T b)) eqn:Z'; try done.
      + apply Reqb_true in Z. apply Reqb_false in Z'. rewrite Z in Z'. lra.
      + apply Reqb_false in Z. apply Reqb_true in Z'. exfalso. apply Z. nra.
  Qed.

  Lemma exact_unit h s s' i : unit_tables h s s' -> good3 i ->
    n3_exact s i = n3_exact s' (unit_inst i).
  Proof.
    intros (l & H1 & H2 & _) Hg.
    destruct (exact_total s l i H1) as [b E]. destruct (exact_total s' (map unit_inst l) (unit_inst i) H2) as [b' E'].
    rewrite E, E'. f_equal. unfold n3_exact in *.
    assert (Hkeys : forall a, a ∈ dkeys i ++ List.filter visible (dkeys (n3_av s)) <->
      a ∈ dkeys (unit_inst i) ++ List.filter visible (dkeys (n3_av s'))).
    { intros a. rewrite dkeys_unit, !elem_of_app, !elem_of_list_In, !filter_In, <- !elem_of_list_In.
      pose proof (attrs_unit s s' l a H1 H2) as Ha. rewrite !dget_None in Ha.
      destruct (decide (a ∈ dkeys (n3_av s))), (decide (a ∈ dkeys (n3_av s'))); tauto. }
    destruct b, b'; try done.
    - rewrite rall_true in E. assert (Ok true = Ok false :> res bool); [|done].
      rewrite <- E'. symmetry. apply rall_true. intros a Ha. rewrite <- (exact1_unit s s' l i a H1 H2 Hg).
      by apply E, Hkeys.
    - rewrite rall_true in E'. assert (Ok true = Ok false :> res bool); [|done].
      rewrite <- E. symmetry. apply rall_true. intros a Ha. rewrite (exact1_unit s s' l i a H1 H2 Hg).
      by apply E', Hkeys.
  Qed.

  (** ** Whole runs *)
  Definition unit_insts (h : list inst) (i i' : inst) : Prop := good3 i /\ i' = unit_inst i /\ covered h i.
  Definition unit_ctxs (k : R) (h : list inst) (x x' : ctx3 ROps) : Prop :=
    x = ctx_of k h /\ x' = ctx_of k (map unit_inst h).
  Definition unit_next (h : list inst) (i i' : inst) (h' : list inst) : Prop :=
    good3 i /\ i' = unit_inst i /\ h' = h ++ [i].

  Lemma units_sim k : 0 < k ->
    world_sim C C unit_tables unit_insts (unit_ctxs k) unit_next.
  Proof.
    intros Hk. split.
    - intros h. split; simpl.
      + exists []. split; [apply (Hist3_empty summarises)|]. split; [apply (Hist3_empty summarises)|].
        intros i Hi. inversion Hi.
      + intros s s' (l & (-> & _) & (-> & _) & _). by rewrite map_length.
      + intros s s' i i' (l & H1 & H2 & Hc) (Hg & -> & Hi).
        destruct (Hist3_inc summarises eq summarises_laws s l i H1 Hg) as (s1 & -> & H1').
        destruct (Hist3_inc summarises eq summarises_laws s' _ _ H2 (good_unit i Hg)) as (s2 & -> & H2').
        simpl. split; [|done]. exists (i :: l). split; [done|]. split; [done|].
        intros j Hj. apply elem_of_cons in Hj as [->|Hj]; auto.
      + intros s s' o o' (l & H1 & H2 & Hc) (m & H3 & H4 & Hc').
        destruct (Hist3_add summarises eq summarises_laws s o l m H1 H3) as (s1 & -> & H1').
        destruct (Hist3_add summarises eq summarises_laws s' o' _ _ H2 H4) as (s2 & -> & H2').
        simpl. split; [|done]. exists (l ++ m). split; [done|]. split; [by rewrite map_app|].
        intros j Hj. apply elem_of_app in Hj as [Hj|Hj]; auto.
      + intros x x' s s' [-> ->] Hs. by apply ecg_unit.
      + intros s s' i i' Hs (Hg & -> & _). by eapply exact_unit.
    - intros h i i' h' (Hg & -> & ->). split; [done|]. split; [done|]. apply covered_self.
    - intros h i i' h' x x' (Hg & -> & ->) [-> ->]. unfold unit_ctxs, ctx_of.
      by rewrite map_app, !fold_left_app.
    - intros h i i' h' s s' (Hg & -> & ->) (l & H1 & H2 & Hc). exists l. split; [done|]. split; [done|].
      intros j Hj. by apply covered_more, Hc.
  Qed.
End Units.
