(** * What log_likelihood computes (C74), in exact arithmetic. *)
From Coq Require Import Reals Lra.
From stdpp Require Import base decidable tactics gmap strings list.
From Verif Require Import Base Num TreeModel TreeFun TreeScore TreeRefine TreeSorts TreeInv
  SpecTree TreeState TreeTotal TreeLeaf RSum Nominal NominalFacts NominalR Utils PropsUtils Query QueryR
  QueryFacts QueryPredict CV CVFacts C4Facts PropsCV Cobweb3 C3Facts C3Scales C3R C3Total C3Nominal C3Query
  PropsTotal PropsQuery Query3 PropsC3 PropsC3R PropsC3E PropsQ3.
Local Notation sqrt := R_sqrt.sqrt.

Lemma rfold_sum {X} (f : R -> X -> res R) (g : X -> R) (l : list X) :
  (forall b x, x ∈ l -> f b x = Ok (b + g x)%R) -> forall b, rfold f b l = Ok (b + Rsum g l)%R.
Proof.
  induction l as [|x l IH]; intros Hf b; simpl; [f_equal; lra|].
  rewrite Hf by left. simpl. rewrite IH; [f_equal; lra|]. intros b' y Hy. apply Hf. by right.
Qed.

Lemma Rsum_delta {X} `{EqDecision X} (l : list X) (x : X) (c : R) : NoDup l -> x ∈ l ->
  Rsum (fun y => if decide (y = x) then c else 0%R) l = c.
Proof.
  induction 1 as [|y l Hy Hnd IH]; intros Hx; [inversion Hx|]. simpl.
  apply elem_of_cons in Hx as [->|Hx].
  - rewrite decide_True by done.
    assert (E : Rsum (fun z => if decide (z = y) then c else 0%R) l = 0%R); [|lra].
    clear IH. induction l as [|z l IHl]; [done|]. simpl. apply not_elem_of_cons in Hy as [Hy1 Hy2].
    inversion Hnd; subst. rewrite decide_False by congruence. rewrite IHl by done. lra.
  - rewrite IH by done. case_decide; [subst; done|lra].
Qed.

Lemma pylog_ok (x : R) : (0 < x)%R -> pylog ROps x = Ok (ln x).
Proof.
  intros H. unfold pylog. change (nltb ROps (nofnat ROps 0) x) with (Rltb 0 x).
  destruct (Rltb 0 x) eqn:E; [done|]. apply Rltb_false in E. lra.
Qed.

Section Nominal.
  Context (rng : nat -> R).
  Notation RC := (CobwebClass ROps).

  Lemma log_likelihood_hist evs s id leaf tb tl attrs vals :
    reachable RC rng tt evs s -> all_inst (C:=RC) good evs -> all_ok evs ->
    in_tree s id -> desc s id leaf -> is_leaf s leaf -> table_of s id tb -> table_of s leaf tl ->
    (0 < ns_count tl)%nat -> ll_order tb tl attrs vals ->
    exists (l m : list inst) (i : inst),
      i ∈ l /\ (forall j, j ∈ l -> j ∈ history evs) /\ Hist tb l /\ Hist tl m /\ (forall j, j ∈ m -> j ∈ l) /\
      (forall a v, visible a = true -> entry tl a v = if decide (dget a i = Some v) then ns_count tl else 0%nat) /\
      log_likelihood (N:=ROps) attrs vals tb tl =
        Ok (Rsum (fun a => ln (INR (share l a (dget a i)) / INR (length l)))%R attrs).
  Proof.
    intros Hr Hg Hao Hin Hd Hlf Ht Htl Hc Ho.
    destruct (reachable_tinv RC rng Hist LeafV good (hist_laws ROps) tt evs s Hr Hg Hao) as (t & Hok & Hti).
    destruct (proj1 (in_tree_sub RC s t id Hok) Hin) as (v & Hv & <-).
    destruct (desc_sub RC s t v leaf Hok Hv Hd) as (w & Hw & <-).
    destruct (tinv_sub RC Hist LeafV good (hist_laws ROps) t _ v Hti Hv) as (lv & Htv & Hlv & _).
    destruct (tinv_sub RC Hist LeafV good (hist_laws ROps) v lv w Htv Hw) as (lw & Htw & Hsub & _).
    assert (Hwt : sub RC w t) by (by eapply sub_trans).
    rewrite (table_of_det _ _ _ _ _ Ht (sub_table _ _ _ _ Hok Hv)) in *.
    rewrite (table_of_det _ _ _ _ _ Htl (sub_table _ _ _ _ Hok Hwt)) in *.
    apply tinv_summ in Htv as Hh. apply tinv_summ in Htw as Hhl.
    assert (Hlw : LeafV lw).
    { apply (is_leaf_sub _ _ _ _ Hok) in Hlf as (tb' & Hs).
      assert (Ew : w = T (tid w) tb' []).
      { apply (sub_unique RC t); [apply Hok|done|done|done]. }
      rewrite Ew in Htw. inversion Htw as [id' sm l Hsm Hlvv|id' sm kids ls l H2 HF Hn Hp Hsm]; subst; [done|].
      exfalso. simpl in *. lia. }
    destruct lw as [|i lw]; [destruct Hhl as [Hc' _]; simpl in Hc'; lia|].
    exists lv, (i :: lw), i. split; [apply Hsub; left|]. split; [done|]. split; [done|]. split; [done|]. split; [done|].
    assert (Hocc : forall a x, visible a = true -> share (i :: lw) a x = if decide (x = dget a i) then length (i :: lw) else 0%nat).
    { intros a x Ha. assert (Hall : forall j, j ∈ i :: lw -> dget a j = dget a i).
      { intros j Hj. apply (Hlw j i Hj); [left|done]. }
      revert Hall. clear. generalize (i :: lw) as m. generalize (dget a i) as y. clear. intros y m.
      induction m as [|j m IH]; intros Hall.
      - destruct x; simpl; by case_decide.
      - specialize (IH (fun j' Hj => Hall j' (elem_of_list_further _ _ _ Hj))). pose proof (Hall j (elem_of_list_here _ _)) as Hj.
        destruct x as [x|]; cbn [share occ lacks] in *; rewrite Hj, IH; destruct y as [y|]; repeat case_decide; simplify_eq; simpl; done. }
    split.
    { intros a x Ha. destruct Hhl as (Hcl & _ & He). rewrite He, Hcl. change (occ (i :: lw) a x) with (share (i :: lw) a (Some x)).
      rewrite Hocc by done. destruct (decide (dget a i = Some x)) as [E|E].
      - by rewrite decide_True.
      - rewrite decide_False; [done|]. intros E'. by symmetry in E'. }
    assert (Hne : i :: lw <> []) by done. assert (Hl : lv <> []).
    { intros ->. assert (Hi : i ∈ []) by (apply Hsub; left). inversion Hi. }
    destruct Ho as [[_ Hat] Hval].
    unfold log_likelihood. change (nofnat ROps 0) with 0%R.
    etransitivity; [apply (rfold_sum _ (fun a => ln (INR (share lv a (dget a i)) / INR (length lv))%R))|exact (f_equal (@Ok R) (Rplus_0_l _))].
    intros b a Ha. apply Hat in Ha as [Ha _]. simpl.
    destruct (Hval a) as [Hnd Hvals].
    set (c := ln (INR (share lv a (dget a i)) / INR (length lv))).
    etransitivity; [apply (rfold_sum _ (fun x => if decide (x = dget a i) then c else 0%R))|].
    2:{ rewrite Rsum_delta; [done|done|]. apply Hvals. destruct (dget a i) as [x|] eqn:Ex; [right|by left].
      exists x. split; [done|]. right. unfold vals_of. specialize (Hocc a (Some x) Ha).
      rewrite decide_True in Hocc by congruence. destruct Hhl as (_ & _ & He). specialize (He a x).
      change (entry (tsum w) a x = share (i :: lw) a (Some x)) in He. rewrite Hocc in He. unfold entry in He.
      destruct (dget a (ns_av (tsum w))) as [d|]; [|done]. destruct (dget x d) eqn:Ed; [|done].
      by apply dget_Some_key in Ed. }
    intros b' x _. rewrite (probability_share (tsum w) (i :: lw) Hhl Hne), Hocc by done. cbn [rbind].
    assert (Hlen : (0 < INR (length (i :: lw)))%R) by (apply lt_0_INR; simpl; lia).
    assert (Hlv0 : (0 < INR (length lv))%R) by (apply lt_0_INR; destruct lv; [done|simpl; lia]).
    change (nltb ROps 0%R) with (Rltb 0). case_decide as Ex.
    - rewrite (proj2 (Rltb_true 0 _)) by (by apply Rdiv_lt_0_compat). subst x.
      rewrite (probability_share (tsum v) lv Hh Hl). cbn [rbind].
      assert (Hpos : (0 < share lv a (dget a i))%nat).
      { apply share_pos. exists i. split; [apply Hsub; left|done]. }
      assert (Hq : (0 < INR (share lv a (dget a i)) / INR (length lv))%R) by (apply Rdiv_lt_0_compat; [by apply lt_0_INR|done]).
      replace (nmul ROps (INR (share lv a (dget a i)) / INR (length lv))%R (INR (length (i :: lw)) / INR (length (i :: lw)))%R)
        with (INR (share lv a (dget a i)) / INR (length lv))%R.
      2:{ change (INR (share lv a (dget a i)) / INR (length lv) =
            INR (share lv a (dget a i)) / INR (length lv) * (INR (length (i :: lw)) / INR (length (i :: lw))))%R. field. lra. }
      change (nltb ROps) with Rltb. rewrite (proj2 (Rltb_false _ 0)) by lra.
      rewrite pylog_ok by done. done.
    - rewrite (proj2 (Rltb_false 0 _)) by (simpl INR at 1; unfold Rdiv; lra). f_equal. lra.
  Qed.

  (** The instance of the leaf gets, for every visible attribute that occurs in
      the concept, the logarithm of the share of the concept's instances that
      have the same value (or lack the attribute, if the leaf's instance does). *)
  Theorem C74_log_likelihood evs s id leaf tb tl attrs vals :
    reachable RC rng tt evs s -> all_inst (C:=RC) good evs -> all_ok evs ->
    in_tree s id -> desc s id leaf -> is_leaf s leaf -> table_of s id tb -> table_of s leaf tl ->
    (0 < ns_count tl)%nat -> ll_order tb tl attrs vals ->
    exists (l : list inst) (i : inst),
      i ∈ l /\ (forall j, j ∈ l -> j ∈ history evs) /\
      ns_count tb = length l /\ (forall a v, entry tb a v = occ l a v) /\
      (forall a v, visible a = true -> entry tl a v = if decide (dget a i = Some v) then ns_count tl else 0%nat) /\
      log_likelihood (N:=ROps) attrs vals tb tl =
        Ok (Rsum (fun a => ln (INR (share l a (dget a i)) / INR (length l)))%R attrs).
  Proof.
    intros Hr Hg Hao Hin Hd Hlf Ht Htl Hc Ho.
    destruct (log_likelihood_hist evs s id leaf tb tl attrs vals Hr Hg Hao Hin Hd Hlf Ht Htl Hc Ho)
      as (l & m & i & H1 & H2 & H3 & _ & _ & H4 & H5).
    exists l, i. split; [done|]. split; [done|]. split; [apply H3|]. split; [apply H3|]. done.
  Qed.
End Nominal.

(** ** Cobweb/3 *)
(** The density of the normal distribution with mean [m] and variance [v]. *)
Definition density (m v y : R) : R := (1 / sqrt (2 * PI * v) * exp (- ((m - y) * (m - y)) / (2 * v)))%R.

(** How likely the concept of the instances [l] finds the value [v] of [a]: for
    a missing or nominal value the share of the instances that have it; for a
    number the share of instances with a number times the density at it of the
    normal distribution fitted to their numbers, widened by acuity noise. *)
Definition likelihood (l : list (inst3 ROps)) (a : attr) (v : option (val3 ROps)) : R :=
  let p := (INR (having l a (kind_of v)) / INR (length l))%R in
  match v with
  | Some (VNum y) =>
    match summary_of (nums l a) with
    | Some c => (p * density (cv_mean c) (ustd c * ustd c + / (2 * PI)) y)%R
    | None => 0%R
    end
  | _ => p
  end.

Lemma prod_range (x y : R) : (0 < x <= 1)%R -> (0 < y <= 1)%R -> (0 < x * y <= 1)%R.
Proof.
  intros Hx Hy. split; [apply Rmult_lt_0_compat; lra|]. rewrite <- (Rmult_1_r 1). apply Rmult_le_compat; lra.
Qed.

Lemma ll_step (h n n' g b : R) (G : res (num ROps)) : (0 < n)%R -> (0 < n')%R -> G = Ok g -> (0 < h / n * g)%R ->
  (let? pn1 := pydiv ROps h n in let? pn2 := pydiv ROps n' n' in let? g := G in
   if nltb ROps 0%R (nmul ROps (nmul ROps pn1 pn2) g)
   then let? l := pylog ROps (nmul ROps (nmul ROps pn1 pn2) g) in Ok (b + l)%R else Err OtherException)%res
  = Ok (b + ln (h / n * g))%R.
Proof.
  intros Hn Hn' -> Hp. rewrite !CVFacts.pydiv_ok by lra. cbn [rbind].
  change (nmul ROps (nmul ROps (h / n)%R (n' / n')%R) g) with (h / n * (n' / n') * g)%R.
  replace (h / n * (n' / n') * g)%R with (h / n * g)%R by (field; lra).
  change (nltb ROps 0%R) with (Rltb 0). rewrite (proj2 (Rltb_true _ _)) by done. by rewrite pylog_ok.
Qed.

Lemma ll_step_nominal (z L b : R) : z = L -> (0 < L)%R ->
  (if Rltb 0 z then let? l := pylog ROps z in Ok (b + l)%R else Err OtherException)%res = Ok (b + ln L)%R.
Proof. intros -> H. rewrite (proj2 (Rltb_true _ _)) by done. by rewrite pylog_ok. Qed.

Section Numeric.
  Context (rng : nat -> num ROps) (sc : option R) (inner : bool).
  Notation C := (Cobweb3Class ROps).
  Notation x0 := (@new_ctx ROps sc inner).
  Notation good := (good3 (N:=ROps)).

  Lemma having_all (m : list (inst3 ROps)) a y k : (forall j, j ∈ m -> dget a j = y) ->
    having m a k = if decide (k = kind_of y) then length m else 0%nat.
  Proof.
    induction m as [|j m IH]; intros H; [by case_decide|]. rewrite having_cons, IH.
    2:{ intros j' Hj. apply H. by right. }
    rewrite (H j) by left. repeat case_decide; try congruence; done.
  Qed.

  Lemma nums_having (m : list (inst3 ROps)) a : length (nums m a) = having m a Number.
  Proof.
    induction m as [|j m IH]; [done|]. rewrite having_cons. cbn [nums].
    destruct (dget a j) as [[?|?]|]; cbn [kind_of]; case_decide; try done. cbn [length]. by rewrite IH.
  Qed.

  Lemma nums_all (m : list (inst3 ROps)) a y : (forall j, j ∈ m -> dget a j = y) ->
    nums m a = match y with Some (VNum z) => repeat z (length m) | _ => [] end.
  Proof.
    induction m as [|j m IH]; intros H; [by destruct y as [[?|?]|]|]. cbn [nums].
    assert (Hm : nums m a = match y with Some (VNum z) => repeat z (length m) | _ => [] end).
    { apply IH. intros j' Hj. apply H. by right. }
    rewrite (H j) by left. destruct y as [[?|?]|]; cbn [length repeat]; by rewrite Hm.
  Qed.

  Lemma summ_repeat z n : (0 < n)%nat -> summ (repeat z n) = @CVal ROps n z 0%R.
  Proof.
    intros Hn. assert (Hs : Rsum (fun x => x) (repeat z n) = (INR n * z)%R).
    { clear. induction n as [|n IH]; [simpl; lra|]. cbn [repeat Rsum]. rewrite IH, S_INR. lra. }
    assert (Hp : (0 < INR n)%R) by (by apply lt_0_INR).
    assert (Hm : Rmean (repeat z n) = z).
    { unfold Rmean. rewrite Hs, repeat_length. field. lra. }
    apply cval_eq; [simpl; by rewrite repeat_length|exact Hm|].
    change (Rssd (repeat z n) = 0%R). unfold Rssd. rewrite Hm. clear. induction n as [|n IH]; [done|].
    cbn [repeat Rsum]. rewrite IH. lra.
  Qed.

  Lemma numeric_repeat (tb : nsum3 ROps) m a y n : HistR tb m -> (0 < n)%nat -> nums m a = repeat y n ->
    numeric_of tb a = Some (@CVal ROps n y 0%R).
  Proof.
    intros Hh Hn En. pose proof (hist_numeric summarises tb m a Hh) as H. rewrite En in H. destruct n as [|n]; [lia|].
    cbn [repeat] in H. destruct H as (c & -> & Hs). f_equal. etransitivity; [exact Hs|]. exact (summ_repeat y (S n) Hn).
  Qed.

  Lemma vals_key (tb : nsum3 ROps) l a k : HistR tb l -> k ∈ vals_of3 tb a <-> (0 < having l a (key_kind (Some k)))%nat.
  Proof.
    intros Hh. rewrite <- (share_having tb l Hh a (Some k)).
    destruct (flat_Hist tb l Hh) as (_ & [_ Hav] & He). change (share (map flat_inst l) a (Some k)) with (occ (map flat_inst l) a k).
    rewrite <- He. unfold vals_of3, entry. specialize (Hav a). rewrite dget_flat_table in Hav |- *.
    destruct (dget a (n3_av tb)) as [d|]; simpl in *.
    - destruct (Hav _ eq_refl) as (_ & _ & Hp). rewrite dget_flat_dict. split.
      + intros Hk. apply dget_key_Some in Hk as (q & Hq). rewrite Hq. simpl. apply (Hp k). by rewrite dget_flat_dict, Hq.
      + destruct (dget k d) as [q|] eqn:Eq; simpl; [|lia]. intros _. by apply dget_Some_key in Eq.
    - split; [|lia]. intros H. inversion H.
  Qed.

  Lemma log_likelihood3_hist evs s id leaf (tb tl : nsum3 ROps) attrs vals (x : ctx3 ROps) :
    reachable C rng x0 evs s -> all_inst (C:=C) good evs -> all_ok evs ->
    in_tree s id -> desc s id leaf -> is_leaf s leaf -> table_of s id tb -> table_of s leaf tl ->
    (0 < n3_count tl)%nat -> ll_order3 tb tl attrs vals ->
    exists (l m : list (inst3 ROps)) (i : inst3 ROps),
      i ∈ m /\ (forall j, j ∈ m -> j ∈ l) /\ (forall j, j ∈ l -> j ∈ history evs) /\
      HistR tb l /\ HistR tl m /\
      (forall a j, visible a = true -> j ∈ m -> dget a j = dget a i) /\
      log_likelihood3 x attrs vals tb tl = Ok (Rsum (fun a => ln (likelihood l a (dget a i))) attrs) /\
      (forall a, visible a = true -> (0 < likelihood l a (dget a i) <= 1)%R).
  Proof.
    intros Hr Hg Hao Hin Hd Hlf Ht Htl Hc Ho.
    destruct (reachable_tinv C rng HistR LeafR good histR_laws x0 evs s Hr Hg Hao) as (t & Hok & Hti).
    destruct (proj1 (in_tree_sub C s t id Hok) Hin) as (v & Hv & <-).
    destruct (desc_sub C s t v leaf Hok Hv Hd) as (w & Hw & <-).
    destruct (tinv_sub C HistR LeafR good histR_laws t _ v Hti Hv) as (lv & Htv & Hlv & _).
    destruct (tinv_sub C HistR LeafR good histR_laws v lv w Htv Hw) as (lw & Htw & Hsub & _).
    assert (Hwt : sub C w t) by (by eapply sub_trans).
    rewrite (table_of_det _ _ _ _ _ Ht (sub_table _ _ _ _ Hok Hv)) in *.
    rewrite (table_of_det _ _ _ _ _ Htl (sub_table _ _ _ _ Hok Hwt)) in *.
    apply tinv_summ in Htv as Hh. apply tinv_summ in Htw as Hhl.
    assert (Hlw : LeafR lw).
    { apply (is_leaf_sub _ _ _ _ Hok) in Hlf as (tb' & Hs).
      assert (Ew : w = T (tid w) tb' []).
      { apply (sub_unique C t); [apply Hok|done|done|done]. }
      rewrite Ew in Htw. inversion Htw as [id' sm l Hsm Hlvv|id' sm kids ls l H2 HF Hn Hp Hsm]; subst; [done|].
      exfalso. simpl in *. lia. }
    assert (Hne : lw <> []) by (intros ->; destruct Hhl as [Hc' _]; simpl in Hc'; lia).
    assert (exists i, i ∈ lw) as (i & Hi) by (destruct lw as [|i ?]; [done|exists i; left]).
    assert (Hl : lv <> []) by (intros ->; apply Hsub in Hi; inversion Hi).
    exists lv, lw, i. split; [done|]. split; [done|]. split; [done|]. split; [done|].
    split; [done|].
    assert (Hall : forall a j, visible a = true -> j ∈ lw -> dget a j = dget a i).
    { intros a j Ha Hj. pose proof (Hlw j i Hj Hi a Ha) as Hs.
      destruct (dget a i) as [[?|?]|], (dget a j) as [[?|?]|]; simpl in Hs; try done; by subst. }
    split; [done|]. destruct Ho as [[_ Hat] Hval].
    assert (Hlen : (0 < INR (length lw))%R) by (apply lt_0_INR; destruct lw; [done|simpl; lia]).
    assert (Hlv0 : (0 < INR (length lv))%R) by (apply lt_0_INR; destruct lv; [done|simpl; lia]).
    (* every value of the leaf's instance is likely *)
    assert (Hhave : forall a, (0 < having lv a (kind_of (dget a i)) <= length lv)%nat).
    { intros a. unfold having. split.
      - apply Hsub in Hi. clear -Hi. induction lv as [|j m IH]; [inversion Hi|]. rewrite filter_cons.
        apply elem_of_cons in Hi as [<-|Hi]; [rewrite decide_True by done; simpl; lia|]. case_decide; [simpl; lia|auto].
      - apply filter_length. }
    assert (Hnum : forall a y, dget a i = Some (VNum y) -> visible a = true ->
      exists c, summary_of (nums lv a) = Some c /\ (0 <= cv_msq c)%R /\ numeric_of (tsum v) a = Some c /\ cv_num c = having lv a Number /\
        numeric_of (tsum w) a = Some (@CVal ROps (length lw) y 0%R) /\
        cv_integral c (@CVal ROps (length lw) y 0%R) = Ok (density (cv_mean c) (ustd c * ustd c + / (2 * PI)) y)).
    { intros a y Hy Ha.
      assert (Hnl : length (nums lv a) = having lv a Number).
      { apply nums_having. }
      pose proof (Hhave a) as [Hh1 _]. rewrite Hy in Hh1. cbn [kind_of] in Hh1.
      rewrite (hist_summary (tsum v) lv a Hh). unfold summary_of.
      destruct (nums lv a) as [|z zs] eqn:En; [simpl in Hnl; lia|]. rewrite <- En in *.
      exists (summ (nums lv a)). split; [done|]. split; [apply ssd_nonneg|]. split; [done|]. split; [done|]. split.
      - apply (numeric_repeat (tsum w) lw a y (length lw) Hhl).
        + apply INR_lt. exact Hlen.
        + etransitivity; [exact (nums_all lw a _ (fun j Hj => Hall a j Ha Hj))|]. by rewrite Hy.
      - rewrite integral_value; [|apply ssd_nonneg|simpl; lra]. unfold density, spread. cbn [cv_mean].
        assert (Hz : ustd (@CVal ROps (length lw) y 0%R) = 0%R).
        { rewrite <- (summ_repeat y (length lw)) by (destruct lw; [done|simpl; lia]). apply ustd_summ.
          intros u u' Hu Hu'. apply elem_of_list_In, repeat_spec in Hu, Hu'. congruence. }
        rewrite Hz. replace (ustd (summ (nums lv a)) * ustd (summ (nums lv a)) + 0 * 0 + / (2 * PI))%R
          with (ustd (summ (nums lv a)) * ustd (summ (nums lv a)) + / (2 * PI))%R by lra. done. }
    assert (Hpos : forall a, visible a = true -> (0 < likelihood lv a (dget a i) <= 1)%R).
    { intros a Ha. pose proof (Hhave a) as [Hh1 Hh2]. unfold likelihood.
      assert (Hp : (0 < INR (having lv a (kind_of (dget a i))) / INR (length lv) <= 1)%R).
      { split; [apply Rdiv_lt_0_compat; [by apply lt_0_INR|done]|].
        apply le_INR in Hh2. apply Rmult_le_reg_r with (INR (length lv)); [done|]. unfold Rdiv.
        rewrite Rmult_assoc, Rinv_l by lra. lra. }
      destruct (dget a i) as [[u|y]|] eqn:Ey; [done| |done].
      destruct (Hnum a y Ey Ha) as (c & -> & Hm & _ & _ & _ & Hint).
      destruct (C34_integral_range c (@CVal ROps (length lw) y 0%R) Hm) as (p & Hp' & Hr' & _); [simpl; lra|].
      rewrite Hint in Hp'. injection Hp' as ->.
      exact (prod_range _ _ Hp Hr'). }
    split; [|done].
    unfold log_likelihood3. change (nofnat ROps 0) with 0%R.
    etransitivity; [apply (rfold_sum _ (fun a => ln (likelihood lv a (dget a i))))|exact (f_equal (@Ok R) (Rplus_0_l _))].
    intros b a Ha. apply Hat in Ha as [Ha _]. simpl.
    destruct (Hval a) as [Hnd Hvals]. specialize (Hpos a Ha). specialize (Hall a).
    set (u := match kind_of (dget a i) with Missing => None | Number => Some cv_key | Nominal v => Some v end).
    assert (Hnk : dget a i <> Some (VNom cv_key)) by (by apply (no_key (tsum w) lw Hhl)).
    assert (Hu : forall k, key_kind k = kind_of (dget a i) <-> k = u).
    { intros k. unfold u. destruct k as [k|]; cbn [key_kind]; destruct (dget a i) as [[z|z]|]; cbn [kind_of];
        try (destruct (decide (k = cv_key)) as [->|Hk]); split; intros E; try done; try congruence. }
    assert (Hhw : forall k, having lw a (key_kind k) = if decide (k = u) then length lw else 0%nat).
    { intros k. rewrite (having_all lw a (dget a i) _ (fun j Hj => Hall j Ha Hj)).
      destruct (Hu k) as [Hu1 Hu2]. clear -Hu1 Hu2. repeat case_decide; try done; exfalso; auto. }
    etransitivity; [apply (rfold_sum _ (fun k => if decide (k = u) then ln (likelihood lv a (dget a i)) else 0%R))|].
    2:{ rewrite Rsum_delta; [done|done|]. apply Hvals. destruct u as [k|] eqn:Eu; [right|by left].
        exists k. split; [done|]. right. apply (vals_key (tsum w) lw a k Hhl). rewrite Hhw, decide_True by done.
        destruct lw; [done|simpl; lia]. }
    intros b' k _. destruct (decide (k = Some cv_key)) as [->|Hk].
    - destruct (decide (Some cv_key = u)) as [Eu|Eu].
      + assert (Hky : kind_of (dget a i) = Number).
        { rewrite <- (proj2 (Hu _) Eu). cbn [key_kind]. by rewrite decide_True. }
        destruct (dget a i) as [[?|y]|] eqn:Ey; try done.
        destruct (Hnum a y Ey Ha) as (c & Hs & Hm & Hnv & Hcn & Hnw & Hint).
        unfold numeric_of in Hnv, Hnw.
        destruct (dget a (n3_av (tsum v))) as [dv|]; [|done]. destruct (dget a (n3_av (tsum w))) as [dw|]; [|done].
        simpl default. destruct (dget cv_key dv) as [[?|c1]|]; [done| |done]. destruct (dget cv_key dw) as [[?|c2]|]; [done| |done].
        injection Hnv as ->. injection Hnw as ->.
        destruct Hh as [Hcv _]. destruct Hhl as [Hcw _]. rewrite Hcv, Hcw, Hcn. cbn [cv_num].
        change (nofnat ROps) with INR.
        unfold likelihood in Hpos |- *. rewrite Hs in Hpos |- *.
        exact (ll_step _ _ _ _ b' _ Hlv0 Hlen Hint (proj1 Hpos)).
      + assert (Hz : having lw a Number = 0%nat).
        { pose proof (Hhw (Some cv_key)) as Hz. cbn [key_kind] in Hz. rewrite decide_True in Hz by done.
          by rewrite decide_False in Hz. }
        assert (Hn : numeric_of (tsum w) a = None).
        { rewrite (hist_summary (tsum w) lw a Hhl). rewrite (nums_all lw a _ (fun j Hj => Hall j Ha Hj)).
          destruct (dget a i) as [[?|?]|]; try done. }
        assert (Hd2 : dget cv_key (default [] (dget a (n3_av (tsum w)))) = None).
        { unfold numeric_of in Hn. destruct (dget a (n3_av (tsum w))) as [dw|] eqn:Edw; [|done]. simpl.
          destruct (dget cv_key dw) as [[n|?]|] eqn:Eq; [|done|done]. exfalso.
          assert (Hin2 : (cv_key, Cnt n) ∈ dw) by (by apply dget_In).
          pose proof (cell_count_ok summarises (tsum w) lw a dw (cv_key, Cnt n) Hhl Edw Hin2) as Hcc.
          unfold cell_count in Hcc. cbn [fst snd] in Hcc. by rewrite decide_True in Hcc. }
        rewrite Hd2. replace (b' + 0)%R with b' by lra.
        by destruct (dget cv_key (default [] (dget a (n3_av (tsum v))))) as [[?|?]|].
    - assert (Hpw : probability3 x (tsum w) a (option_map VNom k) = Ok (INR (having lw a (key_kind k)) / INR (length lw))%R).
      { etransitivity; [exact (probability_flat summarises (tsum w) lw x a k Hhl Hk)|]. exact (prob_having _ _ Hhl Hne a k). }
      assert (Hpv : probability3 x (tsum v) a (option_map VNom k) = Ok (INR (having lv a (key_kind k)) / INR (length lv))%R).
      { etransitivity; [exact (probability_flat summarises (tsum v) lv x a k Hh Hk)|]. exact (prob_having _ _ Hh Hl a k). }
      rewrite Hpw, Hpv, Hhw. cbn [rbind]. change (nltb ROps) with Rltb. case_decide as Ek.
      + rewrite (proj2 (Rltb_true 0 _)) by (by apply Rdiv_lt_0_compat).
        assert (Ekk : key_kind k = kind_of (dget a i)) by (by apply Hu).
        assert (El : nmul ROps (INR (having lv a (key_kind k)) / INR (length lv))%R (INR (length lw) / INR (length lw))%R = likelihood lv a (dget a i)).
        { unfold likelihood. rewrite Ekk.
          assert (Hnn : match dget a i with Some (VNum _) => False | _ => True end).
          { by destruct (dget a i) as [[?|y]|]. }
          change (INR (having lv a (kind_of (dget a i))) / INR (length lv) * (INR (length lw) / INR (length lw)) =
            match dget a i with
            | Some (VNum y) => match summary_of (nums lv a) with
                | Some c => INR (having lv a (kind_of (dget a i))) / INR (length lv) * density (cv_mean c) (ustd c * ustd c + / (2 * PI)) y
                | None => 0 end
            | _ => INR (having lv a (kind_of (dget a i))) / INR (length lv) end)%R.
          destruct (dget a i) as [[?|y]|]; [|done|]; field; lra. }
        exact (ll_step_nominal _ _ b' El (proj1 Hpos)).
      + rewrite (proj2 (Rltb_false 0 _)) by (simpl INR at 1; unfold Rdiv; lra).
        exact (f_equal (@Ok R) (eq_sym (Rplus_0_r _))).
  Qed.

  Theorem C74_log_likelihood3 evs s id leaf (tb tl : nsum3 ROps) attrs vals (x : ctx3 ROps) :
    reachable C rng x0 evs s -> all_inst (C:=C) good evs -> all_ok evs ->
    in_tree s id -> desc s id leaf -> is_leaf s leaf -> table_of s id tb -> table_of s leaf tl ->
    (0 < n3_count tl)%nat -> ll_order3 tb tl attrs vals ->
    exists (l m : list (inst3 ROps)) (i : inst3 ROps),
      i ∈ m /\ (forall j, j ∈ m -> j ∈ l) /\ (forall j, j ∈ l -> j ∈ history evs) /\
      describes tb l /\ describes tl m /\
      (forall a j, visible a = true -> j ∈ m -> dget a j = dget a i) /\
      log_likelihood3 x attrs vals tb tl = Ok (Rsum (fun a => ln (likelihood l a (dget a i))) attrs) /\
      (forall a, visible a = true -> (0 < likelihood l a (dget a i) <= 1)%R).
  Proof.
    intros Hr Hg Hao Hin Hd Hlf Ht Htl Hc Ho.
    destruct (log_likelihood3_hist evs s id leaf tb tl attrs vals x Hr Hg Hao Hin Hd Hlf Ht Htl Hc Ho)
      as (l & m & i & H1 & H2 & H3 & H4 & H5 & H6).
    exists l, m, i. split; [done|]. split; [done|]. split; [done|]. split; [by apply HistR_describes|].
    split; [by apply HistR_describes|]. done.
  Qed.

  (** So it is at most 0, and defined. *)
  Theorem C74_log_likelihood3_nonpositive evs s id leaf (tb tl : nsum3 ROps) attrs vals (x : ctx3 ROps) :
    reachable C rng x0 evs s -> all_inst (C:=C) good evs -> all_ok evs ->
    in_tree s id -> desc s id leaf -> is_leaf s leaf -> table_of s id tb -> table_of s leaf tl ->
    (0 < n3_count tl)%nat -> ll_order3 tb tl attrs vals ->
    exists r : R, log_likelihood3 x attrs vals tb tl = Ok r /\ (r <= 0)%R.
  Proof.
    intros Hr Hg Hao Hin Hd Hlf Ht Htl Hc Ho. pose proof Ho as [[_ Hat] _].
    destruct (C74_log_likelihood3 evs s id leaf tb tl attrs vals x Hr Hg Hao Hin Hd Hlf Ht Htl Hc Ho)
      as (l & m & i & _ & _ & _ & _ & _ & _ & E & Hpos).
    eexists. split; [exact E|].
    assert (Hv : forall a, a ∈ attrs -> visible a = true) by (intros a Ha; by apply Hat in Ha as [? _]).
    clear -Hv Hpos. induction attrs as [|a attrs IH]; simpl; [lra|].
    assert (ln (likelihood l a (dget a i)) <= 0)%R.
    { destruct (Hpos a) as [H0 H1]; [apply Hv; left|]. rewrite <- ln_1.
      destruct (Req_dec (likelihood l a (dget a i)) 1) as [->|]; [lra|]. left. apply ln_increasing; lra. }
    specialize (IH (fun a Ha => Hv a (elem_of_list_further _ _ _ Ha))). lra.
  Qed.
End Numeric.

(** ** The hypotheses are met *)
(** The two sets always have an enumeration. *)
Lemma ll_order3_exists (tb tl : nsum3 ROps) : exists attrs vals, ll_order3 tb tl attrs vals.
Proof.
  exists (remove_dups (List.filter visible (dkeys (n3_av tb) ++ dkeys (n3_av tl)))),
    (fun a => remove_dups (None :: map Some (vals_of3 tb a ++ vals_of3 tl a))).
  split.
  - split; [apply NoDup_remove_dups|]. intros a. rewrite elem_of_remove_dups, elem_of_list_In, List.filter_In.
    rewrite <- elem_of_list_In, elem_of_app. tauto.
  - intros a. split; [apply NoDup_remove_dups|]. intros v. rewrite elem_of_remove_dups, elem_of_cons.
    rewrite elem_of_list_In, in_map_iff. split; (intros [?|(w & Hw & H)]; [by left|]); right; exists w.
    + split; [done|]. by apply elem_of_app, elem_of_list_In.
    + split; [done|]. by apply elem_of_list_In, elem_of_app.
Qed.

(** After five fits of instances with numbers and nominals, the leaf of the
    last one below the root, for the root itself. *)
Lemma ex_C74 : exists evs s leaf tb tl attrs vals,
  reachable RC3 ex_draws (@new_ctx ROps (Some 0.5%R) true) evs s /\
  all_inst (C:=RC3) (good3 (N:=ROps)) evs /\ all_ok evs /\ length (history evs) = 5%nat /\
  in_tree s (st_root s) /\ desc s (st_root s) leaf /\ is_leaf s leaf /\ table_of s (st_root s) tb /\ table_of s leaf tl /\
  n3_count tb = 5%nat /\ (0 < n3_count tl)%nat /\ ll_order3 tb tl attrs vals.
Proof.
  destruct ex_C31 as (evs & s & Hr & Hg & Hok & Hh).
  assert (Hg' : all_inst (C:=RC3) (good3 (N:=ROps)) evs).
  { eapply Forall_impl; [exact Hg|]. intros e He i Hi. by apply He. }
  destruct (xci_fits 5 "p") as [Hgi Hvi]; [done|].
  destruct (C63_fitting_never_raises ex_draws (Some 0.5%R) true ex_draws_distinct evs s Hr Hg) as [_ Hf].
  destruct (Hf (xci 5 "p") Hgi) as [(leaf & El) _].
  { destruct Hvi as (a & Ha & Hk). by exists a. }
  destruct (cobweb RC3 ex_draws (xci 5 "p") s) as [r s'] eqn:E. simpl in El. subst r.
  destruct (C65_returned_leaf ex_draws (Some 0.5%R) true evs s (xci 5 "p") leaf s' Hr Hg' Hgi E) as (Hl & tl & Htl & Hc & _).
  assert (Hr' : reachable RC3 ex_draws (@new_ctx ROps (Some 0.5%R) true) (evs ++ [@EFit _ RC3 (xci 5 "p") (Ok leaf)]) s').
  { destruct Hr as (c & p & Hr). exists c, p. eapply run_snoc; [exact Hr|]. by apply step_fit. }
  assert (Hg2 : all_inst (C:=RC3) (good3 (N:=ROps)) (evs ++ [@EFit _ RC3 (xci 5 "p") (Ok leaf)])).
  { apply Forall_app. split; [done|]. apply Forall_cons_2; [|apply Forall_nil_2]. by intros i ->. }
  assert (Hok2 : all_ok (evs ++ [@EFit _ RC3 (xci 5 "p") (Ok leaf)])).
  { apply Forall_app. split; [done|]. apply Forall_cons_2; [done|apply Forall_nil_2]. }
  assert (Hh2 : history (evs ++ [@EFit _ RC3 (xci 5 "p") (Ok leaf)]) = history evs ++ [xci 5 "p"]).
  { unfold history. by rewrite fold_left_app. }
  destruct (C31_root_summaries ex_draws (Some 0.5%R) true _ s' Hr' Hg2 Hok2) as (tb & Htb & Hcnt & _).
  rewrite Hh2, Hh in Hcnt.
  destruct (ll_order3_exists tb tl) as (attrs & vals & Ho).
  exists (evs ++ [@EFit _ RC3 (xci 5 "p") (Ok leaf)]), s', leaf, tb, tl, attrs, vals.
  split; [done|]. split; [done|]. split; [done|]. split; [by rewrite Hh2, Hh|]. split; [apply desc_refl|].
  split; [apply Hl|]. split; [done|]. split; [done|]. split; [done|]. split; [done|]. split; [done|]. done.
Qed.

Print Assumptions C74_log_likelihood.
Print Assumptions C74_log_likelihood3.
