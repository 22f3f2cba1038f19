(** * The error scores of evaluation.py (C83, C84), and evaluation on a
    Cobweb3Tree (C79). *)
From Coq Require Import Reals Lra.
From stdpp Require Import base decidable tactics list gmap strings.
From Verif Require Import Base Num TreeModel TreeFun TreeScore TreeRefine TreeSorts TreeInv
  SpecTree TreeState TreeTotal TreeLeaf RSum Nominal NominalFacts NominalTotal NominalTree NominalR Utils CV CVFacts Cobweb3
  C3Facts C3Scales C3R C3Total C3Query Query Query3 TrestleFacts PropsTree PropsTotal PropsC3 PropsC3R PropsC3U PropsC3E PropsQ3 Eval PropsEval PropsEvalR.
Set Default Proof Using "Type".
Open Scope list_scope.

Lemma history_inst {N} {C : NodeClass N} (P : nc_inst C -> Prop) (evs : list (event C)) : all_inst P evs -> Forall P (history evs).
Proof.
  unfold history, all_inst. intros H. assert (Hgen : forall l, Forall P l -> Forall P (fold_left hist_step evs l)).
  { induction H as [|e evs He _ IH]; intros l Hl; [done|]. cbn [fold_left]. apply IH.
    destruct e as [i r|i r| |]; cbn [hist_step]; [|done|done|by apply Forall_nil_2].
    apply Forall_app. split; [done|]. apply Forall_singleton. by apply He. }
  apply Hgen. by apply Forall_nil_2.
Qed.

(** ** Predictions of a concept whose instances agree *)
Section Sure.
  Context (rng : nat -> num ROps) (ncmp : nom -> nom -> option bool) (normal : R -> R -> A R).

  (** A certain and an impossible option: no draw matters. *)
  Lemma sure_choice {X} (vcmp : X -> X -> option bool) (x y : X) am :
    fst (most_likely_choice (N:=ROps) rng vcmp [(x, 1%R); (y, 0%R)] am) = Ok x.
  Proof.
    unfold most_likely_choice. cbn [existsb snd].
    change (nofnat ROps 0) with 0%R. change (nltb ROps) with Rltb.
    rewrite (proj2 (Rltb_false 1 0)), (proj2 (Rltb_false 0 0)) by lra. cbn [orb].
    unfold amapM. repeat unfold abind at 1. unfold random_, aret. cbn [fst snd am_rpos am_ctr mclash existsb mkey_clash].
    change (neqb ROps) with Reqb. rewrite (proj2 (Reqb_false 1 0)) by lra. cbn [andb orb].
    unfold sort_desc. cbn [foldr insert_desc mkey_lt]. change (neqb ROps) with Reqb. change (nltb ROps) with Rltb.
    rewrite (proj2 (Reqb_false 1 0)), (proj2 (Rltb_false 1 0)) by lra. done.
  Qed.

  Lemma predict_sure (tb : nsum) a w am : (0 < ns_count tb)%nat -> dget a (ns_av tb) = Some [(w, ns_count tb)] ->
    fst (predict (N:=ROps) rng ncmp tb a "most likely" true am) = Ok (Some w).
  Proof.
    intros Hc Hd. unfold predict. change (choose_fn "most likely") with (Some MostLikely). rewrite Hd.
    assert (Ew : get_weighted_values (N:=ROps) tb a true = Ok [(Some w, 1%R); (None, 0%R)]).
    { assert (HR : INR (ns_count tb) <> 0%R) by (apply not_0_INR; lia).
      unfold get_weighted_values. rewrite Hd. cbn. unfold pydiv. change (neqb ROps) with Reqb. change (nofnat ROps) with INR.
      assert (Hz : Reqb (INR (ns_count tb)) (INR 0) = false) by (by apply Reqb_false). rewrite !Hz. cbn. change (ndiv ROps) with Rdiv. change (nsub ROps) with Rminus.
      rewrite ?Nat.add_0_r. unfold vcount. cbn. rewrite ?Nat.add_0_r.
      repeat f_equal; [by field|]. unfold Rdiv. rewrite Rminus_diag_eq by done. apply Rmult_0_l. }
    unfold abind, alift. rewrite Ew. apply sure_choice.
  Qed.

  Lemma predict_sure3 (tb : nsum3 ROps) a w am : (0 < n3_count tb)%nat -> w <> VNom cv_key ->
    dget a (n3_av tb) = Some (leaf_dict w (n3_count tb)) ->
    fst (predict3 (N:=ROps) rng ncmp normal tb a "most likely" true am) = Ok (Some w).
  Proof.
    intros Hc Hw Hd. unfold predict3. change (choose_fn "most likely") with (Some MostLikely). rewrite Hd.
    set (k := match w with VNom v => v | VNum _ => cv_key end).
    assert (Ew : get_weighted_values3 (N:=ROps) tb a true = Ok [(Some k, 1%R); (None, 0%R)]).
    { assert (HR : INR (n3_count tb) <> 0%R) by (apply not_0_INR; lia).
      assert (Hz : Reqb (INR (n3_count tb)) (INR 0) = false) by (by apply Reqb_false).
      assert (Hcc : forall q, leaf_dict w (n3_count tb) = [q] -> cell_count q = Ok (n3_count tb) /\ fst q = k).
      { intros q. unfold k. destruct w as [v|y]; cbn [leaf_dict]; intros [= <-]; unfold cell_count; cbn [fst snd].
        - by rewrite decide_False by congruence.
        - by rewrite decide_True. }
      assert (Hq : exists q, leaf_dict w (n3_count tb) = [q]) by (destruct w; eexists; reflexivity).
      destruct Hq as (q & Hq). destruct (Hcc q Hq) as (Eq & Ek). unfold get_weighted_values3. rewrite Hd, Hq. cbn. rewrite Eq. cbn.
      unfold pydiv. change (neqb ROps) with Reqb. change (nofnat ROps) with INR. rewrite !Hz. cbn. rewrite Ek.
      change (ndiv ROps) with Rdiv. change (nsub ROps) with Rminus. rewrite ?Hz. cbn.
      rewrite ?Nat.add_0_r. repeat f_equal; [by field|]. unfold Rdiv. rewrite Rminus_diag_eq by done. apply Rmult_0_l. }
    unfold abind, alift. rewrite Ew. unfold choose.
    pose proof (sure_choice (ocmp ncmp) (Some k) None am) as Es.
    destruct (most_likely_choice (N:=ROps) rng (ocmp ncmp) [(Some k, 1%R); (None, 0%R)] am) as [r am']. simpl in Es. subst r.
    unfold k. destruct w as [v|y].
    - by rewrite decide_False by congruence.
    - rewrite decide_True by done. cbn. done.
  Qed.
End Sure.

(** ** C83: what the error of a value is, compared with another value (None:
    missing).  [num]: the numbers; [arith]: what can be subtracted from a
    number; [same]: Python's ==. *)
Definition error_spec {V} (num arith : V -> option R) (same : V -> V -> Prop) (given held : option V) (r : res R) : Prop :=
  match given, held with
  | Some v, Some w =>
    match num v with
    | Some x => r = match arith w with Some y => Ok (x - y)%R | None => Err TypeError end
    | None => same v w /\ r = Ok 0%R \/ ~ same v w /\ r = Ok 1%R
    end
  | Some v, None => r = match num v with Some _ => Err OtherException | None => Ok 1%R end
  | None, Some w => r = match num w with Some _ => Err OtherException | None => Ok 1%R end
  | None, None => r = Ok 0%R
  end.
(** The three scores of one value. *)
Definition errors_spec {V} (num arith : V -> option R) (same : V -> V -> Prop) (given held : option V) (r ra rs : res R) : Prop :=
  error_spec num arith same given held r /\
  match r with
  | Ok e => ra = Ok (Rabs e) /\ rs = Ok (e * e)%R
  | Err e => ra = Err e /\ rs = Err e
  end.
Lemma nabs_Rabs (e : R) : nabs (N:=ROps) e = Rabs e.
Proof.
  unfold nabs, nneg. change (nofnat ROps 0) with 0%R. change (nltb ROps) with Rltb. change (nsub ROps) with Rminus.
  destruct (Rltb e 0) eqn:El.
  - apply Rltb_true in El. rewrite Rabs_left by done. lra.
  - apply Rltb_false in El. by rewrite Rabs_right by lra.
Qed.

Section Nominal.
  Context (rng : nat -> num ROps) (ncmp : nom -> nom -> option bool) (num_of arith_of : nom -> option R).
  Notation C := (CobwebClass ROps).
  Notation E := (CobwebEval (N:=ROps) rng ncmp num_of arith_of).

  Lemma error_of_spec (v w : option nom) : error_spec num_of arith_of eq v w (error_of C E v w).
  Proof.
    destruct v as [v|], w as [w|]; cbn [error_spec error_of ne_num ne_arith ne_eqb CobwebEval].
    - destruct (num_of v); [by destruct (arith_of w)|]. destruct (decide (v = w)).
      + left. rewrite bool_decide_true by done. done.
      + right. rewrite bool_decide_false by done. done.
    - by destruct (num_of v).
    - by destruct (num_of w).
    - done.
  Qed.

  (** The scores of a visible attribute compare the given value with the one
      value of the instances in the leaf that the rest is sorted to. *)
  Theorem C83_error_scores evs s i a v j s1 :
    reachable C rng tt evs s -> all_inst (C:=C) good evs -> visible a = true ->
    cobweb_categorize C rng (without a i) s = (Ok j, s1) ->
    exists tb held, is_leaf s j /\ table_of s j tb /\
      dget a (ns_av tb) = option_map (fun w => [(w, ns_count tb)]) held /\
      errors_spec num_of arith_of eq v held (fst (score_error C rng E i a v s)) (fst (score_absolute_error C rng E i a v s))
        (fst (score_squared_error C rng E i a v s)).
  Proof.
    intros Hr Hg Ha Ec.
    destruct (C08_categorize_read_only rng evs s _ _ _ Hr Ec) as (Hh & _ & Hl). specialize (Hl j eq_refl).
    pose proof Hl as [Hin (n & Hn & Hc)]. assert (Ht : table_of s j (nd_sum n)) by (by exists n).
    pose proof (C06_leaves_pure rng evs s j _ Hr Hg Hl Ht a) as Hpure.
    assert (Hp : exists held, dget a (ns_av (nd_sum n)) = option_map (fun w => [(w, ns_count (nd_sum n))]) held /\
      forall x am, fst (ne_pred E x (nd_sum n) a am) = Ok held).
    { destruct (dget a (ns_av (nd_sum n))) as [d|] eqn:Ed.
      - destruct (Hpure d Ha eq_refl) as (Hpos & w & ->). exists (Some w). split; [done|]. intros x am. by apply predict_sure.
      - exists None. split; [done|]. intros x am. simpl. unfold predict. change (choose_fn "most likely") with (Some MostLikely). by rewrite Ed. }
    destruct Hp as (held & Hd & Hp). exists (nd_sum n), held. split; [done|]. split; [done|]. split; [done|].
    rewrite <- (hide1 rng ncmp num_of arith_of) in Ec. rewrite <- Hh in Hn.
    destruct (error_leaf C rng E i a v s j s1 n held Ec Hn Hp) as (-> & -> & ->).
    split; [apply error_of_spec|]. destruct (error_of C E v held) as [e|e]; [|done]. cbn [rbind]. by rewrite nabs_Rabs.
  Qed.
End Nominal.

Section Numeric.
  Context (rng : nat -> num ROps) (ncmp : nom -> nom -> option bool) (normal : R -> R -> A R) (arith_of : nom -> option R).
  Context (sc : option R) (inner : bool).
  Notation C := (Cobweb3Class ROps).
  Notation E := (Cobweb3Eval (N:=ROps) rng ncmp normal arith_of).
  Notation x0 := (@new_ctx ROps sc inner).
  Notation good := (good3 (N:=ROps)).
  Notation val := (val3 ROps).

  Definition num3 (v : val) : option R := match v with VNum x => Some x | VNom _ => None end.
  Definition arith3 (v : val) : option R := match v with VNum x => Some x | VNom w => arith_of w end.
  (** Python's ==: a boolean may equal a number. *)
  Definition same3 (v w : val) : Prop :=
    v = w \/ exists b y, arith_of b = Some y /\ (v = VNom b /\ w = @VNum ROps y \/ v = @VNum ROps y /\ w = VNom b).
  Lemma error_of_spec3 (v w : option val) : error_spec num3 arith3 same3 v w (error_of C E v w).
  Proof.
    destruct v as [[v|x]|], w as [[w|y]|]; cbn [error_spec error_of ne_num ne_arith ne_eqb Cobweb3Eval num3 arith3]; try done.
    - destruct (decide (v = w)) as [->|Hn].
      + left. rewrite bool_decide_true by done. split; [by left|done].
      + right. rewrite bool_decide_false by done. split; [|done]. intros [H|(b & y & _ & [[_ H]|[H _]])]; congruence.
    - destruct (arith_of v) as [x|] eqn:Ev.
      + change (neqb ROps) with Reqb. destruct (Reqb x y) eqn:Exy.
        * apply Reqb_true in Exy as ->. left. split; [|done]. right. exists v, y. auto.
        * apply Reqb_false in Exy. right. split; [|done]. intros [H|(b & z & Hb & [[H1 H2]|[H1 _]])]; congruence.
      + right. split; [|done]. intros [H|(b & z & Hb & [[H1 H2]|[H1 _]])]; congruence.
  Qed.

  (** What the instances of a leaf have in common. *)
  Lemma leaf_value evs s id tb a :
    reachable C rng x0 evs s -> all_inst (C:=C) good evs -> all_ok evs -> visible a = true ->
    is_leaf s id -> table_of s id tb ->
    exists (held : option val) (l : list (inst3 ROps)),
      describes tb l /\ (forall i, i ∈ l -> i ∈ history evs) /\ (forall i, i ∈ l -> dget a i = held) /\ (l = [] -> held = None) /\
      dget a (n3_av tb) = option_map (fun w => leaf_dict w (n3_count tb)) held /\ held <> Some (VNom cv_key) /\
      (held <> None -> (0 < n3_count tb)%nat).
  Proof.
    intros Hr Hg Hao Ha Hl Ht.
    destruct (C35_leaf_instances rng sc inner evs s id tb Hr Hg Hao Hl Ht) as (l & Hsub & Hlen & Hag & Hcnt & Hnum).
    pose proof (C35_leaves_pure rng sc inner evs s id tb Hr Hg Hl Ht a) as Hpure.
    set (held := match l with [] => None | i :: _ => dget a i end). exists held, l.
    assert (Hsame : forall i, i ∈ l -> dget a i = held).
    { intros i Hi. unfold held. destruct l as [|i0 l]; [inversion Hi|]. apply Hag; [done|left|done]. }
    assert (Hkey : held <> Some (VNom cv_key)).
    { unfold held. destruct l as [|i0 l]; [done|].
      assert (Hi : i0 ∈ history evs) by (apply Hsub; left).
      pose proof (history_inst (C:=C) good evs Hg) as Hgh. rewrite Forall_forall in Hgh. by apply (Hgh i0 Hi). }
    split; [done|]. split; [done|]. split; [done|]. split; [by intros ->|]. 
    assert (Hpos : held <> None -> (0 < n3_count tb)%nat).
    { rewrite <- Hlen. unfold held. destruct l; [done|simpl; lia]. }
    split; [|done]. clear Hsub Hag.
    destruct held as [[w|y]|] eqn:Eh; cbn [option_map].
    - assert (Ho : occ3 l a w = length l) by (by apply occ3_all_2).
      specialize (Hcnt a w). rewrite Ho, Hlen in Hcnt. unfold count_of in Hcnt. specialize (Hpos ltac:(done)).
      destruct (dget a (n3_av tb)) as [d|] eqn:Ed; [|lia]. destruct (Hpure d Ha eq_refl) as (_ & v & ->).
      destruct v as [v|y]; cbn [leaf_dict] in *; cbn [dget] in Hcnt; case_decide; subst; try done; lia.
    - assert (Hx : nums l a = replicate (length l) y).
      { clear -Hsame. induction l as [|i l IH]; [done|]. cbn [nums length replicate].
        rewrite (Hsame i) by left. f_equal. apply IH. intros j Hj. apply Hsame. by right. }
      specialize (Hnum a). rewrite Hx in Hnum. specialize (Hpos ltac:(done)). rewrite Hlen in Hnum.
      destruct (n3_count tb) as [|n] eqn:En; [lia|]. rewrite <- En in *.
      unfold numeric_of in Hnum. destruct (dget a (n3_av tb)) as [d|] eqn:Ed; [|by rewrite En in Hnum].
      destruct (Hpure d Ha eq_refl) as (_ & v & ->). destruct v as [v|z]; cbn [leaf_dict] in *.
      + exfalso. cbn [dget] in Hnum. case_decide; rewrite En in Hnum; done.
      + assert (Hz : z = y); [|by rewrite Hz].
        assert (Hs : summary_of (replicate (n3_count tb) y) = Some (@CVal ROps (n3_count tb) z 0%R)).
        { rewrite <- Hnum. cbn [dget]. by rewrite decide_True. }
        rewrite En in Hs. cbn [replicate summary_of] in Hs. injection Hs as _ Hm _.
        rewrite <- Hm. change (y :: replicate n y) with (replicate (S n) y). rewrite replicate_length.
        assert (Hsum : forall m, Rsum (fun x => x) (replicate m y) = (INR m * y)%R).
        { intros m. induction m as [|m IH]; [simpl; lra|]. rewrite S_INR. cbn [replicate Rsum]. rewrite IH. lra. }
        change (replicate (S n) y) with (y :: replicate n y). cbn [Rsum]. rewrite Hsum.
        change (match n with 0%nat => 1%R | S _ => (INR n + 1)%R end) with (INR (S n)).
        assert (Hf : forall u : R, ((u + INR n * u) / INR (S n))%R = u); [|apply Hf].
        intros u. rewrite S_INR. pose proof (pos_INR n). field. lra.
    - destruct (dget a (n3_av tb)) as [d|] eqn:Ed; [|done]. exfalso. destruct (Hpure d Ha eq_refl) as (Hc & v & ->).
      assert (Hno : forall w, occ3 l a w = 0%nat).
      { intros w. destruct (decide (0 < occ3 l a w)%nat) as [Hp|]; [|lia]. apply occ3_pos in Hp as (i & Hi & Hw).
        rewrite (Hsame i Hi) in Hw. done. }
      assert (Hnn : nums l a = []).
      { clear -Hsame. induction l as [|i l IH]; [done|]. cbn [nums].
        rewrite (Hsame i) by left. apply IH. intros j Hj. apply Hsame. by right. }
      destruct v as [v|y]; cbn [leaf_dict] in Ed.
      + specialize (Hcnt a v). rewrite Hno in Hcnt. unfold count_of in Hcnt. rewrite Ed in Hcnt. cbn [dget] in Hcnt.
        rewrite decide_True in Hcnt by done. lia.
      + specialize (Hnum a). rewrite Hnn in Hnum. unfold numeric_of in Hnum. rewrite Ed in Hnum. cbn [dget] in Hnum.
        rewrite decide_True in Hnum by done. done.
  Qed.

  Theorem C83_error_scores3 evs s i a v j s1 :
    reachable C rng x0 evs s -> all_inst (C:=C) good evs -> all_ok evs -> visible a = true ->
    cobweb_categorize C rng (without a i) s = (Ok j, s1) ->
    exists tb (held : option val) (l : list (inst3 ROps)), is_leaf s j /\ table_of s j tb /\ describes tb l /\
      (forall i, i ∈ l -> i ∈ history evs) /\ (forall i, i ∈ l -> dget a i = held) /\ (l = [] -> held = None) /\
      errors_spec num3 arith3 same3 v held (fst (score_error C rng E i a v s)) (fst (score_absolute_error C rng E i a v s))
        (fst (score_squared_error C rng E i a v s)).
  Proof.
    intros Hr Hg Hao Ha Ec.
    destruct (C62_categorize_read_only rng sc inner evs s _ _ _ Hr Ec) as (Hh & _ & _ & Hl). specialize (Hl j eq_refl).
    pose proof Hl as [Hin (n & Hn & Hc)]. assert (Ht : table_of s j (nd_sum n)) by (by exists n).
    destruct (leaf_value evs s j _ a Hr Hg Hao Ha Hl Ht) as (held & l & Hde & Hsub & Hsame & Hnil & Hd & Hk & Hpos).
    assert (Hp : forall x am, fst (ne_pred E x (nd_sum n) a am) = Ok held).
    { intros x am. simpl. destruct held as [w|].
      - apply predict_sure3; [by apply Hpos|congruence|done].
      - unfold predict3. change (choose_fn "most likely") with (Some MostLikely). by rewrite Hd. }
    exists (nd_sum n), held, l. do 6 (split; [done|]).
    rewrite <- (hide3 rng ncmp normal arith_of) in Ec. rewrite <- Hh in Hn.
    destruct (error_leaf C rng E i a v s j s1 n held Ec Hn Hp) as (-> & -> & ->).
    split; [apply error_of_spec3|]. destruct (error_of C E v held) as [e|e]; [|done]. cbn [rbind]. by rewrite nabs_Rabs.
  Qed.

  (** ** C79 and C84 on a Cobweb3Tree *)
  Hypothesis Hd : distinct_draws (N:=ROps) rng.
  Hypothesis Hnormal : forall m sd, amono (normal m sd).

  Lemma good3_without a (i : inst3 ROps) : good i -> good (without a i).
  Proof.
    intros (H1 & H2 & H3). assert (Hk : forall b, b ∈ dkeys (without a i) -> b ∈ dkeys i).
    { intros b. unfold without, dkeys. rewrite !elem_of_list_fmap. intros (q & -> & Hq). apply elem_of_list_filter in Hq as [_ Hq]. eauto. }
    assert (Hd' : dwf (without a i)).
    { unfold dwf, dkeys, without in *. clear -H1. induction i as [|[b v] i IH]; [done|]. apply NoDup_cons in H1 as [Hn H1].
      rewrite filter_cons. case_decide; [|by apply IH]. apply NoDup_cons. split; [|by apply IH].
      intros Hb. apply Hn. apply elem_of_list_fmap in Hb as (q & -> & Hq). apply elem_of_list_filter in Hq as [_ Hq].
      apply elem_of_list_fmap. eauto. }
    split; [done|]. split.
    - rewrite Forall_forall in *. auto.
    - intros b Hb. apply (H3 b). apply dget_In in Hb. unfold without in Hb. apply elem_of_list_filter in Hb as [_ Hb]. by apply In_dget.
  Qed.

  (** Instances with another visible attribute; the value may be missing. *)
  Definition askable (a : attr) (i : inst3 ROps) : Prop := good i /\ exists b, b <> a /\ visible b = true /\ b ∈ dkeys i.
  Lemma askable_fits a i : askable a i -> fits3 i.
  Proof. intros (Hg & b & _ & Hb & Hk). split; [done|]. by exists b. Qed.
  Lemma askable_cat evs s i a : reachable C rng x0 evs s -> all_inst (C:=C) fits3 evs -> askable a i ->
    exists j s1, cobweb_categorize C rng (without a i) s = (Ok j, s1).
  Proof using Hd.
    intros Hr Hg (Hi & b & Hb & Hv & Hk). destruct (C63_fitting_never_raises rng sc inner Hd evs s Hr Hg) as [_ Hn].
    destruct (Hn (without a i) (good3_without a i Hi)) as [_ (j & Hj)].
    { exists b. split; [done|]. by apply without_keys. }
    destruct (cobweb_categorize C rng (without a i) s) as [r s1]. simpl in Hj. subst r. eauto.
  Qed.
  Lemma fits_fit evs s i : reachable C rng x0 evs s -> all_inst (C:=C) fits3 evs -> fits3 i -> exists j, fst (cobweb C rng i s) = Ok j.
  Proof using Hd. intros Hr Hg [Hi Hv]. destruct (C63_fitting_never_raises rng sc inner Hd evs s Hr Hg) as [_ Hn]. by apply Hn. Qed.
  Lemma fits_good evs : all_inst (C:=C) fits3 evs -> all_inst (C:=C) good evs.
  Proof. intros H. eapply Forall_impl; [exact H|]. intros e He i Hi. by apply He. Qed.

  (** A probability of a value lies between 0 and 1. *)
  Lemma prob3_bounds evs s j tb a v : reachable C rng x0 evs s -> all_inst (C:=C) good evs -> in_tree s j -> table_of s j tb ->
    v <> VNom cv_key -> exists p, probability3 (st_ctx s) tb a (Some v) = Ok p /\ (0 <= p <= 1)%R.
  Proof using Type.
    intros Hr Hgood Hin Ht Hcv. destruct v as [v|y].
    - assert (Hv : v <> cv_key) by congruence.
      destruct (reach_hist rng sc inner evs s j _ Hr Hgood Hin Ht) as (lj & Hlj & _).
      destruct (decide (lj = [])) as [->|Hne].
      + destruct Hlj as (_ & _ & Hne & Hc). specialize (Hc a). cbn [probability3].
        destruct (dget a (n3_av tb)) as [d|] eqn:Ed; [|exists 0%R; split; [done|lra]].
        destruct Hc as (_ & _ & Hc & _). specialize (Hc v Hv). cbn [default occ3] in Hc. rewrite decide_True in Hc by done.
        unfold Datatypes.id in Hc. rewrite Hc. exists 0%R. split; [done|lra].
      + assert (Hcp : (0 < n3_count tb)%nat). { destruct Hlj as [-> _]. destruct lj; [done|simpl; lia]. }
        destruct (C72_probability_is_share rng sc inner evs s j _ Hr Hgood Hin Ht Hcp (st_ctx s) a) as (lk & Hk1 & _ & _ & _ & Hk2).
        rewrite (Hk2 v Hv). eexists. split; [done|].
        assert (Hlen : (0 < INR (length lk))%R) by (apply lt_0_INR; destruct lk; [done|simpl; lia]).
        assert (Hle : (having lk a (Nominal v) <= length lk)%nat) by (apply filter_length).
        apply le_INR in Hle. pose proof (pos_INR (having lk a (Nominal v))). split.
        * unfold Rdiv. apply Rmult_le_pos; [lra|]. apply Rlt_le, Rinv_0_lt_compat. lra.
        * apply Rmult_le_reg_r with (INR (length lk)); [done|]. unfold Rdiv. rewrite Rmult_assoc, Rinv_l by lra. lra.
    - destruct (C33_numeric_probability rng sc inner evs s j _ a Hr Hgood Hin Ht) as (p & Hp1 & Hp2 & Hp3 & _).
      exists (p y). split; [apply Hp1|]. specialize (Hp2 y). lra.
  Qed.

  (** The default score returns a probability if every instance has the
      attribute. *)
  Theorem C79_evaluation_returns3 shuffled evs s l a run_length runs rf :
    reachable C rng x0 evs s -> all_inst (C:=C) fits3 evs -> (forall r l, Permutation l (shuffled r l)) ->
    Forall (fun i => askable a i /\ dget a i <> None) l ->
    exists table l' s',
      incremental_evaluation C rng E x0 (score_probability C rng E) shuffled l a run_length runs rf s = (Ok (table, l'), s') /\
      Forall (Forall (fun y : R => 0 <= y <= 1)%R) table.
  Proof using Hd.
    intros Hr Hg Hsh Hl.
    apply (evaluation_total C rng E x0 (score_probability C rng E) shuffled a) with
      (P := fits3) (Q := fun i => askable a i /\ dget a i <> None) (W := fun y : R => (0 <= y <= 1)%R) (evs := evs); [| |..|done|done|done].
    - intros i v. apply asks_probability.
    - done.
    - intros i [Hi _]. by eapply askable_fits.
    - intros evs' s' i Hr' Hg' Hi. by eapply fits_fit.
    - clear evs s Hr Hg l Hl. intros evs s i Hr Hg _ [Hi Hav].
      destruct (askable_cat evs s i a Hr Hg Hi) as (j & s1 & Ec).
      destruct (C62_categorize_read_only rng sc inner evs s _ _ _ Hr Ec) as (Hh & _ & Hx & Hlf). specialize (Hlf j eq_refl).
      pose proof Hlf as [Hin (n & Hn & _)]. assert (Ht : table_of s j (nd_sum n)) by (by exists n).
      assert (Em : concept_for C rng E i a s = (Ok (nd_sum n), s1)).
      { unfold concept_for. rewrite (hide3 rng ncmp normal arith_of), (mbind_ok C _ _ _ _ _ Ec).
        rewrite <- Hh in Hn. assert (Hgt : mget C j s1 = (Ok n, s1)) by (unfold mget; by rewrite Hn). by rewrite (mbind_ok C _ _ _ _ _ Hgt). }
      unfold score_probability. rewrite (mbind_ok C _ _ _ _ _ Em). unfold mamb, alift. cbn [ne_prob Cobweb3Eval ne_get]. rewrite Hx.
      pose proof (fits_good evs Hg) as Hgood.
      assert (Hp : exists p, probability3 (st_ctx s) (nd_sum n) a (dget a i) = Ok p /\ (0 <= p <= 1)%R).
      { destruct (dget a i) as [v|] eqn:Ev; [|done]. apply (prob3_bounds evs s j _ a v Hr Hgood Hin Ht).
        intros ->. destruct Hi as [(_ & _ & Hk) _]. by apply (Hk a). }
      destruct Hp as (p & Hp & Hb). rewrite Hp. eexists p, _. split; [reflexivity|done].
  Qed.

  (** C84: an error score of an attribute without numbers returns, and is 0 or
      1. *)
  Theorem C84_nominal_errors_return shuffled evs s l a run_length runs rf score :
    score = score_error C rng E \/ score = score_absolute_error C rng E \/ score = score_squared_error C rng E ->
    reachable C rng x0 evs s -> all_inst (C:=C) fits3 evs -> (forall r l, Permutation l (shuffled r l)) -> visible a = true ->
    Forall (fun i => askable a i /\ forall y, dget a i <> Some (VNum y)) l ->
    exists table l' s', incremental_evaluation C rng E x0 score shuffled l a run_length runs rf s = (Ok (table, l'), s') /\
      Forall (Forall (fun y : R => y = 0 \/ y = 1)%R) table.
  Proof using Hd Hnormal.
    intros Hsco Hr Hg Hsh Ha Hl.
    destruct (C55_scores_ask rng ncmp normal (fun _ => None) arith_of Hnormal x0 [] a None) as (_ & _ & _ & _ & Hask).
    apply (evaluation_total C rng E x0 score shuffled a) with
      (P := fits3) (Q := fun i => askable a i /\ forall y, dget a i <> Some (VNum y)) (W := fun y : R => (y = 0 \/ y = 1)%R) (evs := evs); [| |..|done|done|done].
    - intros i v. destruct (Hask i v) as (_ & H1 & H2 & H3). by destruct Hsco as [->|[->| ->]].
    - done.
    - intros i [Hi _]. by eapply askable_fits.
    - intros evs' s' i Hr' Hg' Hi. by eapply fits_fit.
    - clear evs s Hr Hg l Hl. intros evs s i Hr Hg Hh [Hi Hav].
      destruct (askable_cat evs s i a Hr Hg Hi) as (j & s1 & Ec).
      assert (Hao : all_ok evs).
      { destruct (C63_fitting_never_raises rng sc inner Hd evs s Hr Hg) as [He _]. eapply Forall_impl; [exact He|]. by intros [i' [?|?]|i' [?|?]| |]. }
      destruct (C83_error_scores3 evs s i a (dget a i) j s1 Hr (fits_good _ Hg) Hao Ha Ec) as (tb & held & lj & _ & _ & _ & Hsub & Hsame & Hnil & He & Hs).
      assert (Hheld : forall y, held <> Some (VNum y)).
      { intros y ->. destruct lj as [|i0 lj]; [by specialize (Hnil eq_refl)|]. rewrite Forall_forall in Hh.
        destruct (Hh i0) as [_ Hno]; [apply Hsub; left|]. apply (Hno y). apply Hsame. left. }
      assert (H01 : exists e, fst (score_error C rng E i a (dget a i) s) = Ok e /\ (e = 0 \/ e = 1)%R).
      { unfold error_spec in He. destruct (dget a i) as [[v|y]|], held as [[w|z]|]; cbn [num3] in He; try (by edestruct Hav); try (by edestruct Hheld); eauto.
        destruct He as [[_ He]|[_ He]]; eauto. }
      destruct H01 as (e & Ee & H01). rewrite Ee in Hs. destruct Hs as [Hs1 Hs2].
      assert (Hw : exists y, fst (score i a (dget a i) s) = Ok y /\ (y = 0 \/ y = 1)%R).
      { destruct Hsco as [->|[->| ->]]; [eauto| |].
        - eexists. split; [exact Hs1|]. destruct H01 as [-> | ->]; [left; apply Rabs_R0|right; apply Rabs_R1].
        - eexists. split; [exact Hs2|]. destruct H01 as [-> | ->]; [left|right]; lra. }
      destruct Hw as (y & Ey & Hy). exists y, (snd (score i a (dget a i) s)). split; [|done].
      cbn [ne_get Cobweb3Eval]. destruct (score i a (dget a i) s) as [r s2]. simpl in *. by subst r.
  Qed.
End Numeric.

(** ** C84: with numbers an error score cannot be used, in any arithmetic: the
    first score asks the empty tree. *)
Section Raise.
  Context {N : NumOps} (rng : nat -> num N) (ncmp : nom -> nom -> option bool) (normal : num N -> num N -> A (num N)) (arith_of : nom -> option (num N)).
  Notation C := (Cobweb3Class N).
  Notation E := (Cobweb3Eval rng ncmp normal arith_of).

  Theorem C84_numeric_errors_raise x0 shuffled s l a run_length runs rf score :
    score = score_error C rng E \/ score = score_absolute_error C rng E \/ score = score_squared_error C rng E ->
    (forall r l, Permutation l (shuffled r l)) -> 0 < runs -> l <> [] ->
    Forall (fun i : inst3 N => exists y, dget a i = Some (VNum y)) l ->
    fst (incremental_evaluation C rng E x0 score shuffled l a run_length runs rf s) = Err OtherException.
  Proof.
    intros Hsco Hsh Hn Hne Hl. apply first_score_raises; [done| |done|done].
    intros i s1 Hi E1. rewrite Forall_forall in Hl. destruct (Hl i Hi) as (y & Hy).
    assert (Ht : exists n, st_heap s1 !! st_root s1 = Some n /\ nd_children n = [] /\ nd_sum n = nc_empty C).
    { injection E1 as <-. simpl. eexists. split; [apply lookup_insert|done]. }
    destruct Ht as (n & Hn1 & Hc & Hs).
    assert (Ec : cobweb_categorize C rng (hide C E i a) s1 = (Ok (st_root s1), s1)).
    { unfold cobweb_categorize, mbind, mroot, mheap_size. simpl. unfold mbind, mget. rewrite Hn1, Hc. done. }
    destruct (error_leaf C rng E i a (ne_get E i a) s1 _ s1 n None Ec Hn1) as (H1 & H2 & H3).
    { intros x am. rewrite Hs. simpl. unfold predict3. by change (choose_fn "most likely") with (Some MostLikely). }
    assert (He : error_of C E (ne_get E i a) None = Err OtherException). { simpl. by rewrite Hy. }
    rewrite He in H1, H2, H3. by destruct Hsco as [->|[->| ->]].
  Qed.
End Raise.

(** ** The hypotheses are met *)
Notation E3 := (Cobweb3Eval (N:=ROps) ex_draws (fun _ _ => None) (fun _ _ => aret 0%R) (fun _ => None)).
Lemma ex_normal (m sd : R) : amono ((fun _ _ : R => aret 0%R : A R) m sd).
Proof. apply amono_ret. Qed.
Lemma xci_askable x c a : a = AStr "x" \/ a = AStr "c" -> NStr c <> cv_key -> askable a (xci x c).
Proof.
  intros Ha Hc. split; [by apply xci_fits|]. destruct Ha as [-> | ->].
  - exists (AStr "c"). split; [done|]. split; [done|]. right. left.
  - exists (AStr "x"). split; [done|]. split; [done|]. left.
Qed.
Lemma ex_C83 : exists evs s j s1, reachable RC3 ex_draws (@new_ctx ROps (Some 0.5%R) true) evs s /\
  all_inst (C:=RC3) (good3 (N:=ROps)) evs /\ all_ok evs /\ length (history evs) = 4%nat /\
  cobweb_categorize RC3 ex_draws (without (AStr "x") (xci 5 "q")) s = (Ok j, s1).
Proof.
  destruct ex_C31 as (evs & s & Hr & Hg & Hok & Hh).
  destruct (askable_cat ex_draws (Some 0.5%R) true ex_draws_distinct evs s (xci 5 "q") (AStr "x") Hr Hg) as (j & s1 & Ec).
  { apply xci_askable; [by left|done]. }
  exists evs, s, j, s1. split; [done|]. split; [by apply fits_good|]. split; [done|]. split; [by rewrite Hh|done].
Qed.
Definition ev3_list : list (inst3 ROps) := [xci 1 "p"; xci 3 "q"; xci 7 "q"].
(** On the nominal attribute of these instances the scores are 0 or 1... *)
Lemma ex_C84 : exists evs s table l' s', reachable RC3 ex_draws (@new_ctx ROps (Some 0.5%R) true) evs s /\
  incremental_evaluation RC3 ex_draws E3 (@new_ctx ROps (Some 0.5%R) true) (score_error RC3 ex_draws E3) (fun _ l => l) ev3_list (AStr "c") 3 2 false s = (Ok (table, l'), s') /\
  Forall (Forall (fun y : R => y = 0 \/ y = 1)%R) table.
Proof.
  destruct ex_C31 as (evs & s & Hr & Hg & Hok & Hh).
  destruct (C84_nominal_errors_return ex_draws (fun _ _ => None) (fun _ _ => aret 0%R) (fun _ => None) (Some 0.5%R) true ex_draws_distinct ex_normal
    (fun _ l => l) evs s ev3_list (AStr "c") 3 2 false _ (or_introl eq_refl) Hr Hg) as (table & l' & s' & H1 & H2).
  - done.
  - done.
  - repeat (apply Forall_cons_2; [split; [apply xci_askable; [by right|done]|by intros y]|]). apply Forall_nil_2.
  - by exists evs, s, table, l', s'.
Qed.
(** ... and "incremental_evaluation returns a table when every instance has the
    attribute" fails on the numeric one, though the default score returns. *)
Theorem C84_numeric_errors_refuted : exists evs s (l : list (inst3 ROps)) a,
  let x0 := @new_ctx ROps (Some 0.5%R) true in
  reachable RC3 ex_draws x0 evs s /\ Forall (fun i => askable a i /\ dget a i <> None) l /\
  (exists table l' s', incremental_evaluation RC3 ex_draws E3 x0 (score_probability RC3 ex_draws E3) (fun _ l => l) l a 3 2 false s = (Ok (table, l'), s')) /\
  fst (incremental_evaluation RC3 ex_draws E3 x0 (score_error RC3 ex_draws E3) (fun _ l => l) l a 3 2 false s) = Err OtherException /\
  fst (incremental_evaluation RC3 ex_draws E3 x0 (score_absolute_error RC3 ex_draws E3) (fun _ l => l) l a 3 2 false s) = Err OtherException /\
  fst (incremental_evaluation RC3 ex_draws E3 x0 (score_squared_error RC3 ex_draws E3) (fun _ l => l) l a 3 2 false s) = Err OtherException.
Proof.
  destruct ex_C31 as (evs & s & Hr & Hg & Hok & Hh). exists evs, s, ev3_list, (AStr "x"). cbv zeta.
  assert (Hl : Forall (fun i => askable (AStr "x") i /\ dget (AStr "x") i <> None) ev3_list).
  { repeat (apply Forall_cons_2; [split; [apply xci_askable; [by left|done]|done]|]). apply Forall_nil_2. }
  assert (Hn : Forall (fun i : inst3 ROps => exists y, dget (AStr "x") i = Some (VNum y)) ev3_list).
  { repeat (apply Forall_cons_2; [by eexists|]). apply Forall_nil_2. }
  split; [done|]. split; [done|]. split.
  - destruct (C79_evaluation_returns3 ex_draws (fun _ _ => None) (fun _ _ => aret 0%R) (fun _ => None) (Some 0.5%R) true ex_draws_distinct (fun _ l => l) evs s ev3_list (AStr "x") 3 2 false Hr Hg) as (table & l' & s' & H1 & _); [done|done|].
    by exists table, l', s'.
  - split; [|split]; apply C84_numeric_errors_raise; try done; try lia; tauto.
Qed.

Print Assumptions C79_evaluation_returns3.
Print Assumptions C83_error_scores.
Print Assumptions C83_error_scores3.
Print Assumptions C84_nominal_errors_return.
Print Assumptions C84_numeric_errors_raise.
Print Assumptions C84_numeric_errors_refuted.
