(** * Cobweb3: probabilities of numbers, and independence of units. *)
From Coq Require Import Reals Lra.
From stdpp Require Import base decidable tactics gmap strings list.
From Verif Require Import Base Num TreeModel TreeFun TreeScore TreeRefine TreeSorts TreeInv
  SpecTree TreeState TreeTotal TreeRel TreeSim TreeWorld TreeLeaf TreeGen RSum Nominal NominalFacts
  CV CVFacts Cobweb3 C3Facts C3Scales C3R C3Tree C3Total Query Query3 C3Prob C3Units PropsC3 PropsC3R.
Local Notation sqrt := R_sqrt.sqrt.

Section Props.
  Context (rng : nat -> num ROps) (sc : option R) (inner : bool).
  Notation C := (Cobweb3Class ROps).
  Notation x0 := (@new_ctx ROps sc inner).
  Notation good := (good3 (N:=ROps)).

  (** ** C33 *)
  (** The probability that the attribute is a number. *)
  Definition numeric_share (tb : nsum3 ROps) (a : attr) : R :=
    match numeric_of tb a with
    | Some c => (INR (cv_num c) / INR (n3_count tb))%R
    | None => 0%R
    end.

  Theorem C33_numeric_probability evs s id tb a :
    reachable C rng x0 evs s -> all_inst (C:=C) good evs -> in_tree s id -> table_of s id tb ->
    exists p : R -> R,
      (forall y : R, probability3 (st_ctx s) tb a (Some (@VNum ROps y)) = @Ok (num ROps) (p y)) /\
      (forall y, 0 <= p y <= numeric_share tb a)%R /\
      (numeric_share tb a <= 1)%R /\
      forall c, numeric_of tb a = Some c ->
        (forall y, 0 < p y)%R /\
        (forall y z, Rabs (y - cv_mean c) <= Rabs (z - cv_mean c) -> p z <= p y)%R /\
        (forall y, p y <= p (cv_mean c))%R.
  Proof.
    intros Hr Hg Hin Htb.
    destruct (reach_hist rng sc inner evs s id tb Hr Hg Hin Htb) as (l & Hl & _).
    unfold numeric_share. destruct (numeric_of tb a) as [c|] eqn:Hc.
    - pose proof Hc as Hc'. unfold numeric_of in Hc'. destruct (dget a (n3_av tb)) as [d|] eqn:Ed; [|done].
      destruct (dget cv_key d) as [[n|c']|] eqn:Ec; [done| |done]. injection Hc' as ->.
      pose proof (dget_In _ _ _ Ec) as Ein.
      pose proof (HistR_weight_pos tb l a d _ Hl Ed Ein) as Hp. cbn [snd weight] in Hp.
      pose proof (HistR_weight tb l a d Hl Ed) as Hw.
      assert (Hle : (cv_num c <= n3_count tb)%nat).
      { destruct Hl as (-> & _). etransitivity; [|exact Hw]. clear -Ein. induction d as [|q d IH]; [inversion Ein|].
        cbn [map sumn]. apply elem_of_cons in Ein as [<-|Ein]; [cbn [snd weight]; lia|]. specialize (IH Ein). lia. }
      assert (Hn : (0 < n3_count tb)%nat) by lia.
      assert (HnR : (0 < INR (n3_count tb))%R) by (by apply lt_0_INR).
      assert (Hq : (0 < INR (cv_num c) / INR (n3_count tb))%R).
      { apply Rdiv_lt_0_compat; [by apply lt_0_INR|done]. }
      pose proof (HistR_fine tb l a d _ Hl Ed Ein) as [_ Hm]. cbn [snd] in Hm.
      assert (Hav : scaling_on (st_ctx s) <> None -> dget (inner_attr (st_ctx s) a) (x_scales (st_ctx s)) <> None).
      { intros _. destruct (C38_scales_available rng sc inner evs s id tb a c Hr Hg Hin Htb Hc) as [k Hk].
        assert (Hin2 : inner_attr (st_ctx s) a = inner_of inner a).
        { rewrite (reachable_ctx C rng x0 evs s Hr).
          destruct (scales_fold (history evs) (@new_ctx ROps sc inner) (fun _ => []) (fun _ => eq_refl)) as (Hi & _).
          destruct a as [?|[|h r]|?]; simpl; try done. by rewrite Hi. }
        rewrite Hin2, Hk. done. }
      pose proof (pscale_nz (st_ctx s) a) as Hnz.
      exists (fun y => (INR (cv_num c) / INR (n3_count tb) * gauss c (pscale (st_ctx s) a) y)%R).
      assert (Hmono : forall y z, (Rabs (y - cv_mean c) <= Rabs (z - cv_mean c))%R ->
        (INR (cv_num c) / INR (n3_count tb) * gauss c (pscale (st_ctx s) a) z <=
         INR (cv_num c) / INR (n3_count tb) * gauss c (pscale (st_ctx s) a) y)%R).
      { intros y z Hyz. apply Rmult_le_compat_l; [lra|]. by apply gauss_mono. }
      split; [|split; [|split]].
      + intros y. unfold probability3. rewrite Ed, Ec. apply prob_num_ok; try done.
        by eapply reach_scales_ok.
      + intros y. pose proof (gauss_range c (pscale (st_ctx s) a) y Hnz). nra.
      + apply Rmult_le_reg_r with (INR (n3_count tb)); [done|]. unfold Rdiv.
        rewrite Rmult_assoc, Rinv_l, Rmult_1_r, Rmult_1_l by lra. by apply le_INR.
      + intros c' [= <-]. split; [|split; [exact Hmono|]].
        * intros y. pose proof (gauss_range c (pscale (st_ctx s) a) y Hnz). nra.
        * intros y. apply Hmono. rewrite Rminus_diag_eq by done. rewrite Rabs_R0. apply Rabs_pos.
    - exists (fun _ => 0%R). split; [|split; [intros; lra|split; [lra|done]]].
      intros y. unfold probability3. pose proof (hist_numeric summarises tb l a Hl) as Hn.
      unfold numeric_of in Hc. destruct (dget a (n3_av tb)) as [d|] eqn:Ed; [|done].
      destruct (dget cv_key d) as [[n|c]|] eqn:Ec; [|done|done].
      pose proof (HistR_fine tb l a d (cv_key, Cnt n) Hl Ed (dget_In _ _ _ Ec)) as Hf. done.
  Qed.
End Props.

(** ** C37 *)
Section Units.
  Context (rng : nat -> num ROps) (k : R) (inner : bool) (K T : attr -> R).
  Notation C := (Cobweb3Class ROps).
  Notation x0 := (@new_ctx ROps (Some k) inner).
  Notation good := (good3 (N:=ROps)).

  (** The same call with the numbers written in the new units. *)
  Definition convert (c : call C) : call C :=
    match c with
    | CFit i => @CFit _ C (unit_inst K T inner i)
    | CCat i => @CCat _ C (unit_inst K T inner i)
    | COther a b => @COther _ C a b
    | CClear => @CClear _ C
    end.

  (** Calls for which units do not matter: any fits, and categorizations of
      instances each of whose numbers occurs among those fitted since the last
      clear (under the same inner attribute), or for which those are not all
      equal. *)
  Fixpoint measurable (h : list (inst3 ROps)) (cs : list (call C)) : Prop :=
    match cs with
    | [] => True
    | CFit i :: cs => good i /\ measurable (h ++ [i]) cs
    | CCat i :: cs =>
      good i /\
      (forall a y, (a, @VNum ROps y) ∈ i ->
         y ∈ inner_nums inner h (inner_of inner a) \/
         exists u v, u ∈ inner_nums inner h (inner_of inner a) /\
                     v ∈ inner_nums inner h (inner_of inner a) /\ u <> v) /\
      measurable h cs
    | COther _ _ :: cs => measurable h cs
    | CClear :: cs => measurable [] cs
    end.

  (** Tables that differ in the units only. *)
  Definition same_but_units (tb tb' : nsum3 ROps) : Prop :=
    n3_count tb = n3_count tb' /\
    (forall a v, count_of tb' a v = count_of tb a v) /\
    (forall a, numeric_of tb' a = option_map (fun c : cval ROps =>
       let f := K (inner_of inner a) in
       @CVal ROps (cv_num c) (f * cv_mean c + T (inner_of inner a))%R (f * f * cv_msq c)%R)
       (numeric_of tb a)).

  Lemma unit_tables_look h tb tb' : unit_tables K T inner h tb tb' -> same_but_units tb tb'.
  Proof.
    intros (l & H1 & H2 & _). split; [|split].
    - destruct H1 as (-> & _), H2 as (-> & _). by rewrite map_length.
    - intros a v. rewrite (hist_count summarises _ _ a v H1), (hist_count summarises _ _ a v H2).
      by apply occ_unit.
    - intros a. rewrite (hist_summary _ _ a H1), (hist_summary _ _ a H2), nums_unit.
      destruct (nums l a) as [|y ys] eqn:E; [done|].
      change (Some (summ (map (aff K T inner a) (y :: ys))) =
        Some (@CVal ROps (length (y :: ys)) (K (inner_of inner a) * Rmean (y :: ys) + T (inner_of inner a))%R
          (K (inner_of inner a) * K (inner_of inner a) * Rssd (y :: ys))%R)).
      f_equal. unfold summ, aff. rewrite map_length, mean_aff, ssd_aff by done. done.
  Qed.

  Theorem C37_units_do_not_matter cs ctr rpos :
    (0 < k)%R -> (forall b, (0 < K b)%R) -> measurable [] cs ->
    let '(r, s) := exec C rng x0 cs (fresh C ctr rpos x0) in
    let '(r', s') := exec C rng x0 (map convert cs) (fresh C ctr rpos x0) in
    r = r' /\ same_view (C1:=C) (C2:=C) same_but_units s s' /\
    forall id tb tb', in_tree s id -> table_of s id tb -> table_of s' id tb' ->
      n3_ecg (st_ctx s) tb = n3_ecg (st_ctx s') tb'.
  Proof.
    intros Hk HK Hm.
    assert (Hw : exists h', wcalls C C (unit_insts K T inner) (unit_next K T inner) [] [] cs (map convert cs) h').
    { revert Hm. generalize ([] : list (inst3 ROps)) at 1 3 as h. induction cs as [|c cs IH]; intros h Hm.
      { exists h. constructor. }
      destruct c as [i|i|a b|]; simpl in Hm; simpl map.
      - destruct Hm as [Hg Hm]. destruct (IH _ Hm) as [h' Hw]. exists h'. econstructor; [|exact Hw]. done.
      - destruct Hm as (Hg & Hc & Hm). destruct (IH _ Hm) as [h' Hw]. exists h'.
        econstructor; [|exact Hw]. split; [done|]. split; [done|]. intros a y Hy.
        destruct (Hc a y Hy) as [?|(u & v & Hu & Hv & Huv)]; [by left|right].
        intros He. apply Huv. by apply He.
      - destruct (IH _ Hm) as [h' Hw]. exists h'. by constructor.
      - destruct (IH _ Hm) as [h' Hw]. exists h'. by constructor. }
    destruct Hw as [h' Hw].
    assert (Hx : unit_ctxs K T inner k [] x0 x0) by done.
    pose proof (units_sim K T HK inner k Hk) as HS.
    destruct (wexec_rel C C rng _ _ _ _ HS (cobweb3_real ROps) [] x0 x0 [] cs (map convert cs) h' Hx Hw
      (fresh C ctr rpos x0) (fresh C ctr rpos x0) (wrel_fresh C C _ _ _ _ HS [] ctr rpos x0 x0 Hx)) as [Hr Hs].
    destruct (exec C rng x0 cs _) as [r s], (exec C rng x0 (map convert cs) _) as [r' s'].
    cbn [fst snd] in *. split; [done|].
    pose proof (srel_view _ _ _ _ _ _ Hs) as Hv.
    destruct Hs as (t1 & t2 & _ & _ & _ & _ & E1 & E2). split.
    - destruct Hv as [V1 V2 V3 V4 V5]. split; try done.
      intros id tb tb' Hin H1 H2. eapply unit_tables_look. by eapply V5.
    - intros id tb tb' Hin H1 H2. rewrite E1, E2. apply ecg_unit; [done|done|].
      by eapply (sv_table _ _ _ Hv).
  Qed.
End Units.
