(** * What is inferred does not depend on what attributes and values are called.

    The exception is a tie between two values with the same probability that
    also draw the same random number: only then are the values themselves
    compared (utils.py:153-179). *)
From stdpp Require Import base decidable list gmap strings.
From Verif Require Import Base Num TreeModel TreeFun TreeScore TreeRefine TreeSorts TreeInv
  SpecTree TreeState TreeRel TreeSim Nominal NominalFacts Utils Query PropsTotal TrestleSim PropsNames.

(** ** Choosing among renamed values *)
Section Choice.
  Context {N : NumOps} (rng : nat -> num N) {X : Type} (vc1 vc2 : X -> X -> option bool) (h : X -> X).
  Hypothesis Hd : distinct_draws rng.
  Notation F := (num N).
  Definition amap {Y Z} (k : Y -> Z) (r : res Y * amb) : res Z * amb :=
    (match fst r with Ok y => Ok (k y) | Err e => Err e end, snd r).
  Definition rechoice (l : list (X * F)) : list (X * F) := map (fun p => (h (fst p), snd p)) l.
  Definition rekey (k : F * F * X) : F * F * X := (fst k, h (snd k)).

  Lemma snd_rechoice l : map snd (rechoice l) = map snd l.
  Proof. induction l as [|p l IH]; [done|]. simpl. by rewrite IH. Qed.

  Lemma wc_renamed r l : forall u,
    wc_loop (N:=N) r u (rechoice l) = match wc_loop (N:=N) r u l with Ok y => Ok (h y) | Err e => Err e end.
  Proof.
    induction l as [|[c w] l IH]; intros u; [done|]. cbn [rechoice map wc_loop fst snd].
    destruct (nltb N w (nofnat N 0)); [done|]. destruct (nltb N r (nadd N u w)); [done|]. apply IH.
  Qed.
  Lemma weighted_renamed l a : weighted_choice rng (rechoice l) a = amap h (weighted_choice rng l a).
  Proof.
    unfold weighted_choice. rewrite snd_rechoice. unfold uniform, random_, abind, aret, alift, amap. cbn [fst snd].
    by rewrite wc_renamed.
  Qed.

  Fixpoint draws (n : nat) (l : list (X * F)) : list (F * F * X) :=
    match l with [] => [] | p :: l => (snd p, rng n, fst p) :: draws (S n) l end.
  Lemma amapM_draws l a :
    amapM (fun p : X * F => abind (random_ rng) (fun r => aret (snd p, r, fst p))) l a =
    (Ok (draws (am_rpos a) l), Amb (am_ctr a) (am_rpos a + length l)).
  Proof.
    revert a. induction l as [|p l IH]; intros [c n].
    - simpl. unfold aret. by rewrite Nat.add_0_r.
    - cbn [amapM]. unfold abind at 1. unfold abind at 1, random_, aret at 1. cbn [am_rpos am_ctr].
      unfold abind. rewrite IH. unfold aret. cbn [am_rpos am_ctr draws length]. by rewrite Nat.add_succ_r.
  Qed.
  Lemma draws_renamed n l : draws n (rechoice l) = map rekey (draws n l).
  Proof. revert n. induction l as [|p l IH]; intros n; [done|]. simpl. by rewrite <- IH. Qed.

  Definition apart (j k : F * F * X) : Prop := neqb N (snd (fst j)) (snd (fst k)) = false.
  Lemma draws_from n l k : k ∈ draws n l -> exists m, n <= m /\ snd (fst k) = rng m.
  Proof.
    revert n. induction l as [|p l IH]; intros n; [by intros ?%elem_of_nil|]. cbn [draws].
    intros [->|Hk]%elem_of_cons; [by exists n|]. destruct (IH _ Hk) as (m & Hm & E). exists m. split; [lia|done].
  Qed.
  Lemma draws_apart n l : ForallOrdPairs apart (draws n l).
  Proof.
    revert n. induction l as [|p l IH]; intros n; [apply FOP_nil|]. cbn [draws]. apply FOP_cons; [|apply IH].
    rewrite List.Forall_forall. intros k Hk%elem_of_list_In. apply draws_from in Hk as (m & Hm & E).
    unfold apart. cbn [fst snd]. rewrite E. apply Hd. lia.
  Qed.

  Lemma lt_apart j k : apart j k -> mkey_lt vc2 (rekey j) (rekey k) = mkey_lt vc1 j k.
  Proof.
    destruct j as [[p r] v], k as [[p' r'] v']. unfold apart. cbn [fst snd]. intros H.
    unfold mkey_lt, rekey. cbn [fst snd]. by rewrite H.
  Qed.
  Lemma clash_apart vc l : ForallOrdPairs apart l -> mclash vc l = false.
  Proof.
    induction 1 as [|k l Hk Hl IH]; [done|]. cbn [mclash]. rewrite IH, orb_false_r.
    apply not_true_is_false. intros (j & Hj & Hc)%existsb_exists. rewrite List.Forall_forall in Hk.
    specialize (Hk j Hj). destruct j as [[p' r'] v'], k as [[p r] v]. unfold apart in Hk. cbn [fst snd] in Hk.
    unfold mkey_clash in Hc. rewrite Hk, andb_false_r in Hc. done.
  Qed.
  Lemma apart_map l : ForallOrdPairs apart l -> ForallOrdPairs apart (map rekey l).
  Proof.
    induction 1 as [|k l Hk Hl IH]; [apply FOP_nil|]. cbn [map]. apply FOP_cons; [|done].
    rewrite List.Forall_forall in *. intros j (j' & <- & Hj)%in_map_iff. exact (Hk j' Hj).
  Qed.
  Lemma insert_renamed k l : List.Forall (apart k) l ->
    insert_desc (mkey_lt vc2) (rekey k) (map rekey l) = map rekey (insert_desc (mkey_lt vc1) k l).
  Proof.
    induction 1 as [|j l Hj Hl IH]; [done|]. cbn [map insert_desc]. rewrite lt_apart by done.
    destruct (mkey_lt vc1 k j); [|done]. cbn [map]. by rewrite IH.
  Qed.
  Lemma sort_renamed l : ForallOrdPairs apart l ->
    sort_desc (mkey_lt vc2) (map rekey l) = map rekey (sort_desc (mkey_lt vc1) l).
  Proof.
    induction 1 as [|k l Hk Hl IH]; [done|]. unfold sort_desc in *. cbn [map foldr]. rewrite IH.
    apply insert_renamed. rewrite List.Forall_forall in *. intros j Hj. apply Hk.
    apply elem_of_list_In. rewrite <- (sort_desc_perm (mkey_lt vc1) l). by apply elem_of_list_In.
  Qed.

  Lemma mlc_cons vc p (l : list (X * F)) a : most_likely_choice rng vc (p :: l) a =
    if existsb (fun p => nltb N (snd p) (nofnat N 0)) (p :: l) then (Err ValueError, a)
    else let ks := draws (am_rpos a) (p :: l) in
      let a' := Amb (am_ctr a) (am_rpos a + length (p :: l)) in
      if mclash vc ks then (Err TypeError, a')
      else match sort_desc (mkey_lt vc) ks with
           | [] => (Err IndexError, a')
           | k :: _ => (Ok (snd k), a')
           end.
  Proof.
    unfold most_likely_choice. set (l' := p :: l). clearbody l'.
    destruct (existsb _ l'); [done|]. unfold abind at 1.
    pose proof (amapM_draws l' a) as E. rewrite E. cbv zeta.
    destruct (mclash vc (draws (am_rpos a) l')); [done|].
    by destruct (sort_desc (mkey_lt vc) (draws (am_rpos a) l')) as [|[[? ?] ?] ?].
  Qed.

  Lemma most_likely_renamed l a :
    most_likely_choice rng vc2 (rechoice l) a = amap h (most_likely_choice rng vc1 l a).
  Proof.
    destruct l as [|p l]; [done|].
    assert (Ex : forall l, existsb (fun p : X * F => nltb N (snd p) (nofnat N 0)) (rechoice l) =
                 existsb (fun p : X * F => nltb N (snd p) (nofnat N 0)) l).
    { induction l0 as [|q l0 IH]; [done|]. simpl. by rewrite IH. }
    assert (El : length (rechoice (p :: l)) = length (p :: l)) by apply map_length.
    change (rechoice (p :: l)) with ((h (fst p), snd p) :: rechoice l) in *. rewrite !mlc_cons.
    change ((h (fst p), snd p) :: rechoice l) with (rechoice (p :: l)) in *. rewrite Ex, El.
    destruct (existsb _ (p :: l)); [done|]. cbv zeta. rewrite draws_renamed.
    pose proof (draws_apart (am_rpos a) (p :: l)) as Hp.
    rewrite (clash_apart vc1) by done. rewrite (clash_apart vc2) by (by apply apart_map).
    rewrite sort_renamed by done. by destruct (sort_desc (mkey_lt vc1) (draws (am_rpos a) (p :: l))).
  Qed.
End Choice.

(** ** predict and infer_missing *)
Section Infer.
  Context (P : attr -> Prop) (Q : attr -> nom -> Prop) (f : attr -> attr) (g : attr -> nom -> nom).
  Hypothesis RN : renaming P Q f g.
  Context {N : NumOps} (rng : nat -> num N) (nc1 nc2 : nom -> nom -> option bool).
  Hypothesis Hd : distinct_draws rng.
  Notation C := (CobwebClass N).

  Lemma weighted_values_ren s1 s2 a b : ren_tables P Q f g s1 s2 -> P a ->
    get_weighted_values (N:=N) s2 (f a) b =
    match get_weighted_values (N:=N) s1 a b with
    | Ok l => Ok (rechoice (option_map (g a)) l)
    | Err e => Err e
    end.
  Proof.
    intros (Ho & Hc & Ht) Ha. unfold get_weighted_values. rewrite Ht, Hc. unfold rav.
    rewrite (dget_ren P f (@rdict g nat) (rn_attr _ _ _ _ RN)) by (done || by apply (okav_keyed P Q)).
    destruct (dget a (ns_av s1)) as [d|]; [|done]. cbn [option_map].
    assert (Ev : vcount (rdict g a d) = vcount d).
    { unfold vcount, rdict. by rewrite map_map. }
    rewrite Ev.
    assert (E : rmapM (fun q : nom * nat => rbind (pydiv N (nofnat N (snd q)) (nofnat N (ns_count s1)))
                  (fun p => Ok (Some (fst q), p))) (rdict g a d) =
      match rmapM (fun q : nom * nat => rbind (pydiv N (nofnat N (snd q)) (nofnat N (ns_count s1)))
                  (fun p => Ok (Some (fst q), p))) d with
      | Ok l => Ok (rechoice (option_map (g a)) l)
      | Err e => Err e
      end).
    { clear. induction d as [|[v n] d IH]; [done|].
      change (rdict g a ((v, n) :: d)) with ((g a v, n) :: rdict g a d). cbn [rmapM fst snd]. rewrite IH.
      destruct (pydiv N (nofnat N n) (nofnat N (ns_count s1))); simpl; [|done]. by destruct (rmapM _ d). }
    rewrite E. destruct (rmapM _ d) as [l|]; [|done]. cbn [rbind]. destruct b; [|done].
    destruct (pydiv N _ _); simpl; [|done]. f_equal. unfold rechoice. by rewrite map_app.
  Qed.

  (** The renamed concept predicts the renamed value. *)
  Lemma predict_ren s1 s2 a fn b am : ren_tables P Q f g s1 s2 -> P a ->
    predict rng nc2 s2 (f a) fn b am = amap (option_map (g a)) (predict rng nc1 s1 a fn b am).
  Proof.
    intros Hs Ha. unfold predict. destruct (choose_fn fn) as [c|]; [|done].
    pose proof (weighted_values_ren s1 s2 a b Hs Ha) as Hw.
    destruct Hs as (Ho & Hc & Ht). rewrite Ht. unfold rav.
    rewrite (dget_ren P f (@rdict g nat) (rn_attr _ _ _ _ RN)) by (done || by apply (okav_keyed P Q)).
    destruct (dget a (ns_av s1)) as [d|]; [|done]. cbn [option_map].
    unfold abind, alift. rewrite Hw. destruct (get_weighted_values s1 a b) as [l|e]; [|done].
    destruct c; [by apply most_likely_renamed|apply weighted_renamed].
  Qed.

  Lemma loop_ren t1 t2 fn b : ren_tables P Q f g t1 t2 -> forall attrs, Forall P attrs ->
    forall (i : inst) (s1 s2 : st C), occurs P (fun _ _ => True) i -> st_amb s1 = st_amb s2 ->
    rrel (fun j1 j2 : inst => j2 = renamed f g j1)
      (fst (infer_loop C (CobwebQuery rng nc1) t1 fn b attrs i s1))
      (fst (infer_loop C (CobwebQuery rng nc2) t2 fn b (map f attrs) (renamed f g i) s2)).
  Proof.
    intros Ht attrs. induction 1 as [|a attrs Ha Hattrs IH]; intros i s1 s2 Hi Hs; [done|].
    cbn [infer_loop map]. 
    assert (Hk : Forall (fun p => P (fst p)) i) by (eapply Forall_impl; [exact Hi|]; by intros p [? _]).
    assert (Em : dmem (f a) (renamed f g i) = dmem a i).
    { unfold dmem, renamed. rewrite (dget_ren P f g (rn_attr _ _ _ _ RN)) by done. by destruct (dget a i). }
    cbn [nq_has CobwebQuery]. rewrite Em. destruct (dmem a i) eqn:Ea; [by apply IH|].
    unfold mbind, mamb. cbn [nq_predict CobwebQuery].
    rewrite (predict_ren t1 t2 a fn b _ Ht Ha), <- Hs. unfold amap.
    destruct (predict rng nc1 t1 a fn b (st_amb s1)) as [[v|e] am]; cbn [fst snd]; [|done].
    destruct v as [v|]; cbn [option_map nq_set CobwebQuery].
    - assert (E : dset (f a) (g a v) (renamed f g i) = renamed f g (dset a v i)).
      { apply (dset_ren P f g (rn_attr _ _ _ _ RN)); done. }
      rewrite E. apply IH; [|done]. eapply Forall_impl; [by apply (keyed_set P a v i)|]. done.
    - by apply IH.
  Qed.

  (** ** C103 *)
  (** After renamed histories, infer_missing of a renamed instance gives the
      renamed answer, or raises the same exception. *)
  Theorem C103_infer (cs1 cs2 : list (call C)) ctr rpos (i : inst) fn b :
    Forall2 (renamed_call P Q f g) cs1 cs2 -> occurs P Q i ->
    let s1 := snd (exec C rng tt cs1 (fresh C ctr rpos tt)) in
    let s2 := snd (exec C rng tt cs2 (fresh C ctr rpos tt)) in
    match fst (infer_checked C rng (CobwebQuery rng nc1) i fn b s1),
          fst (infer_checked C rng (CobwebQuery rng nc2) (renamed f g i) fn b s2) with
    | Ok j1, Ok j2 => (j2 : inst) = renamed f g j1
    | Err e1, Err e2 => e1 = e2
    | _, _ => False
    end.
  Proof.
    intros HF Hi. cbv zeta.
    destruct (exec_rel C C rng (ren_tables P Q f g) (ren_insts P Q f g) eq (rename_sim P Q f g RN N) (cobweb_real N)
      tt tt cs1 cs2 (fresh C ctr rpos tt) (fresh C ctr rpos tt) eq_refl) as [_ H2].
    { eapply Forall2_impl; [exact HF|]. intros [k|k|x y|] [k'|k'|x' y'|]; done. }
    { apply (srel_fresh C C _ (ren_insts P Q f g) eq (rename_sim P Q f g RN N)). done. }
    destruct (exec C rng tt cs1 _) as [r1 s1], (exec C rng tt cs2 _) as [r2 s2]. cbn [snd] in *. clear r1 r2.
    destruct (cat_rel C C rng _ _ eq (rename_sim P Q f g RN N) (cobweb_real N) s1 s2 i (renamed f g i) H2) as [E Hs];
      [done|].
    change (rrel (fun j1 j2 : inst => j2 = renamed f g j1)
      (fst (infer_checked C rng (CobwebQuery rng nc1) i fn b s1))
      (fst (infer_checked C rng (CobwebQuery rng nc2) (renamed f g i) fn b s2))).
    unfold infer_checked, mbind at 1 3.
    destruct (cobweb_categorize C rng i s1) as [[c|e] s1'] eqn:E1,
             (cobweb_categorize C rng (renamed f g i) s2) as [[c'|e'] s2'] eqn:E2; cbn [fst snd] in *; try done;
      [|by injection E].
    injection E as <-. unfold mbind, mget.
    assert (Hin : in_tree s1' c).
    { destruct H2 as (u1 & u2 & Hok & _). pose proof (categorize_runs C rng s1 u1 i Hok) as Er.
      cbv zeta in Er. rewrite E1 in Er.
      destruct (fcat C rng (cob_fuel C s1) (st_ctx s1) u1 i (st_amb s1)) as [r am] eqn:Ef. cbn [fst snd] in Er.
      injection Er as <- ->.
      destruct (fcat_leaf C rng (cob_fuel C s1) (st_ctx s1) u1 i (st_amb s1) c) as [sj Hl]; [by rewrite Ef|].
      pose proof (fcat_mono C rng (cob_fuel C s1) (st_ctx s1) u1 i (st_amb s1)) as [Hm _].
      rewrite Ef in Hm. apply (in_tree_sub C _ u1); [by apply state_ok_amb|].
      exists (T c sj []). split; [|done]. by apply leaf_sub. }
    destruct (Hs) as (w1 & w2 & Hok1 & Hok2 & _ & Ham & _).
    assert (Hal1 : exists n, st_heap s1' !! c = Some n).
    { apply (in_tree_ids _ _ _ _ Hok1) in Hin. eapply rep_dom; [apply Hok1|done]. }
    assert (Hal2 : exists n, st_heap s2' !! c = Some n).
    { pose proof (sv_in _ _ _ (srel_view C C (ren_tables P Q f g) eq s1' s2' Hs) c) as Hio.
      apply Hio, (in_tree_ids _ _ _ _ Hok2) in Hin. eapply rep_dom; [apply Hok2|done]. }
    destruct Hal1 as [n1 En1], Hal2 as [n2 En2]. rewrite En1, En2.
    assert (Ht : ren_tables P Q f g (nd_sum n1) (nd_sum n2)).
    { apply (sv_table _ _ _ (srel_view C C (ren_tables P Q f g) eq s1' s2' Hs) c); [done| |]; eexists; done. }
    assert (Ek : nq_attrs (CobwebQuery rng nc2) (nd_sum n2) = map f (nq_attrs (CobwebQuery rng nc1) (nd_sum n1))).
    { destruct Ht as (_ & _ & Ht). cbn [nq_attrs CobwebQuery]. rewrite Ht. apply keys_rav. }
    rewrite Ek. apply loop_ren; [done| | |done].
    - destruct Ht as (Ho & _). by apply (okav_keys P Q).
    - eapply Forall_impl; [exact Hi|]. by intros p [? _].
  Qed.
End Infer.
