(** * What a Cobweb3Tree infers does not depend on names either. *)
From stdpp Require Import base decidable list gmap strings.
From Verif Require Import Base Num TreeModel TreeFun TreeScore TreeRefine TreeSorts TreeInv
  SpecTree TreeState TreeRel TreeSim Nominal NominalFacts Utils Query QueryFacts CV Cobweb3 C3Facts Query3
  PropsTotal TrestleSim PropsNames PropsNames3 PropsNamesI.

Section Infer3.
  Context {N : NumOps} (inner : bool).
  Context (P : attr -> Prop) (Q : attr -> nom -> Prop) (f : attr -> attr) (g : attr -> nom -> nom).
  Hypothesis RN3 : renaming3 inner P Q f g.
  Let RN := rn_base _ _ _ _ _ RN3.
  Context (rng : nat -> num N) (nc1 nc2 : nom -> nom -> option bool) (normal : num N -> num N -> A (num N)).
  Notation C := (Cobweb3Class N).
  Notation F := (num N).
  Notation RT := (ren_tables3 (N:=N) P Q f g).
  Notation RX := (ren_ctxs (N:=N) inner P f).

  Lemma cell_count_ren a (q : nom * cell N) : P a -> Q a (fst q) ->
    cell_count (g a (fst q), snd q) = cell_count q.
  Proof.
    intros Ha Hq. unfold cell_count. cbn [fst snd]. destruct (decide (fst q = cv_key)) as [E|E].
    - by rewrite decide_True by (by apply (key_eq inner P Q f g RN3)).
    - by rewrite decide_False by (by rewrite (key_eq inner P Q f g RN3)).
  Qed.

  Lemma get_ren3 s1 s2 a : RT s1 s2 -> P a ->
    dget (f a) (n3_av s2) = option_map (rdict g a) (dget a (n3_av s1)).
  Proof.
    intros (Ho & _ & ->) Ha. unfold rav.
    by rewrite (dget_ren P f (@rdict g (cell N)) (rn_attr _ _ _ _ RN)) by (done || by apply (okav_keyed P Q)).
  Qed.
  Lemma okd_of s1 s2 a d : RT s1 s2 -> dget a (n3_av s1) = Some d -> okd Q a d.
  Proof. intros (Ho & _) E. pose proof (okav_get P Q a _ Ho) as H. by rewrite E in H. Qed.

  (** ** probability *)
  Lemma prob_scale_ren x1 x2 a : RX x1 x2 -> P a -> prob_scale x2 (f a) = prob_scale x1 a.
  Proof.
    intros (H1 & H2 & H3 & H4 & H5) Ha. unfold prob_scale, scaling_on. rewrite H1.
    rewrite (inner_is inner P Q f g RN3 x1 a), (inner_is inner P Q f g RN3 x2 (f a)) by done.
    destruct (rn_inner _ _ _ _ _ RN3 a Ha) as [Hp ->]. by rewrite H5, (rscales_get inner P Q f g RN3).
  Qed.
  Lemma probability_ren3 x1 x2 s1 s2 a v : RX x1 x2 -> RT s1 s2 -> P a -> (forall w, v = Some (VNom w) -> Q a w) ->
    probability3 x2 s2 (f a) (option_map (rval g a) v) = probability3 x1 s1 a v.
  Proof.
    intros Hx Hs Ha Hv. unfold probability3. rewrite (get_ren3 s1 s2 a Hs Ha).
    pose proof (okd_of s1 s2 a) as Hd. assert (Hc : n3_count s2 = n3_count s1) by apply Hs.
    destruct v as [[v|y]|]; cbn [option_map rval]; rewrite Hc;
      (destruct (dget a (n3_av s1)) as [d|]; [|done]); specialize (Hd d Hs eq_refl); cbn [option_map].
    - by rewrite (rdict_get P Q f g RN) by (done || by apply Hv).
    - rewrite (key_get inner P Q f g RN3) by done. destruct (dget cv_key d) as [[n|c]|]; [done| |done].
      unfold prob_num, scaling_on. rewrite (prob_scale_ren x1 x2) by done.
      assert (E : x_scaling x2 = x_scaling x1) by apply Hx. by rewrite E.
    - assert (E : rmapM cell_count (rdict g a d) = rmapM cell_count d); [|by rewrite E].
      clear Hv. induction Hd as [|q d Hq Hd IH]; [done|].
      change (rdict g a (q :: d)) with ((g a (fst q), snd q) :: rdict g a d). cbn [rmapM].
      rewrite cell_count_ren by done. by rewrite IH.
  Qed.

  (** ** predict *)
  Lemma weighted_values_ren3 s1 s2 a b : RT s1 s2 -> P a ->
    get_weighted_values3 (N:=N) s2 (f a) b =
    match get_weighted_values3 (N:=N) s1 a b with
    | Ok l => Ok (rechoice (option_map (g a)) l)
    | Err e => Err e
    end.
  Proof.
    intros Hs Ha. unfold get_weighted_values3. rewrite (get_ren3 s1 s2 a Hs Ha).
    pose proof (okd_of s1 s2 a) as Hd. assert (Hc : n3_count s2 = n3_count s1) by apply Hs. rewrite Hc.
    destruct (dget a (n3_av s1)) as [d|]; [|done]. specialize (Hd d Hs eq_refl). cbn [option_map].
    set (k := fun q : nom * cell N => rbind (cell_count q) (fun c =>
               rbind (pydiv N (nofnat N c) (nofnat N (n3_count s1))) (fun p => Ok (fst q, c, p)))).
    assert (E : rmapM k (rdict g a d) =
      match rmapM k d with
      | Ok l => Ok (map (fun y : nom * nat * F => (g a (fst (fst y)), snd (fst y), snd y)) l)
      | Err e => Err e
      end).
    { clear Hs Hc. induction Hd as [|q d Hq Hd IH]; [done|].
      change (rdict g a (q :: d)) with ((g a (fst q), snd q) :: rdict g a d). cbn [rmapM].
      rewrite IH. unfold k at 1 3. cbn [fst]. rewrite cell_count_ren by done.
      destruct (cell_count q) as [c|]; [|done]. cbn [rbind].
      destruct (pydiv N (nofnat N c) _); [|done]. cbn [rbind]. by destruct (rmapM k d). }
    rewrite E. destruct (rmapM k d) as [l|]; [|done]. cbn [rbind]. rewrite !map_map. cbn [fst snd].
    destruct b; [|unfold rechoice; rewrite map_map; done].
    destruct (pydiv N (nsub N _ _) _); simpl; [|done]. f_equal. unfold rechoice.
    by rewrite map_app, map_map.
  Qed.
  (** The values offered are those of the table. *)
  Lemma weighted_values_occur s1 s2 a b l w : RT s1 s2 -> P a ->
    get_weighted_values3 (N:=N) s1 a b = Ok l -> Some w ∈ map fst l -> Q a w.
  Proof.
    intros Hs Ha. unfold get_weighted_values3. pose proof (okd_of s1 s2 a) as Hd.
    destruct (dget a (n3_av s1)) as [d|]; [|by intros [= <-] [?|?%elem_of_nil]%elem_of_cons].
    specialize (Hd d Hs eq_refl).
    set (k := fun q : nom * cell N => rbind (cell_count q) (fun c =>
               rbind (pydiv N (nofnat N c) (nofnat N (n3_count s1))) (fun p => Ok (fst q, c, p)))).
    destruct (rmapM k d) as [r|] eqn:Er; [|done]. cbn [rbind].
    assert (Hk : map (fun y : nom * nat * F => fst (fst y)) r = map fst d).
    { clear -Er. revert r Er. induction d as [|q d IH]; intros r Er; [by injection Er as <-|]. cbn [rmapM] in Er.
      unfold k at 1 in Er. destruct (cell_count q); [|done]. cbn [rbind] in Er.
      destruct (pydiv N _ _); [|done]. cbn [rbind] in Er.
      destruct (rmapM k d) as [r'|]; [|done]. cbn [rbind] in Er. injection Er as <-. simpl. f_equal. by apply IH. }
    assert (Hin : forall m : list (nom * nat * F), m = r ->
      Some w ∈ map fst (map (fun y : nom * nat * F => (Some (fst (fst y)), snd y)) m) -> Q a w).
    { intros m -> Hw. rewrite map_map in Hw. cbn [fst] in Hw.
      rewrite <- (map_map (fun y : nom * nat * F => fst (fst y)) Some), Hk, map_map in Hw.
      apply elem_of_list_In, in_map_iff in Hw as (q & [= <-] & Hq).
      unfold okd in Hd. rewrite Forall_forall in Hd. apply Hd. by apply elem_of_list_In. }
    destruct b; [|intros [= <-]; by apply Hin].
    destruct (pydiv N (nsub N _ _) _); [|done]. cbn [rbind]. intros [= <-].
    rewrite map_app. intros [Hw|Hw]%elem_of_app; [by apply (Hin r)|]. by apply elem_of_list_singleton in Hw.
  Qed.

  Hypothesis Hd : distinct_draws rng.

  Lemma abind_run {X Y} (m : A X) (k : X -> A Y) a : abind m k a =
    match m a with (Ok x, a') => k x a' | (Err e, a') => (Err e, a') end.
  Proof. unfold abind. by destruct (m a) as [[]]. Qed.

  Lemma predict_ren3 s1 s2 a fn b am : RT s1 s2 -> P a ->
    predict3 rng nc2 normal s2 (f a) fn b am = amap (option_map (rval g a)) (predict3 rng nc1 normal s1 a fn b am).
  Proof.
    intros Hs Ha. unfold predict3. destruct (choose_fn fn) as [c|]; [|done].
    pose proof (weighted_values_ren3 s1 s2 a b Hs Ha) as Hw.
    pose proof (weighted_values_occur s1 s2 a b) as Hocc. rewrite (get_ren3 s1 s2 a Hs Ha).
    pose proof (okd_of s1 s2 a) as Hok.
    destruct (dget a (n3_av s1)) as [d|]; [|done]. specialize (Hok d Hs eq_refl). cbn [option_map].
    rewrite !abind_run. unfold alift. rewrite Hw. destruct (get_weighted_values3 s1 a b) as [l|e]; [|done].
    assert (Ec : choose rng nc2 c (rechoice (option_map (g a)) l) am = amap (option_map (g a)) (choose rng nc1 c l am)).
    { destruct c; [by apply most_likely_renamed|apply weighted_renamed]. }
    assert (Hin : forall w, fst (choose rng nc1 c l am) = Ok (Some w) -> Q a w).
    { intros w Hw'. apply (Hocc l w Hs Ha eq_refl). destruct c; [by eapply most_likely_in|by eapply weighted_choice_in]. }
    rewrite !abind_run, Ec. unfold amap at 1.
    destruct (choose rng nc1 c l am) as [[[w|]|e] am']; cbn [fst snd option_map]; try done.
    specialize (Hin w eq_refl). destruct (decide (w = cv_key)) as [->|Hne].
    - rewrite decide_True by (by apply (key_eq inner P Q f g RN3)).
      rewrite (key_get inner P Q f g RN3) by done.
      destruct (dget cv_key d) as [[n|cv]|]; [done| |done]. destruct c; [done|].
      unfold abind, aret, amap. destruct (cv_unbiased_std cv) as [sd|]; [|done].
      by destruct (normal (cv_unbiased_mean cv) sd am') as [[y|] am''].
    - rewrite decide_False by (by rewrite (key_eq inner P Q f g RN3)). done.
  Qed.

  Lemma loop_ren3 t1 t2 fn b : RT t1 t2 -> forall attrs, Forall P attrs ->
    forall (i : inst3 N) (s1 s2 : st C), Forall (fun p => P (fst p)) i -> st_amb s1 = st_amb s2 ->
    rrel (fun j1 j2 : inst3 N => j2 = renamed3 f g j1)
      (fst (infer_loop C (Cobweb3Query rng nc1 normal) t1 fn b attrs i s1))
      (fst (infer_loop C (Cobweb3Query rng nc2 normal) t2 fn b (map f attrs) (renamed3 f g i) s2)).
  Proof.
    intros Ht attrs. induction 1 as [|a attrs Ha Hattrs IH]; intros i s1 s2 Hk Hs; [done|].
    cbn [infer_loop map].
    assert (Em : dmem (f a) (renamed3 f g i) = dmem a i).
    { unfold dmem, renamed3. rewrite (dget_ren P f (rval g) (rn_attr _ _ _ _ RN)) by done. by destruct (dget a i). }
    cbn [nq_has Cobweb3Query]. rewrite Em. destruct (dmem a i) eqn:Ea; [by apply IH|].
    unfold mbind, mamb. cbn [nq_predict Cobweb3Query].
    rewrite (predict_ren3 t1 t2 a fn b _ Ht Ha), <- Hs. unfold amap.
    destruct (predict3 rng nc1 normal t1 a fn b (st_amb s1)) as [[v|e] am]; cbn [fst snd]; [|done].
    destruct v as [v|]; cbn [option_map nq_set Cobweb3Query].
    - assert (E : dset (f a) (rval g a v) (renamed3 f g i) = renamed3 f g (dset a v i)).
      { apply (dset_ren P f (rval g) (rn_attr _ _ _ _ RN)); done. }
      rewrite E. apply IH; [|done]. by apply keyed_set.
    - by apply IH.
  Qed.

  Lemma renamed_runs sc cs1 cs2 ctr rpos : Forall2 (renamed_call3 P Q f g) cs1 cs2 ->
    let x := new_ctx (N:=N) sc inner in
    srel C C RT RX (snd (exec C rng x cs1 (fresh C ctr rpos x))) (snd (exec C rng x cs2 (fresh C ctr rpos x))).
  Proof using RN3.
    intros HF x. assert (Hx : RX x x) by (do 3 (split; [done|]); split; [apply Forall_nil_2|done]).
    destruct (exec_rel C C rng RT (ren_insts3 P Q f g) RX (rename_sim3 inner P Q f g RN3) (cobweb3_real N)
      x x cs1 cs2 (fresh C ctr rpos x) (fresh C ctr rpos x) Hx) as [H1 H2]; [| |done].
    - eapply Forall2_impl; [exact HF|]. intros [i|i|a b|] [k|k|c d|]; done.
    - by apply (srel_fresh C C RT (ren_insts3 P Q f g) RX (rename_sim3 inner P Q f g RN3)).
  Qed.

  (** ** C103 *)
  (** Every concept gives the renamed value of a renamed attribute the same
      probability. *)
  Theorem C103_probability3 sc (cs1 cs2 : list (call C)) ctr rpos id t1 t2 a v :
    Forall2 (renamed_call3 P Q f g) cs1 cs2 -> P a -> (forall w, v = Some (VNom w) -> Q a w) ->
    let x := new_ctx (N:=N) sc inner in
    let s1 := snd (exec C rng x cs1 (fresh C ctr rpos x)) in
    let s2 := snd (exec C rng x cs2 (fresh C ctr rpos x)) in
    in_tree s1 id -> table_of s1 id t1 -> table_of s2 id t2 ->
    probability3 (st_ctx s2) t2 (f a) (option_map (rval g a) v) = probability3 (st_ctx s1) t1 a v.
  Proof using RN3.
    intros HF Ha Hv x s1 s2 Hin H1 H2. pose proof (renamed_runs sc cs1 cs2 ctr rpos HF) as Hr. cbv zeta in Hr.
    apply probability_ren3; [by destruct Hr as (? & ? & _ & _ & _ & _ & ?)| |done|done].
    exact (sv_table _ _ _ (srel_view C C RT RX _ _ Hr) id t1 t2 Hin H1 H2).
  Qed.

  (** And infer_missing of a renamed instance gives the renamed answer, or
      raises the same exception. *)
  Theorem C103_infer3 sc (cs1 cs2 : list (call C)) ctr rpos (i : inst3 N) fn b :
    Forall2 (renamed_call3 P Q f g) cs1 cs2 -> occurs3 P Q i ->
    let x := new_ctx (N:=N) sc inner in
    let s1 := snd (exec C rng x cs1 (fresh C ctr rpos x)) in
    let s2 := snd (exec C rng x cs2 (fresh C ctr rpos x)) in
    match fst (infer_checked C rng (Cobweb3Query rng nc1 normal) i fn b s1),
          fst (infer_checked C rng (Cobweb3Query rng nc2 normal) (renamed3 f g i) fn b s2) with
    | Ok j1, Ok j2 => (j2 : inst3 N) = renamed3 f g j1
    | Err e1, Err e2 => e1 = e2
    | _, _ => False
    end.
  Proof.
    intros HF Hi. cbv zeta. pose proof (renamed_runs sc cs1 cs2 ctr rpos HF) as H2. cbv zeta in H2.
    destruct (exec C rng _ cs1 _) as [r1 s1], (exec C rng _ cs2 _) as [r2 s2]. cbn [snd] in *. clear r1 r2.
    destruct (cat_rel C C rng _ _ RX (rename_sim3 inner P Q f g RN3) (cobweb3_real N) s1 s2 i (renamed3 f g i) H2) as [E Hs];
      [done|].
    change (rrel (fun j1 j2 : inst3 N => j2 = renamed3 f g j1)
      (fst (infer_checked C rng (Cobweb3Query rng nc1 normal) i fn b s1))
      (fst (infer_checked C rng (Cobweb3Query rng nc2 normal) (renamed3 f g i) fn b s2))).
    unfold infer_checked, mbind at 1 3.
    destruct (cobweb_categorize C rng i s1) as [[c|e] s1'] eqn:E1,
             (cobweb_categorize C rng (renamed3 f g i) s2) as [[c'|e'] s2'] eqn:E2; cbn [fst snd] in *; try done;
      [|by injection E].
    injection E as <-. unfold mbind, mget.
    assert (Hin : in_tree s1' c).
    { destruct H2 as (u1 & u2 & Hok & _). pose proof (categorize_runs C rng s1 u1 i Hok) as Er.
      cbv zeta in Er. rewrite E1 in Er.
      destruct (fcat C rng (cob_fuel C s1) (st_ctx s1) u1 i (st_amb s1)) as [r am] eqn:Ef. cbn [fst snd] in Er.
      injection Er as <- ->.
      destruct (fcat_leaf C rng (cob_fuel C s1) (st_ctx s1) u1 i (st_amb s1) c) as [sj Hl]; [by rewrite Ef|].
      pose proof (fcat_mono C rng (cob_fuel C s1) (st_ctx s1) u1 i (st_amb s1)) as [Hm _].
      rewrite Ef in Hm. apply (in_tree_sub C _ u1); [by apply state_ok_amb|].
      exists (T c sj []). split; [|done]. by apply leaf_sub. }
    destruct (Hs) as (w1 & w2 & Hok1 & Hok2 & _ & Ham & _).
    assert (Hal1 : exists n, st_heap s1' !! c = Some n).
    { apply (in_tree_ids _ _ _ _ Hok1) in Hin. eapply rep_dom; [apply Hok1|done]. }
    assert (Hal2 : exists n, st_heap s2' !! c = Some n).
    { pose proof (sv_in _ _ _ (srel_view C C RT RX s1' s2' Hs) c) as Hio.
      apply Hio, (in_tree_ids _ _ _ _ Hok2) in Hin. eapply rep_dom; [apply Hok2|done]. }
    destruct Hal1 as [n1 En1], Hal2 as [n2 En2]. rewrite En1, En2.
    assert (Ht : RT (nd_sum n1) (nd_sum n2)).
    { apply (sv_table _ _ _ (srel_view C C RT RX s1' s2' Hs) c); [done| |]; eexists; done. }
    assert (Ek : nq_attrs (Cobweb3Query rng nc2 normal) (nd_sum n2) = map f (nq_attrs (Cobweb3Query rng nc1 normal) (nd_sum n1))).
    { destruct Ht as (_ & _ & Ht). cbn [nq_attrs Cobweb3Query]. rewrite Ht. apply keys_rav. }
    rewrite Ek. apply loop_ren3; [done| | |done].
    - destruct Ht as (Ho & _). by apply (okav_keys P Q).
    - eapply Forall_impl; [exact Hi|]. by intros p [? _].
  Qed.
End Infer3.
