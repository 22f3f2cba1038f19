(** * Renaming attributes and nominal values, for Cobweb3Tree.

    The reserved key of numeric summaries keeps its name, and with
    inner_attr_scaling a renamed relation must have the renamed name as its
    first part, since that name is the one under which the scale is kept. *)
From stdpp Require Import base decidable list gmap strings.
From Verif Require Import Base Num TreeModel TreeFun TreeScore TreeRefine TreeSorts TreeInv
  SpecTree TreeState TreeRel TreeSim Nominal NominalFacts CV Cobweb3 C3Facts Query PropsNames.

(** ** Specification *)
Definition inner_name (inner : bool) (a : attr) : attr :=
  match a with
  | ATup (b :: _) => if inner then b else a
  | _ => a
  end.
Record renaming3 (inner : bool) (P : attr -> Prop) (Q : attr -> nom -> Prop) (f : attr -> attr) (g : attr -> nom -> nom) : Prop := {
  rn_base : renaming P Q f g;
  rn_key : forall a, P a -> Q a cv_key /\ g a cv_key = cv_key;
  rn_inner : forall a, P a -> P (inner_name inner a) /\ inner_name inner (f a) = f (inner_name inner a);
}.

Section Spec.
  Context {N : NumOps}.
  Definition occurs3 (P : attr -> Prop) (Q : attr -> nom -> Prop) (i : inst3 N) : Prop :=
    Forall (fun p => P (fst p) /\ forall v, snd p = VNom v -> Q (fst p) v) i.
  Definition rval (g : attr -> nom -> nom) (a : attr) (v : val3 N) : val3 N :=
    match v with VNom v => VNom (g a v) | VNum x => VNum x end.
  Definition renamed3 (f : attr -> attr) (g : attr -> nom -> nom) (i : inst3 N) : inst3 N :=
    map (fun p => (f (fst p), rval g (fst p) (snd p))) i.
  Definition renamed_call3 P Q f g (c1 c2 : call (Cobweb3Class N)) : Prop :=
    match c1, c2 with
    | CFit i1, CFit i2 | CCat i1, CCat i2 => occurs3 P Q i1 /\ i2 = renamed3 f g i1
    | COther a b, COther c d => a = c /\ b = d
    | CClear, CClear => True
    | _, _ => False
    end.
  Definition renamed_table3 (f : attr -> attr) (g : attr -> nom -> nom) (t1 t2 : nsum3 N) : Prop :=
    n3_count t2 = n3_count t1 /\
    n3_av t2 = map (fun p => (f (fst p), map (fun q => (g (fst p) (fst q), snd q)) (snd p))) (n3_av t1).
End Spec.

Section Rename.
  Context {N : NumOps} (inner : bool).
  Context (P : attr -> Prop) (Q : attr -> nom -> Prop) (f : attr -> attr) (g : attr -> nom -> nom).
  Hypothesis RN3 : renaming3 inner P Q f g.
  Let RN := rn_base _ _ _ _ _ RN3.
  Notation C := (Cobweb3Class N).
  Notation rdict := (rdict g).
  Notation rav := (rav f g).
  Notation okd := (okd Q).
  Notation okav := (okav P Q).

  Lemma key_get a (d : list (nom * cell N)) : P a -> okd a d -> dget cv_key (rdict a d) = dget cv_key d.
  Proof.
    intros Ha Hd. destruct (rn_key _ _ _ _ _ RN3 a Ha) as [Hq Hk].
    pose proof (rdict_get P Q f g RN a cv_key d Ha Hq Hd) as H. by rewrite Hk in H.
  Qed.
  Lemma key_set a x (d : list (nom * cell N)) : P a -> okd a d -> dset cv_key x (rdict a d) = rdict a (dset cv_key x d).
  Proof.
    intros Ha Hd. destruct (rn_key _ _ _ _ _ RN3 a Ha) as [Hq Hk].
    pose proof (rdict_set P Q f g RN a cv_key x d Ha Hq Hd) as H. by rewrite Hk in H.
  Qed.
  Lemma key_eq a v : P a -> Q a v -> g a v = cv_key <-> v = cv_key.
  Proof.
    intros Ha Hv. destruct (rn_key _ _ _ _ _ RN3 a Ha) as [Hq Hk]. split; [|by intros ->].
    intros E. apply (rn_val _ _ _ _ RN a); try done. by rewrite Hk.
  Qed.

  (** A step on the dictionary of one attribute. *)
  Definition steps {X} (a : attr) (F1 F2 : list (nom * cell N) -> X -> list (nom * cell N) * option exn) (x1 x2 : X) : Prop :=
    forall d, okd a d -> okd a (fst (F1 d x1)) /\ F2 (rdict a d) x2 = (rdict a (fst (F1 d x1)), snd (F1 d x1)).

  Lemma inc1_steps a v : P a -> (forall w, v = VNom w -> Q a w) -> steps a (inc1 (N:=N)) inc1 v (rval g a v).
  Proof.
    intros Ha Hv d Hd. destruct (rn_key _ _ _ _ _ RN3 a Ha) as [Hq _]. destruct v as [v|x]; unfold inc1; cbn [rval].
    - specialize (Hv v eq_refl). rewrite (rdict_get P Q f g RN) by done.
      destruct (dget v d) as [[n|c]|]; cbn [fst snd]; [|done|].
      + split; [by apply okd_set|]. by rewrite (rdict_set P Q f g RN).
      + split; [by apply okd_set|]. by rewrite (rdict_set P Q f g RN).
    - rewrite key_get by done. destruct (dget cv_key d) as [[n|c]|]; cbn [fst snd]; [done| |].
      + split; [by apply okd_set|]. by rewrite key_set.
      + split; [by apply okd_set|]. by rewrite key_set.
  Qed.

  Lemma add1_steps a q : P a -> Q a (fst q) -> steps a (add1 (N:=N)) add1 q (g a (fst q), snd q).
  Proof.
    intros Ha Hv d Hd. destruct (rn_key _ _ _ _ _ RN3 a Ha) as [Hq _]. destruct q as [v q]. cbn [fst snd] in *.
    unfold add1. cbn [fst snd].
    destruct (decide (v = cv_key)) as [->|Hne].
    - rewrite decide_True by (by apply key_eq). rewrite key_get by done.
      destruct (default (CVc (cv_new N)) (dget cv_key d)) as [n|c]; [done|]. destruct q as [m|o].
      + cbn [fst snd]. split; [by apply okd_set|]. by rewrite key_set.
      + destruct (cv_combine c o); cbn [fst snd]; (split; [by apply okd_set|]); by rewrite key_set.
    - rewrite decide_False by (rewrite key_eq by done; done). rewrite (rdict_get P Q f g RN) by done.
      destruct (default (Cnt 0) (dget v d)) as [n|c], q as [m|o]; cbn [fst snd]; try done.
      split; [by apply okd_set|]. by rewrite (rdict_set P Q f g RN).
  Qed.

  Lemma sfold_steps a e : P a -> okd a e -> steps a (sfold (add1 (N:=N))) (sfold add1) e (rdict a e).
  Proof.
    intros Ha. induction 1 as [|q e Hq He IH]; intros d Hd; [done|].
    change (rdict a (q :: e)) with ((g a (fst q), snd q) :: rdict a e). cbn [sfold].
    destruct (add1_steps a q Ha Hq d Hd) as [H1 H2]. rewrite H2.
    destruct (add1 d q) as [d' [x|]]; cbn [fst snd] in *; [done|]. by apply IH.
  Qed.

  Lemma on_attr_steps {X} (F : list (nom * cell N) -> X -> list (nom * cell N) * option exn) a x1 x2 t :
    P a -> steps a F F x1 x2 -> okav t ->
    okav (fst (on_attr F t (a, x1))) /\
    on_attr F (rav t) (f a, x2) = (rav (fst (on_attr F t (a, x1))), snd (on_attr F t (a, x1))).
  Proof.
    intros Ha HF Ht. unfold on_attr. cbn [fst snd]. rewrite (rav_get P Q f g RN) by done.
    destruct (HF _ (okav_get P Q a t Ht)) as [H1 H2]. rewrite H2.
    destruct (F (default [] (dget a t)) x1) as [d e]. cbn [fst snd] in *.
    split; [by apply okav_set|]. by rewrite (rav_set P Q f g RN).
  Qed.

  Lemma inc_ren3 i : occurs3 P Q i -> forall t, okav t ->
    okav (fst (sfold (on_attr (inc1 (N:=N))) t i)) /\
    sfold (on_attr inc1) (rav t) (renamed3 f g i) =
      (rav (fst (sfold (on_attr inc1) t i)), snd (sfold (on_attr inc1) t i)).
  Proof.
    induction 1 as [|[a v] i [Ha Hv] Hi IH]; intros t Ht; [done|]. cbn [fst snd] in *.
    change (renamed3 f g ((a, v) :: i)) with ((f a, rval g a v) :: renamed3 f g i). cbn [sfold].
    destruct (on_attr_steps inc1 a v (rval g a v) t Ha (inc1_steps a v Ha Hv) Ht) as [H1 H2]. rewrite H2.
    destruct (on_attr inc1 t (a, v)) as [t' [x|]]; cbn [fst snd] in *; [done|]. by apply IH.
  Qed.

  Lemma add_ren3 (o : list (attr * list (nom * cell N))) : okav o -> forall t, okav t ->
    okav (fst (sfold (on_attr (sfold (add1 (N:=N)))) t o)) /\
    sfold (on_attr (sfold add1)) (rav t) (rav o) =
      (rav (fst (sfold (on_attr (sfold add1)) t o)), snd (sfold (on_attr (sfold add1)) t o)).
  Proof.
    induction 1 as [|[a e] o [Ha He] Ho IH]; intros t Ht; [done|]. cbn [fst snd] in *.
    change (rav ((a, e) :: o)) with ((f a, rdict a e) :: rav o). cbn [sfold].
    destruct (on_attr_steps (sfold add1) a e (rdict a e) t Ha (sfold_steps a e Ha He) Ht) as [H1 H2]. rewrite H2.
    destruct (on_attr (sfold add1) t (a, e)) as [t' [x|]]; cbn [fst snd] in *; [done|]. by apply IH.
  Qed.

  Definition ren_tables3 (s1 s2 : nsum3 N) : Prop :=
    okav (n3_av s1) /\ n3_count s2 = n3_count s1 /\ n3_av s2 = rav (n3_av s1).
  Definition ren_insts3 (i1 i2 : inst3 N) : Prop := occurs3 P Q i1 /\ i2 = renamed3 f g i1.
  Definition rscales (sc : list (attr * cval N)) : list (attr * cval N) := map (fun p => (f (fst p), snd p)) sc.
  Definition ren_ctxs (x1 x2 : ctx3 N) : Prop :=
    x_scaling x2 = x_scaling x1 /\ x_inner x1 = inner /\ x_inner x2 = inner /\
    Forall (fun p => P (fst p)) (x_scales x1) /\ x_scales x2 = rscales (x_scales x1).

  Lemma rscales_get a sc : P a -> Forall (fun p => P (fst p)) sc -> dget (f a) (rscales sc) = dget a sc.
  Proof.
    intros Ha Hs. unfold rscales.
    rewrite (dget_ren P f (fun _ (c : cval N) => c) (rn_attr _ _ _ _ RN)) by done. by destruct (dget a sc).
  Qed.
  Lemma inner_is (x : ctx3 N) a : x_inner x = inner -> inner_attr x a = inner_name inner a.
  Proof. intros <-. by destruct a as [|[]|]. Qed.

  Lemma pre_ren x1 x2 i1 i2 : ren_ctxs x1 x2 -> ren_insts3 i1 i2 ->
    ren_ctxs (update_scales x1 i1) (update_scales x2 i2).
  Proof.
    intros (H1 & H2 & H3 & H4 & H5) [Hi ->].
    split; [done|]. split; [done|]. split; [done|]. unfold update_scales. cbn [x_scales]. rewrite H5.
    clear H5. revert H4. generalize (x_scales x1).
    induction Hi as [|[a v] i [Ha Hv] Hi IH]; intros sc Hsc; [done|].
    change (renamed3 f g ((a, v) :: i)) with ((f a, rval g a v) :: renamed3 f g i). cbn [fold_left fst snd] in *.
    destruct v as [v|y]; cbn [rval]; [by apply IH|]. cbv zeta.
    rewrite (inner_is x1 a), (inner_is x2 (f a)) by done.
    destruct (rn_inner _ _ _ _ _ RN3 a Ha) as [Hp ->]. rewrite rscales_get by done.
    unfold rscales at 1 2.
    rewrite (dset_ren P f (fun _ (c : cval N) => c) (rn_attr _ _ _ _ RN)) by done.
    apply IH. by apply keyed_set.
  Qed.

  Lemma ecg_value_ren x1 x2 n a q : ren_ctxs x1 x2 -> P a -> Q a (fst q) ->
    ecg_value x2 n (f a) (g a (fst q), snd q) = ecg_value x1 n a q.
  Proof.
    intros (H1 & H2 & H3 & H4 & H5) Ha Hq. unfold ecg_value. cbn [fst snd].
    assert (E : ecg_scale x2 (f a) = ecg_scale x1 a).
    { unfold ecg_scale, scaling_on. rewrite H1.
      rewrite (inner_is x1 a), (inner_is x2 (f a)) by done.
      destruct (rn_inner _ _ _ _ _ RN3 a Ha) as [Hp ->]. by rewrite H5, rscales_get. }
    rewrite E. destruct (decide (fst q = cv_key)) as [Ek|Ek].
    - by rewrite decide_True by (by apply key_eq).
    - by rewrite decide_False by (by rewrite key_eq).
  Qed.

  Lemma ecg_ren3 x1 x2 s1 s2 : ren_ctxs x1 x2 -> ren_tables3 s1 s2 -> n3_ecg x1 s1 = n3_ecg x2 s2.
  Proof.
    intros Hx (Ho & Hc & Ht). unfold n3_ecg. rewrite Ht, Hc, (rav_vis P Q f g RN) by done.
    unfold PropsNames.rav at 2. rewrite map_length. f_equal.
    generalize (nofnat N 0). apply (okav_vis P Q) in Ho. revert Ho.
    generalize (dfilter visible (n3_av s1)). clear Ht Hc.
    induction 1 as [|[a d] t [Ha Hd] Ht IH]; intros acc; [done|]. cbn [fst snd] in *.
    change (rav ((a, d) :: t)) with ((f a, rdict a d) :: rav t). cbn [rfold fst snd].
    assert (E : forall acc,
      rfold (fun acc q => rbind (ecg_value x2 (n3_count s1) (f a) q) (fun g => Ok (nadd N acc g))) acc (rdict a d) =
      rfold (fun acc q => rbind (ecg_value x1 (n3_count s1) a q) (fun g => Ok (nadd N acc g))) acc d).
    { clear IH acc. induction Hd as [|q d Hq Hd IH]; intros acc; [done|].
      change (rdict a (q :: d)) with ((g a (fst q), snd q) :: rdict a d). cbn [rfold].
      rewrite (ecg_value_ren x1 x2) by done. destruct (ecg_value x1 (n3_count s1) a q); simpl; [apply IH|done]. }
    rewrite E. destruct (rfold _ acc d); simpl; [apply IH|done].
  Qed.

  Lemma exact_ren3 s1 s2 i1 i2 : ren_tables3 s1 s2 -> ren_insts3 i1 i2 -> n3_exact s1 i1 = n3_exact s2 i2.
  Proof.
    intros (Ho & Hc & Ht) [Hi ->]. unfold n3_exact.
    assert (Hki : Forall P (dkeys i1)).
    { unfold dkeys. apply Forall_map. eapply Forall_impl; [exact Hi|]. by intros p [? _]. }
    rewrite Ht, keys_rav, (filter_vis_map P Q f g RN) by (by apply (okav_keys P Q)).
    assert (Ek : dkeys (renamed3 f g i1) = map f (dkeys i1)) by (unfold dkeys, renamed3; by rewrite !map_map).
    rewrite Ek, <- map_app.
    assert (Hall : Forall P (dkeys i1 ++ List.filter visible (dkeys (n3_av s1)))).
    { apply Forall_app. split; [done|]. rewrite Forall_forall. intros a Ha.
      apply elem_of_list_In, filter_In in Ha as [Ha _]. apply elem_of_list_In in Ha.
      pose proof (okav_keys P Q _ Ho) as H. rewrite Forall_forall in H. by apply H. }
    revert Hall. generalize (dkeys i1 ++ List.filter visible (dkeys (n3_av s1))).
    induction 1 as [|a l Ha Hl IH]; [done|]. cbn [map rall].
    assert (E : exact1 s2 (renamed3 f g i1) (f a) = exact1 s1 i1 a).
    { unfold exact1. rewrite (rn_hidden _ _ _ _ RN a Ha). destruct (hidden a); [done|].
      assert (E1 : dget (f a) (renamed3 f g i1) = option_map (rval g a) (dget a i1)).
      { apply (dget_ren P f (rval g) (rn_attr _ _ _ _ RN)); [done|].
        eapply Forall_impl; [exact Hi|]. by intros p [? _]. }
      assert (E2 : dget (f a) (n3_av s2) = option_map (rdict a) (dget a (n3_av s1))).
      { rewrite Ht. apply (dget_ren P f (@PropsNames.rdict g (cell N)) (rn_attr _ _ _ _ RN)); [done|].
        by apply (okav_keyed P Q). }
      rewrite E1, E2, Hc. destruct (dget a i1) as [v|] eqn:Ei, (dget a (n3_av s1)) as [d|] eqn:Ed; try done.
      cbn [option_map].
      assert (Hd : okd a d) by (pose proof (okav_get P Q a _ Ho) as H; by rewrite Ed in H).
      assert (Hv : forall w, v = VNom w -> Q a w).
      { apply dget_In in Ei. unfold occurs3 in Hi. rewrite Forall_forall in Hi. by destruct (Hi _ Ei). }
      destruct v as [v|y]; cbn [rval].
      - rewrite (rdict_get P Q f g RN); [done|done|by apply Hv|done].
      - rewrite key_get by done. unfold PropsNames.rdict. by rewrite map_length. }
    rewrite E. destruct (exact1 s1 i1 a) as [[]|]; simpl; done.
  Qed.

  Lemma rename_sim3 : simulation C C ren_tables3 ren_insts3 ren_ctxs.
  Proof.
    split; [split|]; simpl.
    - split; [apply Forall_nil_2|done].
    - intros s1 s2 (_ & Hc & _). done.
    - intros s1 s2 i1 i2 (Ho & Hc & Ht) [Hi ->]. unfold n3_inc.
      destruct (inc_ren3 i1 Hi _ Ho) as [H1 H2]. rewrite Ht, H2.
      destruct (sfold (on_attr inc1) (n3_av s1) i1) as [t e]. cbn [fst snd] in *.
      split; [|done]. split; [done|]. simpl. by rewrite Hc.
    - intros s1 s2 o1 o2 (Ho & Hc & Ht) (Ho' & Hc' & Ht'). unfold n3_add.
      destruct (add_ren3 _ Ho' _ Ho) as [H1 H2]. rewrite Ht, Ht', H2.
      destruct (sfold (on_attr (sfold add1)) (n3_av s1) (n3_av o1)) as [t e]. cbn [fst snd] in *.
      split; [|done]. split; [done|]. simpl. by rewrite Hc, Hc'.
    - intros x1 x2 s1 s2 Hx Hs. by apply ecg_ren3.
    - intros s1 s2 i1 i2 Hs Hi. by apply exact_ren3.
    - intros x1 x2 i1 i2 Hx Hi. by apply pre_ren.
  Qed.

  (** ** C103 *)
  Theorem C103_names3 (rng : nat -> num N) sc (cs1 cs2 : list (call C)) ctr rpos :
    Forall2 (renamed_call3 P Q f g) cs1 cs2 ->
    let x := new_ctx (N:=N) sc inner in
    let o1 := exec C rng x cs1 (fresh C ctr rpos x) in
    let o2 := exec C rng x cs2 (fresh C ctr rpos x) in
    fst o1 = fst o2 /\ same_view (C1:=C) (C2:=C) (renamed_table3 f g) (snd o1) (snd o2).
  Proof.
    intros HF x. cbv zeta. assert (Hx : ren_ctxs x x) by (do 3 (split; [done|]); split; [apply Forall_nil_2|done]).
    destruct (exec_rel C C rng ren_tables3 ren_insts3 ren_ctxs rename_sim3 (cobweb3_real N)
      x x cs1 cs2 (fresh C ctr rpos x) (fresh C ctr rpos x) Hx) as [H1 H2].
    - eapply Forall2_impl; [exact HF|]. intros [i|i|a b|] [k|k|c d|]; done.
    - by apply (srel_fresh C C ren_tables3 ren_insts3 ren_ctxs rename_sim3).
    - split; [done|]. apply (srel_view C C ren_tables3 ren_ctxs) in H2. destruct H2 as [V1 V2 V3 V4 V5].
      split; [done|done|done|done|]. intros id t1 t2 Hin Ht1 Ht2.
      by destruct (V5 id t1 t2 Hin Ht1 Ht2) as (_ & Hc & Hv).
  Qed.
End Rename.
