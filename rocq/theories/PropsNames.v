(** * What attributes and values are called does not matter.

    A tree only asks whether two attribute names are equal, whether one is
    hidden, and whether two values of the same attribute are equal.  Renaming
    them gives the same tree with renamed tables, in any arithmetic. *)
From stdpp Require Import base decidable list gmap strings.
From Verif Require Import Base Num TreeModel TreeFun TreeScore TreeRefine TreeSorts TreeInv
  SpecTree TreeState TreeRel TreeSim Nominal NominalFacts CV Cobweb3 C3Facts Query.

(** ** Specification *)

(** [f] renames attributes and [g a] the values of [a]; [P] are the attributes
    and [Q a] the values of [a] that occur. *)
Record renaming (P : attr -> Prop) (Q : attr -> nom -> Prop) (f : attr -> attr) (g : attr -> nom -> nom) : Prop := {
  rn_attr : forall a b, P a -> P b -> f a = f b -> a = b;
  rn_hidden : forall a, P a -> hidden (f a) = hidden a;
  rn_val : forall a v w, P a -> Q a v -> Q a w -> g a v = g a w -> v = w;
}.

Definition occurs (P : attr -> Prop) (Q : attr -> nom -> Prop) (i : inst) : Prop :=
  Forall (fun p => P (fst p) /\ Q (fst p) (snd p)) i.
Definition renamed (f : attr -> attr) (g : attr -> nom -> nom) (i : inst) : inst :=
  map (fun p => (f (fst p), g (fst p) (snd p))) i.

Definition renamed_call {N : NumOps} P Q f g (c1 c2 : call (CobwebClass N)) : Prop :=
  match c1, c2 with
  | CFit i1, CFit i2 | CCat i1, CCat i2 => occurs P Q i1 /\ i2 = renamed f g i1
  | COther a b, COther c d => a = c /\ b = d
  | CClear, CClear => True
  | _, _ => False
  end.

(** The table [t2] is [t1] with everything renamed. *)
Definition renamed_table (f : attr -> attr) (g : attr -> nom -> nom) (t1 t2 : nsum) : Prop :=
  ns_count t2 = ns_count t1 /\
  ns_av t2 = map (fun p => (f (fst p), map (fun q => (g (fst p) (fst q), snd q)) (snd p))) (ns_av t1).

(** ** Renamed dictionaries *)
Section Dict.
  Context {K V W : Type} `{EqDecision K} (P : K -> Prop) (f : K -> K) (h : K -> V -> W).
  Hypothesis inj : forall a b, P a -> P b -> f a = f b -> a = b.
  Notation keyed := (Forall (fun p => P (fst p))).
  Notation ren := (map (fun p => (f (fst p), h (fst p) (snd p)))).

  Lemma dget_ren k (d : list (K * V)) : P k -> keyed d -> dget (f k) (ren d) = option_map (h k) (dget k d).
  Proof.
    intros Hk. induction 1 as [|[a v] d Ha Hd IH]; [done|]. cbn [map dget fst snd] in *.
    destruct (decide (k = a)) as [->|Hne]; [by rewrite decide_True|].
    rewrite decide_False; [done|]. intros E. apply Hne. by apply inj.
  Qed.
  Lemma dset_ren k v (d : list (K * V)) : P k -> keyed d -> dset (f k) (h k v) (ren d) = ren (dset k v d).
  Proof.
    intros Hk. induction 1 as [|[a w] d Ha Hd IH]; [done|]. cbn [map dset fst snd] in *.
    destruct (decide (k = a)) as [->|Hne]; [by rewrite decide_True|].
    rewrite decide_False; [simpl; by rewrite IH|]. intros E. apply Hne. by apply inj.
  Qed.
  Lemma keyed_set k (v : V) (d : list (K * V)) : P k -> keyed d -> keyed (dset k v d).
  Proof.
    intros Hk. induction 1 as [|[a w] d Ha Hd IH]; [by apply Forall_cons_2|]. cbn [dset].
    case_decide; by apply Forall_cons_2.
  Qed.
End Dict.

Section Rename.
  Context (P : attr -> Prop) (Q : attr -> nom -> Prop) (f : attr -> attr) (g : attr -> nom -> nom).
  Hypothesis RN : renaming P Q f g.
  Notation av := (list (attr * list (nom * nat))).

  Definition rdict {X} (a : attr) (d : list (nom * X)) : list (nom * X) := map (fun q => (g a (fst q), snd q)) d.
  Definition rav {X} (t : list (attr * list (nom * X))) : list (attr * list (nom * X)) :=
    map (fun p => (f (fst p), rdict (fst p) (snd p))) t.
  Definition okd {X} (a : attr) (d : list (nom * X)) : Prop := Forall (fun q => Q a (fst q)) d.
  Definition okav {X} (t : list (attr * list (nom * X))) : Prop :=
    Forall (fun p => P (fst p) /\ okd (fst p) (snd p)) t.

  Lemma okav_keyed {X} (t : list (attr * list (nom * X))) : okav t -> Forall (fun p => P (fst p)) t.
  Proof. intros H. eapply Forall_impl; [exact H|]. by intros p [? _]. Qed.
  Lemma okav_get {X} a (t : list (attr * list (nom * X))) : okav t -> okd a (default [] (dget a t)).
  Proof.
    intros H. destruct (dget a t) as [d|] eqn:E; [|apply Forall_nil_2].
    apply dget_In in E. unfold okav in H. rewrite Forall_forall in H. by destruct (H _ E).
  Qed.
  Lemma okav_set {X} a d (t : list (attr * list (nom * X))) : P a -> okd a d -> okav t -> okav (dset a d t).
  Proof.
    intros Ha Hd. induction 1 as [|[b e] t Hb Ht IH]; [by apply Forall_cons_2|]. cbn [dset].
    case_decide; [subst|]; by apply Forall_cons_2.
  Qed.
  Lemma rav_get {X} a (t : list (attr * list (nom * X))) : P a -> okav t ->
    default [] (dget (f a) (rav t)) = rdict a (default [] (dget a t)).
  Proof.
    intros Ha Ht. unfold rav. rewrite (dget_ren P f (@rdict X) (rn_attr _ _ _ _ RN)) by (done || by apply okav_keyed).
    by destruct (dget a t).
  Qed.
  Lemma rav_set {X} a d (t : list (attr * list (nom * X))) : P a -> okav t ->
    dset (f a) (rdict a d) (rav t) = rav (dset a d t).
  Proof.
    intros Ha Ht. unfold rav. apply (dset_ren P f (@rdict X) (rn_attr _ _ _ _ RN)); [done|]. by apply okav_keyed.
  Qed.
  Lemma rdict_get {X} a v (d : list (nom * X)) : P a -> Q a v -> okd a d -> dget (g a v) (rdict a d) = dget v d.
  Proof.
    intros Ha Hv Hd. unfold rdict.
    rewrite (dget_ren (Q a) (g a) (fun _ (x : X) => x) (fun v w => rn_val _ _ _ _ RN a v w Ha)) by done.
    by destruct (dget v d).
  Qed.
  Lemma rdict_set {X} a v x (d : list (nom * X)) : P a -> Q a v -> okd a d ->
    dset (g a v) x (rdict a d) = rdict a (dset v x d).
  Proof.
    intros Ha Hv Hd.
    apply (dset_ren (Q a) (g a) (fun _ (x : X) => x) (fun v w => rn_val _ _ _ _ RN a v w Ha)); done.
  Qed.
  Lemma okd_set {X} a v (x : X) d : Q a v -> okd a d -> okd a (dset v x d).
  Proof. intros Hv. by apply (keyed_set (Q a)). Qed.
  Lemma rav_vis {X} (t : list (attr * list (nom * X))) : okav t -> dfilter visible (rav t) = rav (dfilter visible t).
  Proof.
    induction 1 as [|[a d] t [Ha Hd] Ht IH]; [done|]. cbn [fst] in Ha.
    change (rav ((a, d) :: t)) with ((f a, rdict a d) :: rav t).
    unfold dfilter in *. cbn [List.filter fst]. rewrite IH. unfold visible at 1. rewrite (rn_hidden _ _ _ _ RN a Ha).
    fold (visible a). by destruct (visible a).
  Qed.
  Lemma okav_vis {X} (t : list (attr * list (nom * X))) : okav t -> okav (dfilter visible t).
  Proof.
    unfold okav. rewrite !Forall_forall. intros H p Hp. apply elem_of_filterb in Hp as [Hp _]. by apply H.
  Qed.

  Lemma dadd_ren a v n d : P a -> Q a v -> okd a d -> dadd (g a v) n (rdict a d) = rdict a (dadd v n d).
  Proof. intros Ha Hv Hd. unfold dadd. by rewrite rdict_get, rdict_set. Qed.

  Definition ren_tables (s1 s2 : nsum) : Prop :=
    okav (ns_av s1) /\ ns_count s2 = ns_count s1 /\ ns_av s2 = rav (ns_av s1).
  Definition ren_insts (i1 i2 : inst) : Prop := occurs P Q i1 /\ i2 = renamed f g i1.

  Lemma inc_ren i : occurs P Q i -> forall t : av, okav t ->
    okav (fold_left (fun av p => avadd (fst p) (snd p) 1 av) i t) /\
    fold_left (fun av p => avadd (fst p) (snd p) 1 av) (renamed f g i) (rav t) =
    rav (fold_left (fun av p => avadd (fst p) (snd p) 1 av) i t).
  Proof.
    induction 1 as [|[a v] i [Ha Hv] Hi IH]; intros t Ht; [done|]. cbn [renamed map fold_left fst snd] in *.
    assert (Ho : okav (avadd a v 1 t)).
    { apply okav_set; [done| |done]. apply okd_set; [done|by apply okav_get]. }
    assert (E : avadd (f a) (g a v) 1 (rav t) = rav (avadd a v 1 t)).
    { unfold avadd. rewrite rav_get, dadd_ren by (done || by apply okav_get). by apply rav_set. }
    rewrite E. by apply IH.
  Qed.

  Lemma merge_inner_ren a o : P a -> okd a o -> forall d, okd a d ->
    okd a (fold_left (fun d q => dadd (fst q) (snd q) d) o d) /\
    fold_left (fun d q => dadd (fst q) (snd q) d) (rdict a o) (rdict a d) =
    rdict a (fold_left (fun d q => dadd (fst q) (snd q) d) o d).
  Proof.
    intros Ha. induction 1 as [|[v n] o Hv Ho IH]; intros d Hd; [done|]. cbn [rdict map fold_left fst snd] in *.
    rewrite dadd_ren by done. apply IH. by apply okd_set.
  Qed.
  Lemma merge_ren o : okav o -> forall t : av, okav t ->
    okav (fold_left avmerge1 o t) /\ fold_left avmerge1 (rav o) (rav t) = rav (fold_left avmerge1 o t).
  Proof.
    induction 1 as [|[a d] o [Ha Hd] Ho IH]; intros t Ht; [done|]. cbn [rav map fold_left fst snd] in *.
    destruct (merge_inner_ren a d Ha Hd (default [] (dget a t)) (okav_get a t Ht)) as [H1 H2].
    assert (E : avmerge1 (rav t) (f a, rdict a d) = rav (avmerge1 t (a, d))).
    { unfold avmerge1. cbn [fst snd]. rewrite rav_get, H2 by done. by apply rav_set. }
    fold (rav t). rewrite E. apply IH. unfold avmerge1. cbn [fst snd]. by apply okav_set.
  Qed.

  Lemma ecg_ren (N : NumOps) s1 s2 : ren_tables s1 s2 -> ns_ecg N s1 = ns_ecg N s2.
  Proof.
    intros (Ho & Hc & Ht). unfold ns_ecg. rewrite Ht, Hc, rav_vis by done.
    unfold rav at 2. rewrite map_length. f_equal.
    generalize (nofnat N 0). generalize (dfilter visible (ns_av s1)). clear Ho Ht Hc.
    induction l as [|[a d] t IH]; intros acc; [done|].
    cbn [rav map rfold fst snd] in *.
    assert (E : forall acc, rfold (fun acc q => rbind (pydiv N (nofnat N (snd q)) (nofnat N (ns_count s1)))
        (fun pr => Ok (nadd N acc (nmul N pr pr)))) acc (rdict a d) =
      rfold (fun acc q => rbind (pydiv N (nofnat N (snd q)) (nofnat N (ns_count s1)))
        (fun pr => Ok (nadd N acc (nmul N pr pr)))) acc d).
    { clear IH acc. induction d as [|[v n] d IH]; intros acc; [done|]. cbn [rdict map rfold fst snd].
      destruct (pydiv N (nofnat N n) (nofnat N (ns_count s1))); simpl; [apply IH|done]. }
    rewrite E. destruct (rfold _ acc d); simpl; [apply IH|done].
  Qed.

  Lemma keys_rav {X} (t : list (attr * list (nom * X))) : dkeys (rav t) = map f (dkeys t).
  Proof. unfold dkeys, rav. rewrite !map_map. done. Qed.
  Lemma filter_vis_map l : Forall P l -> List.filter visible (map f l) = map f (List.filter visible l).
  Proof.
    induction 1 as [|a l Ha Hl IH]; [done|]. simpl. rewrite IH. unfold visible at 1.
    rewrite (rn_hidden _ _ _ _ RN a Ha). fold (visible a). by destruct (visible a).
  Qed.
  Lemma okav_keys {X} (t : list (attr * list (nom * X))) : okav t -> Forall P (dkeys t).
  Proof. intros H%okav_keyed. unfold dkeys. by apply Forall_map. Qed.

  Lemma exact_ren s1 s2 i1 i2 : ren_tables s1 s2 -> ren_insts i1 i2 -> ns_exact s1 i1 = ns_exact s2 i2.
  Proof.
    intros (Ho & Hc & Ht) [Hi ->]. unfold ns_exact. rewrite Ht, Hc, keys_rav.
    assert (Hki : Forall P (dkeys i1)).
    { unfold dkeys. apply Forall_map. eapply Forall_impl; [exact Hi|]. by intros p [? _]. }
    rewrite filter_vis_map by (by apply okav_keys).
    assert (Ek : dkeys (renamed f g i1) = map f (dkeys i1)) by (unfold dkeys, renamed; by rewrite !map_map).
    rewrite Ek, <- map_app.
    assert (Hall : Forall P (dkeys i1 ++ List.filter visible (dkeys (ns_av s1)))).
    { apply Forall_app. split; [done|]. rewrite Forall_forall. intros a Ha.
      apply elem_of_list_In, filter_In in Ha as [Ha _]. apply elem_of_list_In in Ha.
      pose proof (okav_keys _ Ho) as H. rewrite Forall_forall in H. by apply H. }
    revert Hall. generalize (dkeys i1 ++ List.filter visible (dkeys (ns_av s1))).
    induction 1 as [|a l Ha Hl IH]; [done|]. cbn [map forallb]. rewrite IH. f_equal.
    rewrite (rn_hidden _ _ _ _ RN a Ha). f_equal.
    assert (E1 : dget (f a) (renamed f g i1) = option_map (g a) (dget a i1)).
    { apply (dget_ren P f g (rn_attr _ _ _ _ RN)); [done|].
      eapply Forall_impl; [exact Hi|]. by intros p [? _]. }
    assert (E2 : dget (f a) (rav (ns_av s1)) = option_map (rdict a) (dget a (ns_av s1))).
    { apply (dget_ren P f (@rdict nat) (rn_attr _ _ _ _ RN)); [done|]. by apply okav_keyed. }
    rewrite E1, E2. destruct (dget a i1) as [v|] eqn:Ei, (dget a (ns_av s1)) as [d|] eqn:Ed; try done.
    cbn [option_map]. rewrite rdict_get; [done|done| |].
    - apply dget_In in Ei. unfold occurs in Hi. rewrite Forall_forall in Hi. by destruct (Hi _ Ei).
    - pose proof (okav_get a _ Ho) as H. by rewrite Ed in H.
  Qed.

  Lemma rename_sim (N : NumOps) : simulation (CobwebClass N) (CobwebClass N) ren_tables ren_insts eq.
  Proof.
    split; [split|]; simpl.
    - split; [apply Forall_nil_2|done].
    - intros s1 s2 (_ & Hc & _). done.
    - intros s1 s2 i1 i2 (Ho & Hc & Ht) [Hi ->]. split; [|done].
      destruct (inc_ren i1 Hi _ Ho) as [H1 H2]. split; [done|]. simpl. by rewrite Hc, Ht.
    - intros s1 s2 o1 o2 (Ho & Hc & Ht) (Ho' & Hc' & Ht'). split; [|done].
      destruct (merge_ren _ Ho' _ Ho) as [H1 H2]. split; [done|]. simpl. by rewrite Hc, Hc', Ht, Ht'.
    - intros x1 x2 s1 s2 _ Hs. by apply ecg_ren.
    - intros s1 s2 i1 i2 Hs Hi. f_equal. by apply exact_ren.
    - done.
  Qed.

  (** ** C103 *)
  Theorem C103_names (N : NumOps) (rng : nat -> num N) (cs1 cs2 : list (call (CobwebClass N))) ctr rpos :
    Forall2 (renamed_call P Q f g) cs1 cs2 ->
    let C := CobwebClass N in
    let o1 := exec C rng tt cs1 (fresh C ctr rpos tt) in
    let o2 := exec C rng tt cs2 (fresh C ctr rpos tt) in
    fst o1 = fst o2 /\ same_view (C1:=C) (C2:=C) (renamed_table f g) (snd o1) (snd o2).
  Proof.
    intros HF. cbv zeta. set (C := CobwebClass N).
    destruct (exec_rel C C rng ren_tables ren_insts eq (rename_sim N) (cobweb_real N)
      tt tt cs1 cs2 (fresh C ctr rpos tt) (fresh C ctr rpos tt) eq_refl) as [H1 H2].
    - eapply Forall2_impl; [exact HF|]. intros [i|i|a b|] [k|k|c d|]; done.
    - apply (srel_fresh C C ren_tables ren_insts eq (rename_sim N)). done.
    - split; [done|]. apply (srel_view C C ren_tables eq) in H2. destruct H2 as [V1 V2 V3 V4 V5].
      split; [done|done|done|done|]. intros id t1 t2 Hin Ht1 Ht2.
      by destruct (V5 id t1 t2 Hin Ht1 Ht2) as (_ & Hc & Hv).
  Qed.
End Rename.
