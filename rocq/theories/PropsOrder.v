(** * The order of the attributes of an instance does not matter.

    A Python dictionary remembers the order in which its keys were set, and
    the sums of expected_correct_guesses (cobweb.py:380-402) are taken in that
    order.  In exact arithmetic nothing depends on it. *)
From Coq Require Import Reals Lra.
From stdpp Require Import base decidable list gmap strings.
From Verif Require Import Base Num TreeModel TreeFun TreeScore TreeRefine TreeSorts TreeInv
  SpecTree TreeState TreeRel TreeSim Nominal NominalFacts RSum NominalR Query.

(** ** Specification *)

(** Two dictionaries with the same entries, up to [R] on the values. *)
Definition same_dict {K V} `{EqDecision K} (R : V -> V -> Prop) (d1 d2 : list (K * V)) : Prop :=
  forall k, match dget k d1, dget k d2 with
            | Some v1, Some v2 => R v1 v2
            | None, None => True
            | _, _ => False
            end.

(** Two tables that differ in the order of their entries only. *)
Definition same_table (t1 t2 : nsum) : Prop :=
  ns_count t1 = ns_count t2 /\ same_dict (same_dict eq) (ns_av t1) (ns_av t2).

(** The same call with the attributes of the instance in another order. *)
Definition reordered {N : NumOps} (c1 c2 : call (CobwebClass N)) : Prop :=
  match c1, c2 with
  | CFit i1, CFit i2 | CCat i1, CCat i2 => dwf (i1 : inst) /\ Permutation (i1 : inst) i2
  | COther a b, COther c d => a = c /\ b = d
  | CClear, CClear => True
  | _, _ => False
  end.

(** ** Dictionaries *)
Section Dict.
  Context {K V : Type} `{EqDecision K}.
  Implicit Types (d : list (K * V)) (k : K).

  Definition deq (R : V -> V -> Prop) d1 d2 : Prop := dwf d1 /\ dwf d2 /\ same_dict R d1 d2.

  Lemma deq_nil R : deq R [] [].
  Proof. split; [apply dwf_nil|]. split; [apply dwf_nil|]. by intros k. Qed.

  Lemma same_dict_keys R d1 d2 k : same_dict R d1 d2 -> k ∈ dkeys d1 <-> k ∈ dkeys d2.
  Proof.
    intros H. specialize (H k). split; intros [v Hv]%dget_key_Some; rewrite Hv in H.
    - destruct (dget k d2) as [w|] eqn:E; [by eapply dget_Some_key|done].
    - destruct (dget k d1) as [w|] eqn:E; [by eapply dget_Some_key|done].
  Qed.

  Lemma deq_keys R d1 d2 : deq R d1 d2 -> Permutation (dkeys d1) (dkeys d2).
  Proof. intros (H1 & H2 & H). apply NoDup_Permutation; [done|done|]. intros k. by eapply same_dict_keys. Qed.

  Lemma deq_length R d1 d2 : deq R d1 d2 -> length d1 = length d2.
  Proof. intros H%deq_keys%Permutation_length. unfold dkeys in H. by rewrite !map_length in H. Qed.

  Lemma deq_filter R p d1 d2 : deq R d1 d2 -> deq R (dfilter p d1) (dfilter p d2).
  Proof.
    intros (H1 & H2 & H). split; [by apply dwf_dfilter|]. split; [by apply dwf_dfilter|].
    intros k. specialize (H k). rewrite !dget_dfilter. by destruct (p k).
  Qed.

  Lemma perm_deq d1 d2 : dwf d1 -> Permutation d1 d2 -> deq eq d1 d2.
  Proof.
    intros H Hp. split; [done|]. split.
    - unfold dwf, dkeys in *. by rewrite <- Hp.
    - intros k. rewrite (dget_perm k d1 d2 H Hp). by destruct (dget k d2).
  Qed.

  Lemma deq_perm d1 d2 : deq eq d1 d2 -> Permutation d1 d2.
  Proof.
    intros (H1 & H2 & H). apply NoDup_Permutation.
    - by apply (NoDup_fmap_1 fst).
    - by apply (NoDup_fmap_1 fst).
    - intros [k v]. specialize (H k). split; intros E%In_dget; try done; rewrite E in H.
      + destruct (dget k d2) eqn:E2; [|done]. subst. by apply dget_In.
      + destruct (dget k d1) eqn:E2; [|done]. subst. by apply dget_In.
  Qed.

  (** Setting the keys of one dictionary in another. *)
  Lemma dget_fold {X} (g : X -> option V -> V) (i : list (K * X)) : forall d k, dwf i ->
    dget k (fold_left (fun d p => dset (fst p) (g (snd p) (dget (fst p) d)) d) i d) =
    match dget k i with Some x => Some (g x (dget k d)) | None => dget k d end.
  Proof.
    induction i as [|[a x] i IH]; intros d k Hw; [done|].
    apply dwf_cons in Hw as [Ha Hw]. cbn [fold_left fst snd]. rewrite IH by done. simpl.
    case_decide as E.
    - subst a. assert (En : dget k i = None).
      { destruct (dget k i) eqn:E; [|done]. exfalso. apply Ha. by eapply dget_Some_key. }
      rewrite En. by rewrite dget_dset_eq.
    - destruct (dget k i); by rewrite dget_dset_ne.
  Qed.

  Lemma wf_fold {X} (g : X -> option V -> V) (i : list (K * X)) : forall d, dwf d ->
    dwf (fold_left (fun d p => dset (fst p) (g (snd p) (dget (fst p) d)) d) i d).
  Proof. induction i as [|p i IH]; intros d Hd; [done|]. cbn [fold_left]. apply IH. by apply dset_wf. Qed.

  Lemma deq_fold {X} (R : V -> V -> Prop) (RX : X -> X -> Prop) (g : X -> option V -> V)
      (i1 i2 : list (K * X)) d1 d2 :
    dwf i1 -> dwf i2 -> same_dict RX i1 i2 -> deq R d1 d2 ->
    (forall x y, RX x y -> R (g x None) (g y None)) ->
    (forall x y v w, RX x y -> R v w -> R (g x (Some v)) (g y (Some w))) ->
    deq R (fold_left (fun d p => dset (fst p) (g (snd p) (dget (fst p) d)) d) i1 d1)
          (fold_left (fun d p => dset (fst p) (g (snd p) (dget (fst p) d)) d) i2 d2).
  Proof.
    intros W1 W2 Hi (D1 & D2 & Hd) Hn Hs.
    split; [by apply wf_fold|]. split; [by apply wf_fold|].
    intros k. rewrite !dget_fold by done. specialize (Hi k). specialize (Hd k).
    destruct (dget k i1) as [x|], (dget k i2) as [y|]; [|done|done|exact Hd].
    destruct (dget k d1) as [v|], (dget k d2) as [w|]; [|done|done|]; auto.
  Qed.

  Local Open Scope R_scope.
  Lemma Rsum_keys (f : K * V -> R) d : dwf d ->
    Rsum f d = Rsum (fun k => match dget k d with Some v => f (k, v) | None => 0 end) (dkeys d).
  Proof.
    induction d as [|[a v] d IH]; intros Hw; [done|].
    apply dwf_cons in Hw as [Ha Hw]. simpl. rewrite decide_True by done. rewrite IH by done. f_equal.
    apply Rsum_ext. intros k Hk. rewrite decide_False; [done|]. by intros ->.
  Qed.

  Lemma Rsum_deq (Q : V -> V -> Prop) (f : K * V -> R) d1 d2 : deq Q d1 d2 ->
    (forall k v w, Q v w -> f (k, v) = f (k, w)) -> Rsum f d1 = Rsum f d2.
  Proof.
    intros H Hf. pose proof (deq_keys _ _ _ H) as Hp. destruct H as (W1 & W2 & H).
    rewrite (Rsum_keys f d1), (Rsum_keys f d2) by done. rewrite (Rsum_perm _ _ _ Hp).
    apply Rsum_ext. intros k _. specialize (H k).
    destruct (dget k d1), (dget k d2); [|done|done|done]. by apply Hf.
  Qed.
End Dict.

(** ** CobwebTree *)

Definition deq2 : list (attr * list (nom * nat)) -> list (attr * list (nom * nat)) -> Prop := deq (deq eq).

(** Tables of reachable concepts: proper dictionaries, and nothing is counted
    before an instance arrives. *)
Definition perm_tables (s1 s2 : nsum) : Prop :=
  ns_count s1 = ns_count s2 /\ deq2 (ns_av s1) (ns_av s2) /\ (ns_av s1 = [] \/ 0 < ns_count s1).
Definition perm_insts (i1 i2 : inst) : Prop := dwf i1 /\ Permutation i1 i2.

Lemma perm_inc (i1 i2 : inst) av1 av2 : perm_insts i1 i2 -> deq2 av1 av2 ->
  deq2 (fold_left (fun av p => avadd (fst p) (snd p) 1 av) i1 av1)
       (fold_left (fun av p => avadd (fst p) (snd p) 1 av) i2 av2).
Proof.
  intros [Hw Hp] Hd. destruct (perm_deq i1 i2 Hw Hp) as (W1 & W2 & Hi).
  apply (deq_fold (deq eq) eq (fun v o => dadd v 1 (default [] o)) i1 i2 av1 av2); try done.
  - intros x y ->. cbn [default]. unfold dadd. simpl.
    split; [|split]; [apply NoDup_singleton|apply NoDup_singleton|]. intros k. simpl. by case_decide.
  - intros x y v w -> (V1 & V2 & Hv). cbn [default]. unfold dadd.
    split; [by apply dset_wf|]. split; [by apply dset_wf|]. intros k. pose proof (Hv k) as Hk.
    pose proof (Hv y) as Hy. rewrite !dget_dset. case_decide; [|exact Hk].
    change (Datatypes.id v) with v. change (Datatypes.id w) with w.
    destruct (dget y v), (dget y w); [|done|done|done]. by subst.
Qed.

Lemma perm_merge_inner (o1 o2 d1 d2 : list (nom * nat)) : deq eq o1 o2 -> deq eq d1 d2 ->
  deq eq (fold_left (fun d q => dadd (fst q) (snd q) d) o1 d1)
         (fold_left (fun d q => dadd (fst q) (snd q) d) o2 d2).
Proof.
  intros (W1 & W2 & Ho) Hd.
  apply (deq_fold eq eq (fun m o => default 0 o + m) o1 o2 d1 d2); try done; intros; by subst.
Qed.

Lemma perm_merge (o1 o2 av1 av2 : list (attr * list (nom * nat))) : deq2 o1 o2 -> deq2 av1 av2 ->
  deq2 (fold_left avmerge1 o1 av1) (fold_left avmerge1 o2 av2).
Proof.
  intros (W1 & W2 & Ho) Hd.
  apply (deq_fold (deq eq) (deq eq)
    (fun e o => fold_left (fun d q => dadd (fst q) (snd q) d) e (default [] o)) o1 o2 av1 av2); try done.
  - intros x y H. apply perm_merge_inner; [done|apply deq_nil].
  - intros x y v w H Hv. by apply perm_merge_inner.
Qed.

Lemma fold_avadd_nil (i : inst) : forall av,
  fold_left (fun av p => avadd (fst p) (snd p) 1 av) i av = [] -> av = [].
Proof.
  induction i as [|p i IH]; intros av H; [done|]. cbn [fold_left] in H. apply IH in H.
  unfold avadd in H. by apply dset_not_nil in H.
Qed.

Lemma perm_ecg s1 s2 : perm_tables s1 s2 -> ns_ecg ROps s1 = ns_ecg ROps s2.
Proof.
  intros (Hc & Hd & He).
  assert (Hv : deq2 (vis s1) (vis s2)) by (by apply deq_filter).
  destruct (decide (vis s1 = [])) as [E1|E1].
  - assert (E2 : vis s2 = []).
    { apply deq_length in Hv. rewrite E1 in Hv. by destruct (vis s2). }
    unfold ns_ecg. fold (vis s1) (vis s2). by rewrite E1, E2.
  - assert (E2 : vis s2 <> []).
    { intros E. apply deq_length in Hv. rewrite E in Hv. by destruct (vis s1). }
    destruct He as [He|He]; [by unfold vis in E1; rewrite He in E1|].
    rewrite (ecg_value s1), (ecg_value s2) by (done || lia).
    rewrite (deq_length _ _ _ Hv). f_equal. f_equal. unfold guess_sum. rewrite <- Hc.
    apply (Rsum_deq (deq eq)); [done|]. intros k v w H. cbn [snd].
    apply (Rsum_deq eq); [done|]. by intros ? ? ? ->.
Qed.

Lemma perm_exact s1 s2 i1 i2 : perm_tables s1 s2 -> perm_insts i1 i2 ->
  ns_exact s1 i1 = true -> ns_exact s2 i2 = true.
Proof.
  intros (Hc & Hd & _) [Hw Hp]. rewrite !exact_true. intros Hx a Ha Hin.
  destruct Hd as (D1 & D2 & Hd).
  destruct (Hx a Ha) as (v & d & c & H1 & H2 & H3 & H4).
  - destruct Hin as [Hin|Hin]; [left|right].
    + unfold dkeys in *. by rewrite Hp.
    + by apply (same_dict_keys _ _ _ a Hd).
  - specialize (Hd a). rewrite H2 in Hd. destruct (dget a (ns_av s2)) as [d'|] eqn:E; [|done].
    destruct Hd as (_ & _ & Hd). specialize (Hd v). rewrite H3 in Hd.
    destruct (dget v d') as [c'|] eqn:E'; [|done]. subst c'.
    exists v, d', c. rewrite <- (dget_perm a i1 i2) by done. rewrite <- Hc. done.
Qed.

Lemma same_dict_sym {K V} `{EqDecision K} (R1 R2 : V -> V -> Prop) (d1 d2 : list (K * V)) :
  (forall v w, R1 v w -> R2 w v) -> same_dict R1 d1 d2 -> same_dict R2 d2 d1.
Proof.
  intros HR H k. specialize (H k). destruct (dget k d1), (dget k d2); [|done|done|done]. by apply HR.
Qed.
Lemma deq_sym {K V} `{EqDecision K} (R1 R2 : V -> V -> Prop) (d1 d2 : list (K * V)) :
  (forall v w, R1 v w -> R2 w v) -> deq R1 d1 d2 -> deq R2 d2 d1.
Proof. intros HR (H1 & H2 & H). split; [done|]. split; [done|]. by eapply same_dict_sym. Qed.

Lemma perm_tables_sym s1 s2 : perm_tables s1 s2 -> perm_tables s2 s1.
Proof.
  intros (Hc & Hd & He). split; [done|]. split.
  - eapply deq_sym; [|exact Hd]. intros v w. apply deq_sym. by intros ? ? ->.
  - destruct He as [He|He]; [left|right; lia]. apply deq_length in Hd. rewrite He in Hd. by destruct (ns_av s2).
Qed.

Lemma perm_insts_sym i1 i2 : perm_insts i1 i2 -> perm_insts i2 i1.
Proof. intros [H1 H2]. split; [unfold dwf, dkeys in *; by rewrite <- H2|by symmetry]. Qed.

Lemma order_sim : simulation (CobwebClass ROps) (CobwebClass ROps) perm_tables perm_insts eq.
Proof.
  split; [split|]; simpl.
  - split; [done|]. split; [apply deq_nil|by left].
  - by intros s1 s2 [? _].
  - intros s1 s2 i1 i2 (Hc & Hd & He) Hi. split; [|done]. split; [by simpl; rewrite Hc|].
    split; [by apply perm_inc|]. right. simpl. lia.
  - intros s1 s2 o1 o2 (Hc & Hd & He) (Hc' & Hd' & He'). split; [|done].
    split; [by simpl; rewrite Hc, Hc'|]. split; [by apply perm_merge|]. simpl.
    destruct He as [He|He]; [|right; lia]. destruct He' as [He'|He']; [|right; lia].
    left. by rewrite He, He'.
  - intros x1 x2 s1 s2 _ Hs. by apply perm_ecg.
  - intros s1 s2 i1 i2 Hs Hi. f_equal.
    destruct (ns_exact s1 i1) eqn:E1, (ns_exact s2 i2) eqn:E2; try done.
    + by rewrite (perm_exact s1 s2 i1 i2 Hs Hi E1) in E2.
    + rewrite (perm_exact s2 s1 i2 i1) in E1; [done| | |done].
      * by apply perm_tables_sym.
      * by apply perm_insts_sym.
  - done.
Qed.

Section Order.
  Context (rng : nat -> R).
  Notation C := (CobwebClass ROps).

  Lemma reordered_runs (cs1 cs2 : list (call C)) ctr rpos : Forall2 reordered cs1 cs2 ->
    fst (exec C rng tt cs1 (fresh C ctr rpos tt)) = fst (exec C rng tt cs2 (fresh C ctr rpos tt)) /\
    same_view (C1:=C) (C2:=C) perm_tables (snd (exec C rng tt cs1 (fresh C ctr rpos tt)))
      (snd (exec C rng tt cs2 (fresh C ctr rpos tt))).
  Proof.
    intros HF.
    destruct (exec_rel C C rng perm_tables perm_insts eq order_sim (cobweb_real ROps)
      tt tt cs1 cs2 (fresh C ctr rpos tt) (fresh C ctr rpos tt) eq_refl) as [H1 H2].
    - eapply Forall2_impl; [exact HF|]. intros [i|i|a b|] [k|k|c d|]; done.
    - apply (srel_fresh C C perm_tables perm_insts eq order_sim). done.
    - split; [done|]. by apply (srel_view C C perm_tables eq) in H2.
  Qed.

  (** ** C102 *)
  (** Calls whose instances list the same attributes in different orders
      return the same concepts and build the same tree. *)
  Theorem C102_order (cs1 cs2 : list (call C)) ctr rpos : Forall2 reordered cs1 cs2 ->
    let o1 := exec C rng tt cs1 (fresh C ctr rpos tt) in
    let o2 := exec C rng tt cs2 (fresh C ctr rpos tt) in
    fst o1 = fst o2 /\ same_view (C1:=C) (C2:=C) same_table (snd o1) (snd o2).
  Proof.
    intros HF. cbv zeta. destruct (reordered_runs cs1 cs2 ctr rpos HF) as [H1 [V1 V2 V3 V4 V5]].
    split; [done|]. split; [done|done|done|done|]. intros id t1 t2 Hin Ht1 Ht2.
    destruct (V5 id t1 t2 Hin Ht1 Ht2) as (Hc & (_ & _ & Hd) & _). split; [done|].
    intros a. specialize (Hd a). destruct (dget a (ns_av t1)), (dget a (ns_av t2)); try done.
    apply Hd.
  Qed.

  (** Every concept then gives every value the same probability. *)
  Theorem C102_probability (cs1 cs2 : list (call C)) ctr rpos id t1 t2 a v : Forall2 reordered cs1 cs2 ->
    let s1 := snd (exec C rng tt cs1 (fresh C ctr rpos tt)) in
    let s2 := snd (exec C rng tt cs2 (fresh C ctr rpos tt)) in
    in_tree s1 id -> table_of s1 id t1 -> table_of s2 id t2 ->
    probability (N:=ROps) t1 a v = probability (N:=ROps) t2 a v.
  Proof.
    intros HF. cbv zeta. intros Hin Ht1 Ht2.
    destruct (reordered_runs cs1 cs2 ctr rpos HF) as [_ [_ _ _ _ V5]].
    destruct (V5 id t1 t2 Hin Ht1 Ht2) as (Hc & (_ & _ & Hd) & _). specialize (Hd a).
    unfold probability. rewrite <- Hc. destruct v as [v|].
    - destruct (dget a (ns_av t1)) as [d1|], (dget a (ns_av t2)) as [d2|]; try done.
      destruct Hd as (_ & _ & Hd). specialize (Hd v). destruct (dget v d1), (dget v d2); try done.
      by subst.
    - destruct (dget a (ns_av t1)) as [d1|], (dget a (ns_av t2)) as [d2|]; try done.
      assert (E : vcount d1 = vcount d2); [|by rewrite E].
      unfold vcount. apply sumn_perm. apply fmap_Permutation. by apply deq_perm.
  Qed.
End Order.

(** The check of instances (cobweb.py:41-67) does not depend on the order. *)
Theorem C102_sanity (r1 r2 : raw) : Permutation r1 r2 ->
  match sanity r1, sanity r2 with
  | Ok i1, Ok i2 => Permutation i1 i2
  | Err e1, Err e2 => e1 = e2
  | _, _ => False
  end.
Proof.
  assert (Herr : forall r e, sanity r = Err e -> e = ValueError).
  { induction r as [|[a v] r IH]; intros e; [done|]. cbn [sanity].
    destruct (attr_ok a), v; try congruence. destruct (sanity r); [done|]. simpl. intros [= <-]. by apply IH. }
  induction 1 as [|[a v] r1 r2 Hp IH|[a v] [b w] r|r1 r2 r3 H1 IH1 H2 IH2].
  - apply perm_nil.
  - cbn [sanity]. destruct (attr_ok a); [|done]. destruct v; [|done|done].
    destruct (sanity r1), (sanity r2); try done. simpl. by apply perm_skip.
  - cbn [sanity]. destruct (attr_ok a) eqn:Ea, (attr_ok b) eqn:Eb, v, w; simpl; try done;
      destruct (sanity r) as [|e0] eqn:E; simpl; try done; try (by apply Herr in E); try (symmetry; by apply Herr in E); try apply perm_swap.
  - destruct (sanity r1) eqn:E1, (sanity r2) eqn:E2, (sanity r3) eqn:E3; try done; [by etrans|congruence].
Qed.
