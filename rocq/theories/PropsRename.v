(** * The names of components do not matter (preprocessor.py:332-534,
    trestle.py:132-169, 209-256) *)
From stdpp Require Import base decidable list gmap strings.
From Coq Require Import Ascii String ZArith.
From Verif Require Import Base Num TreeModel Nominal CV Cobweb3 Query Query3 PyVal Preproc Preproc2 PreStd StructMap StructFacts Trestle SpecTree SpecTrestle.
Set Default Proof Using "Type".

(** ** Specification *)
Section Spec.
  Context {X : Type}.
  Notation pv := (pv X).

  (** The second is the first with the variables renamed by [f], and its
      dictionaries built in any order. *)
  Inductive recast (f : string -> string) : pv -> pv -> Prop :=
    | rc_str s : recast f (PStr s) (PStr s)
    | rc_x x : recast f (PX x) (PX x)
    | rc_list l l' :
        Forall2 (fun e e' => ((exists d, e = PD d) -> recast f e e') /\ ((forall d, e <> PD d) -> e' = e)) l l' ->
        recast f (PL l) (PL l')
    | rc_dict d d1 d2 :
        Forall2 (fun e e' => fst e' = arename f (fst e) /\ recast f (snd e) (snd e')) d d1 ->
        Permutation d1 d2 -> recast f (PD d) (PD d2).

  (** In every dictionary the attributes are in the same alphabetical order
      before and after renaming, and no two look the same when printed. *)
  Definition ranked_keys (pystr : attr -> string) (f : string -> string) (ks : list attr) : Prop :=
    forall a b, a ∈ ks -> b ∈ ks ->
      String.leb (pystr (arename f a)) (pystr (arename f b)) = String.leb (pystr a) (pystr b) /\
      (pystr (arename f a) = pystr (arename f b) -> a = b).
  Inductive ranked (pystr : attr -> string) (f : string -> string) : pv -> Prop :=
    | rk_str s : ranked pystr f (PStr s)
    | rk_x x : ranked pystr f (PX x)
    | rk_list l : Forall (fun e => (exists d, e = PD d) -> ranked pystr f e) l -> ranked pystr f (PL l)
    | rk_dict d : ranked_keys pystr f (dkeys d) -> Forall (fun e => ranked pystr f (snd e)) d -> ranked pystr f (PD d).

  (** [f] gives the variables in [V] different names, which are variables, and
      sets of them are gone through in the same order. *)
  Definition renames (setord : list attr -> list attr) (f : string -> string) (V : string -> Prop) : Prop :=
    (forall v, V v -> is_var (f v) = true) /\
    (forall u v, V u -> V v -> f u = f v -> u = v) /\
    (forall l, Forall (fun o => exists v, o = AStr v /\ is_var v = true /\ V v) l ->
       setord (map (arename f) l) = map (arename f) (setord l)).
End Spec.

(** ** Sorting *)
Lemma string_compare_trans s t u : String.compare s t = Lt -> String.compare t u = Lt -> String.compare s u = Lt.
Proof.
  revert t u. induction s as [|a s IH]; intros [|b t] [|c u]; simpl; try done.
  destruct (Ascii.compare a b) eqn:E1; [| |done]; destruct (Ascii.compare b c) eqn:E2; try done; intros H1 H2.
  - apply Ascii.compare_eq_iff in E1, E2. subst.
    assert (E : Ascii.compare c c = Eq) by (unfold Ascii.compare; apply N.compare_refl). rewrite E. eauto.
  - apply Ascii.compare_eq_iff in E1. subst. by rewrite E2.
  - apply Ascii.compare_eq_iff in E2. subst. by rewrite E1.
  - assert (E : Ascii.compare a c = Lt); [|by rewrite E].
    unfold Ascii.compare in *. rewrite N.compare_lt_iff in *. lia.
Qed.
Lemma leb_trans s t u : String.leb s t = true -> String.leb t u = true -> String.leb s u = true.
Proof.
  unfold String.leb. intros H1 H2. destruct (String.compare s t) eqn:E1; [| |done].
  - apply String.compare_eq_iff in E1. by subst.
  - destruct (String.compare t u) eqn:E2; [| |done].
    + apply String.compare_eq_iff in E2. subst. by rewrite E1.
    + by rewrite (string_compare_trans _ _ _ E1 E2).
Qed.

Section Sort.
  Context (pystr : attr -> string).

  Lemma insert_comm {B} (x y : attr * B) l : pystr (fst x) <> pystr (fst y) ->
    insert_by pystr x (insert_by pystr y l) = insert_by pystr y (insert_by pystr x l).
  Proof.
    intros Hn.
    assert (Hxy : String.leb (pystr (fst x)) (pystr (fst y)) = negb (String.leb (pystr (fst y)) (pystr (fst x)))).
    { destruct (String.leb _ _) eqn:E1, (String.leb (pystr (fst y)) _) eqn:E2; try done.
      - exfalso. apply Hn. by apply String.leb_antisym.
      - destruct (String.leb_total (pystr (fst x)) (pystr (fst y))); congruence. }
    induction l as [|z l IH]; simpl.
    - rewrite Hxy. by destruct (String.leb (pystr (fst y)) _).
    - destruct (String.leb (pystr (fst y)) (pystr (fst z))) eqn:Eyz,
        (String.leb (pystr (fst x)) (pystr (fst z))) eqn:Exz; simpl; rewrite ?Eyz, ?Exz; rewrite ?Hxy.
      + by destruct (String.leb (pystr (fst y)) (pystr (fst x))) eqn:E; simpl; rewrite ?Eyz, ?Exz.
      + assert (E : String.leb (pystr (fst y)) (pystr (fst x)) = true).
        { destruct (String.leb (pystr (fst y)) (pystr (fst x))) eqn:E; [done|]. simpl in Hxy.
          by rewrite (leb_trans _ _ _ Hxy Eyz) in Exz. }
        rewrite E. simpl. by rewrite ?Exz.
      + assert (E : String.leb (pystr (fst y)) (pystr (fst x)) = false).
        { destruct (String.leb (pystr (fst y)) (pystr (fst x))) eqn:E; [|done].
          by rewrite (leb_trans _ _ _ E Exz) in Eyz. }
        rewrite E. simpl. by rewrite ?Eyz.
      + by rewrite IH.
  Qed.

  Lemma sort_permute {B} (l l' : list (attr * B)) : Permutation l l' ->
    NoDup (map (fun e => pystr (fst e)) l) -> sort_by pystr l = sort_by pystr l'.
  Proof.
    induction 1 as [|x l l' Hp IH|x y l|l1 l2 l3 H1 IH1 H2 IH2]; simpl; intros Hnd; [done|..].
    - apply NoDup_cons in Hnd as [_ Hnd]. by rewrite IH.
    - apply NoDup_cons in Hnd as [Hn _]. unfold sort_by. simpl. apply insert_comm. intros E. apply Hn.
      rewrite E. left.
    - rewrite IH1 by done. apply IH2. by rewrite <- H1.
  Qed.

  Lemma sort_alike {B C} (g : attr -> attr) (K : attr -> Prop) (R : attr * B -> attr * C -> Prop) l l' :
    (forall a b, K a -> K b -> String.leb (pystr (g a)) (pystr (g b)) = String.leb (pystr a) (pystr b)) ->
    Forall2 (fun e e' => R e e' /\ K (fst e) /\ fst e' = g (fst e)) l l' ->
    Forall2 R (sort_by pystr l) (sort_by pystr l').
  Proof.
    intros HK H. apply (Forall2_impl (fun e e' => R e e' /\ K (fst e) /\ fst e' = g (fst e))); [|by intros ? ? [? _]].
    induction H as [|e e' l l' He Hl IH]; [constructor|].
    change (sort_by pystr (e :: l)) with (insert_by pystr e (sort_by pystr l)).
    change (sort_by pystr (e' :: l')) with (insert_by pystr e' (sort_by pystr l')).
    clear Hl. revert IH. generalize (sort_by pystr l). generalize (sort_by pystr l'). intros m' m IH.
    induction IH as [|x x' m m' Hx Hm IHm]; simpl.
    - apply Forall2_cons_2; [exact He|apply Forall2_nil_2].
    - assert (E : String.leb (pystr (fst e')) (pystr (fst x')) = String.leb (pystr (fst e)) (pystr (fst x))).
      { destruct He as (_ & Ke & ->). destruct Hx as (_ & Kx & ->). by apply HK. }
      rewrite E. destruct (String.leb (pystr (fst e)) (pystr (fst x))).
      + apply Forall2_cons_2; [exact He|]. by apply Forall2_cons_2.
      + by apply Forall2_cons_2.
  Qed.
End Sort.

Section Sim.
  Context {X : Type} (pystr : attr -> string) (setord : list attr -> list attr).
  Context (setord_spec : forall l x, x ∈ setord l <-> x ∈ l).
  Notation pv := (pv X).
  Notation std_val := (std_val (X:=X) pystr setord).
  Notation std_dict := (std_dict (X:=X) pystr setord).
  Context (f : string -> string) (V : string -> Prop) (Hf : renames setord f V).
  Notation act := (nstate -> res pv * nstate).

  Definition keyren (e : attr * attr) : attr * attr := (arename f (fst e), snd e).
  Definition isV (a : attr) : Prop := exists v, a = AStr v /\ is_var v = true /\ V v.
  Definition srel (s s' : nstate) : Prop :=
    fst s' = fst s /\ snd s' = map keyren (snd s) /\ Forall (fun e => isV (fst e)) (snd s) /\
    Forall (fun e => is_tup (snd e) = false) (snd s).

  Lemma ren_V v : is_var v = true -> arename f (AStr v) = AStr (f v).
  Proof. intros H. simpl. by rewrite H. Qed.
  Lemma isV_inj a b : isV a -> isV b -> arename f a = arename f b -> a = b.
  Proof using Hf.
    intros (u & -> & Hu & Vu) (v & -> & Hv & Vv). rewrite !ren_V by done. intros [= E].
    f_equal. by apply (proj1 (proj2 Hf)).
  Qed.
  Lemma dget_ren m a : Forall (fun e => isV (fst e)) m -> isV a -> dget (arename f a) (map keyren m) = dget a m.
  Proof using Hf.
    intros Hm Ha. induction Hm as [|[k b] m Hk Hm IH]; simpl; [done|]. simpl in Hk. destruct (decide (a = k)) as [->|Hn].
    - by rewrite decide_True.
    - rewrite decide_False; [done|]. intros E. apply Hn. by apply isV_inj.
  Qed.
  Lemma dset_ren m a b : Forall (fun e => isV (fst e)) m -> isV a ->
    dset (arename f a) b (map keyren m) = map keyren (dset a b m).
  Proof using Hf.
    intros Hm Ha. induction Hm as [|[k w] m Hk Hm IH]; simpl; [done|]. simpl in Hk. destruct (decide (a = k)) as [->|Hn].
    - by rewrite decide_True.
    - rewrite decide_False; [by rewrite IH|]. intros E. apply Hn. by apply isV_inj.
  Qed.

  Lemma dmem_ren m a : Forall (fun e => isV (fst e)) m -> isV a -> dmem (arename f a) (map keyren m) = dmem a m.
  Proof using Hf. intros Hm Ha. unfold dmem. by rewrite dget_ren. Qed.
  Lemma isV_dset m a b : Forall (fun e : attr * attr => isV (fst e)) m -> isV a -> Forall (fun e => isV (fst e)) (dset a b m).
  Proof.
    intros Hm Ha. induction Hm as [|[k w] m Hk Hm IH]; simpl; [by repeat constructor|].
    destruct (decide (a = k)); by constructor.
  Qed.

  (** The mapping only grows. *)
  Definition grows (s t : nstate) : Prop := forall a, a ∈ dkeys (snd s) -> a ∈ dkeys (snd t).
  Lemma grows_trans s t u : grows s t -> grows t u -> grows s u.
  Proof. unfold grows. eauto. Qed.

  Lemma new_sym_sim a s s' : srel s s' -> isV a ->
    srel (new_sym a s) (new_sym (arename f a) s') /\ grows s (new_sym a s) /\ a ∈ dkeys (snd (new_sym a s)).
  Proof using Hf.
    intros (E1 & E2 & HV & HT) Ha. unfold new_sym. rewrite E1, E2. rewrite dmem_ren by done.
    destruct (dmem a (snd s)) eqn:E.
    - apply dmem_true in E. split; [done|]. split; [by intros ? ?|done].
    - repeat split; simpl.
      + by apply dset_ren.
      + by apply isV_dset.
      + clear E E2 HV. induction HT as [|[k w] m Hk Hm IH]; simpl; [by repeat constructor|].
        destruct (decide (a = k)); by constructor.
      + intros b Hb. simpl. apply elem_of_dkeys_dset. by right.
      + apply elem_of_dkeys_dset. by left.
  Qed.
  Lemma new_syms_sim cs : Forall isV cs -> forall s s', srel s s' ->
    let t := fold_left (fun s o => new_sym o s) cs s in
    srel t (fold_left (fun s o => new_sym o s) (map (arename f) cs) s') /\ grows s t /\
    forall a, a ∈ cs -> a ∈ dkeys (snd t).
  Proof using Hf.
    induction 1 as [|a cs Ha Hcs IH]; intros s s' Hs; simpl.
    - split; [done|]. split; [by intros ? ?|]. intros a Ha. by apply elem_of_nil in Ha.
    - destruct (new_sym_sim a s s' Hs Ha) as (H1 & H2 & H3). destruct (IH _ _ H1) as (H4 & H5 & H6).
      split; [done|]. split; [by eapply grows_trans|]. intros b Hb. apply elem_of_cons in Hb as [->|Hb]; auto.
  Qed.

  Lemma avars_var v a : v ∈ avars a -> is_var v = true.
  Proof.
    induction a as [s|l IH|z] using attr_ind'; simpl; intros H.
    - destruct (is_var s) eqn:E; [|by apply elem_of_nil in H]. apply elem_of_list_singleton in H. by subst.
    - induction IH as [|a l Ha Hl IHl]; simpl in H; [by apply elem_of_nil in H|]. apply elem_of_app in H as [H|H]; auto.
    - by apply elem_of_nil in H.
  Qed.

  (** Relations whose variables all have a new name. *)
  Definition inV (a : attr) : Prop := forall v, v ∈ avars a -> V v.
  Definition known (m : list (attr * attr)) (a : attr) : Prop := forall v, v ∈ avars a -> AStr v ∈ dkeys m.
  Lemma inV_tup a l : inV (ATup (a :: l)) -> inV a /\ inV (ATup l).
  Proof. unfold inV. simpl. intros H. split; intros v Hv; apply H; apply elem_of_app; auto. Qed.
  Lemma known_tup m a l : known m (ATup (a :: l)) -> known m a /\ known m (ATup l).
  Proof. unfold known. simpl. intros H. split; intros v Hv; apply H; apply elem_of_app; auto. Qed.

  Lemma keys_V m a : Forall (fun e : attr * attr => isV (fst e)) m -> a ∈ dkeys m -> isV a.
  Proof.
    intros Hm Ha. unfold dkeys in Ha. apply elem_of_list_fmap in Ha as (e & -> & He).
    rewrite Forall_forall in Hm. by apply Hm.
  Qed.
  Lemma keys_V' m a : Forall (fun e : attr * attr => isV (fst e)) m -> a ∈ dkeys (map keyren m) ->
    exists v, a = AStr v /\ is_var v = true.
  Proof using Hf.
    intros Hm Ha. unfold dkeys in Ha. rewrite map_map in Ha. apply elem_of_list_fmap in Ha as (e & -> & He).
    rewrite Forall_forall in Hm. destruct (Hm _ He) as (v & E & Hv & Vv). simpl. rewrite E.
    rewrite ren_V by done. exists (f v). split; [done|]. by apply (proj1 Hf).
  Qed.
  Lemma ren_elem_sim m a : Forall (fun e => isV (fst e)) m -> inV a -> known m a ->
    ren_elem (map keyren m) (arename f a) = ren_elem m a.
  Proof using Hf.
    intros Hm. induction a as [s|l IH|z] using attr_ind'; intros HV Hk.
    - destruct (is_var s) eqn:Es.
      + assert (Hs : isV (AStr s)). { exists s. split; [done|]. split; [done|]. apply HV. simpl. rewrite Es. left. }
        assert (Hin : AStr s ∈ dkeys m). { apply Hk. simpl. rewrite Es. left. }
        destruct (dget_key_Some _ _ Hin) as [b Hb].
        rewrite <- (dget_ren m (AStr s) Hm Hs) in Hb. rewrite ren_V in * by done. cbn [ren_elem]. rewrite Hb.
        rewrite <- (ren_V s Es) in Hb. rewrite (dget_ren m (AStr s) Hm Hs) in Hb. by rewrite Hb.
      + simpl. rewrite Es. cbn [ren_elem]. destruct (dget (AStr s) (map keyren m)) eqn:E1.
        { apply dget_Some_key in E1. destruct (keys_V' _ _ Hm E1) as (v & [= <-] & ?). congruence. }
        destruct (dget (AStr s) m) eqn:E2; [|done].
        apply dget_Some_key in E2. destruct (keys_V _ _ Hm E2) as (v & [= <-] & ? & ?). congruence.
    - cbn [arename ren_elem]. destruct (dget (ATup _) (map keyren m)) eqn:E1.
      { apply dget_Some_key in E1. by destruct (keys_V' _ _ Hm E1) as (v & ? & ?). }
      destruct (dget (ATup l) m) eqn:E2.
      { apply dget_Some_key in E2. by destruct (keys_V _ _ Hm E2) as (v & ? & ? & ?). }
      f_equal. clear E1 E2. induction IH as [|a l Ha Hl IHl]; simpl; [done|].
      apply inV_tup in HV as [HV1 HV2]. apply known_tup in Hk as [Hk1 Hk2]. f_equal; auto.
    - simpl. destruct (dget (ANum z) (map keyren m)) eqn:E1.
      { apply dget_Some_key in E1. by destruct (keys_V' _ _ Hm E1) as (v & ? & ?). }
      destruct (dget (ANum z) m) eqn:E2; [|done].
      apply dget_Some_key in E2. by destruct (keys_V _ _ Hm E2) as (v & ? & ? & ?).
  Qed.
  Lemma rename_relation_sim m l : Forall (fun e => isV (fst e)) m -> inV (ATup l) -> known m (ATup l) ->
    rename_relation (map keyren m) (arename f (ATup l)) = rename_relation m (ATup l).
  Proof using Hf.
    intros Hm HV Hk. simpl. f_equal. induction l as [|a l IH]; simpl; [done|].
    apply inV_tup in HV as [HV1 HV2]. apply known_tup in Hk as [Hk1 Hk2]. f_equal; [by apply ren_elem_sim|auto].
  Qed.

  Lemma attr_comps_sim l cs : inV (ATup l) -> attr_comps (ATup l) = Ok cs ->
    attr_comps (arename f (ATup l)) = Ok (map (arename f) cs).
  Proof using Hf.
    assert (H : forall a, inV a -> forall l cs, a = ATup l -> attr_comps (ATup l) = Ok cs ->
      attr_comps (arename f (ATup l)) = Ok (map (arename f) cs)).
    { clear l cs. intros a. induction a as [v|l0 IH|z] using attr_ind'; intros HV l' cs E; [done| |done].
      injection E as <-. revert cs. induction IH as [|a l Ha Hl IHl]; intros cs.
      - simpl. by intros [= <-].
      - apply inV_tup in HV as [HV1 HV2]. cbn [attr_comps arename map].
        intros E. destruct (match a with ATup _ => attr_comps a
           | AStr s => Ok (if is_var s then [a] else []) | ANum _ => Err TypeError end) as [c|] eqn:E1; [|done].
        cbn [rbind] in E. specialize (IHl HV2). cbn [attr_comps arename] in IHl.
        destruct ((fix go (l : list attr) : res (list attr) := _) l) as [cs'|] eqn:E2; [|done].
        cbn [rbind] in E. injection E as <-. rewrite (IHl cs' eq_refl).
        assert (Ec : match arename f a with ATup _ => attr_comps (arename f a)
           | AStr s => Ok (if is_var s then [arename f a] else []) | ANum _ => Err TypeError end = Ok (map (arename f) c)).
        { destruct a as [s|m|z]; [| |done].
          - injection E1 as <-. simpl. destruct (is_var s) eqn:Es; simpl; rewrite ?Es; [|done].
            rewrite (proj1 Hf); [done|]. apply HV1. simpl. rewrite Es. left.
          - by apply (Ha HV1). }
        rewrite Ec. cbn [rbind]. by rewrite map_app. }
    intros HV E. by apply (H (ATup l)).
  Qed.

  (** ** The loop *)
  Definition act_sim (a a' : act) : Prop := forall s s', srel s s' ->
    exists r t t', a s = (r, t) /\ a' s' = (r, t') /\ srel t t' /\ grows s t.
  Definition entry_rel (e e' : attr * act) : Prop :=
    fst e' = arename f (fst e) /\ inV (fst e) /\ rel_ok (fst e) /\ act_sim (snd e) (snd e').
  Definition valren {B} (e : attr * B) : attr * B := (arename f (fst e), snd e).
  Definition acc_rel (m : list (attr * attr)) (p p' : inst X * inst X) : Prop :=
    fst p' = fst p /\ snd p' = map valren (snd p) /\
    Forall (fun e => exists l, fst e = ATup l /\ inV (ATup l) /\ known m (ATup l)) (snd p).
  Lemma acc_grows s t p p' : grows s t -> acc_rel (snd s) p p' -> acc_rel (snd t) p p'.
  Proof.
    intros Hg (E1 & E2 & H). split; [done|]. split; [done|]. eapply Forall_impl; [exact H|].
    intros e (l & E & HV & Hk). exists l. split; [done|]. split; [done|]. intros v Hv. by apply Hg, Hk.
  Qed.
  Definition res_rel (t : nstate) (r r' : res (inst X * inst X)) : Prop :=
    match r, r' with Ok p, Ok p' => acc_rel (snd t) p p' | Err x, Err y => x = y | _, _ => False end.

  Lemma std_name_sim a s s' : srel s s' -> inV a ->
    exists b t t', std_name a s = (b, t) /\ srel t t' /\ grows s t /\
      match a with
      | ATup _ => b = a /\ std_name (arename f a) s' = (arename f a, t')
      | _ => std_name (arename f a) s' = (b, t') /\ is_tup b = false
      end.
  Proof using Hf.
    intros Hs HV. destruct a as [n|l|z].
    - cbn [std_name]. destruct (is_var n) eqn:En.
      + assert (Hn : isV (AStr n)). { exists n. split; [done|]. split; [done|]. apply HV. simpl. rewrite En. left. }
        destruct (new_sym_sim _ s s' Hs Hn) as (H1 & H2 & H3).
        rewrite ren_V in * by done. cbn [std_name].
        assert (E : is_var (f n) = true). { apply (proj1 Hf). destruct Hn as (? & [= <-] & _ & ?). done. }
        rewrite E. eexists _, _, _. split; [reflexivity|]. split; [exact H1|]. split; [done|].
        destruct H1 as (_ & E2 & Hm & HT).
        assert (E3 : dget (AStr (f n)) (snd (new_sym (AStr (f n)) s')) = dget (AStr n) (snd (new_sym (AStr n) s))).
        { rewrite E2. rewrite <- (ren_V n En). by apply dget_ren. }
        rewrite E3. destruct (dget_key_Some _ _ H3) as [b Hb]. rewrite Hb. split; [done|].
        apply dget_In in Hb. rewrite Forall_forall in HT. by apply (HT _ Hb).
      + simpl. rewrite En. simpl. rewrite En. exists (AStr n), s, s'. split; [done|]. split; [done|]. split; [by intros ? ?|done].
    - simpl. exists (ATup l), s, s'. split; [done|]. split; [done|]. split; [by intros ? ?|done].
    - simpl. exists (ANum z), s, s'. split; [done|]. split; [done|]. split; [by intros ? ?|done].
  Qed.

  Lemma std_entry_sim e e' p p' s s' : entry_rel e e' -> srel s s' -> acc_rel (snd s) p p' ->
    exists r t r' t', std_entry setord e p s = (r, t) /\ std_entry setord e' p' s' = (r', t') /\
      srel t t' /\ grows s t /\ res_rel t r r'.
  Proof using Hf setord_spec.
    destruct e as [a m], e' as [a' m']. intros (Ea & HV & Hr & Hact) Hs Hp. simpl in Ea, HV, Hr, Hact. subst a'.
    destruct (std_name_sim a s s' Hs HV) as (b & t & t' & E1 & Ht & Hg & Hb).
    destruct (Hact t t' Ht) as (r & u & u' & E2 & E3 & Hu & Hg').
    assert (Hgu : grows s u) by (by eapply grows_trans).
    pose proof (acc_grows _ _ _ _ Hgu Hp) as Hpu.
    unfold std_entry. cbn [fst snd]. rewrite E1. rewrite E2.
    destruct a as [n|l|z].
    - destruct Hb as [Hb Hbt]. rewrite Hb, E3. destruct r as [v|x]; [|by exists (Err x), u, (Err x), u'].
      destruct b as [k|k|k]; [|done|];
        (eexists _, u, _, u'; split; [done|]; split; [done|]; split; [done|]; split; [done|]; simpl;
         destruct Hpu as (F1 & F2 & F3); rewrite F1; by repeat split).
    - destruct Hb as [-> Hb]. rewrite Hb, E3. destruct r as [v|x]; [|by exists (Err x), u, (Err x), u'].
      destruct (attr_comps_ok l Hr) as (cs & C1 & C2 & C3). rewrite C1.
      change (arename f (ATup l)) with (ATup (map (arename f) l)). cbv iota beta.
      change (ATup (map (arename f) l)) with (arename f (ATup l)). rewrite (attr_comps_sim l cs HV C1).
      assert (Hcs : Forall isV cs).
      { rewrite Forall_forall in C2. apply Forall_forall. intros o Ho. destruct (C2 o Ho) as (w & -> & Hw).
        exists w. split; [done|]. split; [done|]. apply HV. by apply C3. }
      rewrite (proj2 (proj2 Hf)) by done.
      assert (Hcs' : Forall isV (setord cs)).
      { rewrite Forall_forall in Hcs. apply Forall_forall. intros o Ho. by apply Hcs, setord_spec. }
      destruct (new_syms_sim _ Hcs' u u' Hu) as (H1 & H2 & H3).
      eexists _, _, _, _. split; [reflexivity|]. split; [reflexivity|]. split; [exact H1|].
      split; [by eapply grows_trans|]. simpl.
      pose proof (acc_grows _ _ _ _ H2 Hpu) as (F1 & F2 & F3). split; [done|]. split.
      + simpl. rewrite F2. rewrite map_app. done.
      + simpl. apply Forall_app. split; [done|]. apply Forall_singleton. exists l. split; [done|]. split; [done|].
        intros w Hw. apply H3. apply setord_spec. by apply C3.
    - destruct Hb as [Hb Hbt]. rewrite Hb, E3. destruct r as [v|x]; [|by exists (Err x), u, (Err x), u'].
      destruct b as [k|k|k]; [|done|];
        (eexists _, u, _, u'; split; [done|]; split; [done|]; split; [done|]; split; [done|]; simpl;
         destruct Hpu as (F1 & F2 & F3); rewrite F1; by repeat split).
  Qed.
  Lemma std_entries_sim l l' : Forall2 entry_rel l l' -> forall p p' s s', srel s s' -> acc_rel (snd s) p p' ->
    exists r t r' t', std_entries setord l p s = (r, t) /\ std_entries setord l' p' s' = (r', t') /\
      srel t t' /\ grows s t /\ res_rel t r r'.
  Proof using Hf setord_spec.
    induction 1 as [|e e' l l' He Hl IH]; intros p p' s s' Hs Hp; simpl.
    - exists (Ok p), s, (Ok p'), s'. split; [done|]. split; [done|]. split; [done|]. split; [by intros ? ?|done].
    - destruct (std_entry_sim e e' p p' s s' He Hs Hp) as (r & t & r' & t' & E1 & E2 & Ht & Hg & Hr).
      rewrite E1, E2. destruct r as [q|x], r' as [q'|y]; try done.
      + destruct (IH q q' t t' Ht Hr) as (r & u & r' & u' & E3 & E4 & Hu & Hg' & Hr').
        exists r, u, r', u'. split; [done|]. split; [done|]. split; [done|]. split; [by eapply grows_trans|done].
      + simpl in Hr. subst y. by exists (Err x), t, (Err x), t'.
  Qed.

  Lemma std_dict_sim l l1 l2 :
    Forall2 entry_rel l l1 -> ranked_keys pystr f (dkeys l) -> dwf l -> Permutation l1 l2 ->
    forall s s', srel s s' -> exists r t t', std_dict l s = (r, t) /\ std_dict l2 s' = (r, t') /\ srel t t' /\ grows s t.
  Proof using Hf setord_spec.
    intros Hl Hk Hw Hp s s' Hs. unfold std_dict.
    assert (E : sort_by pystr l2 = sort_by pystr l1).
    { symmetry. apply sort_permute; [done|].
      assert (Em : map (fun e => pystr (fst e)) l1 = map (fun a => pystr (arename f a)) (dkeys l)).
      { clear -Hl. induction Hl as [|e e' l l' He Hl IH]; simpl; [done|]. destruct He as (-> & _). by rewrite IH. }
      rewrite Em. apply NoDup_fmap_2_strong; [|exact Hw]. intros a b Ha Hb. by apply Hk. }
    rewrite E.
    assert (HF : Forall2 entry_rel (sort_by pystr l) (sort_by pystr l1)).
    { apply (sort_alike pystr (arename f) (fun a => a ∈ dkeys l)).
      - intros a b Ha Hb. by apply Hk.
      - assert (G : forall ks : list attr, (forall a, a ∈ dkeys l -> a ∈ ks) ->
          Forall2 (fun e e' => entry_rel e e' /\ (fst e) ∈ ks /\ fst e' = arename f (fst e)) l l1); [|by apply G].
        clear -Hl. intros ks. induction Hl as [|e e' l l' He Hl IH]; intros Hks; [apply Forall2_nil_2|].
        apply Forall2_cons_2.
        + split; [done|]. split; [|apply He]. apply Hks. left.
        + apply IH. intros a Ha. apply Hks. right. done. }
    destruct (std_entries_sim _ _ HF ([], []) ([], []) s s' Hs) as (r & t & r' & t' & E1 & E2 & Ht & Hg & Hr).
    { split; [done|]. split; [done|]. constructor. }
    rewrite E1, E2. destruct r as [[new rels]|x], r' as [[new' rels']|y]; try done.
    - destruct Hr as (F1 & F2 & F3). simpl in F1, F2, F3. subst new' rels'.
      eexists _, _, _. split; [reflexivity|]. split; [|split; [exact Ht|exact Hg]]. f_equal. f_equal.
      destruct Ht as (_ & -> & HVt & _).
      clear -F3 HVt Hf. revert new. induction F3 as [|[a v] rels (l & Ea & HV & Hk) H IH]; intros new; simpl; [done|].
      simpl in Ea. subst a. rewrite rename_relation_sim by done. apply IH.
    - simpl in Hr. subst y. by exists (Err x), t, t'.
  Qed.

  Lemma std_val_sim v : forall v', std_ok v -> ranked pystr f v -> recast f v v' -> (forall u, u ∈ pvars v -> V u) ->
    act_sim (std_val v) (std_val v').
  Proof using Hf setord_spec.
    induction v as [s0|x|l IH|d IH] using pv_ind'; intros v' Hok Hrk Hrc HV.
    - inversion Hrc; subst. intros s s' Hs. exists (Ok (PStr s0)), s, s'. split; [done|]. split; [done|]. split; [done|by intros ? ?].
    - inversion Hrc; subst. intros s s' Hs. exists (Ok (PX x)), s, s'. split; [done|]. split; [done|]. split; [done|by intros ? ?].
    - inversion Hrc as [| |l0 l' HF|]; subst. inversion Hok as [| |l1 Hok1|]; subst. inversion Hrk as [| |l2 Hrk1|]; subst.
      cbn [pvars] in HV.
      set (go := fix go (l : list pv) (s : nstate) : res (list pv) * nstate :=
             match l with
             | [] => (Ok [], s)
             | e :: l =>
                 let '(r, s) := match e with PD _ => std_val e s | _ => (Ok e, s) end in
                 match r with
                 | Err x => (Err x, s)
                 | Ok e' =>
                     let '(r, s) := go l s in
                     match r with Err x => (Err x, s) | Ok l' => (Ok (e' :: l'), s) end
                 end
             end).
      assert (G : forall s s', srel s s' -> exists r t t', go l s = (r, t) /\ go l' s' = (r, t') /\ srel t t' /\ grows s t).
      { clear Hrc Hok Hrk. revert l' HF. induction l as [|e l IHl]; intros l' HF s s' Hs.
        - inversion HF; subst. simpl. exists (Ok []), s, s'. split; [done|]. split; [done|]. split; [done|by intros ? ?].
        - inversion HF as [|e0 e' l0 l'' He HF']; subst.
          apply Forall_cons in IH as [IHe IH]. apply Forall_cons in Hok1 as [Hoke Hok1]. apply Forall_cons in Hrk1 as [Hrke Hrk1].
          assert (He1 : exists r t t', match e with PD _ => std_val e s | _ => (Ok e, s) end = (r, t) /\
            match e' with PD _ => std_val e' s' | _ => (Ok e', s') end = (r, t') /\ srel t t' /\ grows s t).
          { destruct He as [He He']. destruct e as [s0|x|l0|d0].
            1-3: rewrite (He' ltac:(done)); eexists _, s, s'; repeat (split; [done|]); by intros ? ?.
            assert (Hd : exists d, PD d0 = PD d) by eauto. specialize (He Hd).
            destruct (IHe e' (Hoke Hd) (Hrke Hd) He ltac:(intros u Hu; apply HV; simpl; apply elem_of_app; by left) s s' Hs)
              as (r & t & t' & E1 & E2 & H1 & H2).
            inversion He; subst. eauto 10. }
          destruct He1 as (r & t & t' & E1 & E2 & H1 & H2). cbn [go]. fold go. rewrite E1, E2.
          destruct r as [w|x]; [|by exists (Err x), t, t'].
          destruct (IHl IH ltac:(intros u Hu; apply HV; simpl; apply elem_of_app; by right) Hok1 Hrk1 l'' HF' t t' H1)
            as (r & t1 & t1' & E3 & E4 & H3 & H4). rewrite E3, E4.
          destruct r as [ws|x]; [exists (Ok (w :: ws)), t1, t1'|exists (Err x), t1, t1'];
            (split; [done|]; split; [done|]; split; [done|by eapply grows_trans]). }
      intros s s' Hs. destruct (G s s' Hs) as (r & t & t' & E1 & E2 & H1 & H2).
      cbn [std_val]. fold go. rewrite E1, E2. destruct r as [ws|x]; eexists _, t, t'; by repeat (split; [done|]).
    - inversion Hrc as [| | |d0 d1 d2 HF Hp]; subst. inversion Hok as [| | |d0 Hw Hrel Hok1]; subst. inversion Hrk as [| | |d0 Hk Hrk1]; subst.
      intros s s' Hs. cbn [std_val].
      destruct (std_dict_sim (map (fun e => (fst e, std_val (snd e))) d) (map (fun e => (fst e, std_val (snd e))) d1)
        (map (fun e => (fst e, std_val (snd e))) d2)) with (s := s) (s' := s') as (r & t & t' & E1 & E2 & H1 & H2); [| | | |done|].
      + clear Hp Hk Hw Hrc Hok Hrk. revert d1 HF. induction d as [|e d IHd]; intros d1 HF; inversion HF as [|e0 e' l0 l'' He HF']; subst; [apply Forall2_nil_2|].
        apply Forall_cons in IH as [IHe IH]. apply Forall_cons in Hok1 as [Hoke Hok1]. apply Forall_cons in Hrk1 as [Hrke Hrk1].
        apply Forall_cons in Hrel as [Hrele Hrel]. destruct He as [He1 He2]. cbn [map]. apply Forall2_cons_2.
        * split; [done|]. split; [|split; [done|]].
          -- intros u Hu. apply HV. simpl. rewrite !elem_of_app. auto.
          -- apply IHe; try done. intros u Hu. apply HV. simpl. rewrite !elem_of_app. auto.
        * apply IHd; try done. intros u Hu. apply HV. simpl. rewrite !elem_of_app. auto.
      + unfold dkeys. rewrite map_map. exact Hk.
      + unfold dwf, dkeys. rewrite map_map. exact Hw.
      + by apply Permutation_map.
      + rewrite E1, E2. destruct r as [w|x]; eexists _, t, t'; by repeat (split; [done|]).
  Qed.
End Sim.

(** ** C101: instances that differ only in the names of components and in the
    order in which their dictionaries were built *)
Section C101.
  Context {X : Type} (pystr : attr -> string) (setord : list attr -> list attr).
  Context (setord_spec : forall l x, x ∈ setord l <-> x ∈ l).

  Lemma rev_sim f (m acc : list (attr * attr)) :
    fold_left (fun acc e => dset (snd e) (fst e) acc) (map (keyren f) m) (map (fun e => (fst e, arename f (snd e))) acc) =
    map (fun e => (fst e, arename f (snd e))) (fold_left (fun acc e => dset (snd e) (fst e) acc) m acc).
  Proof.
    revert acc. induction m as [|[k w] m IH]; intros acc; simpl; [done|]. rewrite <- IH. f_equal. clear.
    induction acc as [|[k' w'] acc IH]; simpl; [done|]. case_decide; simpl; [done|]. by rewrite IH.
  Qed.

  (** The same instance but for the names of its components and the order of
      its dictionaries. *)
  Definition respelled (f : string -> string) (d d' : inst X) : Prop :=
    renames setord f (fun v => v ∈ ivars d) /\ std_ok (PD d) /\ ranked pystr f (PD d) /\ recast f (PD d) (PD d').

  (** NameStandardizer makes the same instance of both and uses as many new
      names; undo knows the names of the one that was given. *)
  Theorem C101_standardized (f : string -> string) (c : nat) (d d' : inst X) : respelled f d d' ->
    exists x rev c', ns_transform pystr setord c d = (Ok (x, rev), c') /\
      ns_transform pystr setord c d' = (Ok (x, map (fun e => (fst e, arename f (snd e))) rev), c').
  Proof using setord_spec.
    intros (Hf & Hok & Hrk & Hrc).
    destruct (std_val_sim pystr setord setord_spec f _ Hf (PD d) (PD d') Hok Hrk Hrc ltac:(done) (c, []) (c, []))
      as (r & t & t' & E1 & E2 & (Ec & Em & _) & _).
    { split; [done|]. split; [done|]. split; constructor. }
    destruct (ns_transform_ok pystr setord setord_spec c d Hok) as (x & s & E & _). unfold ns_transform in *.
    cbn [std_val] in E1, E2.
    destruct (std_dict _ _ (map _ d) _) as [r1 t1]. destruct r1 as [x1|e1]; [|done]. simplify_eq.
    destruct (std_dict _ _ (map _ d') _) as [r2 t2]. destruct r2 as [x2|e2]; [|done]. simplify_eq.
    eexists x, _, _. split; [reflexivity|]. rewrite Ec, Em. f_equal. f_equal. f_equal. apply (rev_sim f (snd t) []).
  Qed.
End C101.

Lemma zero_notin : 0 ∉ [1; 2; 3].
Proof. set_solver. Qed.

Section Tree.
  Context {N : NumOps} (rng : nat -> num N).
  Notation F := (num N).
  Notation C := (Cobweb3Class N).
  Notation X := (val3 N).
  Context (ncmp : nom -> nom -> option bool) (normal : F -> F -> A F).
  Context (pystr : attr -> string) (setord : list attr -> list attr) (rlimit : nat).
  Context (setord_spec : forall l x, x ∈ setord l <-> x ∈ l).

  Lemma pipe_tr_other {I S} (cls : nat -> pproc I S) os o x : o ∉ os -> forall i h c,
    pipe_tr cls os i (<[o := x]> h) c =
      let '(r, h', c') := pipe_tr cls os i h c in (r, <[o := x]> h', c').
  Proof.
    induction os as [|p os IH]; intros Ho i h c; simpl; [done|].
    apply not_elem_of_cons in Ho as [Hn Ho]. rewrite lookup_insert_ne by done.
    destruct (h !! p) as [s|]; [|done]. destruct (pp_tr (cls p) i s c) as [[r s1] c1].
    rewrite insert_commute by done. destruct r as [i1|e]; [|done]. by apply IH.
  Qed.

  Lemma pipe_tr_cons {I S} (cls : nat -> pproc I S) o os i h c :
    pipe_tr cls (o :: os) i h c =
      match h !! o with
      | None => (Err Dangling, h, c)
      | Some s => let '(r, s, c) := pp_tr (cls o) i s c in
                  match r with Ok i => pipe_tr cls os i (<[o := s]> h) c | Err e => (Err e, <[o := s]> h, c) end
      end.
  Proof. done. Qed.

  Lemma prepare_alike f q (d d' : inst X) s : respelled pystr setord f d d' ->
    exists r h s1 x x', t_prepare pystr setord rlimit q d s = (r, <[0 := Some x]> h, s1) /\
      t_prepare pystr setord rlimit q d' s = (r, <[0 := Some x']> h, s1) \/
    exists e, t_prepare pystr setord rlimit q d s = (Err e, ∅, s) /\ t_prepare pystr setord rlimit q d' s = (Err e, ∅, s).
  Proof using setord_spec.
    intros H. unfold t_prepare. destruct (st_heap (t_tree s) !! st_root (t_tree s)) as [n|];
      [|eexists (Err Dangling), ∅, s, [], []; right; by exists Dangling].
    destruct (C101_standardized pystr setord setord_spec f (t_sym s) d d' H) as (x & rev & c' & E1 & E2).
    unfold stage_list. rewrite !(pipe_tr_cons _ 0). change (new_objs !! 0) with (Some (None : option (list (attr * attr)))). cbv iota.
    cbn [stages pp_tr std_proc]. rewrite E1, E2. rewrite !pipe_tr_other by apply zero_notin.
    destruct (pipe_tr _ [1; 2; 3] x new_objs c') as [[r h] c1].
    eexists r, h, _, _, _. left. done.
  Qed.

  (** [ifit] and [categorize] return the same concept and leave the same tree,
      the same gensym counter and the same random numbers. *)
  Theorem C101_fit_cat f q (d d' : inst X) s : respelled pystr setord f d d' ->
    t_fit rng pystr setord rlimit q d' s = t_fit rng pystr setord rlimit q d s /\
    t_cat rng pystr setord rlimit q d' s = t_cat rng pystr setord rlimit q d s.
  Proof using setord_spec.
    intros H. assert (E : t_ready pystr setord rlimit q d' s = t_ready pystr setord rlimit q d s).
    { unfold t_ready. destruct (prepare_alike f q d d' s H) as (r & h & s1 & x & x' & [[E1 E2]|(e & E1 & E2)]); by rewrite E1, E2. }
    unfold t_fit, t_cat. by rewrite E.
  Qed.

  (** [infer_missing]: only the names put back into the answer differ. *)
  Theorem C101_infer f q (d d' : inst X) g b s : respelled pystr setord f d d' ->
    let o := t_infer rng ncmp normal pystr setord rlimit q d g b s in
    let o' := t_infer rng ncmp normal pystr setord rlimit q d' g b s in
    snd o' = snd o /\
    ((exists e, fst o = Err e /\ fst o' = Err e) \/
     exists x rev c c', ns_transform pystr setord (t_sym s) d = (Ok (c, rev), c') /\
       fst o = Ok (ns_undo rev x) /\ fst o' = Ok (ns_undo (map (fun e => (fst e, arename f (snd e))) rev) x)).
  Proof using setord_spec.
    intros H. cbv zeta. unfold t_infer, t_prepare.
    destruct (st_heap (t_tree s) !! st_root (t_tree s)) as [n|]; [|split; [done|left; by exists Dangling]].
    destruct (C101_standardized pystr setord setord_spec f (t_sym s) d d' H) as (x & rev & c' & E1 & E2).
    unfold stage_list. rewrite !(pipe_tr_cons _ 0). change (new_objs !! 0) with (Some (None : option (list (attr * attr)))). cbv iota.
    cbn [stages pp_tr std_proc]. rewrite E1, E2. rewrite !pipe_tr_other by apply zero_notin.
    destruct (pipe_tr _ [1; 2; 3] x new_objs c') as [[r h] c1].
    destruct r as [d1|e]; [|split; [done|left; by exists e]].
    destruct (on_tree _ _) as [r s2]. destruct r as [d2|e]; [|split; [done|left; by exists e]].
    split; [done|]. unfold pipe_un. change (List.rev [0; 1; 2; 3]) with [3; 2; 1; 0]. cbn [rfold].
    assert (Eo : forall y : option (list (attr * attr)), forall o i, o <> 0 ->
      pipe_un1 (stages pystr setord rlimit (st_ctx (t_tree s)) (NSum3 0 []) (to_orc q)) (<[0 := y]> h) i o =
      pipe_un1 (stages pystr setord rlimit (st_ctx (t_tree s)) (NSum3 0 []) (to_orc q)) h i o).
    { intros y o i Ho. unfold pipe_un1. by rewrite lookup_insert_ne. }
    rewrite !Eo by done. destruct (pipe_un1 _ h d2 3) as [d3|e]; [|left; by exists e]. cbn [rbind].
    rewrite !Eo by done. destruct (pipe_un1 _ h d3 2) as [d4|e]; [|left; by exists e]. cbn [rbind].
    rewrite !Eo by done. destruct (pipe_un1 _ h d4 1) as [d5|e]; [|left; by exists e]. cbn [rbind].
    unfold pipe_un1. rewrite !lookup_insert. cbn [stages std_proc pp_un rbind].
    right. exists d5, rev, x, c'. done.
  Qed.

  (** Hence a whole history of calls. *)
  Inductive call_alike : tcall N -> tcall N -> Prop :=
  | ca_fit f d d' q : respelled pystr setord f d d' -> call_alike (TCFit d q) (TCFit d' q)
  | ca_cat f d d' q : respelled pystr setord f d d' -> call_alike (TCCat d q) (TCCat d' q)
  | ca_infer f d d' g b q : respelled pystr setord f d d' -> call_alike (TCInfer d g b q) (TCInfer d' g b q)
  | ca_same c : call_alike c c.
  (** The same concept. *)
  Definition answer_alike (r r' : tanswer N) : Prop :=
    match r with TInstance _ => True | _ => r' = r end.
  Theorem C101_history x0 cs cs' s : Forall2 call_alike cs cs' ->
    snd (texec rng ncmp normal pystr setord rlimit x0 cs' s) = snd (texec rng ncmp normal pystr setord rlimit x0 cs s) /\
    Forall2 answer_alike (fst (texec rng ncmp normal pystr setord rlimit x0 cs s))
      (fst (texec rng ncmp normal pystr setord rlimit x0 cs' s)).
  Proof using setord_spec.
    intros H. revert s. induction H as [|c c' cs cs' Hc Hcs IH]; intros s; simpl; [split; [done|constructor]|].
    assert (E : exists r r' s1, texec1 rng ncmp normal pystr setord rlimit x0 c s = (r, s1) /\
      texec1 rng ncmp normal pystr setord rlimit x0 c' s = (r', s1) /\ answer_alike r r').
    { destruct Hc as [f d d' q Hd|f d d' q Hd|f d d' g b q Hd|c].
      - destruct (C101_fit_cat f q d d' s Hd) as [E _]. cbn [texec1]. rewrite E.
        destruct (t_fit _ _ _ _ q d s) as [r s1]. by eexists _, _, _.
      - destruct (C101_fit_cat f q d d' s Hd) as [_ E]. cbn [texec1]. rewrite E.
        destruct (t_cat _ _ _ _ q d s) as [r s1]. by eexists _, _, _.
      - destruct (C101_infer f q d d' g b s Hd) as [E _]. cbn [texec1].
        destruct (t_infer _ _ _ _ _ _ q d g b s) as [r s1]. destruct (t_infer _ _ _ _ _ _ q d' g b s) as [r' s1'].
        simpl in E. subst s1'. by eexists _, _, _.
      - destruct (texec1 _ _ _ _ _ _ x0 c s) as [r s1]. exists r, r, s1. split; [done|]. split; [done|]. by destruct r. }
    destruct E as (r & r' & s1 & E1 & E2 & Ha). rewrite E1, E2. destruct (IH s1) as [IH1 IH2].
    destruct (texec _ _ _ _ _ _ x0 cs s1) as [rs s2]. destruct (texec _ _ _ _ _ _ x0 cs' s1) as [rs' s2'].
    simpl in *. split; [done|]. by constructor.
  Qed.
End Tree.
