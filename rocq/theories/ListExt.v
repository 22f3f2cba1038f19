(** * ExtractListElements can be undone. *)
From stdpp Require Import base decidable list strings pretty.
From Coq Require Import Ascii String ZArith Lia.
From Verif Require Import Base PyVal Preproc PreStd ListProc.
Set Default Proof Using "Type".
Open Scope string_scope.
Open Scope list_scope.

(** ** The instances for which the round trip is claimed *)
Section Spec.
  Context {X : Type}.
  (** A component in a list has no attribute ["val"]: it would be taken for a
      wrapped value. *)
  Definition no_val (v : pv X) : Prop :=
    match v with PD d => AStr "val" ∉ dkeys d | _ => True end.
  (** What [ExtractListElements] needs of an attribute: it is not a name the
      generator will produce, and the name of a list is a non-empty string or
      tuple that does not start with an underscore. *)
  Definition key_ext (c0 : nat) (a : attr) (v : pv X) : Prop :=
    (forall n, (c0 < n)%nat -> a <> AStr (gensym_name n)) /\
    match v with PL _ => attr_ok a = true /\ hidden a = false | _ => True end.
  (** What [ListsToRelations] needs of an attribute: lists and components
      have strings as names, and there is no relation between a list and its
      elements (and no empty tuple) to begin with. *)
  Definition key_rel (a : attr) (v : pv X) : Prop :=
    match v with
    | PL _ | PD _ => exists s, a = AStr s
    | _ => forall l, a = ATup l -> l <> [] /\ head l <> Some (AStr "has-element") /\ head l <> Some (AStr "ordered-list")
    end.
  (** [K]: a condition on all attributes; [ne]: whether empty lists are excluded. *)
  Inductive listy (ne : bool) (K : attr -> pv X -> Prop) : pv X -> Prop :=
    | ly_str s : listy ne K (PStr s)
    | ly_x x : listy ne K (PX x)
    | ly_list l : (ne = true -> l <> []) -> Forall (listy ne K) l -> Forall no_val l -> listy ne K (PL l)
    | ly_dict d : dwf d -> Forall (fun e => K (fst e) (snd e)) d -> Forall (fun e => listy ne K (snd e)) d ->
        listy ne K (PD d).
  (** What [ListsToRelations] needs of an instance: lists are non-empty and
      consist of distinct strings. *)
  Inductive rel_ok : pv X -> Prop :=
    | ro_str s : rel_ok (PStr s)
    | ro_x x : rel_ok (PX x)
    | ro_list names : names <> [] -> NoDup names -> rel_ok (PL (map PStr names))
    | ro_dict d : dwf d -> Forall (fun e => key_rel (fst e) (snd e)) d -> Forall (fun e => rel_ok (snd e)) d ->
        rel_ok (PD d).
End Spec.

Section Ext.
  Context {X : Type} (strl : list (pv X) -> string).
  Notation pv := (pv X).
  Notation inst := (inst X).
  Context (c0 : nat) (Q : Prop).
  Implicit Types (v : pv) (d obj acc : inst).

  Definition scalar v : Prop := match v with PStr _ | PX _ => True | _ => False end.
  Definition gen n : attr := AStr (gensym_name n).
  Definition us_of obj : list (attr * res inst) := map (fun e => (fst e, undo_extract (snd e))) obj.
  Definition unval (o : inst) : pv := match dget (AStr "val") o with Some v => v | None => PD o end.

  Inductive good_els : nat -> list pv -> inst -> list string -> nat -> Prop :=
    | ge_nil c : good_els c [] [] [] c
    | ge_cons c el l obj o els names c1 c2 : (S c <= c1)%nat ->
        undo_extract (PD obj) = Ok o -> peq el (unval o) -> (Q -> rel_ok (PD obj)) ->
        good_els c1 l els names c2 ->
        good_els c (el :: l) ((gen (S c), PD obj) :: els) (gensym_name (S c) :: names) c2.
  Inductive good1 : nat -> attr -> pv -> inst -> nat -> Prop :=
    | g_scalar c a v : scalar v -> good1 c a v [(a, v)] c
    | g_dict c c' a d obj d2 : (c <= c')%nat -> undo_extract (PD obj) = Ok d2 -> ieq d d2 ->
        (Q -> rel_ok (PD obj)) -> good1 c a (PD d) [(a, PD obj)] c'
    | g_list c c' a l els names : good_els c l els names c' -> (Q -> l <> []) ->
        good1 c a (PL l) (els ++ [(a, PL (map PStr names))]) c'.
  Inductive chain : nat -> inst -> inst -> nat -> Prop :=
    | ch_nil c : chain c [] [] c
    | ch_cons c a v d items obj c1 c2 : good1 c a v items c1 -> chain c1 d obj c2 ->
        chain c ((a, v) :: d) (items ++ obj) c2.

  Lemma undo_extract_dict d :
    undo_extract (PD d) =
    rbind (undo_lists (us_of d) [] d) (fun acc => undo_rest (us_of d) (list_elems d) acc d).
  Proof.
    simpl.
    assert (E : (fix go (d : inst) : list (attr * res inst) :=
       match d with [] => [] | (a, w) :: d => (a, undo_extract w) :: go d end) d = us_of d).
    { induction d as [|[a w] d IH]; [done|]. unfold us_of in *. simpl. by f_equal. }
    by rewrite E.
  Qed.

  Lemma dget_us k obj : dget k (us_of obj) = undo_extract <$> dget k obj.
  Proof.
    induction obj as [|[a w] d IH]; [done|]. simpl. unfold us_of in *.
    by destruct (decide (k = a)).
  Qed.

  Lemma ieq_keys d d2 : ieq d d2 -> Permutation (dkeys d) (dkeys d2).
  Proof.
    intros H. inversion H as [| | |? d' ? HF HP]; subst.
    transitivity (dkeys d'); [|by apply Permutation_map].
    clear H HP. induction HF as [|p q l l' [E _] _ IH]; [done|]. simpl. rewrite E. by constructor.
  Qed.

  (** *** The names *)
  Lemma good_els_names c l els names c' : good_els c l els names c' ->
    (c <= c')%nat /\ dkeys els = map AStr names /\ List.length names = List.length l /\
    NoDup names /\ forall s, s ∈ names -> exists n, (c < n <= c')%nat /\ s = gensym_name n.
  Proof.
    induction 1 as [c|c el l obj o els names c1 c2 Hc Hu Hp Hq Hg (IH1 & IH2 & IH4 & IH5 & IH3)].
    - split; [done|]. split; [done|]. split; [done|]. split; [constructor|]. intros s Hs. inversion Hs.
    - split; [lia|]. split; [simpl; by rewrite IH2|]. split; [simpl; by rewrite IH4|]. split.
      + constructor; [|done]. intros Hin. destruct (IH3 _ Hin) as (n & Hn & E).
        apply gensym_inj in E. lia.
      + intros s Hs. apply elem_of_cons in Hs as [->|Hs].
        * exists (S c). split; [lia|done].
        * destruct (IH3 _ Hs) as (n & Hn & ->). exists n. split; [lia|done].
  Qed.

  Lemma good1_keys c a v items c' : good1 c a v items c' ->
    (c <= c')%nat /\ (forall k, k ∈ dkeys items -> k = a \/ exists n, (c < n <= c')%nat /\ k = gen n) /\
    ((forall n, (c < n)%nat -> a <> gen n) -> dwf items).
  Proof.
    intros H. inversion H; subst.
    - split; [done|]. split; [intros k Hk; apply elem_of_list_singleton in Hk; by left|].
      intros _. apply NoDup_singleton.
    - split; [done|]. split; [intros k Hk; apply elem_of_list_singleton in Hk; by left|].
      intros _. apply NoDup_singleton.
    - destruct (good_els_names _ _ _ _ _ H0) as (Hc & Hk & Hl & Hnd & Hn). split; [done|]. split.
      + intros k. rewrite dkeys_app, Hk. intros [Hin|Hin]%elem_of_app.
        * right. apply elem_of_list_fmap in Hin as (s & -> & Hs). destruct (Hn _ Hs) as (n & Hr & ->). by exists n.
        * left. by apply elem_of_list_singleton in Hin.
      + intros Ha. unfold dwf. rewrite dkeys_app, Hk. apply NoDup_app. split; [|split].
        * apply NoDup_fmap_2; [|done]. intros x y E. by injection E.
        * intros k Hin Hin2. apply elem_of_list_singleton in Hin2. simpl in Hin2. subst k.
          apply elem_of_list_fmap in Hin as (s & E & Hs). destruct (Hn _ Hs) as (n & Hr & ->).
          apply (Ha n); [lia|done].
        * apply NoDup_singleton.
  Qed.

  Lemma chain_keys c d obj c' : chain c d obj c' ->
    (c <= c')%nat /\ (forall k, k ∈ dkeys obj -> k ∈ dkeys d \/ exists n, (c < n <= c')%nat /\ k = gen n) /\
    ((forall k n, k ∈ dkeys d -> (c < n)%nat -> k <> gen n) -> dwf d -> dwf obj).
  Proof.
    induction 1 as [c|c a v d items obj c1 c2 Hg Hch (IH1 & IH2 & IH3)].
    - split; [done|]. split; [by left|]. intros _ _. constructor.
    - destruct (good1_keys _ _ _ _ _ Hg) as (Hc & Hk & Hw). split; [lia|]. split.
      + intros k. rewrite dkeys_app. intros [Hin|Hin]%elem_of_app.
        * destruct (Hk _ Hin) as [->|(n & Hn & ->)]; [left; left|right; exists n; split; [lia|done]].
        * destruct (IH2 _ Hin) as [?|(n & Hn & ->)]; [left; by right|right; exists n; split; [lia|done]].
      + intros Hf Hwd. apply dwf_cons in Hwd as [Ha Hwd].
        unfold dwf. rewrite dkeys_app. apply NoDup_app. split; [|split].
        * apply Hw. intros n Hn. apply Hf; [left|done].
        * intros k Hin Hin2. destruct (Hk _ Hin) as [->|(n & Hn & ->)].
          -- destruct (IH2 _ Hin2) as [?|(n & Hn & E)]; [done|].
             apply (Hf a n); [left|lia|done].
          -- destruct (IH2 _ Hin2) as [Hd|(m & Hm & E)].
             ++ apply (Hf (gen n) n); [by right|lia|done].
             ++ unfold gen in E. injection E as E. apply (f_equal (fun s => String.append "?o" s)) in E.
                assert (n = m) by (apply gensym_inj; unfold gensym_name; done). lia.
        * apply IH3; [|done]. intros k n Hkd Hn. apply Hf; [by right|lia].
  Qed.

  (** *** Undoing *)
  Definition R2 (p q : attr * pv) : Prop := fst p = fst q /\ peq (snd p) (snd q).
  Definition isl (e : attr * pv) : bool := is_list (snd e).
  Definition nol (e : attr * pv) : bool := negb (is_list (snd e)).

  Section Undo.
    Context (tot : inst) (Hwf : dwf tot).
    Notation U := (us_of tot).
    Notation els := (list_elems tot).

    Lemma undo_els c l e names c' : good_els c l e names c' -> e ⊆ tot ->
      exists l2, rmapM (undo_elem U) (map PStr names) = Ok l2 /\ Forall2 peq l l2.
    Proof using Hwf.
      induction 1 as [c|c el l obj o e names c1 c2 Hc Hu Hp Hq Hg IH]; intros Hsub.
      - exists []. by split.
      - destruct IH as (l2 & E & HF). { intros x Hx. apply Hsub. by right. }
        exists (unval o :: l2). split; [|by constructor].
        simpl. rewrite dget_us.
        rewrite (In_dget (gen (S c)) (PD obj) tot Hwf); [|apply Hsub; left].
        change (undo_extract <$> Some (PD obj)) with (Some (undo_extract (PD obj))). rewrite Hu.
        simpl. by rewrite E.
    Qed.

    Lemma list_elems_in a names s : (a, PL (map PStr names)) ∈ tot -> s ∈ names -> AStr s ∈ els.
    Proof.
      intros Hin Hs. unfold list_elems. apply elem_of_list_In, in_concat.
      eexists. split; [apply in_map_iff; eexists; split; [reflexivity|by apply elem_of_list_In]|].
      simpl. apply elem_of_list_In, elem_of_list_omap. exists (PStr s). split; [|done].
      by apply elem_of_list_fmap_1.
    Qed.

    Lemma undo_lists_els c l e names c' acc obj : good_els c l e names c' ->
      undo_lists U acc (e ++ obj) = undo_lists U acc obj.
    Proof. induction 1; [done|]. simpl. done. Qed.

    Lemma undo_rest_els c l e names c' acc obj : good_els c l e names c' ->
      (forall s, s ∈ names -> AStr s ∈ els) ->
      undo_rest U els acc (e ++ obj) = undo_rest U els acc obj.
    Proof.
      induction 1 as [c|c el l o o' e names c1 c2 Hc Hu Hp Hq Hg IH]; intros Hs; [done|].
      unfold undo_rest. simpl. rewrite bool_decide_true by (apply Hs; left). simpl.
      apply IH. intros s Hin. apply Hs. by right.
    Qed.

    Lemma undo_chain_aux c d obj c' : chain c d obj c' -> obj ⊆ tot ->
      (forall k, k ∈ dkeys d -> k ∉ els) ->
      exists d2, Forall2 R2 d d2 /\
        (forall acc, NoDup (dkeys acc ++ dkeys d) -> undo_lists U acc obj = Ok (acc ++ List.filter isl d2)) /\
        (forall acc, NoDup (dkeys acc ++ dkeys (List.filter nol d)) -> undo_rest U els acc obj = Ok (acc ++ List.filter nol d2)).
    Proof using Hwf.
      induction 1 as [c|c a v d items obj c1 c2 Hg Hch IH]; intros Hsub Hk.
      - exists []. split; [constructor|]. split; intros acc _; simpl; by rewrite app_nil_r.
      - destruct IH as (d2 & HF & HL & HR).
        { intros x Hx. apply Hsub. apply elem_of_app. by right. }
        { intros k Hkd. apply Hk. by right. }
        assert (Hni : a ∉ els) by (apply Hk; left).
        assert (Hacc : forall acc (w : pv), NoDup (dkeys acc ++ dkeys ((a, v) :: d)) ->
           dset a w acc = acc ++ [(a, w)] /\ NoDup (dkeys (acc ++ [(a, w)]) ++ dkeys d)).
        { intros acc w Hnd. split.
          - apply dset_fresh. apply NoDup_app in Hnd as (_ & Hx & _). intros Hin. apply (Hx _ Hin). left.
          - rewrite dkeys_app, <- app_assoc. done. }
        assert (Haccn : forall acc (w : pv), nol (a, v) = true ->
           NoDup (dkeys acc ++ dkeys (List.filter nol ((a, v) :: d))) ->
           dset a w acc = acc ++ [(a, w)] /\ NoDup (dkeys (acc ++ [(a, w)]) ++ dkeys (List.filter nol d))).
        { intros acc w Hnl Hnd. simpl in Hnd. rewrite Hnl in Hnd. split.
          - apply dset_fresh. apply NoDup_app in Hnd as (_ & Hx & _). intros Hin. apply (Hx _ Hin). left.
          - rewrite dkeys_app, <- app_assoc. done. }
        assert (Hacc2 : forall acc, NoDup (dkeys acc ++ dkeys ((a, v) :: d)) -> NoDup (dkeys acc ++ dkeys d)).
        { intros acc Hnd. simpl in Hnd. apply NoDup_app in Hnd as (H1 & H2 & H3).
          apply NoDup_cons in H3 as [_ H3]. apply NoDup_app. split; [done|]. split; [|done].
          intros k Hin Hin2. apply (H2 _ Hin). by right. }
        inversion Hg as [? ? ? Hs|? ? ? dd oo dd2 Hc Hu Hq Hro|? ? ? l e names He Hne]; subst.
        + exists ((a, v) :: d2). split; [constructor; [split; [done|apply peq_refl]|done]|]. split.
          * intros acc Hnd. destruct v; try done; simpl; rewrite <- HL by (by apply Hacc2); done.
          * intros acc Hnd. destruct (Haccn acc v ltac:(by destruct v) Hnd) as [E1 E2].
            unfold undo_rest. simpl. rewrite bool_decide_false by done.
            destruct v; try done; simpl; rewrite E1;
              change (rfold _ ?x obj) with (undo_rest U els x obj);
              rewrite HR by done; by rewrite <- app_assoc.
        + exists ((a, PD dd2) :: d2). split; [constructor; [by split|done]|]. split.
          * intros acc Hnd. simpl. rewrite <- HL by (by apply Hacc2). done.
          * intros acc Hnd. destruct (Haccn acc (PD dd2) eq_refl Hnd) as [E1 E2].
            unfold undo_rest. simpl. rewrite bool_decide_false by done. simpl.
            rewrite dget_us, (In_dget a (PD oo) tot Hwf) by (apply Hsub; left).
            change (undo_extract <$> Some (PD oo)) with (Some (undo_extract (PD oo))). rewrite Hu. simpl.
            rewrite E1. change (rfold _ ?x obj) with (undo_rest U els x obj).
            rewrite HR by done. by rewrite <- app_assoc.
        + destruct (undo_els _ _ _ _ _ He) as (l2 & El & HFl).
          { intros x Hx. apply Hsub. rewrite <- app_assoc. apply elem_of_app. by left. }
          exists ((a, PL l2) :: d2). split; [constructor; [split; [done|by constructor]|done]|]. split.
          * intros acc Hnd. destruct (Hacc acc (PL l2) Hnd) as [E1 E2].
            rewrite <- app_assoc, (undo_lists_els _ _ _ _ _ _ _ He). unfold undo_lists. simpl.
            rewrite El. simpl. rewrite E1. change (rfold _ ?x obj) with (undo_lists U x obj).
            rewrite HL by done. by rewrite <- app_assoc.
          * intros acc Hnd. rewrite <- app_assoc. rewrite (undo_rest_els _ _ _ _ _ _ _ He).
            2:{ intros s Hs. eapply list_elems_in; [|exact Hs]. apply Hsub.
                apply elem_of_app. left. apply elem_of_app. right. left. }
            simpl. change (undo_rest U els acc obj = Ok (acc ++ List.filter nol d2)).
            apply HR. exact Hnd.
    Qed.
  End Undo.

  Lemma chain_elems c d obj c' : chain c d obj c' ->
    forall k, k ∈ list_elems obj -> exists n, (c < n)%nat /\ k = gen n.
  Proof.
    assert (Happ : forall o1 o2 : inst, list_elems (o1 ++ o2) = list_elems o1 ++ list_elems o2).
    { intros o1 o2. unfold list_elems. by rewrite map_app, concat_app. }
    induction 1 as [c|c a v d items obj c1 c2 Hg Hch IH]; intros k Hk; [inversion Hk|].
    destruct (good1_keys _ _ _ _ _ Hg) as (Hc & _ & _).
    rewrite Happ in Hk. apply elem_of_app in Hk as [Hk|Hk].
    2:{ destruct (IH _ Hk) as (n & Hn & ->). exists n. split; [lia|done]. }
    inversion Hg as [? ? ? Hs|? ? ? dd oo dd2 Hc' Hu Hq Hro|? ? ? l e names He Hne]; subst.
    - destruct v; try done; inversion Hk.
    - inversion Hk.
    - rewrite Happ in Hk. destruct (good_els_names _ _ _ _ _ He) as (_ & _ & _ & _ & Hn).
      apply elem_of_app in Hk as [Hk|Hk].
      + exfalso. clear - He Hk. induction He; [inversion Hk|]. apply IHHe. exact Hk.
      + unfold list_elems in Hk. simpl in Hk. rewrite app_nil_r in Hk.
        apply elem_of_list_omap in Hk as (x & Hx & Ex). apply elem_of_list_fmap in Hx as (s & -> & Hs).
        injection Ex as <-. destruct (Hn _ Hs) as (n & Hr & ->). exists n. split; [lia|done].
  Qed.

  Lemma filter_split (d : inst) : Permutation d (List.filter isl d ++ List.filter nol d).
  Proof.
    induction d as [|e d IH]; [done|]. simpl. unfold isl, nol in *. destruct (is_list (snd e)); simpl.
    - by constructor.
    - rewrite IH at 1. apply Permutation_middle.
  Qed.

  (** The components made of a chain can be undone. *)
  Lemma undo_chain c d obj c' : chain c d obj c' -> dwf d ->
    (forall k n, k ∈ dkeys d -> (c < n)%nat -> k <> gen n) ->
    (Q -> Forall (fun e => key_rel (fst e) (snd e)) d) ->
    dwf obj /\ (Q -> rel_ok (PD obj)) /\ exists d2, undo_extract (PD obj) = Ok d2 /\ ieq d d2.
  Proof.
    intros Hch Hw Hf Hkr. destruct (chain_keys _ _ _ _ Hch) as (_ & _ & Hwo). specialize (Hwo Hf Hw).
    split; [done|]. split.
    - intros HQ. specialize (Hkr HQ). constructor; [done|..].
      + clear - Hch Hkr. revert Hkr. induction Hch as [c|c a v d items obj c1 c2 Hg Hch IH]; intros Hkr; [constructor|].
        apply Forall_cons in Hkr as [Ha Hkr]. apply Forall_app. split; [|by apply IH].
        inversion Hg as [? ? ? Hs|? ? ? dd oo dd2 Hc' Hu Hq Hro|? ? ? l e names He Hne]; subst.
        * by constructor.
        * by constructor.
        * apply Forall_app. split; [|by constructor].
          clear - He. induction He; constructor; [|done]. simpl. by eexists.
      + clear - Hch HQ. induction Hch as [c|c a v d items obj c1 c2 Hg Hch IH]; [constructor|].
        apply Forall_app. split; [|done].
        inversion Hg as [? ? ? Hs|? ? ? dd oo dd2 Hc' Hu Hq Hro|? ? ? l e names He Hne]; subst.
        * constructor; [|constructor]. destruct v; try done; constructor.
        * constructor; [|constructor]. by apply Hro.
        * destruct (good_els_names _ _ _ _ _ He) as (_ & _ & Hlen & Hnd & _).
          apply Forall_app. split.
          -- clear - He HQ. induction He; constructor; [|done]. simpl. auto.
          -- constructor; [|constructor]. simpl. constructor; [|done].
             intros ->. destruct l; [by apply Hne|done].
    - destruct (undo_chain_aux obj Hwo _ _ _ _ Hch) as (d2 & HF & HL & HR).
      { done. }
      { intros k Hk Hin. destruct (chain_elems _ _ _ _ Hch _ Hin) as (n & Hn & ->). by apply (Hf (gen n) n). }
      exists (List.filter isl d2 ++ List.filter nol d2). split.
      + rewrite undo_extract_dict. rewrite HL by done. simpl.
        rewrite (HR (List.filter isl d2)); [done|].
        assert (Ek : dkeys (List.filter nol d) = dkeys (List.filter nol d2)).
        { clear - HF. induction HF as [|p q l l' [E1 E2] _ IH]; [done|]. simpl.
          assert (nol p = nol q) as -> by (unfold nol; by inversion E2).
          destruct (nol q); [|done]. simpl. by rewrite E1, IH. }
        rewrite Ek. unfold dkeys. rewrite <- map_app.
        rewrite <- (Permutation_map fst (filter_split d2)).
        change (NoDup (dkeys d2)). replace (dkeys d2) with (dkeys d); [done|].
        clear - HF. induction HF as [|p q l l' [E1 E2] _ IH]; [done|]. simpl. by rewrite E1, IH.
      + apply peq_dict with d2; [exact HF|apply filter_split].
  Qed.

  (** *** Extracting *)
  Context (ne : bool) (K : attr -> pv -> Prop).
  Context (HK : forall a v, K a v -> key_ext c0 a v).
  Context (HQ : Q -> ne = true /\ forall a v, K a v -> key_rel a v).

  Definition ext_list := fix go (l : list pv) (c : nat) : res (inst * list string * nat) :=
    match l with
    | [] => Ok ([], [], c)
    | el :: l =>
        let n := gensym_name (S c) in
        rbind (ext_entry strl (match el with PD _ => AStr n | _ => AStr "val" end) el (S c)) (fun o =>
        let item := match el with PD _ => fst o | _ => [(AStr n, PD (dupd [] (fst o)))] end in
        rbind (go l (snd o)) (fun r => Ok (item ++ fst (fst r), n :: snd (fst r), snd r)))
    end.
  Definition ext_dict := fix go (d acc : inst) (c : nat) : res (inst * nat) :=
    match d with
    | [] => Ok (acc, c)
    | (a, w) :: d => rbind (ext_entry strl a w c) (fun o => go d (dupd acc (fst o)) (snd o))
    end.

  Lemma extract_dict d c : extract strl d c = ext_dict d [] c.
  Proof.
    unfold extract. generalize (@nil (attr * pv)) as acc. revert c.
    induction d as [|[a w] d IH]; intros c acc; [done|]. simpl.
    destruct (ext_entry strl a w c) as [o|e]; [|done]. simpl. apply IH.
  Qed.

  Lemma dupd_dupd (a b c : inst) : dupd (dupd a b) c = dupd a (b ++ c).
  Proof. unfold dupd. by rewrite fold_left_app. Qed.

  Lemma no_val_get d d2 : AStr "val" ∉ dkeys d -> ieq d d2 -> unval d2 = PD d2.
  Proof.
    intros Hn Hi. unfold unval. assert (dget (AStr "val") d2 = None) as ->; [|done].
    apply dget_None. by rewrite <- (ieq_keys _ _ Hi).
  Qed.

  Lemma ieq_one a v d2 : ieq [(a, v)] d2 -> exists w, d2 = [(a, w)] /\ peq v w.
  Proof.
    intros H. inversion H as [| | |? d' ? HF HP]; subst.
    inversion HF as [|? [b w] ? l' [E1 E2] HF']; subst. inversion HF'; subst. simpl in *. subst.
    apply Permutation_singleton_l in HP. subst. by exists w.
  Qed.

  Lemma key_ext_val v : (scalar v \/ exists l, v = PL l) -> key_ext c0 (AStr "val") v.
  Proof.
    intros Hv. split.
    - intros n _ E. injection E as E. discriminate E.
    - destruct v; try done.
  Qed.

  Lemma ext_ok v : listy ne K v -> forall a c, (c0 <= c)%nat -> key_ext c0 a v \/ (exists d, v = PD d) ->
    exists items c', ext_entry strl a v c = Ok (items, c') /\ good1 c a v items c'.
  Proof using HK HQ.
    induction v as [s|x|l IH|d IH] using pv_ind'; intros Hly a c Hc Hka.
    - exists [(a, PStr s)], c. split; [done|]. by constructor.
    - exists [(a, PX x)], c. split; [done|]. by constructor.
    - destruct Hka as [[_ [Hok Hh]]|[? ?]]; [|done].
      inversion Hly as [| |? Hne Hls Hnv|]; subst.
      assert (exists els names c', ext_list l c = Ok (els, names, c') /\ good_els c l els names c')
        as (els & names & c' & E & Hg).
      { clear Hne Hly. revert c Hc. induction l as [|el l IHl]; intros c Hc.
        - exists [], [], c. split; [done|constructor].
        - apply Forall_cons in IH as [Hel IH]. apply Forall_cons in Hls as [Hlel Hls].
          apply Forall_cons in Hnv as [Hnel Hnv].
          assert (exists obj o c1, (S c <= c1)%nat /\
            rbind (ext_entry strl (match el with PD _ => AStr (gensym_name (S c)) | _ => AStr "val" end) el (S c)) (fun o =>
              Ok (match el with PD _ => fst o | _ => [(AStr (gensym_name (S c)), PD (dupd [] (fst o)))] end, snd o)) =
              Ok ([(gen (S c), PD obj)], c1) /\
            undo_extract (PD obj) = Ok o /\ peq el (unval o) /\ (Q -> rel_ok (PD obj)))
            as (obj & o & c1 & Hc1 & Eo & Hu & Hp & Hro).
          { destruct el as [s|x|ll|dd].
            - exists [(AStr "val", PStr s)], [(AStr "val", PStr s)], (S c). split; [lia|]. split; [done|].
              split; [done|]. split; [constructor|]. intros _. constructor; [apply NoDup_singleton|..].
              + constructor; [|constructor]. simpl. by intros l'.
              + constructor; constructor.
            - exists [(AStr "val", PX x)], [(AStr "val", PX x)], (S c). split; [lia|]. split; [done|].
              split; [done|]. split; [constructor|]. intros _. constructor; [apply NoDup_singleton|..].
              + constructor; [|constructor]. simpl. by intros l'.
              + constructor; constructor.
            - destruct (Hel Hlel (AStr "val") (S c) ltac:(lia)) as (items & c1 & E & Hg).
              { left. apply key_ext_val. right. by exists ll. }
              destruct (good1_keys _ _ _ _ _ Hg) as (Hcc & _ & _).
              pose proof (ch_cons _ _ _ _ _ _ _ _ Hg (ch_nil c1)) as Hch. rewrite app_nil_r in Hch.
              destruct (undo_chain _ _ _ _ Hch) as (Hw & Hro & d2 & Hu & Hi).
              + apply NoDup_singleton.
              + intros k n Hk _ ->. apply elem_of_list_singleton in Hk. discriminate Hk.
              + intros _. constructor; [|constructor]. by exists "val".
              + destruct (ieq_one _ _ _ Hi) as (w & -> & Hp).
                exists items, [(AStr "val", w)], c1. split; [done|]. split.
                * rewrite E. simpl. rewrite dupd_app by done. done.
                * done.
            - destruct (Hel Hlel (AStr (gensym_name (S c))) (S c) ltac:(lia)) as (items & c1 & E & Hg).
              { right. by exists dd. }
              inversion Hg as [? ? ? Hs|? ? ? ? oo dd2 Hc' Hu Hq Hro|]; subst; [done|].
              exists oo, dd2, c1. split; [done|]. split; [by rewrite E|]. split; [done|].
              split; [|done]. by rewrite (no_val_get dd dd2). }
          destruct (IHl IH Hls Hnv c1 ltac:(lia)) as (els & names & c2 & E & Hg).
          exists ((gen (S c), PD obj) :: els), (gensym_name (S c) :: names), c2. split.
          + simpl. destruct (ext_entry strl _ el (S c)) as [r|]; [|done]. simpl in Eo |- *.
            injection Eo as Eo1 Eo2. rewrite Eo1, Eo2, E. done.
          + by eapply ge_cons. }
      exists (els ++ [(a, PL (map PStr names))]), c'. split.
      + change (ext_entry strl a (PL l) c) with
          (if attr_ok a then if hidden a then Ok ([(a, PStr (strl l))], c) else
             rbind (ext_list l c) (fun r => Ok (fst (fst r) ++ [(a, PL (map PStr (snd (fst r))))], snd r))
           else Err (match a with ANum _ => TypeError | _ => IndexError end)).
        rewrite Hok, Hh, E. done.
      + constructor; [done|]. intros HQ'. by apply Hne, HQ.
    - inversion Hly as [| | |? Hw Hkd Hls]; subst. clear Hka.
      assert (forall acc, exists obj c', ext_dict d acc c = Ok (dupd acc obj, c') /\ chain c d obj c') as Hd.
      { clear Hw Hly. revert c Hc. induction d as [|[b w] d IHd]; intros c Hc acc.
        - exists [], c. split; [done|constructor].
        - apply Forall_cons in IH as [Hb IH]. apply Forall_cons in Hkd as [Hkb Hkd].
          apply Forall_cons in Hls as [Hlb Hls]. simpl in Hb, Hkb, Hlb.
          destruct (Hb Hlb b c Hc) as (items & c1 & E & Hg). { left. by apply HK. }
          destruct (good1_keys _ _ _ _ _ Hg) as (Hcc & _ & _).
          destruct (IHd IH Hkd Hls c1 ltac:(lia) (dupd acc items)) as (obj & c2 & E2 & Hch).
          exists (items ++ obj), c2. split; [|by econstructor].
          simpl. rewrite E. simpl. rewrite E2. by rewrite dupd_dupd. }
      destruct (Hd []) as (obj & c' & E & Hch).
      destruct (undo_chain _ _ _ _ Hch) as (Hwo & Hro & d2 & Hu & Hi).
      + done.
      + intros k n Hk Hn. apply elem_of_list_fmap in Hk as (e & -> & He).
        rewrite Forall_forall in Hkd. destruct (HK _ _ (Hkd _ He)) as [Hx _]. apply Hx. lia.
      + intros HQ'. eapply Forall_impl; [exact Hkd|]. intros e. apply HQ. done.
      + destruct (chain_keys _ _ _ _ Hch) as (Hcc & _ & _).
        exists [(a, PD obj)], c'. split.
        * change (ext_entry strl a (PD d) c) with
            (rbind (ext_dict d [] c) (fun r => Ok ([(a, PD (fst r))], snd r))).
          rewrite E. simpl. by rewrite dupd_app.
        * by econstructor.
  Qed.

  Lemma extract_ok d c : listy ne K (PD d) -> (c0 <= c)%nat ->
    exists obj c' d2, extract strl d c = Ok (obj, c') /\ (c <= c')%nat /\
      (Q -> rel_ok (PD obj)) /\ undo_extract (PD obj) = Ok d2 /\ ieq d d2.
  Proof using HK HQ.
    intros Hly Hc. destruct (ext_ok (PD d) Hly (AStr "") c Hc) as (items & c' & E & Hg).
    { right. by exists d. }
    change (ext_entry strl (AStr "") (PD d) c) with
      (rbind (ext_dict d [] c) (fun r => Ok ([(AStr "", PD (fst r))], snd r))) in E.
    rewrite <- extract_dict in E.
    destruct (extract strl d c) as [[obj c1]|]; [|done]. simpl in E. injection E as <- <-.
    inversion Hg as [? ? ? Hs|? ? ? ? oo dd2 Hc' Hu Hq Hro|]; subst; [done|].
    by exists obj, c1, dd2.
  Qed.
End Ext.
