(** * Facts about the NameStandardizer *)
From stdpp Require Import base decidable list strings pretty.
From Coq Require Import Ascii String ZArith.
From Verif Require Import Base PyVal Preproc.
Set Default Proof Using "Type*".

(** ** Specification: renaming variables in nested data. *)
Section Spec.
  Context {X : Type}.
  Notation pv := (pv X).

  (** Rename the variables among the attributes of all (nested) components;
      values that are not components, and list elements that are not
      components, stay as they are. *)
  Fixpoint prename (f : string -> string) (v : pv) : pv :=
    match v with
    | PD d => PD (map (fun e => (arename f (fst e), prename f (snd e))) d)
    | PL l => PL (map (fun e => match e with PD _ => prename f e | _ => e end) l)
    | _ => v
    end.
  Definition irename (f : string -> string) (d : inst X) : inst X :=
    map (fun e => (arename f (fst e), prename f (snd e))) d.

  (** The variables of nested data. *)
  Fixpoint pvars (v : pv) : list string :=
    match v with
    | PD d => flat_map (fun e => avars (fst e) ++ pvars (snd e)) d
    | PL l => flat_map (fun e => match e with PD _ => pvars e | _ => [] end) l
    | _ => []
    end.
  Definition ivars (d : inst X) : list string := pvars (PD d).

  (** Relations are tuples of strings and tuples. *)
  Fixpoint tup_ok (a : attr) : bool :=
    match a with AStr _ => true | ATup l => forallb tup_ok l | ANum _ => false end.
  Definition rel_ok (a : attr) : Prop :=
    match a with ATup _ => tup_ok a = true | _ => True end.

  (** Every dictionary inside has distinct keys, and its relations are made
      of strings and tuples. *)
  Inductive std_ok : pv -> Prop :=
    | so_str s : std_ok (PStr s)
    | so_x x : std_ok (PX x)
    | so_list l : Forall (fun e => (exists d, e = PD d) -> std_ok e) l -> std_ok (PL l)
    | so_dict d : dwf d -> Forall (fun e => rel_ok (fst e)) d ->
        Forall (fun e => std_ok (snd e)) d -> std_ok (PD d).

  (** Variables hold components or lists; relations hold plain values. *)
  Definition holds_ok (a : attr) (v : pv) : Prop :=
    match v with
    | PD _ | PL _ => match a with ATup _ => False | _ => True end
    | _ => match a with AStr s => is_var s = false | _ => True end
    end.
  Inductive undo_ok : pv -> Prop :=
    | uo_str s : undo_ok (PStr s)
    | uo_x x : undo_ok (PX x)
    | uo_list l : Forall (fun e => (exists d, e = PD d) -> undo_ok e) l -> undo_ok (PL l)
    | uo_dict d : Forall (fun e => holds_ok (fst e) (snd e)) d ->
        Forall (fun e => undo_ok (snd e)) d -> undo_ok (PD d).
End Spec.

Lemma gensym_var n : is_var (gensym_name n) = true.
Proof. done. Qed.
Lemma gensym_inj n m : gensym_name n = gensym_name m -> n = m.
Proof.
  intros E. unfold gensym_name in E.
  change (String "?"%char (String "o"%char (pretty n)) = String "?"%char (String "o"%char (pretty m))) in E.
  injection E as E. by apply (inj pretty) in E.
Qed.

Section Std.
  Context {X : Type}.
  Notation pv := (pv X).
  Context (pystr : attr -> string) (setord : list attr -> list attr).
  Context (setord_spec : forall l x, x ∈ setord l <-> x ∈ l).
  Notation std_val := (std_val (X:=X) pystr setord).
  Notation std_dict := (std_dict (X:=X) pystr setord).
  Notation sort_by := (sort_by pystr).

  (** ** Sorting *)
  Lemma insert_by_perm {B} (e : attr * B) l : Permutation (insert_by pystr e l) (e :: l).
  Proof.
    induction l as [|e' l IH]; simpl; [done|]. destruct (String.leb _ _); [done|].
    rewrite IH. apply Permutation_swap.
  Qed.
  Lemma sort_by_perm {B} (l : list (attr * B)) : Permutation (sort_by l) l.
  Proof. induction l as [|e l IH]; simpl; [done|]. rewrite insert_by_perm. by rewrite IH. Qed.
  Lemma insert_by_map {B C} (g : B -> C) (e : attr * B) l :
    insert_by pystr (fst e, g (snd e)) (map (fun e => (fst e, g (snd e))) l) =
    map (fun e => (fst e, g (snd e))) (insert_by pystr e l).
  Proof.
    induction l as [|e' l IH]; simpl; [done|]. destruct (String.leb _ _); [done|].
    simpl. by rewrite <- IH.
  Qed.
  Lemma sort_by_map {B C} (g : B -> C) (l : list (attr * B)) :
    sort_by (map (fun e => (fst e, g (snd e))) l) = map (fun e => (fst e, g (snd e))) (sort_by l).
  Proof. induction l as [|e l IH]; simpl; [done|]. rewrite IH. apply insert_by_map. Qed.

  (** ** The mapping *)
  Definition fm (m : list (attr * attr)) (s : string) : string :=
    match dget (AStr s) m with Some (AStr t) => t | _ => s end.

  (** All entries map a variable to a generated name between [c0] and the
      counter, without repetition. *)
  Definition good (c0 : nat) (s : nstate) : Prop :=
    c0 <= fst s /\ dwf (snd s) /\ NoDup (map snd (snd s)) /\
    Forall (fun e => exists v n, fst e = AStr v /\ is_var v = true /\
                       snd e = AStr (gensym_name n) /\ c0 < n <= fst s) (snd s).

  Definition mext (m m' : list (attr * attr)) : Prop := exists l, m' = m ++ l.
  Definition dom (m : list (attr * attr)) (s : string) : Prop := AStr s ∈ dkeys m.

  Lemma mext_refl m : mext m m.
  Proof. exists []. by rewrite app_nil_r. Qed.
  Lemma mext_trans m1 m2 m3 : mext m1 m2 -> mext m2 m3 -> mext m1 m3.
  Proof. intros [l1 ->] [l2 ->]. exists (l1 ++ l2). by rewrite app_assoc. Qed.
  Lemma mext_dom m m' s : mext m m' -> dom m s -> dom m' s.
  Proof. intros [l ->]. unfold dom. rewrite dkeys_app. rewrite elem_of_app. auto. Qed.
  Lemma mext_fm m m' s : mext m m' -> dom m s -> fm m' s = fm m s.
  Proof.
    intros [l ->] Hd. unfold fm. rewrite dget_app.
    destruct (dget_key_Some _ _ Hd) as [v Hv]. by rewrite Hv.
  Qed.

  Lemma good_dget c0 s v : good c0 s -> dom (snd s) v ->
    exists n, dget (AStr v) (snd s) = Some (AStr (gensym_name n)) /\ c0 < n <= fst s /\ is_var v = true.
  Proof.
    intros (_ & Hw & _ & Hf) Hd. destruct (dget_key_Some _ _ Hd) as [w Hw'].
    rewrite Forall_forall in Hf. destruct (Hf _ (dget_In _ _ _ Hw')) as (v' & n & E1 & E2 & E3 & E4).
    simpl in *. injection E1 as <-. subst. eauto.
  Qed.

  Lemma fm_good c0 s v : good c0 s -> dom (snd s) v ->
    exists n, fm (snd s) v = gensym_name n /\ c0 < n <= fst s.
  Proof.
    intros HG Hd. destruct (good_dget _ _ _ HG Hd) as (n & E & H & _). exists n.
    unfold fm. by rewrite E.
  Qed.

  Lemma NoDup_snd_inj (m : list (attr * attr)) k1 k2 v :
    NoDup (map snd m) -> (k1, v) ∈ m -> (k2, v) ∈ m -> k1 = k2.
  Proof.
    induction m as [|[k w] m IH]; simpl; intros Hnd H1 H2; [by apply elem_of_nil in H1|].
    apply NoDup_cons in Hnd as [Hn Hnd].
    apply elem_of_cons in H1 as [H1|H1]; apply elem_of_cons in H2 as [H2|H2].
    - congruence.
    - injection H1 as -> ->. exfalso. apply Hn. apply elem_of_list_fmap. by exists (k2, w).
    - injection H2 as -> ->. exfalso. apply Hn. apply elem_of_list_fmap. by exists (k1, w).
    - by apply IH.
  Qed.

  Lemma fm_inj c0 s u v : good c0 s -> dom (snd s) u -> dom (snd s) v ->
    fm (snd s) u = fm (snd s) v -> u = v.
  Proof.
    intros HG Hu Hv E. destruct (good_dget _ _ _ HG Hu) as (n & E1 & _ & _).
    destruct (good_dget _ _ _ HG Hv) as (n' & E2 & _ & _).
    unfold fm in E. rewrite E1, E2 in E. apply gensym_inj in E. subst.
    apply dget_In in E1, E2. destruct HG as (_ & _ & Hnd & _).
    assert (AStr u = AStr v) by (eapply NoDup_snd_inj; eauto). congruence.
  Qed.

  Lemma new_sym_good c0 s v : good c0 s -> is_var v = true ->
    good c0 (new_sym (AStr v) s) /\ mext (snd s) (snd (new_sym (AStr v) s)) /\
    dom (snd (new_sym (AStr v) s)) v /\
    (forall u, dom (snd (new_sym (AStr v) s)) u -> dom (snd s) u \/ u = v).
  Proof.
    intros HG Hv. unfold new_sym. destruct (dmem (AStr v) (snd s)) eqn:E.
    - apply dmem_true in E. repeat split; auto using mext_refl; apply HG.
    - apply dmem_false in E. simpl. destruct HG as (Hc & Hw & Hnd & Hf). repeat split.
      + simpl. lia.
      + simpl. by apply dset_wf.
      + simpl. rewrite dset_fresh by done. rewrite map_app. simpl. apply NoDup_app.
        split; [done|]. split; [|apply NoDup_singleton].
        intros x Hx Hx'. apply elem_of_list_singleton in Hx'. subst.
        apply elem_of_list_fmap in Hx as [[k w] [E' Hin]]. simpl in E'. subst w.
        rewrite Forall_forall in Hf. destruct (Hf _ Hin) as (v' & n & _ & _ & E3 & E4).
        simpl in E3. injection E3 as E3. unfold gensym_name in E3.
        assert (S (fst s) = n) by (apply gensym_inj; unfold gensym_name; congruence). lia.
      + simpl. rewrite dset_fresh by done. apply Forall_app. split.
        * eapply Forall_impl; [done|]. intros [k w] (v' & n & ? & ? & ? & ?).
          exists v', n. repeat split; try done; lia.
        * apply Forall_singleton. exists v, (S (fst s)). simpl. repeat split; try done; lia.
      + simpl. rewrite dset_fresh by done. by eexists.
      + unfold dom. apply dset_in_keys.
      + intros u Hu. unfold dom in *. apply elem_of_dkeys_dset in Hu as [Hu|Hu]; [|by left].
        injection Hu as ->. by right.
  Qed.

  Lemma new_syms_good c0 s l : good c0 s ->
    Forall (fun a => exists v, a = AStr v /\ is_var v = true) l ->
    let s' := fold_left (fun s o => new_sym o s) l s in
    good c0 s' /\ mext (snd s) (snd s') /\
    (forall v, AStr v ∈ l -> dom (snd s') v) /\
    (forall u, dom (snd s') u -> dom (snd s) u \/ AStr u ∈ l).
  Proof.
    intros HG Hl. revert s HG. induction Hl as [|a l (v & -> & Hv) Hl IH]; intros s HG; simpl.
    - repeat split; auto using mext_refl; try apply HG. intros v H. by apply elem_of_nil in H.
    - destruct (new_sym_good c0 s v HG Hv) as (H1 & H2 & H3 & H4).
      destruct (IH _ H1) as (H5 & H6 & H7 & H8). repeat split; try apply H5.
      + by eapply mext_trans.
      + intros u Hu. apply elem_of_cons in Hu as [Hu|Hu]; [|by apply H7].
        injection Hu as ->. by eapply mext_dom.
      + intros u Hu. apply H8 in Hu as [Hu|Hu].
        * apply H4 in Hu as [Hu| ->]; [by left|]. right. left.
        * right. by right.
  Qed.

  (** ** Attributes *)
  Lemma arename_ext f g a : (forall s, s ∈ avars a -> f s = g s) -> arename f a = arename g a.
  Proof.
    induction a as [s|l IH|z] using attr_ind'; simpl; intros H; [|f_equal|done].
    - destruct (is_var s) eqn:E; [|done]. f_equal. apply H. left.
    - induction IH as [|a l Ha Hl IHl]; simpl in *; [done|]. f_equal.
      + apply Ha. intros s Hs. apply H. apply elem_of_app. by left.
      + apply IHl. intros s Hs. apply H. apply elem_of_app. by right.
  Qed.

  Lemma arename_inj f a b :
    (forall s t, s ∈ avars a -> t ∈ avars b -> f s = f t -> s = t) ->
    (forall s, s ∈ avars a -> is_var (f s) = true) ->
    (forall s, s ∈ avars b -> is_var (f s) = true) ->
    arename f a = arename f b -> a = b.
  Proof.
    revert b. induction a as [s|l IH|z] using attr_ind'; intros b Hi Ha Hb E.
    - destruct b as [t|m|w]; simpl in *; try (destruct (is_var s); done).
      destruct (is_var s) eqn:Es, (is_var t) eqn:Et; injection E as E.
      + f_equal. apply Hi; [left|left|done].
      + specialize (Ha s ltac:(left)). congruence.
      + specialize (Hb t ltac:(left)). congruence.
      + by subst.
    - destruct b as [t|m|w]; simpl in *; try (destruct (is_var t); done); [|done].
      injection E as E. f_equal. revert m Hi Hb E.
      induction IH as [|a l IHa Hl IHl]; intros m Hi Hb E.
      + by destruct m.
      + destruct m as [|b m]; [done|]. simpl in *. injection E as E1 E2. f_equal.
        * apply IHa; [|..|exact E1].
          -- intros u v Hu Hv. apply Hi; apply elem_of_app; by left.
          -- intros u Hu. apply Ha; apply elem_of_app; by left.
          -- intros u Hu. apply Hb; apply elem_of_app; by left.
        * apply IHl; [| | |exact E2].
          -- intros u Hu. apply Ha; apply elem_of_app; by right.
          -- intros u v Hu Hv. apply Hi; apply elem_of_app; by right.
          -- intros u Hu. apply Hb; apply elem_of_app; by right.
    - destruct b as [t|m|w]; simpl in *; try (destruct (is_var t); done); [done|done].
  Qed.

  Lemma ren_elem_arename c0 s a : good c0 s -> (forall v, v ∈ avars a -> dom (snd s) v) ->
    ren_elem (snd s) a = arename (fm (snd s)) a.
  Proof.
    intros HG. induction a as [v|l IH|z] using attr_ind'; intros Hd; simpl.
    - simpl in Hd. destruct (is_var v) eqn:E.
      + destruct (good_dget _ _ v HG) as (n & E1 & _ & _); [apply Hd; left|].
        unfold fm. by rewrite E1.
      + destruct (dget (AStr v) (snd s)) eqn:E1; [|done].
        apply dget_Some_key in E1. destruct (good_dget _ _ v HG E1) as (_ & _ & _ & ?). congruence.
    - destruct (dget (ATup l) (snd s)) eqn:E1.
      + apply dget_In in E1. destruct HG as (_ & _ & _ & Hf). rewrite Forall_forall in Hf.
        destruct (Hf _ E1) as (? & ? & ? & _). done.
      + f_equal. clear E1. induction IH as [|a l Ha Hl IHl]; simpl in *; [done|]. f_equal.
        * apply Ha. intros v Hv. apply Hd. apply elem_of_app. by left.
        * apply IHl. intros v Hv. apply Hd. apply elem_of_app. by right.
    - destruct (dget (ANum z) (snd s)) eqn:E1; [|done].
      apply dget_In in E1. destruct HG as (_ & _ & _ & Hf). rewrite Forall_forall in Hf.
      destruct (Hf _ E1) as (? & ? & ? & _). done.
  Qed.

  Lemma rename_relation_arename c0 s l : good c0 s -> (forall v, v ∈ avars (ATup l) -> dom (snd s) v) ->
    rename_relation (snd s) (ATup l) = arename (fm (snd s)) (ATup l).
  Proof.
    intros HG Hd. simpl. f_equal. simpl in Hd. induction l as [|a l IH]; simpl in *; [done|].
    f_equal.
    - apply (ren_elem_arename c0); [done|]. intros v Hv. apply Hd. apply elem_of_app. by left.
    - apply IH. intros v Hv. apply Hd. apply elem_of_app. by right.
  Qed.

  Lemma attr_comps_ok l : tup_ok (ATup l) = true ->
    exists cs, attr_comps (ATup l) = Ok cs /\
      Forall (fun a => exists v, a = AStr v /\ is_var v = true) cs /\
      forall v, AStr v ∈ cs <-> v ∈ avars (ATup l).
  Proof.
    assert (H : forall a, tup_ok a = true -> forall l, a = ATup l ->
      exists cs, attr_comps (ATup l) = Ok cs /\
      Forall (fun a => exists v, a = AStr v /\ is_var v = true) cs /\
      forall v, AStr v ∈ cs <-> v ∈ avars (ATup l)).
    { intros a. induction a as [v|l0 IH|z] using attr_ind'; intros Ht l' E; [done| |done].
      injection E as <-. clear l. induction IH as [|a l Ha Hl IHl]; simpl in Ht.
      - exists []. simpl. split; [done|]. split; [constructor|]. intros v.
        split; intros H; by apply elem_of_nil in H.
      - apply andb_true_iff in Ht as [Ht1 Ht2]. destruct (IHl Ht2) as (cs & E & Hcs & Hv).
        assert (Ha' : exists c, match a with ATup _ => attr_comps a
           | AStr s => Ok (if is_var s then [a] else []) | ANum _ => Err TypeError end = Ok c /\
           Forall (fun a => exists v, a = AStr v /\ is_var v = true) c /\
           forall v, AStr v ∈ c <-> v ∈ avars a).
        { destruct a as [s|m|z]; [| |done].
          - exists (if is_var s then [AStr s] else []). split; [done|]. simpl.
            destruct (is_var s) eqn:Es.
            + split; [apply Forall_singleton; eauto|]. intros v.
              rewrite !elem_of_list_singleton. split; congruence.
            + split; [constructor|]. intros v. split; intros H; by apply elem_of_nil in H.
          - destruct (Ha Ht1 m eq_refl) as (c & E1 & E2 & E3). eauto. }
        destruct Ha' as (c & E1 & E2 & E3). exists (c ++ cs). split; [|split].
        + cbn [attr_comps]. rewrite E1. cbn [rbind]. cbn [attr_comps] in E. rewrite E. done.
        + by apply Forall_app.
        + intros v. simpl. rewrite !elem_of_app. rewrite E3. simpl in Hv. by rewrite Hv. }
    intros Ht. by apply (H (ATup l)).
  Qed.

  Lemma prename_ext f g (v : pv) : (forall s, s ∈ pvars v -> f s = g s) -> prename f v = prename g v.
  Proof.
    induction v as [s|x|l IH|d IH] using pv_ind'; simpl; intros H; try done; f_equal.
    - induction IH as [|a l Ha Hl IHl]; simpl in *; [done|]. f_equal.
      + destruct a; try done. apply Ha. intros s Hs. apply H. apply elem_of_app. by left.
      + apply IHl. intros s Hs. apply H. apply elem_of_app. by right.
    - induction IH as [|[a w] l Ha Hl IHl]; simpl in *; [done|]. f_equal; [f_equal|].
      + apply arename_ext. intros s Hs. apply H. rewrite !elem_of_app. auto.
      + apply Ha. intros s Hs. apply H. rewrite !elem_of_app. auto.
      + apply IHl. intros s Hs. apply H. rewrite !elem_of_app. auto.
  Qed.

  (** ** The main induction *)
  Definition result (c0 : nat) (s s' : nstate) (vs : list string) : Prop :=
    good c0 s' /\ mext (snd s) (snd s') /\
    (forall v, v ∈ vs -> dom (snd s') v) /\
    (forall u, dom (snd s') u -> dom (snd s) u \/ u ∈ vs).

  Lemma result_trans c0 s1 s2 s3 vs1 vs2 :
    result c0 s1 s2 vs1 -> result c0 s2 s3 vs2 -> result c0 s1 s3 (vs1 ++ vs2).
  Proof.
    intros (H1 & H2 & H3 & H4) (H5 & H6 & H7 & H8). split; [done|].
    split; [by eapply mext_trans|]. split.
    - intros v Hv. apply elem_of_app in Hv as [Hv|Hv]; [|by apply H7].
      eapply mext_dom; [done|]. by apply H3.
    - intros u Hu. rewrite elem_of_app. apply H8 in Hu as [Hu|Hu]; [|auto].
      apply H4 in Hu as [Hu|Hu]; auto.
  Qed.
  Lemma result_refl c0 s : good c0 s -> result c0 s s [].
  Proof.
    intros HG. split; [done|]. split; [apply mext_refl|]. split; [|by left].
    intros v Hv. by apply elem_of_nil in Hv.
  Qed.
  Lemma result_vars c0 s s' vs vs' :
    result c0 s s' vs -> (forall v, v ∈ vs <-> v ∈ vs') -> result c0 s s' vs'.
  Proof.
    intros (H1 & H2 & H3 & H4) H. split; [done|]. split; [done|]. split.
    - intros v Hv. apply H3. by apply H.
    - intros u Hu. apply H4 in Hu as [Hu|Hu]; [by left|]. right. by apply H.
  Qed.

  (** What standardising one value does. *)
  Definition std_spec (v : pv) : Prop :=
    forall c0 s, good c0 s -> exists v' s', std_val v s = (Ok v', s') /\
      result c0 s s' (pvars v) /\ peq v' (prename (fm (snd s')) v).

  (** The entries that are not relations, and those that are. *)
  Definition is_tup (a : attr) : bool := match a with ATup _ => true | _ => false end.

  Lemma std_entries_ok ds :
    Forall (fun e => rel_ok (fst e)) ds -> Forall (fun e => std_spec (snd e)) ds ->
    forall c0 s new rels, good c0 s ->
    exists (ws : list pv) s',
      std_entries setord (map (fun e => (fst e, std_val (snd e))) ds) (new, rels) s =
        (Ok (fold_left (fun acc e => dset (arename (fm (snd s')) (fst (fst e))) (snd e) acc)
               (List.filter (fun e => negb (is_tup (fst (fst e)))) (combine ds ws)) new,
             rels ++ map (fun e => (fst (fst e), snd e))
               (List.filter (fun e => is_tup (fst (fst e))) (combine ds ws))), s') /\
      result c0 s s' (flat_map (fun e => avars (fst e) ++ pvars (snd e)) ds) /\
      Forall2 (fun e w => peq w (prename (fm (snd s')) (snd e))) ds ws.
  Proof.
    intros Hr Hs. induction ds as [|[a v] ds IH]; intros c0 s new rels HG.
    - exists [], s. simpl. rewrite app_nil_r. split; [done|]. split; [by apply result_refl|constructor].
    - apply Forall_cons in Hr as [Ha Hr]. apply Forall_cons in Hs as [Hv Hs]. simpl in Ha, Hv.
      specialize (IH Hr Hs).
      assert (Hone : exists w s1 new1 rels1,
        std_entry setord (a, std_val v) (new, rels) s = (Ok (new1, rels1), s1) /\
        result c0 s s1 (avars a ++ pvars v) /\
        peq w (prename (fm (snd s1)) v) /\
        new1 = (if is_tup a then new else dset (arename (fm (snd s1)) a) w new) /\
        rels1 = (if is_tup a then rels ++ [(a, w)] else rels)).
      { destruct a as [n|l|z].
        - unfold std_entry. cbn [fst snd std_name]. destruct (is_var n) eqn:En.
          + destruct (new_sym_good c0 s n HG En) as (H1 & H2 & H3 & H4).
            set (s1 := new_sym (AStr n) s) in *.
            destruct (good_dget _ _ n H1 H3) as (k & E1 & E2 & _). rewrite E1.
            destruct (Hv c0 s1 H1) as (w & s2 & E3 & E4 & E5). rewrite E3.
            exists w, s2. eexists _, _. split; [done|]. split; [|split; [done|split; [|done]]].
            * simpl. rewrite En. eapply result_trans; [|done]. split; [done|]. split; [done|]. split.
              -- intros u Hu. apply elem_of_list_singleton in Hu. by subst.
              -- intros u Hu. apply H4 in Hu as [Hu| ->]; [by left|]. right. left.
            * simpl. rewrite En. f_equal. f_equal.
              rewrite (mext_fm (snd s1)); [|apply E4|done]. unfold fm. by rewrite E1.
          + destruct (Hv c0 s HG) as (w & s2 & E3 & E4 & E5). rewrite E3.
            exists w, s2. eexists _, _. split; [done|]. simpl. rewrite En. done.
        - unfold std_entry. cbn [fst snd std_name].
          destruct (Hv c0 s HG) as (w & s2 & E3 & E4 & E5). rewrite E3.
          destruct (attr_comps_ok l Ha) as (cs & F1 & F2 & F3). rewrite F1.
          assert (F2' : Forall (fun a => exists v, a = AStr v /\ is_var v = true) (setord cs)).
          { rewrite Forall_forall in F2. apply Forall_forall. intros x Hx.
            apply F2. by apply setord_spec. }
          destruct (new_syms_good c0 s2 (setord cs) (proj1 E4) F2') as (H1 & H2 & H3 & H4).
          set (s3 := fold_left _ (setord cs) s2) in *.
          exists w, s3. eexists _, _. split; [done|]. split; [|split; [|done]].
          + eapply result_vars.
            * eapply result_trans; [exact E4|]. split; [done|]. split; [done|]. split.
              -- intros u Hu. apply H3. apply setord_spec. by apply F3.
              -- intros u Hu. apply H4 in Hu as [Hu|Hu]; [by left|]. right.
                 apply F3. by apply setord_spec.
            * intros u. rewrite !elem_of_app. tauto.
          + rewrite (prename_ext (fm (snd s3)) (fm (snd s2))); [done|].
            intros u Hu. apply mext_fm; [done|]. by apply E4.
        - unfold std_entry. cbn [fst snd std_name].
          destruct (Hv c0 s HG) as (w & s2 & E3 & E4 & E5). rewrite E3.
          exists w, s2. eexists _, _. split; [done|]. simpl. done. }
      destruct Hone as (w & s1 & new1 & rels1 & E1 & E2 & E3 & E4 & E5).
      destruct (IH c0 s1 new1 rels1 (proj1 E2)) as (ws & s' & F1 & F2 & F3).
      exists (w :: ws), s'. cbn [map std_entries fst snd]. rewrite E1. rewrite F1.
      assert (Hd1 : forall u, u ∈ avars a ++ pvars v -> fm (snd s') u = fm (snd s1) u).
      { intros u Hu. apply mext_fm; [apply F2|]. by apply E2. }
      split; [|split].
      + f_equal. f_equal. f_equal.
        * cbn [combine List.filter fst]. rewrite E4.
          destruct (is_tup a) eqn:Et; cbn [negb]; [done|]. cbn [fold_left fst snd]. f_equal.
          f_equal. apply arename_ext. intros u Hu. symmetry. apply Hd1.
          apply elem_of_app. by left.
        * cbn [combine List.filter fst]. rewrite E5. destruct (is_tup a); [|done].
          cbn [map fst snd]. by rewrite <- app_assoc.
      + cbn [flat_map fst snd]. by eapply result_trans.
      + constructor; [|done]. cbn [snd].
        rewrite (prename_ext (fm (snd s')) (fm (snd s1))); [done|].
        intros u Hu. apply Hd1. apply elem_of_app. by right.
  Qed.

  Lemma filter_split_perm {B} (p : B -> bool) (l : list B) :
    Permutation (List.filter (fun x => negb (p x)) l ++ List.filter p l) l.
  Proof.
    induction l as [|x l IH]; simpl; [done|]. destruct (p x); simpl.
    - rewrite <- Permutation_middle. by rewrite IH.
    - by rewrite IH.
  Qed.

  Lemma NoDup_map_inj_on {B C} (g : B -> C) (l : list B) :
    NoDup l -> (forall x y, x ∈ l -> y ∈ l -> g x = g y -> x = y) -> NoDup (map g l).
  Proof.
    induction 1 as [|x l Hx Hl IH]; simpl; intros Hg; [constructor|]. apply NoDup_cons. split.
    - intros Hin. apply elem_of_list_fmap in Hin as [y [E Hy]].
      assert (x = y) by (apply Hg; [left|by right|done]). by subst.
    - apply IH. intros ?? Ha Hb. apply Hg; by right.
  Qed.

  Lemma arename_keys_nodup c0 s (ks : list attr) :
    good c0 s -> NoDup ks -> (forall a v, a ∈ ks -> v ∈ avars a -> dom (snd s) v) ->
    NoDup (map (arename (fm (snd s))) ks).
  Proof.
    intros HG Hnd Hd. apply NoDup_map_inj_on; [done|]. intros a b Ha Hb. apply arename_inj.
    - intros u v Hu Hv. apply (fm_inj c0); eauto.
    - intros u Hu. destruct (fm_good c0 s u HG) as (n & -> & _); eauto.
    - intros u Hu. destruct (fm_good c0 s u HG) as (n & -> & _); eauto.
  Qed.

  Lemma std_dict_ok d :
    dwf d -> Forall (fun e => rel_ok (fst e)) d -> Forall (fun e => std_spec (snd e)) d ->
    forall c0 s, good c0 s -> exists d' s',
      std_dict (map (fun e => (fst e, std_val (snd e))) d) s = (Ok d', s') /\
      result c0 s s' (ivars d) /\ ieq d' (irename (fm (snd s')) d).
  Proof.
    intros Hw Hr Hs c0 s HG. unfold Preproc.std_dict. rewrite sort_by_map.
    pose proof (sort_by_perm d) as HP. set (ds := sort_by d) in *.
    assert (Hr' : Forall (fun e => rel_ok (fst e)) ds) by by rewrite HP.
    assert (Hs' : Forall (fun e => std_spec (snd e)) ds) by by rewrite HP.
    assert (Hw' : NoDup (dkeys ds)).
    { unfold dkeys. rewrite HP. exact Hw. }
    destruct (std_entries_ok ds Hr' Hs' c0 s [] [] HG) as (ws & s' & E1 & E2 & E3).
    unfold inst in E1 |- *. rewrite E1. cbn [app].
    assert (Hdom : forall e v, e ∈ ds -> v ∈ avars (fst e) -> dom (snd s') v).
    { intros e v He Hv. apply E2. apply elem_of_list_In. apply in_flat_map. exists e.
      split; [by apply elem_of_list_In|]. apply elem_of_list_In. apply elem_of_app. by left. }
    set (f := fm (snd s')) in *.
    set (cs := combine ds ws) in *.
    set (nt := List.filter (fun e => negb (is_tup (fst (fst e)))) cs) in *.
    set (tt := List.filter (fun e => is_tup (fst (fst e))) cs) in *.
    assert (Hpcs : Permutation (nt ++ tt) cs) by (subst nt tt; apply filter_split_perm).
    assert (Hcs : map fst cs = ds).
    { subst cs. clear -E3. clearbody f ds. induction E3; simpl; [done|]. by f_equal. }
    assert (Hincs : forall x, x ∈ nt ++ tt -> fst x ∈ ds).
    { intros x Hx. rewrite <- Hcs. apply elem_of_list_fmap. exists x. split; [done|].
      by rewrite <- Hpcs. }
    (* relations are renamed with the final mapping *)
    assert (Htt : fold_left (fun acc e => dset (rename_relation (snd s') (fst e)) (snd e) acc)
                    (map (fun e => (fst (fst e), snd e)) tt)
                    (fold_left (fun acc e => dset (arename f (fst (fst e))) (snd e) acc) nt []) =
                  fold_left (fun acc e => dset (arename f (fst (fst e))) (snd e) acc) (nt ++ tt) []).
    { rewrite fold_left_app. generalize (fold_left (fun acc e => dset (arename f (fst (fst e))) (snd e) acc) nt []).
      assert (Hin : forall x, x ∈ tt -> fst x ∈ ds /\ is_tup (fst (fst x)) = true).
      { intros x Hx. split; [apply Hincs; apply elem_of_app; by right|].
        subst tt. apply elem_of_list_In, filter_In in Hx. apply Hx. }
      clear -Hin Hdom E2. induction tt as [|x tt IH]; intros acc; [done|].
      cbn [map fold_left fst snd]. rewrite IH by (intros; apply Hin; by right). f_equal. f_equal.
      destruct (Hin x) as [H1 H2]; [left|]. destruct x as [[a v] w]. simpl in *.
      destruct a as [|l|]; try done. apply (rename_relation_arename c0); [apply E2|].
      intros u Hu. by apply (Hdom (ATup l, v)). }
    rewrite Htt. clear Htt.
    assert (Hks : NoDup (map (fun e : attr * pv * pv => arename f (fst (fst e))) (nt ++ tt))).
    { rewrite <- (map_map (fun e => fst (fst e)) (arename f)). subst f.
      apply (arename_keys_nodup c0); [apply E2| |].
      - rewrite Hpcs. rewrite <- (map_map fst fst). rewrite Hcs. exact Hw'.
      - intros a v Ha Hv. apply elem_of_list_fmap in Ha as [x [-> Hx]].
        eapply (Hdom (fst x)); [|done]. by apply Hincs. }
    assert (Hfold : fold_left (fun acc e => dset (arename f (fst (fst e))) (snd e) acc) (nt ++ tt) [] =
                    map (fun e => (arename f (fst (fst e)), snd e)) (nt ++ tt)).
    { clear -Hks. set (l := nt ++ tt) in *. clearbody l. clear nt tt.
      assert (H : forall acc, NoDup (dkeys acc ++ map (fun e : attr * pv * pv => arename f (fst (fst e))) l) ->
        fold_left (fun acc e => dset (arename f (fst (fst e))) (snd e) acc) l acc =
        acc ++ map (fun e => (arename f (fst (fst e)), snd e)) l).
      { clear Hks. induction l as [|x l IH]; intros acc Hnd; simpl; [by rewrite app_nil_r|].
        simpl in Hnd. rewrite dset_fresh.
        - rewrite IH; [by rewrite <- app_assoc|]. rewrite dkeys_app. simpl. by rewrite <- app_assoc.
        - apply NoDup_app in Hnd as (_ & Hx & _). intros Hin. apply (Hx _ Hin). left. }
      by rewrite H. }
    rewrite Hfold. eexists _, s'. split; [done|]. split.
    - eapply result_vars; [exact E2|]. intros v.
      change (ivars d) with (flat_map (fun e : attr * pv => avars (fst e) ++ pvars (snd e)) d). rewrite !elem_of_list_In, !in_flat_map. split; intros (e & He & Hv); exists e; (split; [|done]).
      + apply elem_of_list_In. apply elem_of_list_In in He. by rewrite <- HP.
      + apply elem_of_list_In. apply elem_of_list_In in He. by rewrite HP.
    - apply peq_dict with (map (fun x => (arename f (fst (fst x)), prename f (snd (fst x)))) (nt ++ tt)).
      + assert (Hall : Forall (fun x => peq (snd x) (prename f (snd (fst x)))) (nt ++ tt)).
        { rewrite Hpcs. subst cs. clear -E3. induction E3; simpl; constructor; auto. }
        clear -Hall. induction Hall; simpl; constructor; auto.
      + rewrite Hpcs. unfold irename.
        rewrite <- (map_map fst (fun e : attr * pv => (arename f (fst e), prename f (snd e)))).
        rewrite Hcs. by rewrite HP.
  Qed.

  Lemma std_val_ok v : std_ok v -> std_spec v.
  Proof.
    induction v as [s|x|l IH|d IH] using pv_ind'; intros Hok.
    - intros c0 s0 HG. exists (PStr s), s0. split; [done|]. split; [by apply result_refl|constructor].
    - intros c0 s0 HG. exists (PX x), s0. split; [done|]. split; [by apply result_refl|constructor].
    - inversion Hok as [| |? Hl|]; subst. clear Hok. intros c0 s HG.
      assert (H : forall s, good c0 s -> exists l' s',
        (fix go (l : list pv) (s : nstate) : res (list pv) * nstate :=
             match l with
             | [] => (Ok [], s)
             | e :: l =>
                 let '(r, s) := match e with PD _ => std_val e s | _ => (Ok e, s) end in
                 match r with
                 | Err x => (Err x, s)
                 | Ok e' =>
                     let '(r, s) := go l s in
                     match r with Err x => (Err x, s) | Ok l' => (Ok (e' :: l'), s) end
                 end
             end) l s = (Ok l', s') /\ result c0 s s' (pvars (PL l)) /\
        Forall2 peq l' (map (fun e => match e with PD _ => prename (fm (snd s')) e | _ => e end) l)).
      { clear s HG. induction IH as [|e l He Hl' IHl]; intros s HG.
        - exists [], s. split; [done|]. split; [by apply result_refl|constructor].
        - apply Forall_cons in Hl as [Hoe Hl].
          assert (Hone : exists e' s1, match e with PD _ => std_val e s | _ => (Ok e, s) end = (Ok e', s1) /\
            result c0 s s1 (match e with PD _ => pvars e | _ => [] end) /\
            peq e' (match e with PD _ => prename (fm (snd s1)) e | _ => e end)).
          { destruct e; try (eexists _, s; split; [done|]; split; [by apply result_refl|apply peq_refl]).
            apply He; [|done]. apply Hoe. eauto. }
          destruct Hone as (e' & s1 & E1 & E2 & E3). rewrite E1.
          destruct (IHl Hl s1 (proj1 E2)) as (l' & s' & F1 & F2 & F3). rewrite F1.
          exists (e' :: l'), s'. split; [done|]. split.
          + simpl. by eapply result_trans.
          + simpl. constructor; [|done].
            destruct e; try done.
            rewrite (prename_ext (fm (snd s')) (fm (snd s1))); [done|].
            intros u Hu. apply mext_fm; [apply F2|]. by apply E2. }
      destruct (H s HG) as (l' & s' & E1 & E2 & E3). cbn [Preproc.std_val]. rewrite E1.
      exists (PL l'), s'. split; [done|]. split; [done|]. by constructor.
    - inversion Hok as [| | |? Hw Hr Hd]; subst. clear Hok. intros c0 s HG.
      assert (Hs : Forall (fun e => std_spec (snd e)) d).
      { rewrite Forall_forall in IH, Hd. apply Forall_forall. auto. }
      destruct (std_dict_ok d Hw Hr Hs c0 s HG) as (d' & s' & E1 & E2 & E3).
      cbn [Preproc.std_val]. rewrite E1. exists (PD d'), s'. done.
  Qed.

  Lemma swap_map (m : list (attr * attr)) : NoDup (map snd m) ->
    fold_left (fun acc e => dset (snd e) (fst e) acc) m [] = map (fun e => (snd e, fst e)) m.
  Proof.
    intros Hnd.
    assert (H : forall acc, NoDup (dkeys acc ++ map snd m) ->
      fold_left (fun acc e => dset (snd e) (fst e) acc) m acc = acc ++ map (fun e => (snd e, fst e)) m).
    { clear Hnd. induction m as [|[k v] m IH]; intros acc Hnd; simpl in *; [by rewrite app_nil_r|].
      rewrite dset_fresh.
      - rewrite IH; [by rewrite <- app_assoc|]. rewrite dkeys_app. simpl. by rewrite <- app_assoc.
      - apply NoDup_app in Hnd as (_ & Hx & _). intros Hin. apply (Hx _ Hin). left. }
    by rewrite H.
  Qed.

  (** *** transform *)
  Theorem ns_transform_ok c (d : inst X) : std_ok (PD d) ->
    exists d' s, ns_transform pystr setord c d =
        (Ok (d', map (fun e => (snd e, fst e)) (snd s)), fst s) /\
      good c s /\ (forall v, dom (snd s) v <-> v ∈ ivars d) /\
      ieq d' (irename (fm (snd s)) d).
  Proof.
    intros Hok. inversion Hok as [| | |? Hw Hr Hd]; subst. 
    assert (Hs : Forall (fun e => std_spec (snd e)) d).
    { rewrite Forall_forall in Hd. apply Forall_forall. intros e He. apply std_val_ok. auto. }
    assert (HG : good c (c, [])).
    { repeat split; simpl; try lia; try constructor. }
    destruct (std_dict_ok d Hw Hr Hs c (c, []) HG) as (d' & s & E1 & E2 & E3).
    exists d', s. unfold ns_transform. rewrite E1. rewrite swap_map by apply E2.
    split; [done|]. split; [apply E2|]. split; [|done].
    intros v. split; [|apply E2]. intros Hv. apply E2 in Hv as [Hv|Hv]; [|done].
    by apply elem_of_nil in Hv.
  Qed.

  (** *** undo *)
  Definition rev_of (s : nstate) : list (attr * attr) := map (fun e => (snd e, fst e)) (snd s).

  Lemma rev_get c0 s v : good c0 s -> dom (snd s) v ->
    dget (AStr (fm (snd s) v)) (rev_of s) = Some (AStr v).
  Proof.
    intros HG Hd. destruct (good_dget _ _ _ HG Hd) as (n & E1 & _ & _).
    unfold fm. rewrite E1. apply In_dget.
    - unfold dwf, dkeys, rev_of. rewrite map_map. apply HG.
    - unfold rev_of. apply elem_of_list_fmap. exists (AStr v, AStr (gensym_name n)).
      split; [done|]. by apply dget_In.
  Qed.
  Lemma rev_none c0 s a : good c0 s -> (forall v, a = AStr v -> is_var v = false) ->
    dget a (rev_of s) = None.
  Proof.
    intros HG Ha. apply dget_None. unfold dkeys, rev_of. rewrite map_map. simpl.
    intros Hin. apply elem_of_list_fmap in Hin as [[k v] [E Hin]]. simpl in E. subst.
    destruct HG as (_ & _ & _ & Hf). rewrite Forall_forall in Hf.
    destruct (Hf _ Hin) as (u & n & _ & _ & E & _). simpl in E. subst.
    specialize (Ha _ eq_refl). done.
  Qed.

  Lemma ren_elem_rev c0 s a : good c0 s -> (forall v, v ∈ avars a -> dom (snd s) v) ->
    ren_elem (rev_of s) (arename (fm (snd s)) a) = a.
  Proof.
    intros HG. induction a as [v|l IH|z] using attr_ind'; intros Hd.
    - simpl in *. destruct (is_var v) eqn:E.
      + simpl. rewrite (rev_get c0); [done|done|]. apply Hd. left.
      + simpl. rewrite (rev_none c0); [done|done|]. intros u [= <-]. done.
    - simpl. rewrite (rev_none c0) by done. f_equal.
      rewrite map_map. clear -IH HG Hd. simpl in Hd.
      induction IH as [|a l Ha Hl IHl]; simpl in *; [done|]. f_equal.
      + apply Ha. intros v Hv. apply Hd. apply elem_of_app. by left.
      + apply IHl. intros v Hv. apply Hd. apply elem_of_app. by right.
    - simpl. by rewrite (rev_none c0).
  Qed.

  Lemma undo_name_ok c0 s a (v v' : pv) : good c0 s -> (forall u, u ∈ avars a -> dom (snd s) u) ->
    holds_ok a v -> peq v' (prename (fm (snd s)) v) ->
    undo_name (rev_of s) (arename (fm (snd s)) a) v' = a.
  Proof.
    intros HG Hd Hh Hp.
    assert (Hplain : (match v with PD _ | PL _ => False | _ => True end) ->
              undo_name (rev_of s) (arename (fm (snd s)) a) v' = a).
    { intros Hv. assert (Hv' : match v' with PD _ | PL _ => False | _ => True end).
      { destruct v; try done; simpl in Hp; inversion Hp; subst; done. }
      transitivity (match arename (fm (snd s)) a with
                    | ATup _ => rename_relation (rev_of s) (arename (fm (snd s)) a)
                    | _ => arename (fm (snd s)) a end).
      { by destruct v'. }
      destruct a as [u|l|z]; simpl.
      - assert (Hu : is_var u = false) by by destruct v. by rewrite Hu.
      - f_equal. rewrite map_map. clear -HG Hd. simpl in Hd.
        induction l as [|a l IH]; simpl in *; [done|]. f_equal.
        + apply (ren_elem_rev c0); [done|]. intros v Hv. apply Hd. apply elem_of_app. by left.
        + apply IH. intros v Hv. apply Hd. apply elem_of_app. by right.
      - done. }
    assert (Hcont : (match v with PD _ | PL _ => True | _ => False end) ->
              undo_name (rev_of s) (arename (fm (snd s)) a) v' = a).
    { intros Hv. assert (Hv' : match v' with PD _ | PL _ => True | _ => False end).
      { destruct v; try done; simpl in Hp; inversion Hp; subst; done. }
      transitivity (match dget (arename (fm (snd s)) a) (rev_of s) with
                    | Some (ATup (x :: _)) => x | Some n => n | None => arename (fm (snd s)) a end).
      { by destruct v'. }
      assert (Ha : match a with ATup _ => False | _ => True end) by by destruct v.
      destruct a as [u|l|z]; simpl in *; [|done|].
      - destruct (is_var u) eqn:Eu.
        + rewrite (rev_get c0); [done|done|]. apply Hd. left.
        + rewrite (rev_none c0); [done|done|]. intros ? [= <-]. done.
      - by rewrite (rev_none c0). }
    destruct v; auto.
  Qed.

  Lemma undo_peq c0 s (v : pv) : good c0 s -> forall v', std_ok v -> undo_ok v ->
    (forall u, u ∈ pvars v -> dom (snd s) u) ->
    peq v' (prename (fm (snd s)) v) -> peq (undo_val (rev_of s) v') v.
  Proof.
    intros HG. induction v as [t|x|l IH|d IH] using pv_ind'; intros v' Hok Huo Hd Hp.
    - simpl in Hp. inversion Hp; subst. constructor.
    - simpl in Hp. inversion Hp; subst. constructor.
    - simpl in Hp. inversion Hp as [| |l' ? HF|]; subst. simpl. constructor.
      inversion Hok as [| |? Hl|]; subst. inversion Huo as [| |? Hul|]; subst. clear Hp Hok Huo.
      revert l' HF. induction IH as [|e l He Hl' IHl]; intros l' HF; simpl in *.
      + inversion HF; subst. constructor.
      + apply Forall_cons in Hl as [Hoe Hl]. apply Forall_cons in Hul as [Hue Hul].
        inversion HF as [|e' ? l2 ? Hpe HF']; subst. simpl. constructor.
        * destruct e; inversion Hpe; subst; try done.
          apply He; [apply Hoe; eauto|apply Hue; eauto| |done].
          intros u Hu. apply Hd. apply elem_of_app. by left.
        * apply IHl; try done. intros u Hu. apply Hd. apply elem_of_app. by right.
    - simpl in Hp. inversion Hp as [| | |d' d'' ? HF HP]; subst. clear Hp.
      inversion Hok as [| | |? Hw Hr Hdk]; subst. inversion Huo as [| | |? Hh Hdu]; subst.
      clear Hok Huo.
      apply Permutation_map_inv in HP as (ds & -> & HP). 
      assert (Hnd : NoDup (dkeys ds)). { unfold dkeys. rewrite <- HP. exact Hw. }
      assert (Hall : Forall (fun e => holds_ok (fst e) (snd e) /\
         (forall v', peq v' (prename (fm (snd s)) (snd e)) -> peq (undo_val (rev_of s) v') (snd e)) /\
         (forall u, u ∈ avars (fst e) -> dom (snd s) u)) ds).
      { rewrite <- HP. rewrite Forall_forall in IH, Hdk, Hh, Hdu. apply Forall_forall.
        intros e He. split; [by apply Hh|]. split.
        - intros w Hw'. apply IH; auto. intros u Hu. apply Hd. apply elem_of_list_In.
          apply in_flat_map. exists e. split; [by apply elem_of_list_In|].
          apply elem_of_list_In. apply elem_of_app. by right.
        - intros u Hu. apply Hd. apply elem_of_list_In.
          apply in_flat_map. exists e. split; [by apply elem_of_list_In|].
          apply elem_of_list_In. apply elem_of_app. by left. }
      assert (HF2 : Forall2 (fun p q => fst p = fst q /\ peq (snd p) (snd q))
        (map (fun e => (undo_name (rev_of s) (fst e) (snd e), undo_val (rev_of s) (snd e))) d') ds).
      { clear -HF Hall HG. revert d' HF. induction Hall as [|[a w] ds (H1 & H2 & H3) Hall IH];
          intros d' HF; inversion HF as [|[k' w'] ? l2 ? [E1 E2] HF']; subst; simpl; constructor.
        - simpl in *. subst. split; [|by apply H2]. by eapply undo_name_ok.
        - by apply IH. }
      simpl. rewrite dupd_app.
      + simpl. apply peq_dict with ds; [done|by symmetry].
      + simpl. assert (Hk : dkeys (map (fun e => (undo_name (rev_of s) (fst e) (snd e), undo_val (rev_of s) (snd e))) d') = dkeys ds).
        { clear -HF2. unfold dkeys. induction HF2 as [|p q l l' [E _] HF IH]; simpl; [done|]. by f_equal. }
        by rewrite Hk.
  Qed.

  (** Undoing anything equal to the result gives the instance back. *)
  Theorem ns_round_trip_eq c (d : inst X) : std_ok (PD d) -> undo_ok (PD d) ->
    exists d' rev c', ns_transform pystr setord c d = (Ok (d', rev), c') /\
      forall e, ieq e d' -> ieq (ns_undo rev e) d.
  Proof.
    intros Hok Huo. destruct (ns_transform_ok c d Hok) as (d' & s & E & HG & Hdom & Hp).
    exists d', (rev_of s), (fst s). split; [done|]. intros e He.
    assert (H : peq (undo_val (rev_of s) (PD e)) (PD d)).
    { apply (undo_peq c); try done; [by intros u Hu; apply Hdom|].
      apply (peq_trans _ (PD d')); [exact He|exact Hp]. }
    unfold ns_undo. destruct (undo_val (rev_of s) (PD e)) eqn:E1; inversion H; subst.
    done.
  Qed.

  Theorem ns_round_trip c (d : inst X) : std_ok (PD d) -> undo_ok (PD d) ->
    exists d' rev c', ns_transform pystr setord c d = (Ok (d', rev), c') /\
      ieq (ns_undo rev d') d.
  Proof.
    intros Hok Huo. destruct (ns_round_trip_eq c d Hok Huo) as (d' & rev & c' & E & H).
    exists d', rev, c'. split; [done|]. apply H, ieq_refl.
  Qed.
End Std.
