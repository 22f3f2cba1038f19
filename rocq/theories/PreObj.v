(** * Instances that the TRESTLE pipeline can restore *)
From stdpp Require Import base decidable list strings.
From Coq Require Import Ascii String ZArith.
From Verif Require Import Base PyVal Preproc PreFlat PreTuple PreStd Preproc2 PreSub.
Set Default Proof Using "Type".
Open Scope string_scope.
Open Scope list_scope.

Section Obj.
  Context {X : Type}.
  Notation pv := (pv X).
  Notation inst := (inst X).

  (** A string or another value that is not a list or dictionary. *)
  Definition plainv (v : pv) : Prop := match v with PStr _ | PX _ => True | _ => False end.
  (** A component: a non-empty dictionary; components in it have names starting
      with [?], its other attributes are strings (not ['_']) with plain
      values. *)
  Inductive obj : pv -> Prop :=
  | obj_intro d : d <> [] -> dwf d ->
      Forall (fun e => exists s, fst e = AStr s /\ s <> "" /\ s <> "_" /\
        (is_var s = true /\ obj (snd e) \/ is_var s = false /\ plainv (snd e))) d ->
      obj (PD d).

  (** The names of the components in a value, at any depth. *)
  Fixpoint cnames (v : pv) : list string :=
    match v with
    | PD d => flat_map (fun e => match fst e, snd e with AStr s, PD _ => [s] | _, _ => [] end ++ cnames (snd e)) d
    | _ => []
    end.
  (** Those inside another component. *)
  Definition nested (d : inst) : list string := flat_map (fun e => cnames (snd e)) d.

  (** An instance of components with names of their own, plain attributes, and
      relations between components of the top level. *)
  Definition top_ok (nest : list string) (e : attr * pv) : Prop :=
    match fst e with
    | AStr s => is_var s = true /\ obj (snd e) \/ is_var s = false /\ plainv (snd e)
    | ATup l => plainv (snd e) /\ List.length l <> 2 /\ is_has_comp (ATup l) = None /\
        Forall (fun x => exists s, x = AStr s /\ s ∉ nest) l
    | ANum _ => False
    end.
  Record t_obj (d : inst) : Prop := {
    to_wf : dwf d;
    to_entries : Forall (top_ok (nested d)) d;
    to_names : NoDup (cnames (PD d));
  }.

  (** ** What the stages ask for *)
  Lemma plainv_std v : plainv v -> std_ok v.
  Proof. destruct v; try done; constructor. Qed.
  Lemma plainv_undo v : plainv v -> undo_ok v.
  Proof. destruct v; try done; constructor. Qed.
  Lemma plainv_holds a v : plainv v -> (forall s, a = AStr s -> is_var s = false) -> holds_ok a v.
  Proof. destruct v; try done; destruct a; simpl; auto. Qed.
  Lemma obj_dict v : obj v -> exists d, v = PD d.
  Proof. inversion 1; eauto. Qed.

  Lemma obj_std v : obj v -> std_ok v /\ undo_ok v.
  Proof.
    induction v as [s|x|l IH|d IH] using pv_ind'; inversion 1 as [? Hne Hwf HF]; subst.
    split; constructor; try done.
    - eapply Forall_impl; [exact HF|]. intros e (s & -> & _). done.
    - apply Forall_forall. intros e He. rewrite Forall_forall in IH, HF.
      destruct (HF e He) as (s & _ & _ & _ & [[_ Ho]|[_ Hp]]); [by apply IH|by apply plainv_std].
    - eapply Forall_impl; [exact HF|]. intros e (s & -> & _ & _ & [[Hv Ho]|[Hv Hp]]).
      + destruct (obj_dict _ Ho) as (d' & ->). done.
      + apply plainv_holds; [done|]. by intros ? [= <-].
    - apply Forall_forall. intros e He. rewrite Forall_forall in IH, HF.
      destruct (HF e He) as (s & _ & _ & _ & [[_ Ho]|[_ Hp]]); [by apply IH|by apply plainv_undo].
  Qed.
  Lemma t_obj_std d : t_obj d -> std_ok (PD d) /\ undo_ok (PD d).
  Proof.
    intros [Hwf HF _]. rewrite Forall_forall in HF.
    split; constructor; try done; apply Forall_forall; intros e He; specialize (HF e He); unfold top_ok in HF;
      destruct (fst e) as [s|l|z] eqn:Ee; try done.
    - destruct HF as (_ & _ & _ & HF). simpl. apply forallb_forall. intros x Hx. apply elem_of_list_In in Hx.
      rewrite Forall_forall in HF. by destruct (HF x Hx) as (s & -> & _).
    - destruct HF as [[_ Ho]|[_ Hp]]; [by apply obj_std|by apply plainv_std].
    - destruct HF as [Hp _]. by apply plainv_std.
    - destruct HF as [[_ Ho]|[Hv Hp]]; [by destruct (obj_dict _ Ho) as (d' & ->)|].
      apply plainv_holds; [done|]. by intros ? [= <-].
    - destruct HF as [Hp _]. by apply plainv_holds.
    - destruct HF as [[_ Ho]|[_ Hp]]; [by apply obj_std|by apply plainv_undo].
    - destruct HF as [Hp _]. by apply plainv_undo.
  Qed.

  Lemma plainv_comp v : plainv v -> comp_ok v.
  Proof. destruct v; try done; constructor. Qed.
  Lemma obj_comp v : obj v -> comp_ok v.
  Proof.
    induction v as [s|x|l IH|d IH] using pv_ind'; inversion 1 as [? Hne Hwf HF]; subst. constructor; try done.
    - eapply Forall_impl; [exact HF|]. intros e (s & -> & H1 & H2 & _). split; [by destruct s|congruence].
    - apply Forall_forall. intros e He. rewrite Forall_forall in IH, HF.
      destruct (HF e He) as (s & _ & _ & _ & [[_ Ho]|[_ Hp]]); [by apply IH|by apply plainv_comp].
  Qed.
  Lemma t_obj_flat d : t_obj d -> flat_ok d.
  Proof.
    intros [Hwf HF _]. split; [done|]. rewrite Forall_forall in HF.
    split; apply Forall_forall; intros e He; specialize (HF e He); unfold top_ok in HF; destruct (fst e) as [s|l|z] eqn:Ee; try done.
    - destruct HF as (_ & Hl & _). by destruct l as [|a [|b [|]]].
    - destruct HF as [[_ Ho]|[_ Hp]]; [by apply obj_comp|by apply plainv_comp].
    - destruct HF as [Hp _]. by apply plainv_comp.
  Qed.

  (** ** Addresses *)
  (** The components in [v], which has the flattened name [k], and where they
      are. *)
  Fixpoint addrs (k : attr) (v : pv) : list (string * attr) :=
    match v with
    | PD d => flat_map (fun e => match fst e, snd e with AStr s, PD _ => [(s, k)] | _, _ => [] end ++
                                 match fst e with AStr s => addrs (ATup [AStr s; k]) (snd e) | _ => [] end) d
    | _ => []
    end.
  Definition iaddrs (d : inst) : list (string * attr) :=
    flat_map (fun e => match fst e with AStr s => addrs (AStr s) (snd e) | _ => [] end) d.

  Lemma flat_map_Forall2 {A B D} (f : A -> list B) (g : A -> list D) (h : B -> D) l :
    Forall (fun x => map h (f x) = g x) l -> map h (flat_map f l) = flat_map g l.
  Proof. induction 1 as [|x l Hx Hl IH]; simpl; [done|]. by rewrite map_app, Hx, IH. Qed.
  Lemma cnames_plain v : plainv v -> cnames v = [].
  Proof. by destruct v. Qed.
  Lemma addrs_plain k v : plainv v -> addrs k v = [].
  Proof. by destruct v. Qed.
  Lemma addrs_names v : obj v -> forall k, map fst (addrs k v) = cnames v.
  Proof.
    induction v as [s|x|l IH|d IH] using pv_ind'; inversion 1 as [? Hne Hwf HF]; subst. intros k. simpl.
    apply flat_map_Forall2, Forall_forall. intros e He. rewrite Forall_forall in IH, HF.
    destruct (HF e He) as (s & -> & _ & _ & [[_ Ho]|[_ Hp]]); rewrite map_app; f_equal.
    - by destruct (snd e).
    - by apply IH.
    - by destruct (snd e).
    - by rewrite addrs_plain, cnames_plain.
  Qed.
  Lemma iaddrs_names d : t_obj d -> map fst (iaddrs d) = nested d.
  Proof.
    intros [_ HF _]. apply flat_map_Forall2. eapply Forall_impl; [exact HF|]. intros e He. unfold top_ok in He.
    destruct (fst e) as [s|l|z]; [|destruct He as [Hp _]; by rewrite cnames_plain|done].
    destruct He as [[_ Ho]|[_ Hp]]; [by apply addrs_names|by rewrite addrs_plain, cnames_plain].
  Qed.

  Lemma nested_nodup d : t_obj d -> NoDup (nested d) /\
    forall s e, (AStr s, PD e) ∈ d -> s ∉ nested d.
  Proof.
    intros [_ _ Hn]. unfold nested. simpl in Hn.
    assert (H : forall l, NoDup (flat_map (fun e : attr * pv => match fst e, snd e with AStr s, PD _ => [s] | _, _ => [] end ++ cnames (snd e)) l) ->
      NoDup (flat_map (fun e : attr * pv => cnames (snd e)) l) /\
      (forall s, s ∈ flat_map (fun e : attr * pv => cnames (snd e)) l -> s ∈ flat_map (fun e : attr * pv => match fst e, snd e with AStr s, PD _ => [s] | _, _ => [] end ++ cnames (snd e)) l) /\
      forall s e, (AStr s, PD e) ∈ l -> s ∉ flat_map (fun e : attr * pv => cnames (snd e)) l).
    { clear. induction l as [|[a v] l IH]; simpl; intros Hn; [split; [constructor|]; split; [done|]; intros s e H; by apply elem_of_nil in H|].
      apply NoDup_app in Hn as (H1 & H2 & H3). destruct (IH H3) as (I1 & I2 & I3). clear IH.
      apply NoDup_app in H1 as (_ & H4 & H5).
      assert (Hin : forall s, s ∈ flat_map (fun e : attr * pv => cnames (snd e)) l -> s ∉ match a, v with AStr s, PD _ => [s] | _, _ => [] end ++ cnames v).
      { intros s Hs Hs'. exact (H2 s Hs' (I2 s Hs)). }
      split; [|split].
      - apply NoDup_app. split; [done|]. split; [|done]. intros s Hs Hs'. apply (Hin s Hs'). apply elem_of_app. by right.
      - intros s Hs. apply elem_of_app in Hs as [Hs|Hs]; apply elem_of_app; [left; apply elem_of_app; by right|right; by apply I2].
      - intros s e Hs Hs'. apply elem_of_cons in Hs as [[= <- <-]|Hs].
        + apply elem_of_app in Hs' as [Hs'|Hs'].
          * apply (H4 s); [left|done].
          * apply (Hin s Hs'). apply elem_of_app. left. left.
        + apply elem_of_app in Hs' as [Hs'|Hs']; [|by apply (I3 s e)].
          apply (H2 s); [apply elem_of_app; by right|].
          apply elem_of_list_In, in_flat_map. exists (AStr s, PD e). split; [by apply elem_of_list_In|]. by left. }
    destruct (H d Hn) as (G1 & _ & G3). by split.
  Qed.

  Definition assoc (l : list (string * attr)) (s : string) : option attr :=
    match List.find (fun p => bool_decide (fst p = s)) l with Some p => Some (snd p) | None => None end.
  Lemma assoc_in l s y : NoDup (map fst l) -> (s, y) ∈ l -> assoc l s = Some y.
  Proof.
    unfold assoc. induction l as [|[t z] l IH]; simpl; intros Hn Hin; [by apply elem_of_nil in Hin|].
    apply NoDup_cons in Hn as [Hn1 Hn2]. apply elem_of_cons in Hin as [[= <- <-]|Hin]; [by rewrite bool_decide_true|].
    rewrite bool_decide_false; [by apply IH|]. intros ->. apply Hn1. apply elem_of_list_fmap. by exists (s, y).
  Qed.
  Lemma assoc_none l s : s ∉ map fst l -> assoc l s = None.
  Proof.
    unfold assoc. induction l as [|[t z] l IH]; simpl; intros Hn; [done|]. apply not_elem_of_cons in Hn as [H1 H2].
    rewrite bool_decide_false by congruence. by apply IH.
  Qed.

  Section Addr.
    Context (addr : string -> option attr).
    Lemma leaves_occ v : obj v -> forall k, occ addr k -> base_ok k -> rooted k = true ->
      (forall s y, (s, y) ∈ addrs k v -> addr s = Some y) ->
      forall p w, (p, w) ∈ leaves v -> p <> [] /\ occ addr (enc k p) /\ is_has_comp (enc k p) = None.
    Proof.
      induction v as [s|x|l IH|d IH] using pv_ind'; inversion 1 as [? Hne Hwf HF]; subst. intros k Hk Hb Hr Ha p w Hin.
      simpl in Hin. apply elem_of_list_In, in_flat_map in Hin as (e & He & Hin).
      apply in_map_iff in Hin as ([q u] & [= <- <-] & Hq). apply elem_of_list_In in He, Hq. simpl. split; [done|].
      rewrite Forall_forall in IH, HF. destruct (HF e He) as (s & Es & _ & Hs & [[Hv Ho]|[Hv Hp]]).
      - rewrite Es. assert (Hh : hidden (AStr s) = false).
        { simpl. unfold is_var, head_is in Hv. destruct s as [|c s]; [done|]. simpl. apply Ascii.eqb_eq in Hv as ->. done. }
        rewrite Hh. destruct (IH e He Ho (ATup [AStr s; k])) with (p := q) (w := u) as (_ & H1 & H2); try done.
        + apply occ_var; try done. apply Ha. simpl. apply elem_of_list_In, in_flat_map. exists e. split; [by apply elem_of_list_In|].
          apply elem_of_list_In, elem_of_app. left. rewrite Es. destruct (obj_dict _ Ho) as (d' & ->). left.
        + simpl. by rewrite Hr, orb_true_r.
        + intros t y Hty. apply Ha. simpl. apply elem_of_list_In, in_flat_map. exists e. split; [by apply elem_of_list_In|].
          apply elem_of_list_In, elem_of_app. right. by rewrite Es.
      - assert (q = []) as -> by (destruct (snd e); try done; simpl in Hq; by apply elem_of_list_singleton in Hq as [= -> _]).
        rewrite Es. cbn [enc].
        assert (H1 : occ addr (ATup [AStr s; k])) by (by apply occ_const).
        destruct (hidden (AStr s)); [|done]. split; [|done]. apply occ_const; [done| |done]. exact Hb.
    Qed.
  End Addr.

  Lemma t_obj_occ_at d : t_obj d -> "??" ∉ cnames (PD d) ->
    Forall (fun q : list attr * pv => occ (assoc (iaddrs d)) (enc_top (fst q)) /\ is_has_comp (enc_top (fst q)) = None) (ileaves d).
  Proof.
    intros Ho Hq. pose proof (nested_nodup d Ho) as [Hn Ht]. pose proof (iaddrs_names d Ho) as Hi.
    destruct Ho as [Hwf HF _]. apply Forall_forall. intros [p w] Hin.
    apply elem_of_list_In, in_flat_map in Hin as (e & He & Hin). apply in_map_iff in Hin as ([q u] & [= <- <-] & Hqu).
    apply elem_of_list_In in He, Hqu. rewrite Forall_forall in HF. pose proof (HF e He) as Hok. unfold top_ok in Hok. simpl.
    destruct (fst e) as [s|l|z] eqn:Ee; [|destruct Hok as (Hp & Hl & Hc & HFl)|done].
    - destruct Hok as [[Hv Ho]|[Hv Hp]].
      + destruct (obj_dict _ Ho) as (d' & Ed).
        assert (Hin : (AStr s, PD d') ∈ d) by (rewrite <- Ee, <- Ed; by destruct e).
        assert (Hs : s <> "??").
        { intros ->. apply Hq. simpl. apply elem_of_list_In, in_flat_map. exists e. split; [by apply elem_of_list_In|].
          rewrite Ee, Ed. by left. }
        destruct (leaves_occ (assoc (iaddrs d)) (snd e) Ho (AStr s)) with (p := q) (w := u) as (_ & H1 & H2); try done.
        * constructor. apply assoc_none. rewrite Hi. by eapply Ht.
        * by exists s.
        * intros t y Hty. apply assoc_in; [by rewrite Hi|]. apply elem_of_list_In, in_flat_map. exists e. split; [by apply elem_of_list_In|].
          rewrite Ee. by apply elem_of_list_In.
      + assert (q = []) as -> by (destruct (snd e); try done; simpl in Hqu; by apply elem_of_list_singleton in Hqu as [= -> _]).
        simpl. split; [|done]. constructor. apply assoc_none. rewrite Hi. intros Hs.
        (* nested names are variables *)
        apply elem_of_list_In, in_flat_map in Hs as (e2 & He2 & Hs). apply elem_of_list_In in He2, Hs.
        assert (Hvars : forall v, obj v -> forall t, t ∈ cnames v -> is_var t = true).
        { clear. induction v as [s|x|l IH|d IH] using pv_ind'; inversion 1 as [? Hne Hwf HF]; subst. intros t Ht. simpl in Ht.
          apply elem_of_list_In, in_flat_map in Ht as (e & He & Ht). apply elem_of_list_In in He, Ht.
          rewrite Forall_forall in IH, HF. destruct (HF e He) as (s & Es & _ & _ & [[Hv Ho]|[Hv Hp]]).
          - rewrite Es in Ht. destruct (obj_dict _ Ho) as (d' & Ed). rewrite Ed in Ht.
            apply elem_of_app in Ht as [Ht|Ht]; [by apply elem_of_list_singleton in Ht as ->|]. rewrite <- Ed in Ht. by eapply IH.
          - rewrite Es, (cnames_plain _ Hp), app_nil_r in Ht. destruct (snd e); try done; by apply elem_of_nil in Ht. }
        pose proof (HF e2 He2) as Hok2. unfold top_ok in Hok2. destruct (fst e2) as [s2|l2|z2]; [|destruct Hok2 as [Hp2 _]|done].
        * destruct Hok2 as [[_ Ho2]|[_ Hp2]]; [specialize (Hvars _ Ho2 s Hs); congruence|].
          rewrite (cnames_plain _ Hp2) in Hs. by apply elem_of_nil in Hs.
        * rewrite (cnames_plain _ Hp2) in Hs. by apply elem_of_nil in Hs.
    - assert (q = []) as -> by (destruct (snd e); try done; simpl in Hqu; by apply elem_of_list_singleton in Hqu as [= -> _]).
      simpl. split; [|done]. apply occ_rel; [intros x y ->; done|]. eapply Forall_impl; [exact HFl|].
      intros x (s & -> & Hs). constructor. apply assoc_none. by rewrite Hi.
  Qed.
  Lemma t_obj_occ d : t_obj d -> "??" ∉ cnames (PD d) ->
    exists addr, Forall (fun q : list attr * pv => occ addr (enc_top (fst q)) /\ is_has_comp (enc_top (fst q)) = None) (ileaves d).
  Proof. intros Ho Hq. exists (assoc (iaddrs d)). by apply t_obj_occ_at. Qed.

  (** ** The order of dictionaries does not matter *)
  Lemma plainv_peq u v : peq u v -> plainv u -> plainv v.
  Proof. inversion 1; done. Qed.
  Lemma fst_pointwise (d d' : inst) : Forall2 (fun p q => fst p = fst q /\ peq (snd p) (snd q)) d d' -> dkeys d = dkeys d'.
  Proof. induction 1 as [|p q d d' [H _] HF IH]; [done|]. unfold dkeys in *. simpl. by rewrite H, IH. Qed.
  Lemma cnames_peq u v : peq u v -> cnames u ≡ₚ cnames v.
  Proof.
    revert v. induction u as [t|x|l IH|d IH] using pv_ind'; intros v Hp; inversion Hp as [| | |? d' e HF HP]; subst; try done.
    simpl. transitivity (flat_map (fun e : attr * pv => match fst e, snd e with AStr s, PD _ => [s] | _, _ => [] end ++ cnames (snd e)) d').
    - clear HP Hp. revert d' HF. induction IH as [|a d Ha Hd IHd]; intros d' HF; inversion HF as [|? b ? d2 [E1 E2] HF']; subst; [done|].
      simpl. rewrite (IHd _ HF'), (Ha _ E2), E1. apply Permutation_app_tail, Permutation_app_tail.
      destruct (fst b); [|done|done]. by inversion E2.
    - by apply Permutation_flat_map.
  Qed.
  Lemma nested_peq (d e : inst) : ieq d e -> nested d ≡ₚ nested e.
  Proof.
    unfold ieq. inversion 1 as [| | |? d' e0 HF HP]; subst. unfold nested.
    transitivity (flat_map (fun e : attr * pv => cnames (snd e)) d'); [|by apply Permutation_flat_map].
    clear -HF. induction HF as [|a b d d' [_ E] HF IH]; simpl; [done|]. by rewrite IH, (cnames_peq _ _ E).
  Qed.
  Lemma obj_peq u v : peq u v -> obj u -> obj v.
  Proof.
    revert v. induction u as [t|x|l IH|d IH] using pv_ind'; intros v Hp Ho; inversion Ho as [? Hne Hwf HF]; subst.
    inversion Hp as [| | |? d' e H2 HP]; subst. constructor.
    - intros ->. apply Permutation_nil_r in HP. subst d'. by inversion H2; subst.
    - unfold dwf in *. rewrite (fst_pointwise _ _ H2) in Hwf. by rewrite <- (fmap_Permutation fst _ _ HP).
    - rewrite <- HP. clear HP Hp Ho Hne Hwf e. revert d' H2. induction IH as [|a d Ha Hd IHd]; intros d' H2;
        inversion H2 as [|? b ? d2 [E1 E2] HF']; subst; [constructor|]. apply Forall_cons in HF as [Hx HF].
      constructor; [|by apply IHd]. rewrite <- E1. destruct Hx as (s & H1 & H3 & H4 & [[Hv Ho]|[Hv Hpl]]); exists s; split_and!; try done.
      + left. split; [done|]. by apply Ha.
      + right. split; [done|]. by eapply plainv_peq.
  Qed.
  Lemma t_obj_peq d e : ieq d e -> t_obj d -> t_obj e.
  Proof.
    intros Hp [Hwf HF Hn]. pose proof (nested_peq d e Hp) as Hne. pose proof (cnames_peq _ _ Hp) as Hc.
    unfold ieq in Hp. inversion Hp as [| | |? d' e0 H2 HP]; subst. split.
    - unfold dwf in *. rewrite (fst_pointwise _ _ H2) in Hwf. by rewrite <- (fmap_Permutation fst _ _ HP).
    - revert HF. generalize (nested d) (nested e) Hne. clear Hne Hc Hn Hwf Hp. intros n1 n2 Hn HF. rewrite <- HP. clear HP.
      induction H2 as [|a b d d' [E1 E2] H2 IH]; [constructor|]. apply Forall_cons in HF as [Hx HF]. constructor; [|by apply IH].
      unfold top_ok in *. rewrite <- E1. destruct (fst a) as [s|l|z]; [|destruct Hx as (H1 & H3 & H4 & H5)|done].
      + destruct Hx as [[Hv Ho]|[Hv Hpl]]; [left|right]; (split; [done|]); [by eapply obj_peq|by eapply plainv_peq].
      + split_and!; try done; [by eapply plainv_peq|]. eapply Forall_impl; [exact H5|]. intros x (s & -> & Hs). exists s. by rewrite <- Hn.
    - by rewrite <- Hc.
  Qed.

  (** ** Nor do the names of components *)
  Section Ren.
    Context (f : string -> string).
    (** [f] renames the variables of [v] to different variables. *)
    Definition renames (l : list string) : Prop :=
      (forall u, u ∈ l -> is_var (f u) = true) /\ (forall u v, u ∈ l -> v ∈ l -> f u = f v -> u = v).
    Lemma renames_sub l l' : (forall u, u ∈ l -> u ∈ l') -> renames l' -> renames l.
    Proof. intros H [H1 H2]. split; eauto. Qed.
    Lemma pvars_in (d : inst) e u : e ∈ d -> u ∈ avars (fst e) \/ u ∈ pvars (snd e) -> u ∈ pvars (PD d).
    Proof.
      intros He Hu. simpl. apply elem_of_list_In, in_flat_map. exists e. split; [by apply elem_of_list_In|].
      apply elem_of_list_In, elem_of_app, Hu.
    Qed.
    Lemma dwf_rename (d : inst) : renames (pvars (PD d)) -> dwf d -> dwf (irename f d).
    Proof.
      intros [H1 H2] Hd. unfold dwf, dkeys, irename. rewrite map_map. simpl. rewrite <- (map_map fst (arename f)).
      apply NoDup_map_inj_on; [exact Hd|]. intros a b Ha Hb.
      apply elem_of_list_fmap in Ha as (ea & -> & Ha). apply elem_of_list_fmap in Hb as (eb & -> & Hb).
      apply arename_inj.
      - intros u v Hu Hv. apply H2; [apply (pvars_in d ea)|apply (pvars_in d eb)]; auto.
      - intros u Hu. apply H1. apply (pvars_in d ea); auto.
      - intros u Hu. apply H1. apply (pvars_in d eb); auto.
    Qed.
    Lemma plainv_rename v : plainv v -> prename f v = v.
    Proof. by destruct v. Qed.
    Lemma cnames_vars v : obj v -> forall u, u ∈ cnames v -> u ∈ pvars v /\ is_var u = true.
    Proof.
      induction v as [s|x|l IH|d IH] using pv_ind'; inversion 1 as [? Hne Hwf HF]; subst. intros u Hu.
      cbn [cnames] in Hu. apply elem_of_list_In, in_flat_map in Hu as (e & He & Hu). apply elem_of_list_In in He, Hu.
      rewrite Forall_forall in IH, HF. destruct (HF e He) as (s & Es & _ & _ & [[Hv Ho]|[Hv Hp]]).
      - apply elem_of_app in Hu as [Hu|Hu].
        + rewrite Es in Hu. destruct (obj_dict _ Ho) as (d' & Ed). rewrite Ed in Hu. apply elem_of_list_singleton in Hu as ->.
          split; [|done]. eapply pvars_in; [exact He|]. left. rewrite Es. simpl. rewrite Hv. left.
        + destruct (IH e He Ho u Hu). split; [|done]. eapply pvars_in; eauto.
      - rewrite Es, (cnames_plain _ Hp), app_nil_r in Hu. destruct (snd e); try done; by apply elem_of_nil in Hu.
    Qed.
    Lemma obj_rename v : renames (pvars v) -> obj v -> obj (prename f v) /\ cnames (prename f v) = map f (cnames v).
    Proof.
      induction v as [s|x|l IH|d IH] using pv_ind'; intros Hf; inversion 1 as [? Hne Hwf HF]; subst.
      assert (Hsub : forall e, e ∈ d -> renames (pvars (snd e))).
      { intros e He. eapply renames_sub; [|exact Hf]. intros u Hu. eapply pvars_in; eauto. }
      assert (Hvar : forall s v, (AStr s, v) ∈ d -> is_var s = true -> is_var (f s) = true).
      { intros s v Hin Hs. apply (proj1 Hf). eapply pvars_in; [exact Hin|]. left. simpl. rewrite Hs. left. }
      rewrite Forall_forall in IH, HF. split.
      - cbn [prename]. constructor.
        + by destruct d.
        + by apply dwf_rename.
        + apply Forall_map, Forall_forall. intros [a w] He. specialize (HF _ He) as (s & E & H1 & H2 & [[Hv Ho]|[Hv Hp]]); simpl in E; subst a.
          * pose proof (Hvar s w He Hv) as Hfs. exists (f s). simpl. rewrite Hv. split_and!; [done|by intros E; rewrite E in Hfs|by intros E; rewrite E in Hfs|].
            left. split; [done|]. by apply (IH _ He (Hsub _ He)).
          * exists s. simpl. rewrite Hv. split_and!; try done. right. split; [done|]. by rewrite plainv_rename.
      - cbn [prename cnames].
        assert (Hgen : forall l, (forall e, e ∈ l -> e ∈ d) ->
          flat_map (fun e : attr * pv => match fst e, snd e with AStr s, PD _ => [s] | _, _ => [] end ++ cnames (snd e)) (map (fun e => (arename f (fst e), prename f (snd e))) l) =
          map f (flat_map (fun e : attr * pv => match fst e, snd e with AStr s, PD _ => [s] | _, _ => [] end ++ cnames (snd e)) l)).
        { induction l as [|[a w] l IHl]; intros Hl; [done|]. cbn [map flat_map fst snd].
          rewrite map_app, IHl by (intros e He; apply Hl; by right). f_equal.
          assert (He : (a, w) ∈ d) by (apply Hl; left).
          specialize (HF _ He) as (s & E & H1 & H2 & [[Hv Ho]|[Hv Hp]]); simpl in E; subst a; simpl in *.
          - rewrite Hv. destruct (IH _ He (Hsub _ He) Ho) as [_ E]. cbn [snd] in E. rewrite E. destruct (obj_dict _ Ho) as (d' & ->). done.
          - rewrite Hv, plainv_rename, (cnames_plain _ Hp), !app_nil_r by done. by destruct w. }
        by apply Hgen.
    Qed.
    Lemma t_obj_rename d : renames (pvars (PD d)) -> t_obj d ->
      t_obj (irename f d) /\ cnames (PD (irename f d)) = map f (cnames (PD d)).
    Proof.
      intros Hf [Hwf HF Hn].
      assert (Hsub : forall e, e ∈ d -> renames (pvars (snd e))).
      { intros e He. eapply renames_sub; [|exact Hf]. intros u Hu. eapply pvars_in; eauto. }
      assert (Hvar : forall s v, (AStr s, v) ∈ d -> is_var s = true -> is_var (f s) = true).
      { intros s v Hin Hs. apply (proj1 Hf). eapply pvars_in; [exact Hin|]. left. simpl. rewrite Hs. left. }
      rewrite Forall_forall in HF.
      assert (Hsnd : forall e, e ∈ d -> cnames (prename f (snd e)) = map f (cnames (snd e)) /\ forall u, u ∈ cnames (snd e) -> u ∈ pvars (PD d) /\ is_var u = true).
      { intros e He. pose proof (HF e He) as Hx. unfold top_ok in Hx. destruct (fst e) as [s|l|z]; [|destruct Hx as [Hp _]|done].
        - destruct Hx as [[_ Ho]|[_ Hp]].
          + split; [by apply (obj_rename _ (Hsub e He))|]. intros u Hu. destruct (cnames_vars _ Ho u Hu). split; [|done]. eapply pvars_in; eauto.
          + rewrite plainv_rename, (cnames_plain _ Hp) by done. split; [done|]. intros u Hu. by apply elem_of_nil in Hu.
        - rewrite plainv_rename, (cnames_plain _ Hp) by done. split; [done|]. intros u Hu. by apply elem_of_nil in Hu. }
      assert (Hnest : nested (irename f d) = map f (nested d)).
      { unfold nested, irename. rewrite flat_map_concat_map, map_map, <- flat_map_concat_map. simpl.
        symmetry. apply flat_map_Forall2, Forall_forall. intros e He. by rewrite (proj1 (Hsnd e He)). }
      assert (Hnv : forall u, u ∈ nested d -> u ∈ pvars (PD d) /\ is_var u = true).
      { intros u Hu. apply elem_of_list_In, in_flat_map in Hu as (e & He & Hu). apply elem_of_list_In in He, Hu. by apply (Hsnd e He). }
      assert (Hcn : cnames (PD (irename f d)) = map f (cnames (PD d))).
      { cbn [cnames]. unfold irename. rewrite flat_map_concat_map, map_map, <- flat_map_concat_map.
        symmetry. apply flat_map_Forall2, Forall_forall. intros e He. rewrite map_app. cbn [fst snd]. rewrite (proj1 (Hsnd e He)). f_equal.
        pose proof (HF e He) as Hx. destruct e as [a w]. unfold top_ok in Hx. cbn [fst snd] in *. destruct a as [s|l|z]; [|destruct Hx as [Hp _]; by destruct w|done].
        destruct Hx as [[Hv Ho]|[Hv Hp]].
        - simpl. rewrite Hv. by destruct (obj_dict _ Ho) as (d' & ->).
        - simpl. rewrite Hv. by destruct w. }
      assert (Hcv : forall u, u ∈ cnames (PD d) -> u ∈ pvars (PD d)).
      { intros u Hu. cbn [cnames] in Hu. apply elem_of_list_In, in_flat_map in Hu as (e & He & Hu). apply elem_of_list_In in He, Hu.
        apply elem_of_app in Hu as [Hu|Hu]; [|by apply (Hsnd e He)].
        eapply pvars_in; [exact He|]. left. pose proof (HF e He) as Hx. destruct e as [a w]. unfold top_ok in Hx. cbn [fst snd] in *.
        destruct a as [s|l|z]; [|by apply elem_of_nil in Hu..]. destruct Hx as [[Hv Ho]|[Hv Hp]].
        - destruct (obj_dict _ Ho) as (d' & ->). apply elem_of_list_singleton in Hu as ->. simpl. rewrite Hv. left.
        - destruct w; try done; by apply elem_of_nil in Hu. }
      split; [|done]. split.
      - by apply dwf_rename.
      - rewrite Hnest. apply Forall_map, Forall_forall. intros [a w] He. pose proof (HF _ He) as Hx. unfold top_ok in *. cbn [fst snd] in *.
        destruct a as [s|l|z]; [|destruct Hx as (Hp & Hl & Hc & HFl)|done].
        + destruct Hx as [[Hv Ho]|[Hv Hp]]; simpl; rewrite Hv.
          * left. split; [by eapply Hvar|]. by apply (obj_rename _ (Hsub _ He)).
          * right. split; [done|]. by rewrite plainv_rename.
        + cbn [arename]. rewrite plainv_rename by done. rewrite Forall_forall in HFl.
          assert (Hlv : forall s, AStr s ∈ l -> is_var s = true -> s ∈ pvars (PD d)).
          { intros s Hs Hv. eapply pvars_in; [exact He|]. left. simpl. apply elem_of_list_In, in_flat_map. exists (AStr s).
            split; [by apply elem_of_list_In|]. simpl. rewrite Hv. by left. }
          split_and!; [done|by rewrite map_length| |].
          * destruct l as [|x [|y [|z [|]]]]; try done. simpl. destruct (HFl x ltac:(left)) as (s & -> & _). simpl in *.
            destruct (is_var s) eqn:Hv; [|by revert Hc; case_decide]. clear Hc. case_decide as Ed; [|done]. injection Ed as Ed.
            pose proof (proj1 Hf s (Hlv s ltac:(left) Hv)) as Hfs. by rewrite Ed in Hfs.
          * apply Forall_map, Forall_forall. intros x Hx. destruct (HFl x Hx) as (s & -> & Hs). simpl. destruct (is_var s) eqn:Hv.
            -- exists (f s). split; [done|]. intros Hin. apply elem_of_list_fmap in Hin as (u & Eu & Hu).
               apply Hs. assert (s = u) as ->; [|done]. apply (proj2 Hf); [by apply Hlv|by apply Hnv|done].
            -- exists s. split; [done|]. intros Hin. apply elem_of_list_fmap in Hin as (u & -> & Hu).
               pose proof (proj1 Hf u (proj1 (Hnv u Hu))). congruence.
      - rewrite Hcn. apply NoDup_map_inj_on; [done|]. intros u v Hu Hv. apply (proj2 Hf); by apply Hcv.
    Qed.
  End Ren.
End Obj.
