(** * C94: batch_transform and batch_undo *)
From stdpp Require Import base decidable list gmap strings pretty sets.
From Coq Require Import Ascii String ZArith.
From Verif Require Import Nominal Base PyVal Preproc PreFlat PreTuple PreStd Preproc2 PreSub PropsPre PropsPre2 StructFacts TrestleFresh.
Open Scope string_scope.
Open Scope list_scope.

(** ** The model *)
Section Batch.
  Context {I S : Type} (p : pproc I S).

  (** [Preprocessor.batch_transform] (preprocessor.py:143-147): the list of
      the transforms; they share the object and the gensym counter.  The
      first exception ends the comprehension. *)
  Fixpoint batch_transform (l : list I) (s : S) (c : nat) : res (list I) * S * nat :=
    match l with
    | [] => (Ok [], s, c)
    | i :: l =>
        match pp_tr p i s c with
        | (Err e, s, c) => (Err e, s, c)
        | (Ok j, s, c) =>
            match batch_transform l s c with
            | (Err e, s, c) => (Err e, s, c)
            | (Ok js, s, c) => (Ok (j :: js), s, c)
            end
        end
    end.

  (** [Preprocessor.batch_undo] (149-153). *)
  Definition batch_undo (l : list I) (s : S) : res (list I) := rmapM (fun j => pp_un p j s) l.

  (** The undo of the object does not look at what the last transform left. *)
  Definition no_memory : Prop := forall j s s', pp_un p j s = pp_un p j s'.

  (** Without memory a batch is undone if each of its instances is. *)
  Theorem C94_batch_undone (R : I -> I -> Prop) : (forall i, R i i) -> no_memory ->
    forall l s c js s' c', batch_transform l s c = (Ok js, s', c') -> Forall (undone R p) l ->
    forall s'', exists ks, batch_undo js s'' = Ok ks /\ Forall2 R ks l.
  Proof.
    intros HR Hm. induction l as [|i l IH]; intros s c js s' c' E Hl s''; cbn [batch_transform] in E.
    - injection E as <- _ _. by exists [].
    - apply Forall_cons in Hl as [Hi Hl].
      destruct (pp_tr p i s c) as [[[j|e] s1] c1] eqn:Et; [|done].
      destruct (batch_transform l s1 c1) as [[[js'|e] s2] c2] eqn:Eb; [|done].
      injection E as <- <- <-.
      destruct (IH _ _ _ _ _ Eb Hl s'') as (ks & E1 & H1).
      destruct (Hi _ _ _ _ _ Et j (HR j)) as (k & E2 & H2).
      exists (k :: ks). split; [|by constructor].
      unfold batch_undo in *. cbn [rmapM]. rewrite (Hm j s'' s1), E2. simpl. by rewrite E1.
  Qed.

  (** Whatever it remembers, the object undoes the last instance. *)
  Theorem C94_last_undone (R : I -> I -> Prop) : (forall i, R i i) ->
    forall l i s c js s' c', batch_transform (l ++ [i]) s c = (Ok js, s', c') -> undone R p i ->
    exists js0 j k, js = js0 ++ [j] /\ List.length js0 = List.length l /\ pp_un p j s' = Ok k /\ R k i.
  Proof.
    intros HR. induction l as [|i0 l IH]; intros i s c js s' c' E Hi; cbn [batch_transform app] in E.
    - destruct (pp_tr p i s c) as [[[j|e] s1] c1] eqn:Et; [|done]. injection E as <- <- <-.
      destruct (Hi _ _ _ _ _ Et j (HR j)) as (k & E2 & H2). by exists [], j, k.
    - destruct (pp_tr p i0 s c) as [[[j0|e] s1] c1] eqn:Et; [|done].
      destruct (batch_transform (l ++ [i]) s1 c1) as [[[js'|e] s2] c2] eqn:Eb; [|done].
      injection E as <- <- <-.
      destruct (IH _ _ _ _ _ _ Eb Hi) as (js0 & j & k & -> & Hlen & H).
      exists (j0 :: js0), j, k. split; [done|]. split; [by simpl; f_equal|done].
  Qed.
End Batch.

(** A [Pipeline] object is a preprocessor itself (it inherits both batch
    methods); its state are the objects of its stages. *)
Definition pipe_proc {I S} (cls : nat -> pproc I S) (os : list nat) : pproc I (gmap nat S) := {|
  pp_tr := pipe_tr cls os;
  pp_un := pipe_un cls os;
|}.

(** ** Undoing with the mapping of another instance *)
Section Alien.
  Context {X : Type}.
  Notation pv := (pv X).

  (** All keys of [rev] are variables. *)
  Definition var_keys (rev : list (attr * attr)) : Prop :=
    forall a, a ∈ dkeys rev -> exists v, a = AStr v /\ is_var v = true.

  Lemma alien_key rev a : var_keys rev -> (forall u, u ∈ avars a -> AStr u ∉ dkeys rev) -> dget a rev = None.
  Proof.
    intros Hr Ha. apply dget_None. intros Hin. destruct (Hr _ Hin) as (v & -> & Hv).
    apply (Ha v); [|done]. simpl. rewrite Hv. left.
  Qed.
  Lemma alien_ren rev a : var_keys rev -> (forall u, u ∈ avars a -> AStr u ∉ dkeys rev) -> ren_elem rev a = a.
  Proof.
    intros Hr. induction a as [v|l IH|z] using attr_ind'; intros Ha.
    - simpl. by rewrite alien_key.
    - cbn [ren_elem]. rewrite alien_key by done. f_equal. simpl in Ha.
      induction IH as [|a l Hx Hl IHl]; simpl in *; [done|]. f_equal.
      + apply Hx. intros u Hu. apply Ha, elem_of_app. by left.
      + apply IHl. intros u Hu. apply Ha, elem_of_app. by right.
    - simpl. by rewrite alien_key.
  Qed.
  Lemma alien_name rev a (v : pv) : var_keys rev -> (forall u, u ∈ avars a -> AStr u ∉ dkeys rev) ->
    undo_name rev a v = a.
  Proof.
    intros Hr Ha. assert (H1 : match a with ATup _ => rename_relation rev a | _ => a end = a).
    { destruct a as [|l|]; try done. simpl. f_equal. simpl in Ha.
      induction l as [|x l IH]; simpl in *; [done|]. f_equal.
      - apply alien_ren; [done|]. intros u Hu. apply Ha, elem_of_app. by left.
      - apply IH. intros u Hu. apply Ha, elem_of_app. by right. }
    destruct v; simpl; try done; by rewrite alien_key.
  Qed.

  Lemma undo_alien f rev (v : pv) : var_keys rev -> forall v', std_ok v ->
    (forall u, u ∈ pvars v -> is_var (f u) = true /\ AStr (f u) ∉ dkeys rev) ->
    (forall u w, u ∈ pvars v -> w ∈ pvars v -> f u = f w -> u = w) ->
    peq v' (prename f v) -> peq (undo_val rev v') (prename f v).
  Proof.
    intros Hr. induction v as [t|x|l IH|d IH] using pv_ind'; intros v' Hok Hd Hinj Hp.
    - simpl in Hp. inversion Hp; subst. constructor.
    - simpl in Hp. inversion Hp; subst. constructor.
    - simpl in Hp. inversion Hp as [| |l' ? HF|]; subst. simpl. constructor.
      inversion Hok as [| |? Hl|]; subst. clear Hp Hok.
      revert l' HF. induction IH as [|e l He Hl' IHl]; intros l' HF; simpl in *.
      + inversion HF; subst. constructor.
      + apply Forall_cons in Hl as [Hoe Hl].
        inversion HF as [|e' ? l2 ? Hpe HF']; subst. simpl. constructor.
        * destruct e; inversion Hpe; subst; try done.
          apply He; [apply Hoe; eauto| | |done].
          -- intros u Hu. apply Hd. apply elem_of_app. by left.
          -- intros u w Hu Hw. apply Hinj; apply elem_of_app; by left.
        * apply IHl; try done.
          -- intros u Hu. apply Hd. apply elem_of_app. by right.
          -- intros u w Hu Hw. apply Hinj; apply elem_of_app; by right.
    - simpl in Hp. inversion Hp as [| | |d' d'' ? HF HP]; subst. clear Hp.
      inversion Hok as [| | |? Hw Hrel Hdk]; subst. clear Hok.
      apply Permutation_map_inv in HP as (ds & -> & HP).
      assert (Hin : forall e, e ∈ d -> forall u, u ∈ avars (fst e) ++ pvars (snd e) -> u ∈ pvars (PD d)).
      { intros e He u Hu. apply elem_of_list_In. cbn [pvars]. apply in_flat_map. exists e.
        split; [by apply elem_of_list_In|]. by apply elem_of_list_In. }
      set (ren := fun e : attr * pv => (arename f (fst e), prename f (snd e))) in *.
      assert (Hnd : NoDup (dkeys (map ren ds))).
      { unfold dkeys. rewrite map_map. simpl. rewrite <- (map_map fst (arename f)).
        apply NoDup_map_inj_on.
        - rewrite <- HP. exact Hw.
        - intros a b Ha Hb. rewrite <- HP in Ha, Hb.
          apply elem_of_list_fmap in Ha as (ea & -> & Ha), Hb as (eb & -> & Hb).
          apply arename_inj.
          + intros u w Hu Hv. apply Hinj; [apply (Hin ea)|apply (Hin eb)]; try done; apply elem_of_app; auto.
          + intros u Hu. apply Hd, (Hin ea); [done|apply elem_of_app; auto].
          + intros u Hu. apply Hd, (Hin eb); [done|apply elem_of_app; auto]. }
      assert (Hall : Forall (fun e =>
         (forall v', peq v' (prename f (snd e)) -> peq (undo_val rev v') (prename f (snd e))) /\
         (forall u, u ∈ avars (fst e) -> is_var (f u) = true /\ AStr (f u) ∉ dkeys rev)) ds).
      { rewrite <- HP. rewrite Forall_forall in IH, Hdk. apply Forall_forall.
        intros e He. split.
        - intros w Hw'. apply IH; auto.
          + intros u Hu. apply Hd, (Hin e); [done|]. apply elem_of_app. by right.
          + intros u v Hu Hv. apply Hinj; apply (Hin e); try done; apply elem_of_app; by right.
        - intros u Hu. apply Hd, (Hin e); [done|]. apply elem_of_app. by left. }
      assert (HF2 : Forall2 (fun p q => fst p = fst q /\ peq (snd p) (snd q))
        (map (fun e => (undo_name rev (fst e) (snd e), undo_val rev (snd e))) d') (map ren ds)).
      { clear -HF Hall Hr. revert d' HF. induction Hall as [|[a w] ds (H2 & H3) Hall IH];
          intros d' HF; inversion HF as [|[k' w'] ? l2 ? [E1 E2] HF']; subst; simpl; constructor.
        - simpl in *. subst. split; [|by apply H2]. apply alien_name; [done|].
          intros u Hu. apply avars_arename in Hu as (u' & Hu' & ->); [|by intros; apply H3]. by apply H3.
        - by apply IH. }
      cbn [undo_val]. rewrite dupd_app.
      + simpl. apply peq_dict with (map ren ds); [done|]. change (Permutation (map ren ds) (map ren d)). by rewrite HP.
      + simpl. assert (Hk : dkeys (map (fun e => (undo_name rev (fst e) (snd e), undo_val rev (snd e))) d') = dkeys (map ren ds)).
        { clear -HF2. unfold dkeys. induction HF2 as [|p q l l' [E _] HF IH]; simpl; [done|]. by f_equal. }
        by rewrite Hk.
  Qed.
End Alien.

(** ** NameStandardizer *)
Section Std.
  Context {X : Type} (pystr : attr -> string) (setord : list attr -> list attr).
  Context (setord_spec : forall l x, x ∈ setord l <-> x ∈ l).
  Notation stdp := (std_proc (X:=X) pystr setord).

  (** The keys of a reverse mapping are the names made by its call. *)
  Lemma rev_keys c (d : inst X) d' rev c' : std_ok (PD d) ->
    ns_transform pystr setord c d = (Ok (d', rev), c') ->
    c <= c' /\ forall a, a ∈ dkeys rev -> exists n, a = AStr (gensym_name n) /\ c < n <= c'.
  Proof using setord_spec.
    intros Hok E. destruct (ns_transform_ok pystr setord setord_spec c d Hok) as (d2 & s & E2 & HG & _ & _).
    rewrite E in E2. injection E2 as -> -> ->. destruct HG as (Hc & _ & _ & Hf). split; [done|].
    intros a Ha. unfold dkeys in Ha. rewrite map_map in Ha. simpl in Ha.
    apply elem_of_list_fmap in Ha as (e & -> & He). rewrite Forall_forall in Hf.
    destruct (Hf _ He) as (v & n & _ & _ & E2 & Hn). by exists n.
  Qed.

  (** Undoing with the mapping of a later call changes nothing. *)
  Lemma undo_later c (d : inst X) d' rev c' c1 (e : inst X) e' rev' c1' : std_ok (PD d) -> std_ok (PD e) ->
    ns_transform pystr setord c d = (Ok (d', rev), c') ->
    c' <= c1 -> ns_transform pystr setord c1 e = (Ok (e', rev'), c1') ->
    ieq (ns_undo rev' d') d'.
  Proof using setord_spec.
    intros Hd He E Hc E'. destruct (rev_keys _ _ _ _ _ He E') as [_ Hk].
    destruct (ns_transform_ok pystr setord setord_spec c d Hd) as (d2 & s & E2 & HG & Hdom & Hp).
    rewrite E in E2. injection E2 as <- -> ->.
    assert (H : peq (undo_val rev' (PD d')) (PD d')).
    { apply (peq_trans _ (prename (fm (snd s)) (PD d))); [|apply peq_sym; exact Hp].
      apply undo_alien; [|done| | |exact Hp].
      - intros a Ha. destruct (Hk _ Ha) as (n & -> & _). by exists (gensym_name n).
      - intros u Hu. destruct (fm_good c s u HG) as (n & -> & Hn); [by apply Hdom|]. split; [done|].
        intros Ha. destruct (Hk _ Ha) as (m & Em & Hm). assert (En : gensym_name n = gensym_name m) by congruence.
        apply gensym_inj in En. lia.
      - intros u w Hu Hw. apply (fm_inj c s); [done| |]; by apply Hdom. }
    unfold ns_undo. destruct (undo_val rev' (PD d')) eqn:E1; inversion H; subst. done.
  Qed.

  (** What a batch leaves: the mapping of the last instance. *)
  Lemma std_batch l : forall (d : inst X) s c js s' c', Forall (fun i => std_ok (PD i)) (l ++ [d]) ->
    batch_transform stdp (l ++ [d]) s c = (Ok js, s', c') ->
    exists js0 j rev c1, js = js0 ++ [j] /\ s' = Some rev /\ c <= c1 /\
      ns_transform pystr setord c1 d = (Ok (j, rev), c') /\
      Forall2 (fun i j => exists ci ri ci', c <= ci /\ ns_transform pystr setord ci i = (Ok (j, ri), ci') /\ ci' <= c1) l js0.
  Proof using setord_spec.
    induction l as [|i l IH]; intros d s c js s' c' Hok E; cbn [batch_transform app] in E.
    - cbn [std_proc pp_tr] in E. destruct (ns_transform pystr setord c d) as [[[j rev]|e] c1] eqn:Et; [|done].
      injection E as <- <- <-. exists [], j, rev, c. eauto.
    - apply Forall_cons in Hok as [Hi Hok].
      cbn [std_proc pp_tr] in E. destruct (ns_transform pystr setord c i) as [[[j0 rev0]|e] c0] eqn:Et; [|done].
      destruct (batch_transform _ (l ++ [d]) (Some rev0) c0) as [[[js'|e] s2] c2] eqn:Eb; [|done].
      injection E as <- <- <-.
      destruct (IH _ _ _ _ _ _ Hok Eb) as (js0 & j & rev & c1 & -> & -> & Hc & El & HF).
      destruct (rev_keys _ _ _ _ _ Hi Et) as [Hc0 _].
      exists (j0 :: js0), j, rev, c1. split; [done|]. split; [done|]. split; [lia|]. split; [done|].
      constructor; [exists c, rev0, c0; auto|]. eapply Forall2_impl; [exact HF|].
      intros ? ? (ci & ri & ci' & ? & ? & ?). exists ci, ri, ci'. split; [lia|]. done.
  Qed.

  (** After a batch, undoing gives the last instance back, and leaves every
      other one as it was standardised. *)
  Theorem C94_standardizer (l : list (inst X)) d s c js s' c' :
    Forall (fun i => std_ok (PD i)) (l ++ [d]) -> undo_ok (PD d) ->
    batch_transform stdp (l ++ [d]) s c = (Ok js, s', c') ->
    exists js0 j ks0 k, js = js0 ++ [j] /\ batch_undo stdp js s' = Ok (ks0 ++ [k]) /\
      Forall2 ieq ks0 js0 /\ ieq k d /\
      Forall (fun k => forall v, v ∈ ivars k -> exists n, v = gensym_name n /\ c < n) ks0.
  Proof using setord_spec.
    intros Hok Hu E. destruct (std_batch _ _ _ _ _ _ _ Hok E) as (js0 & j & rev & c1 & -> & -> & Hc & El & HF).
    apply Forall_app in Hok as [Hl Hd]. apply Forall_cons in Hd as [Hd _].
    exists js0, j, (map (ns_undo rev) js0), (ns_undo rev j). split; [done|].
    assert (HU : forall js, batch_undo stdp js (Some rev) = Ok (map (ns_undo rev) js)).
    { induction js as [|x js IH]; [done|]. unfold batch_undo in *. cbn [rmapM std_proc pp_un]. simpl in *. by rewrite IH. }
    split; [by rewrite HU, map_app|].
    assert (HK : Forall (fun j0 => ieq (ns_undo rev j0) j0 /\ forall v, v ∈ ivars j0 -> exists n, v = gensym_name n /\ c < n) js0).
    { clear -HF Hl Hd El setord_spec. induction HF as [|i j0 l js0 (ci & ri & ci' & Hc & Ei & Hc') HF IH]; [constructor|].
      apply Forall_cons in Hl as [Hi Hl]. constructor; [|by apply IH]. split; [exact (undo_later _ _ _ _ _ _ _ _ _ _ Hi Hd Ei Hc' El)|].
      intros v Hv. destruct (ns_transform_ok pystr setord setord_spec ci i Hi) as (d2 & s & E2 & HG & Hdom & Hp).
      rewrite Ei in E2. injection E2 as <- -> ->. apply (pvars_peq _ _ Hp) in Hv.
      change (PD (irename (fm (snd s)) i)) with (prename (fm (snd s)) (PD i)) in Hv.
      apply pvars_prename in Hv as (u & Hu & ->).
      - destruct (fm_good ci s u HG) as (n & -> & Hn); [by apply Hdom|]. exists n. split; [done|lia].
      - intros u Hu. destruct (fm_good ci s u HG) as (n & -> & _); [by apply Hdom|done]. }
    split; [|split].
    - clear -HK. induction HK as [|j0 js0 [H _] _ IH]; simpl; constructor; done.
    - destruct (ns_round_trip_eq pystr setord setord_spec c1 d Hd Hu) as (d' & rev' & c0 & E' & H).
      rewrite El in E'. injection E' as <- <- _. apply H, ieq_refl.
    - clear -HK. apply Forall_map. eapply Forall_impl; [exact HK|]. intros j0 [H1 H2] v Hv. apply H2.
      by apply (pvars_peq _ _ H1).
  Qed.

  (** So an instance that is not the last and has a component whose name is
      not one the counter could give does not come back. *)
  Theorem C94_not_restored (l : list (inst X)) d s c js s' c' :
    Forall (fun i => std_ok (PD i)) (l ++ [d]) -> undo_ok (PD d) ->
    batch_transform stdp (l ++ [d]) s c = (Ok js, s', c') ->
    exists ks0 k, batch_undo stdp js s' = Ok (ks0 ++ [k]) /\ List.length ks0 = List.length l /\
      forall m i v ki, l !! m = Some i -> v ∈ ivars i -> (forall n, c < n -> v <> gensym_name n) ->
        ks0 !! m = Some ki -> ~ ieq ki i.
  Proof using setord_spec.
    intros Hok Hu E. destruct (C94_standardizer _ _ _ _ _ _ _ Hok Hu E) as (js0 & j & ks0 & k & -> & EU & HF & _ & HK).
    exists ks0, k. split; [done|]. split.
    - destruct (std_batch _ _ _ _ _ _ _ Hok E) as (js1 & j1 & rev & c1 & Ej & _ & _ & _ & HF1).
      apply app_inj_tail in Ej as [-> ->]. rewrite (Forall2_length _ _ _ HF). symmetry. by eapply Forall2_length.
    - intros m i v ki _ Hv Hn Hk Heq. rewrite Forall_lookup in HK.
      destruct (HK _ _ Hk v) as (n & -> & Hc); [|by apply (Hn n)]. by apply (pvars_peq _ _ Heq).
  Qed.
End Std.

(** ** Preprocessors without memory *)
(** Flattener, SubComponentProcessor and Tuplizer objects keep nothing
    between calls.  [rl] is the depth of recursion Python allows. *)
Definition flattener {X} : pproc (inst X) unit :=
  {| pp_tr := fun d s c => (flatten d, s, c); pp_un := fun d _ => structurize d |}.
Definition subcomponents {V} (vtrue : V) (rl : nat) : pproc (list (attr * V)) unit :=
  {| pp_tr := fun d s c => (sub_transform vtrue d, s, c); pp_un := fun d _ => sub_undo rl d |}.
Definition tuplizer {V} (pyfloat : string -> option Z) : pproc (list (attr * V)) unit :=
  {| pp_tr := fun d s c => (tuplizer_transform pyfloat d, s, c); pp_un := fun d _ => tuplizer_undo d |}.

(** For these a batch and its undo give every instance back. *)
Lemma batch_plain {V} (p : pproc (list (attr * V)) unit) (t : list (attr * V) -> res (list (attr * V))) l :
  (forall d s c, pp_tr p d s c = (t d, s, c)) ->
  Forall (fun d => exists j, t d = Ok j /\ forall s, pp_un p j s = Ok d) l ->
  forall s c, exists js, batch_transform p l s c = (Ok js, s, c) /\ Forall2 (fun d j => t d = Ok j) l js /\
    batch_undo p js s = Ok l.
Proof.
  intros Ht HF s c. induction HF as [|d l (j & Ej & Hj) HF (js & E1 & E2 & E3)]; [by exists []|].
  exists (j :: js). split; [|split; [by constructor|]].
  - cbn [batch_transform]. rewrite Ht, Ej. by rewrite E1.
  - unfold batch_undo in *. cbn [rmapM]. rewrite Hj. simpl. by rewrite E3.
Qed.

Theorem C94_flattener : forall (X : Type) (l : list (inst X)) s c, Forall flat_ok l ->
  exists js, batch_transform flattener l s c = (Ok js, s, c) /\ Forall2 (fun d j => flatten d = Ok j) l js /\
    batch_undo flattener js s = Ok l.
Proof.
  intros X l s c Hl. apply batch_plain; [done|]. eapply Forall_impl; [exact Hl|].
  intros d Hd. destruct (C43_flattener X d Hd) as (f & E1 & E2 & _). by exists f.
Qed.

Theorem C94_tuplizer : forall (V : Type) pyfloat (l l' : list (list (attr * V))) s c,
  Forall2 (fun d d' => dwf d /\
    Forall2 (fun e e' => tuplized pyfloat (fst e) (fst e') /\ snd e = snd e') d d') l l' ->
  batch_transform (tuplizer pyfloat) l s c = (Ok l', s, c) /\
  batch_undo (tuplizer pyfloat) l' s = Ok l.
Proof.
  intros V pyfloat l l' s c HF.
  destruct (batch_plain (tuplizer pyfloat) (tuplizer_transform pyfloat) l (fun _ _ _ => eq_refl)) with (s:=s) (c:=c)
    as (js & E1 & E2 & E3).
  - induction HF as [|d d' l l' [H1 H2] HF IH]; constructor; [|done].
    destruct (C41_tuplizer_round_trip pyfloat V d d' H1 H2) as [E1 E2]. by exists d'.
  - assert (js = l') as ->; [|done]. clear -HF E2. revert l' HF.
    induction E2 as [|d j l js E E2 IH]; intros l' HF; inversion HF as [|? d' ? l2 [H1 H2] HF']; subst; [done|].
    f_equal; [|by apply IH]. destruct (C41_tuplizer_round_trip pyfloat V d d' H1 H2) as [E1 _]. congruence.
Qed.

(** [n] is the depth of recursion the longest of the instances needs. *)
Theorem C94_sub_components : forall (V : Type) (vtrue : V) (l : list (list (attr * V))),
  Forall (fun d => dwf d /\ exists addr, Forall (fun e => occ addr (fst e) /\ is_has_comp (fst e) = None) d) l ->
  exists n, forall rl s c, n <= rl ->
    exists js, batch_transform (subcomponents vtrue rl) l s c = (Ok js, s, c) /\
      Forall2 (fun d j => sub_transform vtrue d = Ok j) l js /\
      batch_undo (subcomponents vtrue rl) js s = Ok l.
Proof.
  intros V vtrue l HF.
  assert (H : exists n, forall rl, n <= rl -> Forall (fun d => exists j, sub_transform vtrue d = Ok j /\
    forall s, pp_un (subcomponents vtrue rl) j s = Ok d) l).
  { induction HF as [|d l [Hd [addr Ha]] HF (n & IH)]; [exists 0; by constructor|].
    destruct (C47_sub_components V vtrue addr d Hd Ha) as (j & E & _ & m & Hm).
    exists (Nat.max n m). intros rl Hrl. constructor; [|apply IH; lia].
    exists j. split; [done|]. intros s. simpl. apply Hm. lia. }
  destruct H as (n & H). exists n. intros rl s c Hrl. apply batch_plain; [done|]. by apply H.
Qed.

(** ** Pipelines *)
(** A pipeline of distinct objects undoes the last instance of a batch. *)
Theorem C94_pipeline_last {I S} (cls : nat -> pproc I S) (R : I -> I -> Prop) os l i h c js h' c' :
  (forall i, R i i) -> NoDup os ->
  (forall pre o post k h0 c0 h1 c1, os = pre ++ o :: post -> pipe_tr cls pre i h0 c0 = (Ok k, h1, c1) ->
     undone R (cls o) k) ->
  batch_transform (pipe_proc cls os) (l ++ [i]) h c = (Ok js, h', c') ->
  exists js0 j k, js = js0 ++ [j] /\ List.length js0 = List.length l /\ pipe_un cls os j h' = Ok k /\ R k i.
Proof.
  intros HR Hnd Hst E. apply (C94_last_undone (pipe_proc cls os) R HR _ _ _ _ _ _ _ E).
  intros h0 c0 j h1 c1 Ej j' Hj. cbn [pipe_proc pp_tr pp_un] in *.
  by apply (C45_pipeline cls R os i h0 c0 j h1 c1 Hnd (fun pre o post k h2 c2 H1 H2 => Hst pre o post k h0 c0 h2 c2 H1 H2) Ej).
Qed.

(** ** The batch round trip fails *)
(** Two instances with one component each: the first comes back with the name
    [?o1] in place of [?x]. *)
Definition bt_inst (v : string) (n : nat) : inst nat := [(AStr v, PD [(AStr "a", PX n)])].
Definition bt_std : pproc (inst nat) (option (list (attr * attr))) := std_proc (fun _ => "") (fun l => l).
Lemma bt_ok v n : std_ok (PD (bt_inst v n)).
Proof.
  constructor; [repeat constructor; set_solver|by repeat constructor|].
  repeat constructor; simpl; set_solver.
Qed.
Lemma bt_undo v n : undo_ok (PD (bt_inst v n)).
Proof. repeat constructor; simpl; try done. Qed.

Theorem C94_batch_refuted : exists (l js ks : list (inst nat)) s' c',
  Forall (undone ieq bt_std) l /\
  batch_transform bt_std l None 0 = (Ok js, s', c') /\ batch_undo bt_std js s' = Ok ks /\
  ~ Forall2 ieq ks l.
Proof.
  exists [bt_inst "?x" 1; bt_inst "?y" 2], [bt_inst "?o1" 1; bt_inst "?o2" 2], [bt_inst "?o1" 1; bt_inst "?y" 2],
    (Some [(AStr "?o2", AStr "?y")]), 2.
  split; [|split; [reflexivity|split; [reflexivity|]]].
  - do 2 (apply Forall_cons; split; [apply std_undone; [done|apply bt_ok|apply bt_undo]|]). by apply Forall_nil.
  - intros H. inversion H as [|? ? ? ? H1 _]; subst. inversion H1 as [| | |? d' ? HF HP]; subst.
    inversion HF as [|? b ? l' [E _] HF']; subst. inversion HF'; subst.
    apply Permutation_length_1 in HP. subst. discriminate E.
Qed.

(** The hypotheses are met. *)
Lemma ex_C94_not_restored : exists js s' c',
  Forall (fun i => std_ok (PD i)) ([bt_inst "?x" 1; bt_inst "?x" 3] ++ [bt_inst "?y" 2]) /\
  undo_ok (PD (bt_inst "?y" 2)) /\
  batch_transform bt_std ([bt_inst "?x" 1; bt_inst "?x" 3] ++ [bt_inst "?y" 2]) None 0 = (Ok js, s', c') /\
  batch_undo bt_std js s' = Ok [bt_inst "?o1" 1; bt_inst "?o2" 3; bt_inst "?y" 2] /\
  [bt_inst "?x" 1; bt_inst "?x" 3] !! 1 = Some (bt_inst "?x" 3) /\
  "?x" ∈ ivars (bt_inst "?x" 3) /\ (forall n, 0 < n -> "?x" <> gensym_name n).
Proof.
  eexists _, _, _. split; [cbn [app]; do 3 (apply Forall_cons; split; [apply bt_ok|]); by apply Forall_nil|]. split; [apply bt_undo|].
  split; [reflexivity|]. split; [reflexivity|]. split; [reflexivity|]. split; [left|].
  intros n _. by unfold gensym_name.
Qed.

Lemma ex_C94_batch_undone : no_memory (flattener (X:=nat)) /\
  Forall (undone eq flattener) [bt_inst "?x" 1; bt_inst "?y" 2].
Proof.
  split; [done|]. repeat constructor; intros s c j s' c' E j' ->; cbn in E; injection E as <- _ _;
    eexists; (split; [reflexivity|reflexivity]).
Qed.

Lemma ex_C94_flattener : Forall flat_ok [bt_inst "?x" 1; bt_inst "?y" 2] /\
  batch_transform flattener [bt_inst "?x" 1; bt_inst "?y" 2] tt 0 =
    (Ok [[(ATup [AStr "a"; AStr "?x"], PX 1)]; [(ATup [AStr "a"; AStr "?y"], PX 2)]], tt, 0).
Proof.
  split; [|reflexivity]. repeat constructor; simpl; try set_solver; try done.
Qed.

Lemma ex_C94_sub_components : exists js,
  Forall (fun d => dwf d /\ exists addr, Forall (fun e => occ addr (fst e) /\ is_has_comp (fst e) = None) d) [sub_inst; sub_inst] /\
  batch_transform (subcomponents 0 9) [sub_inst; sub_inst] tt 0 = (Ok js, tt, 0) /\
  batch_undo (subcomponents 0 9) js tt = Ok [sub_inst; sub_inst].
Proof.
  eexists. destruct ex_C47 as [H1 H2]. split; [|split; reflexivity].
  do 2 (apply Forall_cons; split; [split; [done|by exists sub_addr]|]). by apply Forall_nil.
Qed.

Lemma ex_C94_pipeline : exists js h' c' j0 j k,
  NoDup [0] /\
  (forall pre o post k h0 c0 h1 c1, [0] = pre ++ o :: post ->
     pipe_tr (fun _ => bt_std) pre (bt_inst "?y" 2) h0 c0 = (Ok k, h1, c1) -> undone ieq bt_std k) /\
  batch_transform (pipe_proc (fun _ => bt_std) [0]) ([bt_inst "?x" 1] ++ [bt_inst "?y" 2]) {[ 0 := None ]} 0 = (Ok js, h', c') /\
  js = [j0; j] /\ pipe_un (fun _ => bt_std) [0] j h' = Ok k /\ k = bt_inst "?y" 2 /\
  pipe_un (fun _ => bt_std) [0] j0 h' = Ok j0 /\ j0 = bt_inst "?o1" 1.
Proof.
  eexists _, _, _, _, _, _. split; [apply NoDup_singleton|]. split.
  - intros pre o post k h0 c0 h1 c1 Eos Epre. destruct pre as [|p0 pre]; [|by destruct pre].
    injection Epre as <- _ _. apply std_undone; [done|apply bt_ok|apply bt_undo].
  - split; [vm_compute; reflexivity|]. split; [reflexivity|]. split; [vm_compute; reflexivity|].
    split; [reflexivity|]. split; vm_compute; reflexivity.
Qed.
