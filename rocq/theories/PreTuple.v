(** * Facts about the Tuplizer *)
From stdpp Require Import base decidable list strings.
From Coq Require Import Ascii String ZArith.
From Verif Require Import Base PyVal Preproc.
Set Default Proof Using "Type".
Open Scope string_scope.

Section Tup.
  Context (pyfloat : string -> option Z).
  Notation tup_step := (tup_step pyfloat).

  Fixpoint no_space (s : string) : bool :=
    match s with String c s => negb (Ascii.eqb c " "%char) && no_space s | EmptyString => true end.
  Fixpoint last_is (c : ascii) (s : string) : bool :=
    match s with
    | EmptyString => false
    | String c' EmptyString => Ascii.eqb c' c
    | String _ s => last_is c s
    end.

  (** A word of a relation: not empty, without spaces and outer parentheses,
      and not a number. *)
  Definition token (s : string) : Prop :=
    s <> "" /\ no_space s = true /\ head_is "("%char s = false /\ last_is ")"%char s = false /\
    pyfloat s = None.

  (** The text of a relation in canonical form, and the relation it denotes:
      [(word item ... item)], each item a word or again a relation, single
      spaces. *)
  Inductive canon : string -> attr -> Prop :=
    | ca_word s : token s -> canon s (AStr s)
    | ca_rel s t l : token s -> canons t l ->
        canon ("(" +:+ s +:+ t +:+ ")") (ATup (AStr s :: l))
  with canons : string -> list attr -> Prop :=
    | cs_nil : canons "" []
    | cs_cons s t a l : canon s a -> canons t l -> canons (" " +:+ s +:+ t) (a :: l).

  Scheme canon_mut := Minimality for canon Sort Prop
    with canons_mut := Minimality for canons Sort Prop.
  Combined Scheme canon_canons_ind from canon_mut, canons_mut.

  Fixpoint closers (n : nat) : string :=
    match n with O => "" | S n => ")" +:+ closers n end.

  Lemma sapp_nil_r s : s +:+ "" = s.
  Proof. induction s as [|c s IH]; [done|]. change (String c (s +:+ "") = String c s). by rewrite IH. Qed.
  Lemma sapp_assoc s t u : (s +:+ t) +:+ u = s +:+ (t +:+ u).
  Proof. induction s as [|c s IH]; [done|]. change (String c ((s +:+ t) +:+ u) = String c (s +:+ (t +:+ u))). by rewrite IH. Qed.

  Lemma split_word s : no_space s = true -> split_on " "%char s = [s].
  Proof.
    induction s as [|c s IH]; intros H; [done|]. simpl in *.
    apply andb_true_iff in H as [Hc H]. apply negb_true_iff in Hc. rewrite Hc. by rewrite IH.
  Qed.

  Lemma split_word_sp s t :
    no_space s = true -> split_on " "%char (s +:+ " " +:+ t) = s :: split_on " "%char t.
  Proof.
    induction s as [|c s IH]; intros H; [done|].
    change (String c s +:+ " " +:+ t) with (String c (s +:+ " " +:+ t)).
    simpl in H. apply andb_true_iff in H as [Hc H]. apply negb_true_iff in Hc.
    cbn [split_on]. rewrite Hc. by rewrite IH.
  Qed.

  Lemma no_space_app s t : no_space (s +:+ t) = no_space s && no_space t.
  Proof. induction s as [|c s IH]; [done|]. change (String c s +:+ t) with (String c (s +:+ t)).
    simpl. rewrite IH. by rewrite andb_assoc. Qed.
  Lemma no_space_closers n : no_space (closers n) = true.
  Proof. by induction n. Qed.

  Lemma strip_closers n : strip_close (closers n) = ("", n).
  Proof.
    induction n as [|n IH]; [done|]. cbn [closers].
    change (")" +:+ closers n) with (String ")"%char (closers n)).
    cbn [strip_close]. by rewrite IH.
  Qed.

  Lemma strip_token s n :
    s <> "" -> last_is ")"%char s = false -> strip_close (s +:+ closers n) = (s, n).
  Proof.
    induction s as [|c s IH]; intros Hs Hl; [done|].
    change (String c s +:+ closers n) with (String c (s +:+ closers n)). cbn [strip_close].
    destruct s as [|c' s].
    - change ("" +:+ closers n) with (closers n). rewrite strip_closers. simpl in Hl. by rewrite Hl.
    - rewrite IH by done. done.
  Qed.

  Lemma step_word cur st s n : token s ->
    tup_step (cur :: st) (s +:+ closers n) = tup_close n ((cur ++ [AStr s])%list :: st).
  Proof.
    intros (Hs & _ & Hh & Hl & Hf). destruct s as [|c s]; [done|]. simpl in Hh.
    pose proof (strip_token (String c s) n Hs Hl) as HS.
    change (String c s +:+ closers n) with (String c (s +:+ closers n)) in *.
    unfold Preproc.tup_step. rewrite Hh. rewrite HS. by rewrite Hf.
  Qed.

  Lemma step_open st s n : token s ->
    tup_step st (("(" +:+ s) +:+ closers n) = tup_close n ([AStr s] :: st).
  Proof.
    intros (Hs & _ & Hh & Hl & Hf).
    change (("(" +:+ s) +:+ closers n) with (String "("%char (s +:+ closers n)).
    unfold Preproc.tup_step. rewrite Ascii.eqb_refl.
    rewrite (strip_token s n Hs Hl). destruct s; [done|]. by rewrite Hf.
  Qed.

  Lemma rfold_app {A B} (f : B -> A -> res B) b l1 l2 :
    rfold f b (l1 ++ l2)%list = rbind (rfold f b l1) (fun b => rfold f b l2).
  Proof.
    revert b. induction l1 as [|x l1 IH]; intros b; simpl; [done|].
    destruct (f b x); simpl; [apply IH|done].
  Qed.

  Lemma parse_canon :
    (forall s a, canon s a -> exists ws w,
       (forall x, split_on " "%char (s +:+ x) = (ws ++ split_on " "%char (w +:+ x))%list) /\
       no_space w = true /\
       forall cur st, exists st0, rfold tup_step (cur :: st) ws = Ok st0 /\
         forall j, tup_step st0 (w +:+ closers j) = tup_close j ((cur ++ [a])%list :: st)) /\
    (forall t l, canons t l -> forall w0, no_space w0 = true -> exists ws w,
       (forall x, split_on " "%char (w0 +:+ t +:+ x) = (ws ++ split_on " "%char (w +:+ x))%list) /\
       no_space w = true /\
       forall st0 cur st,
         (forall j, tup_step st0 (w0 +:+ closers j) = tup_close j (cur :: st)) ->
         exists st1, rfold tup_step st0 ws = Ok st1 /\
         forall j, tup_step st1 (w +:+ closers j) = tup_close j ((cur ++ l)%list :: st)).
  Proof.
    apply canon_canons_ind.
    - intros s Hs. exists [], s. split; [done|]. split; [apply Hs|].
      intros cur st. eexists. split; [done|]. intros j. by apply step_word.
    - intros s t l Hs _ IH.
      assert (Hw0 : no_space ("(" +:+ s) = true).
      { change ("(" +:+ s) with (String "("%char s). simpl. apply Hs. }
      destruct (IH ("(" +:+ s) Hw0) as (ws & w & Hsp & Hw & Hrun).
      exists ws, (w +:+ ")"). split; [|split].
      + intros x. rewrite !sapp_assoc.
        specialize (Hsp (")" +:+ x)). rewrite sapp_assoc in Hsp. exact Hsp.
      + rewrite no_space_app, Hw. done.
      + intros cur st. destruct (Hrun (cur :: st) [AStr s] (cur :: st)) as (st1 & H1 & H2).
        { intros j. by apply step_open. }
        exists st1. split; [done|]. intros j. rewrite sapp_assoc.
        change (")" +:+ closers j) with (closers (S j)). rewrite H2. simpl. done.
    - intros w0 Hw0. exists [], w0. split; [done|]. split; [done|].
      intros st0 cur st H. exists st0. split; [done|]. intros j. rewrite H. by rewrite app_nil_r.
    - intros s t a l _ (ws & w & Hsp & Hw & Hrun) _ IH w0 Hw0.
      destruct (IH w Hw) as (ws' & w' & Hsp' & Hw' & Hrun').
      exists (w0 :: ws ++ ws')%list, w'. split; [|split; [done|]].
      + intros x. rewrite !sapp_assoc. rewrite split_word_sp by done. cbn [app]. f_equal.
        rewrite Hsp. rewrite Hsp'. by rewrite <- app_assoc.
      + intros st0 cur st H. destruct (Hrun cur st) as (st1 & H1 & H2).
        destruct (Hrun' st1 (cur ++ [a])%list st H2) as (st2 & H3 & H4).
        exists st2. split.
        * cbn [rfold]. specialize (H 0). cbn [closers] in H. rewrite sapp_nil_r in H.
          rewrite H. cbn [tup_close rbind]. rewrite rfold_app, H1. exact H3.
        * intros j. rewrite H4. by rewrite <- app_assoc.
  Qed.

  Lemma tuplize_canon s a : canon s a -> head_is "("%char s = true ->
    tuplize_relation pyfloat (AStr s) = Ok a.
  Proof.
    intros Hc Hh. destruct (proj1 parse_canon s a Hc) as (ws & w & Hsp & Hw & Hrun).
    specialize (Hsp ""). rewrite !sapp_nil_r in Hsp. rewrite (split_word w Hw) in Hsp.
    destruct (Hrun [] []) as (st0 & H1 & H2). specialize (H2 0). cbn [closers] in H2.
    rewrite sapp_nil_r in H2. cbn [tup_close app] in H2.
    unfold tuplize_relation. destruct s as [|c s]; [done|]. rewrite Hh, Hsp, rfold_app, H1.
    cbn [rbind rfold]. rewrite H2. cbn [rbind last].
    inversion Hc; subst; [|done]. exfalso.
    match goal with H : token _ |- _ => destruct H as (_ & _ & HH & _) end. congruence.
  Qed.

  Lemma join_cons s ss : join_sp (s :: ss) = s +:+ match ss with [] => "" | _ => " " +:+ join_sp ss end.
  Proof. destruct ss; simpl; [by rewrite sapp_nil_r|done]. Qed.

  Lemma stringify_canon :
    (forall s a, canon s a -> stringify a = Ok (AStr s)) /\
    (forall t l, canons t l -> exists ss,
       (fix go (l : list attr) : res (list string) :=
           match l with
           | [] => Ok []
           | x :: l =>
               rbind (stringify x) (fun y =>
               match y with
               | AStr s => rbind (go l) (fun ss => Ok (s :: ss))
               | _ => Err TypeError
               end)
           end) l = Ok ss /\ forall s0, join_sp (s0 :: ss) = s0 +:+ t).
  Proof.
    apply canon_canons_ind.
    - done.
    - intros s t l Hs _ (ss & H1 & H2). cbn [stringify rbind]. rewrite H1. cbn [rbind].
      rewrite H2. by rewrite sapp_assoc.
    - exists []. split; [done|]. intros s0. simpl. by rewrite sapp_nil_r.
    - intros s t a l _ H1 _ (ss & H2 & H3). exists (s :: ss). rewrite H1. cbn [rbind]. rewrite H2.
      split; [done|]. intros s0. rewrite join_cons. by rewrite H3.
  Qed.

  (** ** Instances *)
  Lemma mapkM_ok {V} (f : attr -> res attr) (g : attr -> attr) (d : list (attr * V)) :
    Forall (fun e => f (fst e) = Ok (g (fst e))) d -> NoDup (map (fun e => g (fst e)) d) ->
    mapkM f d = Ok (map (fun e => (g (fst e), snd e)) d).
  Proof.
    intros Hf Hnd. unfold mapkM.
    assert (H : forall acc, NoDup (dkeys acc ++ map (fun e => g (fst e)) d)%list ->
      rfold (fun acc e => rbind (f (fst e)) (fun k => Ok (dset k (snd e) acc))) acc d =
      Ok (acc ++ map (fun e => (g (fst e), snd e)) d)%list).
    { clear Hnd. induction Hf as [|[k v] d Hk Hd IH]; intros acc Hnd; simpl in *.
      - by rewrite app_nil_r.
      - rewrite Hk. simpl.
        assert (g k ∉ dkeys acc).
        { apply NoDup_app in Hnd as (_ & Hx & _). intros Hin. apply (Hx _ Hin). left. }
        rewrite dset_fresh by done. rewrite IH.
        + by rewrite <- app_assoc.
        + rewrite dkeys_app. simpl. by rewrite <- app_assoc. }
    by rewrite H.
  Qed.

  (** What an attribute becomes: a canonical relation text becomes the
      relation, other strings stay. *)
  Inductive tuplized : attr -> attr -> Prop :=
    | tz_plain s : s <> "" -> head_is "("%char s = false -> tuplized (AStr s) (AStr s)
    | tz_rel s a : canon s a -> head_is "("%char s = true -> tuplized (AStr s) a.

  Lemma tuplized_transform a b : tuplized a b -> tuplize_relation pyfloat a = Ok b.
  Proof.
    destruct 1 as [s Hs Hh|s a Hc Hh]; [|by apply tuplize_canon].
    unfold tuplize_relation. destruct s; [done|]. by rewrite Hh.
  Qed.

  Lemma tuplized_undo a b : tuplized a b -> stringify b = Ok a.
  Proof. destruct 1 as [s Hs Hh|s a Hc Hh]; [done|by apply (proj1 stringify_canon)]. Qed.

  Theorem tuplizer_round_trip {V} (d d' : list (attr * V)) :
    dwf d ->
    Forall2 (fun e e' => tuplized (fst e) (fst e') /\ snd e = snd e') d d' ->
    tuplizer_transform pyfloat d = Ok d' /\ tuplizer_undo d' = Ok d.
  Proof.
    intros Hwf HF.
    set (g := fun a => match tuplize_relation pyfloat a with Ok b => b | _ => a end).
    set (h := fun a => match stringify a with Ok b => b | _ => a end).
    assert (Hg : Forall (fun e => tuplize_relation pyfloat (fst e) = Ok (g (fst e))) d).
    { induction HF as [|[k v] [k' v'] d d' [H1 H2] HF IH]; constructor.
      - simpl in *. unfold g. by rewrite (tuplized_transform _ _ H1).
      - apply IH. apply dwf_cons in Hwf. apply Hwf. }
    assert (Hd' : d' = map (fun e => (g (fst e), snd e)) d).
    { clear Hg Hwf. induction HF as [|[k v] [k' v'] d d' [H1 H2] HF IH]; simpl in *; [done|].
      f_equal; [|exact IH]. subst. f_equal. unfold g. by rewrite (tuplized_transform _ _ H1). }
    assert (Hh : Forall (fun e => stringify (fst e) = Ok (h (fst e))) d').
    { clear Hg Hwf Hd'. induction HF as [|[k v] [k' v'] d d' [H1 H2] HF IH]; constructor; [|exact IH].
      simpl in *. unfold h. by rewrite (tuplized_undo _ _ H1). }
    assert (Hd : map (fun e => (h (fst e), snd e)) d' = d).
    { clear Hg Hwf Hd' Hh. induction HF as [|[k v] [k' v'] d d' [H1 H2] HF IH]; simpl in *; [done|].
      f_equal; [|exact IH]. subst. f_equal. unfold h. by rewrite (tuplized_undo _ _ H1). }
    assert (Hk : map (fun e => h (fst e)) d' = dkeys d).
    { transitivity (dkeys (map (fun e => (h (fst e), snd e)) d')).
      - unfold dkeys. by rewrite map_map.
      - by rewrite Hd. }
    split.
    - rewrite Hd'. apply mapkM_ok; [done|].
      apply (NoDup_fmap_1 h). unfold fmap. 
      change (NoDup (map h (map (fun e => g (fst e)) d))).
      rewrite map_map. rewrite Hd', map_map in Hk. simpl in Hk. rewrite Hk. done.
    - unfold tuplizer_undo. rewrite (mapkM_ok _ h); [by rewrite Hd|done|]. by rewrite Hk.
  Qed.
End Tup.
