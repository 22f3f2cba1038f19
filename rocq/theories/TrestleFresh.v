(** * The names that TRESTLE gives to components are new *)
From stdpp Require Import base decidable list gmap strings sets.
From Coq Require Import Ascii String ZArith.
From Verif Require Import Base Num TreeModel Nominal Utils CV Cobweb3 Query Query3 PyVal Preproc Preproc2
  StructMap StructFacts PreStd Trestle SpecTree SpecTrestle TreeFun TreeScore TreeSorts TreeState TreeKeep TrestleFacts.
Set Default Proof Using "Type".
Open Scope list_scope.

(** ** NameStandardizer *)
Section Std.
  Context {X : Type}.
  Notation pv := (pv X).
  Context (pystr : attr -> string) (setord : list attr -> list attr).
  Notation std_val := (std_val (X:=X) pystr setord).
  Notation std_dict := (std_dict (X:=X) pystr setord).

  (** *** The counter never goes back, whatever happens *)
  Lemma new_sym_le o s : fst s <= fst (new_sym o s).
  Proof. unfold new_sym. destruct (dmem o (snd s)); simpl; lia. Qed.
  Lemma new_syms_le l s : fst s <= fst (fold_left (fun s o => new_sym o s) l s).
  Proof. revert s. induction l as [|o l IH]; intros s; simpl; [done|]. pose proof (new_sym_le o s). specialize (IH (new_sym o s)). lia. Qed.
  Lemma std_name_le a s : fst s <= fst (snd (std_name a s)).
  Proof. destruct a; simpl; try done. destruct (is_var s0); simpl; [apply new_sym_le|done]. Qed.

  Definition act_le (act : nstate -> res pv * nstate) : Prop := forall s, fst s <= fst (snd (act s)).
  Lemma std_entry_le e acc s : act_le (snd e) -> fst s <= fst (snd (std_entry setord e acc s)).
  Proof.
    intros He. unfold std_entry. pose proof (std_name_le (fst e) s) as H1.
    destruct (std_name (fst e) s) as [name s1]. simpl in H1. specialize (He s1).
    destruct (snd e s1) as [r s2]. simpl in He. destruct r as [v|x]; simpl; [|lia].
    destruct name as [n|l|z]; cbn [fst snd]; try lia.
    destruct (attr_comps (ATup l)) as [cs|x]; cbn [fst snd]; [|lia].
    pose proof (new_syms_le (setord cs) s2). lia.
  Qed.
  Lemma std_entries_le l : Forall (fun e => act_le (snd e)) l -> forall acc s,
    fst s <= fst (snd (std_entries setord l acc s)).
  Proof.
    induction 1 as [|e l He Hl IH]; intros acc s; simpl; [done|].
    pose proof (std_entry_le e acc s He) as H1. destruct (std_entry setord e acc s) as [[acc1|x] s1]; simpl in *; [|done].
    specialize (IH acc1 s1). lia.
  Qed.
  Lemma insert_by_Forall {B} (P : attr * B -> Prop) e l : P e -> Forall P l -> Forall P (insert_by pystr e l).
  Proof.
    intros He. induction 1 as [|x l Hx Hl IH]; simpl; [by repeat constructor|].
    destruct (String.leb _ _); repeat constructor; done.
  Qed.
  Lemma sort_by_Forall {B} (P : attr * B -> Prop) l : Forall P l -> Forall P (sort_by pystr l).
  Proof. induction 1; simpl; [constructor|]. by apply insert_by_Forall. Qed.
  Lemma std_dict_le l : Forall (fun e => act_le (snd e)) l -> forall s, fst s <= fst (snd (std_dict l s)).
  Proof.
    intros Hl s. unfold Preproc.std_dict.
    pose proof (std_entries_le (sort_by pystr l) (sort_by_Forall _ l Hl) ([], []) s) as H.
    destruct (std_entries setord (sort_by pystr l) ([], []) s) as [[[new rels]|x] s1]; done.
  Qed.
  Lemma std_val_le v : act_le (std_val v).
  Proof.
    induction v as [t|x|l IH|d IH] using pv_ind'; intros s; try done.
    - cbn [Preproc.std_val].
      match goal with |- context [(?f l s)] => set (go := f) end.
      assert (H : forall s, fst s <= fst (snd (go l s))).
      { clear s. induction IH as [|e l He Hl IHl]; intros s; [done|]. cbn [go]. fold go.
        match goal with |- _ <= fst (snd (match ?o with (_, _) => _ end)) =>
          assert (He' : fst s <= fst (snd o)) by (destruct e; first [apply He|done]);
          destruct o as [[e'|x] s1] end; simpl in He'; [|exact He'].
        specialize (IHl s1). destruct (go l s1) as [[l'|x] s2]; simpl in *; lia. }
      specialize (H s). destruct (go l s) as [[l'|x] s2]; done.
    - cbn [Preproc.std_val].
      pose proof (std_dict_le (map (fun e => (fst e, std_val (snd e))) d)) as H.
      specialize (H ltac:(apply Forall_map; exact IH) s).
      destruct (std_dict _ s) as [[d'|x] s1]; done.
  Qed.
  Lemma ns_transform_le c (d : inst X) : c <= snd (ns_transform pystr setord c d).
  Proof.
    unfold ns_transform. pose proof (std_dict_le (map (fun e => (fst e, std_val (snd e))) d)) as H.
    specialize (H ltac:(apply Forall_map, Forall_forall; intros e _; apply std_val_le) (c, [])).
    destruct (std_dict _ (c, [])) as [[d'|x] s1]; done.
  Qed.

  (** *** When it succeeds, relations were made of strings and tuples *)
  Lemma std_entry_rel e acc s acc' s' : std_entry (X:=X) setord e acc s = (Ok acc', s') ->
    rel_ok (fst e) /\ exists s1 v s2, snd e s1 = (Ok v, s2).
  Proof.
    unfold std_entry. destruct (std_name (fst e) s) as [name s1] eqn:En.
    destruct (snd e s1) as [[v|x] s2] eqn:Ev; [|done]. intros E. split; [|eauto].
    destruct (fst e) as [n|l|z]; try done. simpl in En. injection En as <- <-.
    destruct (attr_comps (ATup l)) as [cs|x] eqn:Ec; [|done]. by apply attr_comps_inv in Ec as (_ & _ & ?).
  Qed.
  Lemma std_entries_rel l : forall acc s acc' s', std_entries (X:=X) setord l acc s = (Ok acc', s') ->
    Forall (fun e => rel_ok (fst e) /\ exists s1 v s2, snd e s1 = (Ok v, s2)) l.
  Proof.
    induction l as [|e l IH]; intros acc s acc' s' E; [constructor|]. cbn [std_entries] in E.
    destruct (std_entry setord e acc s) as [[acc1|x] s1] eqn:E1; [|done].
    constructor; [by eapply std_entry_rel|by eapply IH].
  Qed.
  Lemma std_dict_rel l s d' s' : std_dict l s = (Ok d', s') ->
    Forall (fun e => rel_ok (fst e) /\ exists s1 v s2, snd e s1 = (Ok v, s2)) l.
  Proof.
    unfold Preproc.std_dict. destruct (std_entries setord (sort_by pystr l) ([], []) s) as [[[new rels]|x] s1] eqn:E; [|done].
    intros _. apply std_entries_rel in E. rewrite Forall_forall in E |- *. intros e He. apply E.
    by rewrite (sort_by_perm pystr l).
  Qed.
  Lemma std_val_rel v : pwf v -> forall s v' s', std_val v s = (Ok v', s') -> std_ok v.
  Proof.
    induction v as [t|x|l IH|d IH] using pv_ind'; intros Hw s v' s' E; try constructor.
    - inversion Hw as [| |? Hwl|]; subst. cbn [Preproc.std_val] in E.
      match type of E with context [(?f l s)] => set (go := f) in E end.
      destruct (go l s) as [[l'|x] s1] eqn:Eg; [|done]. clear E. revert s l' s1 Eg.
      induction IH as [|e l He Hl IHl]; intros s l' s1 Eg; [constructor|]. cbn [go] in Eg. fold go in Eg.
      apply Forall_cons in Hwl as [Hwe Hwl]. inversion Hw as [| |? Hwl'|]; subst.
      destruct (match e with PD _ => std_val e s | _ => (Ok e, s) end) as [[e'|x] s2] eqn:Ee; [|done].
      destruct (go l s2) as [[l2|x] s3] eqn:Eg2; [|done]. constructor.
      + intros [d ->]. by eapply He.
      + eapply (IHl ltac:(by constructor) Hwl); exact Eg2.
    - inversion Hw; subst; done.
    - cbn [Preproc.std_val] in E. destruct (std_dict _ s) as [[d'|x] s1] eqn:Ed; [|done].
      apply std_dict_rel, Forall_map in Ed. eapply Forall_impl; [exact Ed|]. by intros e [? _].
    - inversion Hw as [| | |? _ Hwd]; subst. cbn [Preproc.std_val] in E.
      destruct (std_dict _ s) as [[d'|x] s1] eqn:Ed; [|done].
      apply std_dict_rel, Forall_map in Ed. clear E.
      rewrite Forall_forall in IH, Ed, Hwd. apply Forall_forall. intros e He.
      destruct (Ed e He) as (_ & s2 & w & s3 & E). simpl in E. by eapply IH; eauto.
  Qed.
  Lemma ns_transform_rel c (d : inst X) r c' : pwf (PD d) -> ns_transform pystr setord c d = (Ok r, c') -> std_ok (PD d).
  Proof.
    intros Hw E. unfold ns_transform in E.
    destruct (std_dict (map (fun e => (fst e, std_val (snd e))) d) (c, [])) as [[d'|x] s] eqn:Ed; [|done].
    eapply (std_val_rel (PD d) Hw (c, []) (PD d') s). cbn [Preproc.std_val]. by rewrite Ed.
  Qed.

  (** *** Variables of the result *)
  Lemma pvars_peq (u v : pv) : peq u v -> forall s, s ∈ pvars u <-> s ∈ pvars v.
  Proof.
    revert v. induction u as [t|x|l IH|d IH] using pv_ind'; intros v Hp.
    - inversion Hp; subst. done.
    - inversion Hp; subst. done.
    - inversion Hp as [| |? l' HF|]; subst. clear Hp. revert l' HF.
      induction IH as [|e l He Hl IHl]; intros l' HF; inversion HF as [|? e' ? l2 Hpe HF']; subst; [done|].
      intros s. simpl. rewrite !elem_of_app. specialize (IHl _ HF' s). simpl in IHl. rewrite IHl.
      assert (H : s ∈ match e with PD _ => pvars e | _ => [] end <-> s ∈ match e' with PD _ => pvars e' | _ => [] end).
      { pose proof (He _ Hpe s) as H. inversion Hpe; subst; done. }
      by rewrite H.
    - inversion Hp as [| | |? d' e HF HP]; subst. clear Hp. intros s.
      assert (H1 : s ∈ pvars (PD d) <-> s ∈ pvars (PD d')).
      { clear HP. revert d' HF. induction IH as [|a d Ha Hd IHd]; intros d' HF; inversion HF as [|? b ? d2 [E1 E2] HF']; subst; [done|].
        simpl. rewrite !elem_of_app. specialize (IHd _ HF'). simpl in IHd. rewrite IHd, E1, (Ha _ E2 s). done. }
      rewrite H1. simpl. rewrite !elem_of_list_In, !in_flat_map. split; intros (y & Hy & Hs); exists y; (split; [|done]).
      + apply elem_of_list_In. rewrite <- HP. by apply elem_of_list_In.
      + apply elem_of_list_In. rewrite HP. by apply elem_of_list_In.
  Qed.
  Lemma pvars_prename f (v : pv) s : (forall u, u ∈ pvars v -> is_var (f u) = true) ->
    s ∈ pvars (prename f v) -> exists u, u ∈ pvars v /\ s = f u.
  Proof.
    induction v as [t|x|l IH|d IH] using pv_ind'; intros Hf Hs; simpl in *; try (by apply elem_of_nil in Hs).
    - induction IH as [|e l He Hl IHl]; simpl in *; [by apply elem_of_nil in Hs|].
      apply elem_of_app in Hs as [Hs|Hs].
      + destruct e; simpl in Hs; try (by apply elem_of_nil in Hs).
        destruct (He ltac:(intros u Hu; apply Hf, elem_of_app; by left) Hs) as (u & Hu & ->).
        exists u. split; [|done]. apply elem_of_app. by left.
      + destruct (IHl ltac:(intros u Hu; apply Hf, elem_of_app; by right) Hs) as (u & Hu & ->).
        exists u. split; [|done]. apply elem_of_app. by right.
    - induction IH as [|[a w] d Ha Hd IHd]; simpl in *; [by apply elem_of_nil in Hs|].
      rewrite !elem_of_app in Hs. destruct Hs as [[Hs|Hs]|Hs].
      + apply avars_arename in Hs as (u & Hu & ->); [|intros u Hu; apply Hf; rewrite !elem_of_app; auto].
        exists u. split; [|done]. rewrite !elem_of_app. auto.
      + destruct (Ha ltac:(intros u Hu; apply Hf; rewrite !elem_of_app; auto) Hs) as (u & Hu & ->).
        exists u. split; [|done]. rewrite !elem_of_app. auto.
      + destruct (IHd ltac:(intros u Hu; apply Hf; rewrite !elem_of_app; auto) Hs) as (u & Hu & ->).
        exists u. split; [|done]. rewrite !elem_of_app. auto.
  Qed.

  Hypothesis setord_spec : forall l x, x ∈ setord l <-> x ∈ l.

  (** Every variable of the standardised instance is a name made by this
      call. *)
  Lemma ns_transform_fresh c (d : inst X) d' rev c' : pwf (PD d) ->
    ns_transform pystr setord c d = (Ok (d', rev), c') ->
    forall v, v ∈ ivars d' -> exists n, v = gensym_name n /\ c < n <= c'.
  Proof using setord_spec.
    intros Hw E. pose proof (ns_transform_rel _ _ _ _ Hw E) as Hok.
    destruct (ns_transform_ok pystr setord setord_spec c d Hok) as (d2 & s & E2 & HG & Hdom & Hp).
    rewrite E in E2. injection E2 as -> -> ->.
    intros v Hv. apply (pvars_peq _ _ Hp) in Hv.
    change (PD (irename (fm (snd s)) d)) with (prename (fm (snd s)) (PD d)) in Hv.
    apply pvars_prename in Hv as (u & Hu & ->).
    - apply (fm_good c); [done|]. by apply Hdom.
    - intros u Hu. destruct (fm_good c s u HG) as (n & -> & _); [by apply Hdom|done].
  Qed.
End Std.

(** ** Flattening and removing sub-components introduce no variables *)
Section Flat.
  Context {X : Type}.
  Notation pv := (pv X).
  Context (Q : string -> Prop).
  Definition aQ (a : attr) : Prop := forall v, v ∈ avars a -> Q v.
  Definition keysQ {V} (d : list (attr * V)) : Prop := forall a, a ∈ dkeys d -> aQ a.

  Lemma keysQ_dset {V} k (v : V) d : aQ k -> keysQ d -> keysQ (dset k v d).
  Proof. intros Hk Hd a [->|H]%elem_of_dkeys_dset; [done|auto]. Qed.
  Lemma keysQ_dupd {V} (b a : list (attr * V)) : keysQ a -> keysQ b -> keysQ (dupd a b).
  Proof.
    unfold dupd. revert a. induction b as [|[k v] b IH]; intros a Ha Hb; simpl; [done|]. apply IH.
    - apply keysQ_dset; [|done]. apply Hb. left.
    - intros x Hx. apply Hb. by right.
  Qed.
  Lemma aQ_pair x y : aQ x -> aQ y -> aQ (ATup [x; y]).
  Proof. intros Hx Hy v Hv. simpl in Hv. rewrite !elem_of_app in Hv. destruct Hv as [?|[?|?%elem_of_nil]]; auto; done. Qed.
  Lemma aQ_tup l : Forall aQ l -> aQ (ATup l).
  Proof.
    intros H v Hv. simpl in Hv. apply elem_of_list_In, in_flat_map in Hv as (x & Hx & Hv).
    rewrite Forall_forall in H. apply (H x); by apply elem_of_list_In.
  Qed.
  Lemma aQ_tup_inv l : aQ (ATup l) -> Forall aQ l.
  Proof.
    intros H. apply Forall_forall. intros x Hx v Hv. apply H. simpl. apply elem_of_list_In, in_flat_map.
    exists x. split; by apply elem_of_list_In.
  Qed.
  Lemma flat_key_Q o a k : aQ a -> (forall o', o = Some o' -> aQ o') -> flat_key o a = Ok k -> aQ k.
  Proof.
    intros Ha Ho E. destruct o as [o|]; simpl in E; [|by injection E as <-].
    destruct (attr_ok a); [|done]. injection E as <-. specialize (Ho o eq_refl).
    destruct (hidden a); [|by apply aQ_pair]. apply aQ_pair; [|by apply aQ_pair].
    intros v Hv. by apply elem_of_nil in Hv.
  Qed.
  Definition pQ (v : pv) : Prop := forall u, u ∈ pvars v -> Q u.
  Lemma flat_val_Q v : pQ v -> forall k so, aQ k -> flat_val k v = Ok so -> keysQ so.
  Proof.
    induction v as [t|x|l IH|d IH] using pv_ind'; intros Hv k so Hk E;
      try (injection E as <-; intros a [->|Ha]%elem_of_cons; [done|by apply elem_of_nil in Ha]).
    cbn [flat_val] in E. match type of E with ?f d [] = _ => set (go := f) in E end.
    assert (H : forall acc, keysQ acc -> go d acc = Ok so -> keysQ so).
    { clear E. induction IH as [|[a w] d Ha Hd IHd]; intros acc Hacc E; cbn [go] in E; fold go in E.
      - by injection E as <-.
      - destruct (flat_key (Some k) a) as [k'|] eqn:Ek; [|done]. cbn [rbind] in E.
        destruct (flat_val k' w) as [so'|] eqn:Ev; [|done]. cbn [rbind] in E.
        assert (Hka : aQ a). { intros u Hu. apply Hv. simpl. rewrite !elem_of_app. auto. }
        assert (Hk' : aQ k'). { eapply flat_key_Q; [exact Hka| |exact Ek]. by intros o' [= <-]. }
        eapply IHd; [| |exact E].
        + intros u Hu. apply Hv. simpl. rewrite !elem_of_app. auto.
        + apply keysQ_dupd; [done|]. eapply Ha; [|exact Hk'|exact Ev].
          intros u Hu. apply Hv. simpl. rewrite !elem_of_app. auto. }
    apply (H []); [|done]. intros a Ha. by apply elem_of_nil in Ha.
  Qed.
  Lemma flatten_Q (d : inst X) f : pQ (PD d) -> flatten d = Ok f -> keysQ f.
  Proof.
    unfold flatten. intros Hd.
    assert (H : forall acc, keysQ acc ->
      rfold (fun acc e => rbind (flat_val (fst e) (snd e)) (fun so => Ok (dupd acc so))) acc d = Ok f -> keysQ f).
    { induction d as [|[a w] d IH]; intros acc Hacc E; simpl in E; [by injection E as <-|].
      destruct (flat_val a w) as [so|] eqn:Ev; [|done]. cbn [rbind] in E. eapply IH; [| |exact E].
      - intros u Hu. apply Hd. simpl. rewrite !elem_of_app. auto.
      - apply keysQ_dupd; [done|]. eapply flat_val_Q; [| |exact Ev]; intros u Hu; apply Hd; simpl; rewrite !elem_of_app; auto. }
    apply H. intros a Ha. by apply elem_of_nil in Ha.
  Qed.

  Lemma extract_Q a : aQ a -> aQ (extract_attr a).
  Proof.
    induction a as [s|l IH|z] using attr_ind'; intros Ha; [done| |done].
    pose proof (aQ_tup_inv l Ha) as Hl.
    destruct l as [|x [|y [|w l]]].
    - done.
    - simpl. apply aQ_tup. apply Forall_cons in Hl as [Hx _]. apply Forall_cons in IH as [IHx _]. by repeat constructor; auto.
    - simpl. apply Forall_cons in Hl as [Hx Hl]. apply Forall_cons in Hl as [Hy _].
      apply Forall_cons in IH as [IHx IH]. apply Forall_cons in IH as [IHy _].
      destruct (isvar x); [done|]. apply aQ_pair; auto.
    - change (aQ (ATup (map extract_attr (x :: y :: w :: l)))). apply aQ_tup. apply Forall_map.
      rewrite Forall_forall in IH, Hl. apply Forall_forall. auto.
  Qed.
  Lemma has_comp_Q i c : aQ i -> aQ c -> aQ (has_comp i c).
  Proof.
    intros Hi Hc. apply aQ_tup. constructor; [|by repeat constructor]. intros v Hv. by apply elem_of_nil in Hv.
  Qed.
  Definition stQ (st : option (attr * attr)) : Prop := forall l i, st = Some (l, i) -> aQ l /\ aQ i.
  Lemma comp_step_Q x y st : aQ x -> aQ y -> stQ st ->
    Forall aQ (fst (comp_step x y st)) /\ stQ (snd (comp_step x y st)).
  Proof.
    intros Hx Hy Hs. unfold comp_step. destruct (isvar x); simpl; [|split; [constructor|done]]. split.
    - destruct st as [[l i]|]; [|constructor]. destruct (Hs _ _ eq_refl). repeat constructor. by apply has_comp_Q.
    - intros l i [= <- <-]. split; [done|by apply extract_Q].
  Qed.
  Lemma comp_end_Q a st : stQ st -> Forall aQ (comp_end a st).
  Proof.
    intros Hs. unfold comp_end. destruct st as [[l i]|]; [|constructor]. destruct (isvar a); [|constructor].
    destruct (Hs _ _ eq_refl). repeat constructor. by apply has_comp_Q.
  Qed.

  (** A two character name is taken apart; the name ['??'] would give the
      new variable ['?']. *)
  Hypothesis HQ : ~ Q "??".

  Lemma comp_end_or a st L : stQ st -> Ok (comp_end a st) = Ok L -> Forall aQ L.
  Proof. intros Hst [= <-]. by apply comp_end_Q. Qed.
  Lemma comp_loop_Q a : aQ a -> forall st L, stQ st -> comp_loop a st = Ok L -> Forall aQ L.
  Proof using HQ.
    induction a as [s|l IH|z] using attr_ind'; intros Ha st L Hst E.
    - destruct s as [|c1 [|c2 [|c3 s]]]; [by eapply comp_end_or|by eapply comp_end_or| |by eapply comp_end_or].
      cbn [comp_loop] in E.
      set (x := AStr (String c1 "")) in *. set (y := AStr (String c2 "")) in *.
      destruct (isvar y) eqn:Ey.
      + destruct (isvar x) eqn:Ex.
        * exfalso. apply HQ. apply Ha. unfold x, y in *. unfold isvar, is_var, head_is in Ex, Ey.
          apply Ascii.eqb_eq in Ex, Ey. subst. simpl. left.
        * unfold comp_step in E. rewrite Ex in E. injection E as <-. by apply comp_end_Q.
      + assert (Ee : forall st', comp_end y st' = []) by (intros [[? ?]|]; [unfold comp_end; by rewrite Ey|done]).
        destruct (comp_step x y st) as [r st'] eqn:Es. rewrite Ee, app_nil_r in E. injection E as <-.
        unfold comp_step in Es. destruct (isvar x); injection Es as <- <-; [|constructor].
        destruct st as [[l i]|]; [|constructor]. destruct (Hst _ _ eq_refl). repeat constructor. by apply has_comp_Q.
    - destruct l as [|x [|y [|w l]]]; try (by eapply comp_end_or).
      pose proof (aQ_tup_inv _ Ha) as Hl. apply Forall_cons in Hl as [Hx Hl]. apply Forall_cons in Hl as [Hy _].
      apply Forall_cons in IH as [IHx IH]. apply Forall_cons in IH as [IHy _].
      cbn [comp_loop] in E. destruct (comp_step_Q x y st Hx Hy Hst) as [H1 H2].
      destruct (comp_step x y st) as [r st'] eqn:Es. simpl in H1, H2.
      destruct (comp_loop y st') as [r'|] eqn:El; [|done]. cbn [rbind] in E. injection E as <-.
      apply Forall_app. split; [done|]. by eapply IHy.
    - done.
  Qed.
  Lemma has_components_Q a : aQ a -> forall L, has_components a = Ok L -> Forall aQ L.
  Proof using HQ.
    induction a as [s|l IH|z] using attr_ind'; intros Ha L E; try (injection E as <-; constructor).
    assert (Hgo : forall l, Forall (fun a => aQ a -> forall L, has_components a = Ok L -> Forall aQ L) l -> Forall aQ l ->
       forall L, (fix go (l : list attr) : res (list attr) :=
         match l with
         | [] => Ok []
         | x :: l => rbind (has_components x) (fun r => rbind (go l) (fun r' => Ok (r ++ r')))
         end) l = Ok L -> Forall aQ L).
    { clear. induction l as [|x l IHl]; intros IH Hl L E.
      - injection E as <-. constructor.
      - apply Forall_cons in IH as [IHx IH]. apply Forall_cons in Hl as [Hx Hl].
        destruct (has_components x) as [r|] eqn:E1; [|done]. cbn [rbind] in E.
        match type of E with rbind ?g _ = _ => destruct g as [r'|] eqn:E2 end; [|done].
        cbn [rbind] in E. injection E as <-. apply Forall_app. split; [by eapply IHx|by eapply IHl]. }
    pose proof (aQ_tup_inv l Ha) as Hl.
    destruct l as [|x [|y [|w l]]]; try (by eapply Hgo).
    cbn [has_components] in E. eapply comp_loop_Q; [exact Ha| |exact E]. done.
  Qed.
  Lemma sub_transform_Q {V} (vt : V) d d' : keysQ d -> sub_transform vt d = Ok d' -> keysQ d'.
  Proof using HQ.
    unfold sub_transform. intros Hd.
    assert (H : forall acc, keysQ acc ->
      rfold (fun acc (e : attr * V) => rbind (has_components (fst e)) (fun rels =>
        Ok (dset (extract_attr (fst e)) (snd e) (fold_left (fun acc r => dset r vt acc) rels acc)))) acc d = Ok d' -> keysQ d').
    { induction d as [|[a w] d IH]; intros acc Hacc E; cbn [rfold] in E; [by injection E as <-|].
      cbn [fst snd] in E. destruct (has_components a) as [rels|] eqn:Ea; [|done]. cbn [rbind] in E.
      assert (Ha : aQ a) by (apply Hd; left).
      eapply IH; [| |exact E].
      - intros x Hx. apply Hd. by right.
      - apply keysQ_dset; [by apply extract_Q|].
        apply has_components_Q in Ea; [|done]. clear -Ea Hacc. revert acc Hacc.
        induction Ea as [|r rels Hr HF IH]; intros acc Hacc; simpl; [done|]. apply IH. by apply keysQ_dset. }
    apply (H []). intros a Ha. by apply elem_of_nil in Ha.
  Qed.
End Flat.

(** ** Pipelines *)
Section Pipe.
  Context {I S : Type} (cls : nat -> pproc I S).
  Lemma pipe_tr_app l1 l2 i h c :
    pipe_tr cls (l1 ++ l2) i h c =
    match pipe_tr cls l1 i h c with
    | (Ok i1, h1, c1) => pipe_tr cls l2 i1 h1 c1
    | (Err e, h1, c1) => (Err e, h1, c1)
    end.
  Proof.
    revert i h c. induction l1 as [|o l1 IH]; intros i h c; simpl; [done|].
    destruct (h !! o) as [s|]; [|done]. destruct (pp_tr (cls o) i s c) as [[[i1|e] s1] c1]; [apply IH|done].
  Qed.
  Lemma pipe_tr_other l i h c r h1 c1 o : pipe_tr cls l i h c = (r, h1, c1) -> o ∉ l -> h1 !! o = h !! o.
  Proof.
    revert i h c. induction l as [|o' l IH]; intros i h c E Ho; simpl in E; [by injection E as <- <- <-|].
    apply not_elem_of_cons in Ho as [Hne Ho].
    destruct (h !! o') as [s|]; [|by injection E as <- <- <-].
    destruct (pp_tr (cls o') i s c) as [[[i1|e] s1] c2].
    - rewrite (IH _ _ _ E Ho). by rewrite lookup_insert_ne.
    - injection E as <- <- <-. by rewrite lookup_insert_ne.
  Qed.
End Pipe.

(** Tables whose variables are among [Q]. *)
Lemma sfold_keep {S X} (f : S -> X -> S * option exn) (P : S -> Prop) (l : list X) : forall s,
  (forall s x, x ∈ l -> P s -> P (fst (f s x))) -> P s -> P (fst (sfold f s l)).
Proof.
  induction l as [|x l IH]; intros s Hf Hs; simpl; [done|].
  pose proof (Hf s x ltac:(left) Hs) as H1. destruct (f s x) as [s1 [e|]]; simpl in *; [done|].
  apply IH; [|done]. intros s2 y Hy. apply Hf. by right.
Qed.

Section Fresh.
  Context {N : NumOps} (rng : nat -> num N).
  Notation F := (num N).
  Notation C := (Cobweb3Class N).
  Notation X := (val3 N).
  Context (ncmp : nom -> nom -> option bool) (normal : F -> F -> A F).
  Context (pystr : attr -> string) (setord : list attr -> list attr) (rlimit : nat).
  Hypothesis Hnormal : forall m sd, amono (normal m sd).
  Hypothesis setord_spec : forall l x, x ∈ setord l <-> x ∈ l.
  Notation t_ready := (t_ready (N:=N) pystr setord rlimit).
  Notation t_prepare := (t_prepare (N:=N) pystr setord rlimit).
  Notation stages := (stages (N:=N) pystr setord rlimit).
  Notation trun := (trun rng ncmp normal pystr setord rlimit).
  Notation treachable := (treachable rng ncmp normal pystr setord rlimit).
  Notation tstep := (tstep rng ncmp normal pystr setord rlimit).

  Definition tabQ (Q : string -> Prop) (tb : nsum3 N) : Prop := keysQ Q (n3_av tb).

  Lemma tabQ_kept Q (j : inst3 N) : keysQ Q j -> kept C (tabQ Q) j.
  Proof.
    intros Hj. split.
    - intros a Ha. by apply elem_of_nil in Ha.
    - intros s Hs. unfold tabQ. simpl. unfold n3_inc.
      pose proof (sfold_keep (on_attr inc1) (keysQ Q) j (n3_av s)) as H.
      destruct (sfold (on_attr inc1) (n3_av s) j) as [av e]. simpl in *. apply H; [|done].
      intros av' [a v] Hin Hav. unfold on_attr. simpl. destruct (inc1 _ v) as [d e']. simpl.
      apply keysQ_dset; [|done]. apply Hj. apply elem_of_list_fmap. by exists (a, v).
    - intros s1 s2 H1 H2. unfold tabQ. simpl. unfold n3_add.
      pose proof (sfold_keep (on_attr (sfold add1)) (keysQ Q) (n3_av s2) (n3_av s1)) as H.
      destruct (sfold (on_attr (sfold add1)) (n3_av s1) (n3_av s2)) as [av e]. simpl in *. apply H; [|done].
      intros av' [a v] Hin Hav. unfold on_attr. simpl. destruct (sfold add1 _ v) as [d e']. simpl.
      apply keysQ_dset; [|done]. apply H2. apply elem_of_list_fmap. by exists (a, v).
  Qed.

  (** Names made after the counter was [c] and before it was [c']. *)
  Definition made (c c' : nat) (v : string) : Prop := exists n, v = gensym_name n /\ c < n <= c'.
  Lemma made_mono c1 c2 c3 c4 v : c1 <= c2 -> c3 <= c4 -> made c2 c3 v -> made c1 c4 v.
  Proof. intros ? ? (n & -> & ?). exists n. split; [done|lia]. Qed.
  Lemma made_pair c c' : ~ made c c' "??".
  Proof. intros (n & E & _). discriminate E. Qed.
  Lemma keysQ_mono {V} (Q Q' : string -> Prop) (d : list (attr * V)) : (forall v, Q v -> Q' v) -> keysQ Q d -> keysQ Q' d.
  Proof. intros H Hd a Ha v Hv. by apply H, (Hd a). Qed.

  Lemma sub_transform_wf {V} (vt : V) d d' : sub_transform vt d = Ok d' -> dwf d'.
  Proof.
    unfold sub_transform. assert (H : forall acc, dwf acc ->
      rfold (fun acc (e : attr * V) => rbind (has_components (fst e)) (fun rels =>
        Ok (dset (extract_attr (fst e)) (snd e) (fold_left (fun acc r => dset r vt acc) rels acc)))) acc d = Ok d' -> dwf d').
    { induction d as [|[a w] d IH]; intros acc Hacc E; cbn [rfold] in E; [by injection E as <-|].
      cbn [fst snd] in E. destruct (has_components a) as [rels|]; [|done]. cbn [rbind] in E.
      eapply IH; [|exact E]. apply dset_wf. clear -Hacc. revert acc Hacc.
      induction rels as [|r rels IH]; intros acc Hacc; simpl; [done|]. apply IH. by apply dset_wf. }
    apply (H []). apply dwf_nil.
  Qed.

  (** The instance that is given to the structure mapper. *)
  Lemma before_mapping x base orc d c r h c' : pwf (PD d) ->
    pipe_tr (stages x base orc) [0; 1; 2] d new_objs c = (r, h, c') ->
    c <= c' /\ h !! 3 = Some None /\ forall d3, r = Ok d3 -> keysQ (made c c') d3 /\ dwf d3.
  Proof using setord_spec.
    intros Hw E. assert (Hh : h !! 3 = Some None).
    { etransitivity; [exact (pipe_tr_other _ _ _ _ _ _ _ _ 3 E (bool_decide_eq_true_1 (3 ∉ [0;1;2]) eq_refl))|done]. }
    simpl in E. pose proof (ns_transform_le pystr setord c d) as Hle.
    pose proof (ns_transform_fresh pystr setord setord_spec c d) as Hf.
    destruct (ns_transform pystr setord c d) as [[[d1 rev]|e] c1]; simpl in Hle.
    2:{ injection E as <- <- <-. done. }
    specialize (Hf _ _ _ Hw eq_refl). simpl in E.
    destruct (flatten d1) as [d2|e] eqn:Efl.
    2:{ injection E as <- <- <-. done. }
    pose proof (flatten_Q (made c c1) d1 d2 Hf Efl) as Hfl. simpl in E.
    destruct (sub_transform vtrue d2) as [d3|e] eqn:Es.
    2:{ injection E as <- <- <-. done. }
    injection E as <- <- <-. split; [done|]. split; [done|]. intros d3' [= <-].
    split; [|by eapply sub_transform_wf]. eapply sub_transform_Q; [apply made_pair| |exact Es]. done.
  Qed.

  Lemma stages_split x base orc d c r h c' : pwf (PD d) ->
    pipe_tr (stages x base orc) [0; 1; 2] d new_objs c = (r, h, c') ->
    pipe_tr (stages x base orc) stage_list d new_objs c =
    match r with
    | Err e => (Err e, h, c')
    | Ok d3 => match sm_transform (mapping_cost x base d3) orc None (dkeys (n3_av base)) d3 with
               | Ok (d4, rev) => (Ok d4, <[3 := Some rev]> h, c')
               | Err e => (Err e, <[3 := None]> h, c')
               end
    end.
  Proof using setord_spec.
    intros Hw E. change stage_list with ([0; 1; 2] ++ [3]). rewrite pipe_tr_app, E.
    destruct (before_mapping _ _ _ _ _ _ _ _ Hw E) as (_ & Hh & _).
    destruct r as [d3|e]; [|done]. cbn [pipe_tr].
    change (@lookup nat pstate (gmap nat pstate) _ 3 h) with (h !! 3).
    match goal with |- context [match ?o with Some _ => _ | None => _ end] => replace o with (Some (None : pstate)) by (symmetry; exact Hh) end.
    cbn [Trestle.stages map_proc pp_tr].
    destruct (sm_transform _ _ _ _ d3) as [[d4 rev]|e]; done.
  Qed.

  Lemma kvars_Q Q (keys : list attr) : (forall a, a ∈ keys -> aQ Q a) -> forall v, kvars keys v -> Q v.
  Proof. intros H v (a & Ha & Hv). by apply (H a). Qed.

  (** The structure mapped instance only uses names made so far. *)
  Lemma mapped_names x base orc d3 d4 rev c c' : oracle_ok orc -> c <= c' -> dwf d3 ->
    keysQ (made c c') d3 -> tabQ (made 0 c) base ->
    sm_transform (mapping_cost x base d3) orc None (dkeys (n3_av base)) d3 = Ok (d4, rev) ->
    dwf d4 /\ keysQ (made 0 c') d4.
  Proof.
    intros Ho Hle Hw Hd Hb E. unfold sm_transform in E.
    destruct (flat_match _ _ _ _ _) as [m|] eqn:Em; [|done]. cbn [rbind] in E. injection E as <- <-.
    apply flat_match_ok in Em as (Hm & Hdisj & _); [|done].
    assert (HT : forall v, kvars (dkeys d3) v -> is_var v = true) by apply kvars_var.
    assert (HB : forall v, kvars (dkeys (n3_av base)) v -> is_var v = true) by apply kvars_var.
    assert (Hk : forall a v, a ∈ dkeys d3 -> v ∈ avars a -> kvars (dkeys d3) v) by (intros a v Ha Hv; by exists a).
    destruct (rename_target _ _ m Hm HT HB Hdisj d3 Hw Hk) as [Er Hw4]. split; [done|].
    rewrite Er. intros a Ha. unfold dkeys in Ha. rewrite map_map in Ha. simpl in Ha.
    apply elem_of_list_fmap in Ha as ([b w] & -> & Hin). simpl.
    assert (Hb' : b ∈ dkeys d3) by (apply elem_of_list_fmap; by exists (b, w)).
    intros v Hv. apply avars_arename in Hv as (u & Hu & ->).
    - destruct (fm_target _ _ m Hm HT HB Hdisj u (Hk _ _ Hb' Hu)) as (_ & _ & [->|H]).
      + eapply made_mono; [| |by apply (Hd b)]; lia.
      + eapply made_mono; [| |by eapply kvars_Q; [exact Hb|exact H]]; lia.
    - intros u Hu. apply (fm_target _ _ m Hm HT HB Hdisj u (Hk _ _ Hb' Hu)).
  Qed.

  Lemma prepare_names q d (s : tst N) r h s' n : pwf (PD d) -> oracle_ok (to_orc q) ->
    st_heap (t_tree s) !! st_root (t_tree s) = Some n -> tabQ (made 0 (t_sym s)) (nd_sum n) ->
    t_prepare q d s = (r, h, s') ->
    t_sym s <= t_sym s' /\ forall d4, r = Ok d4 -> dwf d4 /\ keysQ (made 0 (t_sym s')) d4.
  Proof using setord_spec.
    intros Hw Ho Hn Hb E. unfold Trestle.t_prepare in E. rewrite Hn in E.
    destruct (pipe_tr (stages (st_ctx (t_tree s)) (nd_sum n) (to_orc q)) [0; 1; 2] d new_objs (t_sym s)) as [[r3 h3] c3] eqn:E3.
    rewrite (stages_split _ _ _ _ _ _ _ _ Hw E3) in E.
    destruct (before_mapping _ _ _ _ _ _ _ _ Hw E3) as (Hle & _ & H3).
    destruct r3 as [d3|e].
    2:{ injection E as <- <- <-. simpl. done. }
    destruct (H3 _ eq_refl) as [Hk3 Hw3].
    destruct (sm_transform _ _ _ _ d3) as [[d4 rev]|e] eqn:Es; injection E as <- <- <-; simpl; [|done].
    split; [done|]. intros ? [= <-]. by eapply mapped_names.
  Qed.
  Lemma hashed_keys (d : inst X) j : hashed d = Ok j -> dkeys j = dkeys d.
  Proof.
    unfold hashed. revert j. induction d as [|[a v] d IH]; intros j E; simpl in E; [by injection E as <-|].
    destruct (scalar v) as [w|]; [|done]. cbn [rbind] in E.
    destruct (rmapM _ d) as [j'|] eqn:Ej; [|done]. cbn [rbind] in E. injection E as <-.
    simpl. f_equal. by apply IH.
  Qed.
  Lemma ready_names q d (s : tst N) r s' n : pwf (PD d) -> oracle_ok (to_orc q) ->
    st_heap (t_tree s) !! st_root (t_tree s) = Some n -> tabQ (made 0 (t_sym s)) (nd_sum n) ->
    t_ready q d s = (r, s') ->
    t_sym s <= t_sym s' /\ forall j, r = Ok j -> dwf j /\ keysQ (made 0 (t_sym s')) j /\
                                                Forall (fun a => attr_ok a = true) (dkeys j).
  Proof using setord_spec.
    intros Hw Ho Hn Hb E. unfold Trestle.t_ready in E.
    destruct (t_prepare q d s) as [[r1 h1] s1] eqn:Ep.
    destruct (prepare_names _ _ _ _ _ _ _ Hw Ho Hn Hb Ep) as [Hle Hd].
    destruct r1 as [d4|e]; [|by injection E as <- <-].
    destruct (t_sane d4) eqn:Esane; [|by injection E as <- <-]. injection E as <- <-. split; [done|].
    intros j Ej. pose proof (hashed_keys _ _ Ej) as Hk. destruct (Hd _ eq_refl) as [Hw4 Hk4].
    split; [unfold dwf; by rewrite Hk|]. split; [unfold keysQ; by rewrite Hk|]. rewrite Hk.
    unfold t_sane in Esane. simpl in Esane. apply forallb_forall with (x:=(_,_)) in Esane || idtac.
    rewrite forallb_forall in Esane. apply Forall_forall. intros a Ha.
    apply elem_of_list_fmap in Ha as ([a' w] & -> & Hin). apply elem_of_list_In in Hin.
    apply Esane in Hin. simpl in *. by apply andb_true_iff in Hin as [[? _]%andb_true_iff _].
  Qed.

  (** *** The invariant *)
  Definition names_ok (s : tst N) : Prop :=
    exists t, state_ok C (t_tree s) t /\ tall C (tabQ (made 0 (t_sym s))) t.

  Lemma root_tab s t : state_ok C (t_tree s) t -> tall C (tabQ (made 0 (t_sym s))) t ->
    exists n, st_heap (t_tree s) !! st_root (t_tree s) = Some n /\ tabQ (made 0 (t_sym s)) (nd_sum n).
  Proof.
    intros Hok Ht. pose proof (sub_table C _ _ t Hok ltac:(constructor)) as (n & Hn & En).
    exists n. rewrite (so_root _ _ _ Hok). split; [done|]. rewrite En. destruct t. by apply tall_inv in Ht as [? _].
  Qed.

  Lemma tstep_names x0 s e s' : names_ok s -> tstep x0 s e s' -> names_ok s'.
  Proof using Hnormal setord_spec.
    intros (t & Hok & Ht) Hs. destruct (root_tab _ _ Hok Ht) as (n & Hn & Hb).
    assert (Hgrown : forall s2, grown (t_tree s) (t_tree s2) -> t_sym s <= t_sym s2 -> names_ok s2).
    { intros s2 Hg Hle. exists t. split; [by eapply grown_ok|]. eapply tall_mono; [|exact Ht].
      intros tb. apply keysQ_mono. intros v. by apply made_mono. }
    destruct Hs as [s d q j r s' Hw Ho Ej E|s d q r s' Hw Ho E|s d f b q r s' Hw Ho E|s ctr rpos Hc Hp|s].
    - unfold t_fit in E. destruct (t_ready q d s) as [r1 s1] eqn:Er.
      destruct (ready_names _ _ _ _ _ _ Hw Ho Hn Hb Er) as [Hle Hj].
      pose proof (ready_grown _ _ _ _ _ _ _ _ Er) as Hg. specialize (Hgrown _ Hg Hle).
      destruct r1 as [j'|e]; [|by injection E as <- <-].
      destruct (Hj _ eq_refl) as (Hwj & Hkj & _). unfold on_tree in E.
      destruct (cobweb C rng j' (t_tree s1)) as [r2 s2] eqn:E2. injection E as <- <-.
      destruct Hgrown as (t1 & Hok1 & Ht1).
      apply (cobweb_keep C rng (tabQ (made 0 (t_sym s1))) j' (tabQ_kept _ _ Hkj) _ t1) in E2 as (t2 & Hok2 & Ht2); [|done|done].
      by exists t2.
    - unfold t_cat in E. destruct (t_ready q d s) as [r1 s1] eqn:Er.
      destruct (ready_names _ _ _ _ _ _ Hw Ho Hn Hb Er) as [Hle Hj].
      pose proof (ready_grown _ _ _ _ _ _ _ _ Er) as Hg.
      destruct r1 as [j'|e]; [|injection E as <- <-; by apply Hgrown].
      unfold on_tree in E. destruct (cobweb_categorize C rng j' (t_tree s1)) as [r2 s2] eqn:E2. injection E as <- <-.
      apply Hgrown; [|done]. simpl. eapply grown_trans; [exact Hg|]. eapply categorize_grown; [|exact E2]. by eapply grown_ok.
    - destruct (infer_grown rng ncmp normal pystr setord rlimit Hnormal _ _ _ _ _ _ _ _ Hok E) as (Hg & r1 & h1 & s1 & Ep & Esym).
      destruct (prepare_names _ _ _ _ _ _ _ Hw Ho Hn Hb Ep) as [Hle _].
      apply Hgrown; [done|]. by rewrite Esym.
    - apply Hgrown; simpl; [|done]. by repeat split.
    - destruct (clear_runs C x0 (t_tree s)) as (s2 & E2 & Hok2 & _). unfold t_clear.
      exists (T (S (am_ctr (st_amb (t_tree s)))) (nc_empty C) []). cbn [t_tree t_sym]. rewrite E2. split; [exact Hok2|].
      constructor; [|constructor]. intros a Ha. by apply elem_of_nil in Ha.
  Qed.
  Theorem treachable_names x0 evs s : treachable x0 evs s -> names_ok s.
  Proof using Hnormal setord_spec.
    intros (ctr & rpos & H). remember (t_new ctr rpos x0) as s0 eqn:E0.
    induction H as [s|s evs s1 e s2 H IH Hs]; [|eapply tstep_names; [by apply IH|done]].
    subst. eexists. split; [apply fresh_ok|]. constructor; [|constructor]. intros a Ha. by apply elem_of_nil in Ha.
  Qed.
End Fresh.
