(** * Facts about the SubComponentProcessor *)
From stdpp Require Import base decidable list strings.
From Coq Require Import Ascii String ZArith.
From Verif Require Import Base PyVal Preproc PreTuple Preproc2.
Set Default Proof Using "Type".
Open Scope string_scope.
Open Scope list_scope.

(** ** Specification: attributes in which every variable has one address.

    A flattened attribute is a chain [(name, (name, ... base))].  [addr v] is
    the rest of the chain behind the variable [v]; it is [None] for variables
    that are not inside anything. *)
Section Addr.
  Context (addr : string -> option attr).

  Fixpoint base (a : attr) : attr :=
    match a with ATup [_; y] => base y | _ => a end.
  (** The chain ends in a name; the name ['??'] is excluded because the code
      mistakes it for a pair. *)
  Definition base_ok (a : attr) : Prop := exists s, base a = AStr s /\ s <> "??".

  (** Somewhere in the chain there is a variable. *)
  Fixpoint rooted (a : attr) : bool :=
    match a with
    | ATup [x; y] => isvar x || rooted y
    | AStr s => is_var s
    | _ => false
    end.

  Inductive occ : attr -> Prop :=
    | occ_str s : addr s = None -> occ (AStr s)
    | occ_num z : occ (ANum z)
    | occ_rel l : (forall x y, l <> [x; y]) -> Forall occ l -> occ (ATup l)
    | occ_const x y : isvar x = false -> base_ok y -> occ y -> occ (ATup [x; y])
    | occ_var v y : is_var v = true -> addr v = Some y -> base_ok y -> rooted y = true ->
        occ y -> occ (ATup [AStr v; y]).

  Fixpoint vs (a : attr) : list string :=
    match a with
    | ATup [AStr s; y] => (if is_var s then [s] else []) ++ vs y
    | ATup [_; y] => vs y
    | ATup l => flat_map vs l
    | _ => []
    end.

  (** Relations that the transformation may add. *)
  Definition goodrel (r : attr) : Prop :=
    exists v y, is_var v = true /\ addr v = Some y /\ r = has_comp (extract_attr y) (AStr v).

  Lemma comp_loop_ok a : forall st, occ a -> base_ok a -> (st <> None -> rooted a = true) ->
    exists L, comp_loop a st = Ok L /\
      (forall r, r ∈ L -> goodrel r \/ exists last inner, st = Some (last, inner) /\ r = has_comp inner last) /\
      (forall last inner, st = Some (last, inner) -> has_comp inner last ∈ L) /\
      (forall v, v ∈ vs a -> exists y, addr v = Some y /\ has_comp (extract_attr y) (AStr v) ∈ L).
  Proof.
    induction a as [s|l IH|z] using attr_ind'; intros st Ho Hb Hr.
    - destruct Hb as (s' & E & Hs). simpl in E. injection E as <-. clear Ho.
      assert (Hdec : (exists c1 c2, s = String c1 (String c2 "")) \/ ~ (exists c1 c2, s = String c1 (String c2 ""))).
      { destruct s as [|c1 [|c2 [|c3 s]]]; [right|right|left; eauto|right]; by intros (? & ? & ?). }
      destruct Hdec as [(c1 & c2 & ->)|Hn].
      + assert (Hd : forall st0, exists L, comp_loop (AStr (String c1 (String c2 ""))) st0 = Ok L /\
          (L = [] /\ (st0 = None \/ is_var (String c1 (String c2 "")) = false) \/
           exists last inner, st0 = Some (last, inner) /\ L = [has_comp inner last])).
        { intros st0. simpl. unfold comp_step, isvar, is_var, head_is.
          destruct (Ascii.eqb c1 "?"%char) eqn:E1; destruct (Ascii.eqb c2 "?"%char) eqn:E2.
          - apply Ascii.eqb_eq in E1, E2. subst. done.
          - destruct st0 as [[last inner]|]; simpl; rewrite ?E2; simpl; eexists; split; try done; eauto 10.
          - destruct st0 as [[last inner]|]; simpl; rewrite ?E2; simpl; eexists; split; try done; eauto 10.
          - destruct st0 as [[last inner]|]; simpl; rewrite ?E2; simpl; eexists; split; try done; eauto 10. }
        destruct (Hd st) as (L & E & HL). exists L. split; [done|].
        destruct HL as [[-> HL]|(last & inner & -> & ->)].
        * split; [intros r H; by apply elem_of_nil in H|]. split; [|intros v H; by apply elem_of_nil in H].
          intros last inner ->. destruct HL as [HL|HL]; [done|]. specialize (Hr ltac:(done)). cbn [rooted] in Hr. congruence.
        * split; [intros r H; apply elem_of_list_singleton in H; right; eauto|].
          split; [|intros v H; by apply elem_of_nil in H].
          intros ? ? [= <- <-]. by apply elem_of_list_singleton.
      + assert (E : comp_loop (AStr s) st = Ok (comp_end (AStr s) st)).
        { destruct s as [|c1 [|c2 [|c3 s]]]; try done. exfalso. eauto. }
        exists (comp_end (AStr s) st). split; [done|]. simpl in Hr.
        destruct st as [[last inner]|]; simpl in *.
        * rewrite Hr by done.
          split; [intros r H; apply elem_of_list_singleton in H; right; eauto|].
          split; [|intros v H; by apply elem_of_nil in H].
          intros ? ? [= <- <-]. by apply elem_of_list_singleton.
        * split; [intros r H; by apply elem_of_nil in H|]. split; [done|intros v H; by apply elem_of_nil in H].
    - destruct l as [|x [|y [|? ?]]]; try (destruct Hb as (? & [=] & _)).
      apply Forall_cons in IH as [_ IH]. apply Forall_cons in IH as [IH _].
      inversion Ho as [| |? Hne|? ? Hx Hby Hy|v ? Hv Ha Hby Hry Hy]; subst.
      + by destruct (Hne x y).
      + destruct (IH st Hy Hby) as (L & E & H1 & H2 & H3).
        { intros Hs. specialize (Hr Hs). simpl in Hr. by rewrite Hx in Hr. }
        exists L. split.
        { simpl. unfold comp_step. rewrite Hx, E. done. }
        split; [done|]. split; [done|]. intros v Hin. apply H3. simpl in Hin.
        destruct x as [s| |]; try done. simpl in Hx. by rewrite Hx in Hin.
      + destruct (IH (Some (AStr v, extract_attr y)) Hy Hby) as (L & E & H1 & H2 & H3); [done|].
        exists (match st with Some (last, inner) => [has_comp inner last] | None => [] end ++ L). split.
        { simpl. unfold comp_step. simpl. rewrite Hv, E. done. }
        split; [|split].
        * intros r [Hin|Hin]%elem_of_app.
          -- destruct st as [[last inner]|]; [|by apply elem_of_nil in Hin].
             apply elem_of_list_singleton in Hin. right. eauto.
          -- left. destruct (H1 r Hin) as [?|(last & inner & [= <- <-] & ->)]; [done|]. by exists v, y.
        * intros last inner ->. apply elem_of_app. left. by apply elem_of_list_singleton.
        * intros u Hin. simpl in Hin. rewrite Hv in Hin.
          apply elem_of_app in Hin as [Hin|Hin].
          -- apply elem_of_list_singleton in Hin as ->. exists y. split; [done|].
             apply elem_of_app. right. by apply H2.
          -- destruct (H3 u Hin) as (j & E1 & E2). exists j. split; [done|]. apply elem_of_app. by right.
    - destruct Hb as (? & [=] & _).
  Qed.

  Lemma pair_or_not (l : list attr) : (exists x y, l = [x; y]) \/ (forall x y, l <> [x; y]).
  Proof. destruct l as [|x [|y [|? ?]]]; [right; done|right; done|left; eauto|right; done]. Qed.

  Lemma vs_rel l : (forall x y, l <> [x; y]) -> vs (ATup l) = flat_map vs l.
  Proof. intros Hn. destruct l as [|[] [|y [|? ?]]]; try done; by destruct (Hn _ _ eq_refl). Qed.
  Lemma extract_rel l : (forall x y, l <> [x; y]) -> extract_attr (ATup l) = ATup (map extract_attr l).
  Proof. intros Hn. destruct l as [|x [|y [|? ?]]]; try done. by destruct (Hn _ _ eq_refl). Qed.

  Lemma has_components_ok a : occ a ->
    exists L, has_components a = Ok L /\ (forall r, r ∈ L -> goodrel r) /\
      (forall v, v ∈ vs a -> exists y, addr v = Some y /\ has_comp (extract_attr y) (AStr v) ∈ L).
  Proof.
    induction a as [s|l IH|z] using attr_ind'; intros Ho.
    - exists []. split; [done|]. split; [intros r H|intros v H]; by apply elem_of_nil in H.
    - destruct (pair_or_not l) as [(x & y & ->)|Hn].
      + assert (Hb : base_ok (ATup [x; y])).
        { inversion Ho as [| |? Hne|? ? Hx Hby Hy|v ? Hv Ha Hby Hry Hy]; subst.
          - by destruct (Hne x y).
          - exact Hby.
          - exact Hby. }
        destruct (comp_loop_ok (ATup [x; y]) None Ho Hb) as (L & E & H1 & H2 & H3); [done|].
        exists L. split; [done|]. split; [|done].
        intros r Hr. destruct (H1 r Hr) as [?|(? & ? & [=] & _)]. done.
      + assert (Hg : Forall occ l).
        { inversion Ho as [| |? Hne Hl|? ? Hx Hby Hy|v ? Hv Ha Hby Hry Hy]; subst; try done.
          - by destruct (Hn _ _ eq_refl).
          - by destruct (Hn _ _ eq_refl). }
        rewrite vs_rel by done.
        assert (E : has_components (ATup l) =
          (fix go (l : list attr) : res (list attr) :=
             match l with
             | [] => Ok []
             | x :: l => rbind (has_components x) (fun r => rbind (go l) (fun r' => Ok (r ++ r')))
             end) l).
        { destruct l as [|x [|y [|? ?]]]; try done. by destruct (Hn _ _ eq_refl). }
        rewrite E. clear E Hn Ho. induction IH as [|x l Hx Hl IHl].
        * exists []. split; [done|]. split; [intros r H|intros v H]; by apply elem_of_nil in H.
        * apply Forall_cons in Hg as [Hgx Hg].
          destruct (Hx Hgx) as (L1 & E1 & A1 & B1). destruct (IHl Hg) as (L2 & E2 & A2 & B2).
          exists (L1 ++ L2). rewrite E1. cbn [rbind]. rewrite E2. split; [done|].
          split.
          -- intros r [H|H]%elem_of_app; auto.
          -- intros v [H|H]%elem_of_app.
             ++ destruct (B1 v H) as (y & ? & ?). exists y. split; [done|]. apply elem_of_app. by left.
             ++ destruct (B2 v H) as (y & ? & ?). exists y. split; [done|]. apply elem_of_app. by right.
    - exists []. split; [done|]. split; [intros r H|intros v H]; by apply elem_of_nil in H.
  Qed.

  (** ** Renaming back *)
  Fixpoint asize (a : attr) : nat :=
    match a with ATup l => S (fold_right (fun x n => asize x + n) 0 l) | _ => 1 end.

  Definition sound (m : list (attr * attr)) : Prop :=
    forall x p, dget x m = Some p -> exists v y, is_var v = true /\ addr v = Some y /\ x = AStr v /\ p = extract_attr y.

  Lemma dget_map_none m l : sound m -> dget (ATup l) m = None.
  Proof. intros Hs. destruct (dget (ATup l) m) eqn:E; [|done]. destruct (Hs _ _ E) as (v & y & _ & _ & [=] & _). Qed.

  Lemma rename_embedding_ok m a : sound m -> occ a ->
    (forall v, v ∈ vs a -> is_Some (dget (AStr v) m)) ->
    forall fuel, asize a <= fuel -> rename_embedding fuel m (extract_attr a) = Ok a.
  Proof.
    intros Hs. induction a as [s|l IH|z] using attr_ind'; intros Ho Hv fuel Hf.
    - destruct fuel as [|fuel]; [simpl in Hf; lia|]. simpl.
      destruct (dget (AStr s) m) eqn:E; [|done].
      destruct (Hs _ _ E) as (v & y & _ & H1 & [= <-] & _). inversion Ho; congruence.
    - destruct fuel as [|fuel]; [simpl in Hf; lia|].
      destruct (pair_or_not l) as [(x & y & ->)|Hn].
      + apply Forall_cons in IH as [_ IH]. apply Forall_cons in IH as [IH _].
        inversion Ho as [| |? Hne|? ? Hx Hby Hy|v ? Hvv Ha Hby Hry Hy]; subst.
        * by destruct (Hne x y).
        * cbn [extract_attr]. rewrite Hx. cbn [rename_embedding]. rewrite dget_map_none by done.
          rewrite IH; [done|done| |simpl in Hf; lia].
          intros v Hin. apply Hv. simpl. destruct x; try done. apply elem_of_app. by right.
        * cbn [extract_attr isvar]. rewrite Hvv. cbn [rename_embedding].
          destruct (Hv v) as [p Hp].
          { simpl. rewrite Hvv. left. }
          rewrite Hp. destruct (Hs _ _ Hp) as (v' & y' & _ & Ha' & [= <-] & ->).
          rewrite Ha in Ha'. injection Ha' as <-.
          rewrite IH; [done|done| |simpl in Hf; lia].
          intros u Hin. apply Hv. simpl. apply elem_of_app. by right.
      + rewrite extract_rel by done. cbn [rename_embedding]. rewrite dget_map_none by done.
        assert (Hm : rmapM (rename_embedding fuel m) (map extract_attr l) = Ok l).
        { assert (Hg : Forall occ l).
          { inversion Ho as [| |? Hne Hl|? ? Hx Hby Hy|v ? Hvv Ha Hby Hry Hy]; subst; try done.
            - by destruct (Hn _ _ eq_refl).
            - by destruct (Hn _ _ eq_refl). }
          rewrite vs_rel in Hv by done. simpl in Hf. clear Ho Hn.
          induction IH as [|x l Hx Hl IHl]; [done|].
          apply Forall_cons in Hg as [Hgx Hg]. simpl in Hf. simpl.
          rewrite Hx; [|done| |lia].
          2:{ intros v Hin. apply Hv. simpl. apply elem_of_app. by left. }
          simpl. rewrite IHl; [done| |lia|done].
          intros v Hin. apply Hv. simpl. apply elem_of_app. by right. }
        destruct l as [|x [|y [|? ?]]]; cbn [map] in *; try by rewrite Hm.
        by destruct (Hn _ _ eq_refl).
    - destruct fuel as [|fuel]; [simpl in Hf; lia|]. simpl.
      destruct (dget (ANum z) m) eqn:E; [|done]. destruct (Hs _ _ E) as (v & y & _ & _ & [=] & _).
  Qed.

  (** ** The instance *)
  Context {V : Type} (vtrue : V).
  Implicit Types d : list (attr * V).

  Definition keep (e : attr * V) : bool :=
    match is_has_comp (fst e) with Some _ => false | None => true end.

  Lemma dset_keys_In k v d x : x ∈ dkeys (dset k v d) <-> x = k \/ x ∈ dkeys d.
  Proof. apply elem_of_dkeys_dset. Qed.

  Lemma filter_drop k v d : keep (k, v) = false ->
    List.filter keep (dset k v d) = List.filter keep d.
  Proof.
    intros Hk. induction d as [|[k' v'] d IH]; simpl.
    - by rewrite Hk.
    - case_decide as E; simpl.
      + subst. unfold keep in *. simpl in *. by rewrite Hk.
      + by rewrite IH.
  Qed.
  Lemma filter_new k v d : keep (k, v) = true -> k ∉ dkeys d ->
    List.filter keep (dset k v d) = List.filter keep d ++ [(k, v)].
  Proof. intros Hk Hn. rewrite dset_fresh by done. rewrite List.filter_app. simpl. by rewrite Hk. Qed.

  Lemma goodrel_drop r v : goodrel r -> keep (r, v) = false.
  Proof. intros (u & y & _ & _ & ->). done. Qed.

  Lemma extract_not_has a v : is_has_comp a = None -> keep (extract_attr a, v) = true.
  Proof.
    intros H. unfold keep. simpl. destruct a as [s|l|z]; try done.
    destruct l as [|x [|y [|w [|? ?]]]]; try done.
    - simpl. destruct (isvar x) eqn:E; [|done]. destruct x; done.
    - simpl in *. destruct (decide (x = AStr "has-component")) as [->|Hn]; [done|].
      rewrite decide_False; [done|]. intros E. apply Hn.
      destruct x as [s|l|z]; try done. simpl in E.
      destruct l as [|x [|? [|? ?]]]; try done. destruct (isvar x) eqn:E'; [|done]. subst. done.
  Qed.

  Lemma sub_fold_rels rels acc : Forall goodrel rels ->
    List.filter keep (fold_left (fun acc r => dset r vtrue acc) rels acc) = List.filter keep acc /\
    (forall x, x ∈ dkeys (fold_left (fun acc r => dset r vtrue acc) rels acc) <-> x ∈ rels \/ x ∈ dkeys acc).
  Proof.
    revert acc. induction rels as [|r rels IH]; intros acc HF; simpl.
    - split; [done|]. intros x. split; [auto|]. intros [H|H]; [by apply elem_of_nil in H|done].
    - apply Forall_cons in HF as [Hr HF]. destruct (IH (dset r vtrue acc) HF) as [H1 H2].
      split.
      + rewrite H1. by rewrite filter_drop by by apply goodrel_drop.
      + intros x. rewrite H2, dset_keys_In, elem_of_cons. tauto.
  Qed.

  (** [sub_transform] as a loop with accumulator. *)
  Definition sub_step (acc : list (attr * V)) (e : attr * V) :=
    rbind (has_components (fst e)) (fun rels =>
      Ok (dset (extract_attr (fst e)) (snd e) (fold_left (fun acc r => dset r vtrue acc) rels acc))).

  Lemma in_filter_keep k d : (exists v, keep (k, v) = true) -> k ∈ dkeys d -> k ∈ dkeys (List.filter keep d).
  Proof.
    intros [v Hk] Hin. unfold dkeys in *. apply elem_of_list_fmap in Hin as ([k' w] & -> & Hin).
    apply elem_of_list_fmap. exists (k', w). split; [done|]. apply elem_of_list_In, filter_In.
    split; [by apply elem_of_list_In|done].
  Qed.

  Lemma sub_fold d : Forall (fun e => occ (fst e) /\ is_has_comp (fst e) = None) d ->
    forall acc, (forall x, x ∈ dkeys acc -> goodrel x \/ keep (x, vtrue) = true) ->
      NoDup (dkeys (List.filter keep acc) ++ map (fun e => extract_attr (fst e)) d) ->
    exists acc', rfold sub_step acc d = Ok acc' /\
      List.filter keep acc' = List.filter keep acc ++ map (fun e => (extract_attr (fst e), snd e)) d /\
      (forall x, x ∈ dkeys acc' -> goodrel x \/ keep (x, vtrue) = true) /\
      (forall x, x ∈ dkeys acc -> x ∈ dkeys acc') /\
      (forall e v, e ∈ d -> v ∈ vs (fst e) -> exists y, addr v = Some y /\ has_comp (extract_attr y) (AStr v) ∈ dkeys acc').
  Proof.
    induction d as [|[a v] d IH]; intros HF acc Hacc Hnd.
    - exists acc. simpl. rewrite app_nil_r. split; [done|]. split; [done|]. split; [done|]. split; [done|].
      intros e v H. by apply elem_of_nil in H.
    - apply Forall_cons in HF as [[Ho Hh] HF]. simpl in Ho, Hh.
      destruct (has_components_ok a Ho) as (L & E & HL & HvL).
      assert (HLF : Forall goodrel L) by by apply Forall_forall.
      destruct (sub_fold_rels L acc HLF) as [HA HB].
      set (acc1 := fold_left (fun acc r => dset r vtrue acc) L acc) in *.
      assert (Hk : keep (extract_attr a, v) = true) by by apply extract_not_has.
      assert (Hfresh : extract_attr a ∉ dkeys acc1).
      { intros Hin. simpl in Hnd. apply NoDup_app in Hnd as (_ & Hx & _).
        apply (Hx (extract_attr a)); [|left]. rewrite <- HA. apply in_filter_keep; [by exists v|done]. }
      cbn [rfold sub_step fst snd]. unfold sub_step. cbn [fst snd]. rewrite E. cbn [rbind]. fold acc1.
      destruct (IH HF (dset (extract_attr a) v acc1)) as (acc' & E' & H1 & H2 & H3 & H4).
      + intros x Hx. apply dset_keys_In in Hx as [->|Hx]; [right; exact Hk|].
        apply HB in Hx as [Hx|Hx]; [left; by apply HL|by apply Hacc].
      + rewrite filter_new by done. rewrite HA, dkeys_app. simpl. rewrite <- app_assoc. exact Hnd.
      + exists acc'. split; [exact E'|]. split.
        { rewrite H1, filter_new, HA by done. simpl. by rewrite <- app_assoc. }
        split; [done|]. split.
        { intros x Hx. apply H3. apply dset_keys_In. right. apply HB. by right. }
        intros e u He Hu. apply elem_of_cons in He as [->|He]; [|by apply (H4 e)].
        destruct (HvL u Hu) as (y & H5 & H6). exists y. split; [done|]. apply H3, dset_keys_In.
        right. apply HB. by left.
  Qed.

  Lemma so_mapping_gen d : forall m,
    let f := fun (m : list (attr * attr)) (e : attr * V) => match is_has_comp (fst e) with
                          | Some (p, c) => dset c p m
                          | None => m
                          end in
    (forall x p, dget x (fold_left f d m) = Some p ->
       dget x m = Some p \/ exists k, k ∈ dkeys d /\ is_has_comp k = Some (p, x)) /\
    (forall k p x, k ∈ dkeys d -> is_has_comp k = Some (p, x) -> is_Some (dget x (fold_left f d m))) /\
    (forall x, is_Some (dget x m) -> is_Some (dget x (fold_left f d m))).
  Proof.
    induction d as [|[k v] d IH]; intros m f; simpl.
    - split; [auto|]. split; [|done]. intros k p x H. by apply elem_of_nil in H.
    - destruct (IH (f m (k, v))) as (H1 & H2 & H3). split; [|split].
      + intros x p H. destruct (H1 x p H) as [H'|(k' & Hk' & E)].
        * unfold f in H'. simpl in H'. destruct (is_has_comp k) as [[p' c]|] eqn:E; [|by left].
          rewrite dget_dset in H'. case_decide as Hd; [|by left].
          injection H' as <-. subst. right. exists k. split; [left|done].
        * right. exists k'. split; [by right|done].
      + intros k' p x [->|Hin]%elem_of_cons E; [|by apply (H2 k' p)].
        apply H3. unfold f. simpl. rewrite E. rewrite dget_dset_eq. by eexists.
      + intros x Hx. apply H3. unfold f. simpl. destruct (is_has_comp k) as [[p' c]|] eqn:E; [|done].
        rewrite dget_dset. case_decide; [by eexists|done].
  Qed.

  Definition maxsize d : nat := fold_right (fun e n => asize (fst e) + n) 0 d.

  Lemma is_has_comp_inv a p x : is_has_comp a = Some (p, x) -> a = has_comp p x.
  Proof.
    destruct a as [|[|x0 [|x1 [|x2 [|? ?]]]]|]; simpl; try done. case_decide; [|done]. subst.
    intros [= <- <-]. done.
  Qed.

  Theorem sub_round_trip_rels d : dwf d ->
    Forall (fun e => occ (fst e) /\ is_has_comp (fst e) = None) d ->
    exists d', sub_transform vtrue d = Ok d' /\
      List.filter keep d' = map (fun e => (extract_attr (fst e), snd e)) d /\
      (forall x, x ∈ dkeys d' -> is_has_comp x <> None -> goodrel x) /\
      (forall e v, e ∈ d -> v ∈ vs (fst e) -> exists y, addr v = Some y /\ has_comp (extract_attr y) (AStr v) ∈ dkeys d') /\
      forall fuel, maxsize d <= fuel -> sub_undo fuel d' = Ok d.
  Proof.
    intros Hwf HF.
    (* a mapping that contains everything *)
    assert (Hinj : NoDup (map (fun e => extract_attr (fst e)) d)).
    { set (ms := flat_map (fun e => vs (fst e)) d).
      set (m := flat_map (fun v => match addr v with
                   | Some y => if is_var v then [(AStr v, extract_attr y)] else [] | None => [] end) ms).
      assert (Hs : sound m).
      { intros x p E. apply dget_In in E. unfold m in E. apply elem_of_list_In, in_flat_map in E as (v & Hv & E).
        destruct (addr v) eqn:Ea; [|done]. destruct (is_var v) eqn:Ev; [|done].
        destruct E as [[= <- <-]|[]]. by exists v, a. }
      assert (Hg : forall e, e ∈ d -> forall v, v ∈ vs (fst e) -> is_Some (dget (AStr v) m)).
      { intros e He v Hv. rewrite Forall_forall in HF. destruct (HF e He) as [Ho _].
        destruct (has_components_ok (fst e) Ho) as (L & _ & HL & HvL).
        destruct (HvL v Hv) as (y & Ha & Hin). destruct (HL _ Hin) as (v' & y' & Hvar & _ & [= _ <-]).
        destruct (dget (AStr v) m) eqn:E; [by eexists|]. exfalso.
        apply dget_None in E. apply E. unfold dkeys. apply elem_of_list_fmap.
        exists (AStr v, extract_attr y). split; [done|]. apply elem_of_list_In. unfold m. apply in_flat_map.
        exists v. split.
        - unfold ms. apply in_flat_map. exists e. split; by apply elem_of_list_In.
        - rewrite Ha, Hvar. by left. }
      unfold dwf, dkeys in Hwf.
      apply (NoDup_fmap_1 (fun a => match rename_embedding (maxsize d) m a with Ok b => b | _ => a end)).
      unfold fmap. change (NoDup (map (fun a => match rename_embedding (maxsize d) m a with Ok b => b | _ => a end)
        (map (fun e => extract_attr (fst e)) d))).
      rewrite map_map.
      replace (map _ d) with (map fst d); [done|].
      assert (HH : forall d0, (forall e, e ∈ d0 -> e ∈ d) -> map fst d0 = map (fun x : attr * V =>
         match rename_embedding (maxsize d) m (extract_attr (fst x)) with Ok b => b | Err _ => extract_attr (fst x) end) d0).
      { intros d0. induction d0 as [|e d0 IHd]; intros Hsub; [done|]. simpl. f_equal.
        - rewrite rename_embedding_ok; [done|done| | |].
          + rewrite Forall_forall in HF. apply HF. apply Hsub. left.
          + apply Hg. apply Hsub. left.
          + assert (He : e ∈ d) by (apply Hsub; left). clear -He.
            induction d as [|e' d IH]; [by apply elem_of_nil in He|]. simpl.
            apply elem_of_cons in He as [->|He]; [lia|]. specialize (IH He). lia.
        - apply IHd. intros x Hx. apply Hsub. by right. }
      by apply HH. }
    destruct (sub_fold d HF []) as (d' & E & H1 & H2 & _ & H4); [|done|].
    { intros x H. by apply elem_of_nil in H. }
    exists d'. split; [exact E|]. split; [exact H1|]. split.
    { intros x Hx Hh. destruct (H2 x Hx) as [?|Hk]; [done|]. unfold keep in Hk. simpl in Hk.
      by destruct (is_has_comp x). }
    split; [exact H4|].
    intros fuel Hfuel. unfold sub_undo. fold keep. 
    assert (Hs : sound (so_mapping d')).
    { intros x p Ex. destruct (so_mapping_gen d' []) as (G1 & _ & _).
      destruct (G1 x p Ex) as [H|(k & Hk & Ek)]; [done|].
      destruct (H2 k Hk) as [(v & y & Hv & Ha & ->)|Hkeep].
      - simpl in Ek. injection Ek as <- <-. by exists v, y.
      - unfold keep in Hkeep. simpl in Hkeep. by rewrite Ek in Hkeep. }
    assert (Hg : forall e, e ∈ d -> rename_embedding fuel (so_mapping d') (extract_attr (fst e)) = Ok (fst e)).
    { intros e He. apply rename_embedding_ok; [done| | |].
      - rewrite Forall_forall in HF. by apply HF.
      - intros v Hv. destruct (H4 e v He Hv) as (y & Ha & Hin).
        destruct (so_mapping_gen d' []) as (_ & G2 & _). by apply (G2 _ (extract_attr y) (AStr v) Hin).
      - transitivity (maxsize d); [|done]. clear -He.
        induction d as [|e' d IH]; [by apply elem_of_nil in He|]. simpl.
        apply elem_of_cons in He as [->|He]; [lia|]. specialize (IH He). lia. }
    change (mapkM (rename_embedding fuel (so_mapping d')) (List.filter keep d') = Ok d).
    rewrite H1. simpl.
    set (g := fun a => match rename_embedding fuel (so_mapping d') a with Ok b => b | _ => a end).
    assert (Hgg : forall e, e ∈ d -> g (extract_attr (fst e)) = fst e).
    { intros e He. unfold g. by rewrite Hg. }
    assert (Hmap : forall d0, (forall e, e ∈ d0 -> e ∈ d) ->
      map (fun e => (g (fst e), snd e)) (map (fun e : attr * V => (extract_attr (fst e), snd e)) d0) = d0).
    { intros d0. induction d0 as [|[k v] d0 IHd]; intros Hsub; [done|]. simpl. f_equal.
      - f_equal. apply (Hgg (k, v)). apply Hsub. left.
      - apply IHd. intros x Hx. apply Hsub. by right. }
    rewrite (mapkM_ok _ g).
    - f_equal. by apply Hmap.
    - apply Forall_forall. intros e He. apply elem_of_list_fmap in He as (e' & -> & He'). simpl.
      rewrite Hg by done. by rewrite Hgg.
    - assert (Hk : map (fun e => g (fst e)) (map (fun e : attr * V => (extract_attr (fst e), snd e)) d) =
        map fst (map (fun e => (g (fst e), snd e)) (map (fun e : attr * V => (extract_attr (fst e), snd e)) d))).
      { by rewrite !map_map. }
      rewrite Hk, Hmap by done. done.
  Qed.

  Theorem sub_round_trip d : dwf d ->
    Forall (fun e => occ (fst e) /\ is_has_comp (fst e) = None) d ->
    exists d', sub_transform vtrue d = Ok d' /\
      List.filter keep d' = map (fun e => (extract_attr (fst e), snd e)) d /\
      (forall x, x ∈ dkeys d' -> is_has_comp x <> None -> goodrel x) /\
      forall fuel, maxsize d <= fuel -> sub_undo fuel d' = Ok d.
  Proof.
    intros Hw HF. destruct (sub_round_trip_rels d Hw HF) as (d' & H1 & H2 & H3 & _ & H4). by exists d'.
  Qed.
End Addr.
