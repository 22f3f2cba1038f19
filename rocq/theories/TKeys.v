(** * The attributes TRESTLE's trees are about, and embedding components back
    into their owners when relations were added *)
From stdpp Require Import base decidable list strings.
From Coq Require Import Ascii String ZArith.
From Verif Require Import Base PyVal Preproc PreTuple PreStd PreFlat Preproc2 PreSub PreObj StructMap StructFacts PathLook.
Set Default Proof Using "Type".
Open Scope string_scope.
Open Scope list_scope.

(** ** The attributes of flattened instances without embedded components *)
(** The name of attribute [a] of component [u]. *)
Definition ckey (a u : string) : attr :=
  if hidden (AStr a) then ATup [AStr "_"; ATup [AStr a; AStr u]] else ATup [AStr a; AStr u].

Inductive tkey : attr -> Prop :=
| tk_plain s : is_var s = false -> tkey (AStr s)
| tk_rel l : List.length l <> 2 -> is_has_comp (ATup l) = None -> Forall (fun x => exists s, x = AStr s) l -> tkey (ATup l)
| tk_comp a u : is_var a = false -> a <> "_" -> is_var u = true -> tkey (ckey a u)
| tk_has p c : is_var p = true -> is_var c = true -> tkey (has_comp (AStr p) (AStr c)).

Lemma is_var_ne s t : is_var s = true -> is_var t = false -> s <> t.
Proof. intros H1 H2 ->. congruence. Qed.

Lemma arename_ckey f a u : is_var a = false -> is_var u = true -> arename f (ckey a u) = ckey a (f u).
Proof.
  intros Ha Hu. unfold ckey. destruct (hidden (AStr a)); cbn [arename map]; rewrite Ha, Hu; done.
Qed.
Lemma avars_ckey a u v : is_var a = false -> is_var u = true -> v ∈ avars (ckey a u) <-> v = u.
Proof.
  intros Ha Hu. unfold ckey. destruct (hidden (AStr a)); simpl; rewrite Ha, Hu; simpl; by rewrite elem_of_list_singleton.
Qed.

Lemma tkey_rename f a : (forall v, v ∈ avars a -> is_var (f v) = true) -> tkey a -> tkey (arename f a).
Proof.
  intros Hf Ha. destruct Ha as [s Hs|l Hl Hh HF|a u H1 H2 H3|p c H1 H2].
  - simpl. rewrite Hs. by constructor.
  - cbn [arename]. apply tk_rel.
    + by rewrite map_length.
    + destruct l as [|x [|y [|z [|? ?]]]]; try done. cbn [map is_has_comp] in *.
      destruct (decide (arename f x = AStr "has-component")) as [E|]; [|done].
      rewrite decide_True in Hh; [done|]. apply Forall_cons in HF as [(s & ->) _]. cbn [arename] in E.
      destruct (is_var s) eqn:Es; [|done]. injection E as E.
      assert (H : is_var (f s) = true) by (apply Hf; simpl; rewrite Es; left). by rewrite E in H.
    + apply Forall_map. eapply Forall_impl; [exact HF|]. intros x (s & ->). simpl. destruct (is_var s); eauto.
  - rewrite arename_ckey by done. apply tk_comp; [done|done|]. apply Hf. by apply avars_ckey.
  - unfold has_comp. cbn [arename map]. rewrite H1, H2. cbn [is_var].
    change (tkey (has_comp (AStr (f p)) (AStr (f c)))). constructor; apply Hf; simpl; rewrite H1, H2; [left|right; left].
Qed.

(** ** [_rename_embedding] *)
Section Emb.
  Context (m : list (attr * attr)).
  Context (Hm : forall x y, dget x m = Some y -> exists u w, x = AStr u /\ y = AStr w /\ is_var u = true /\ is_var w = true).

  (** Component [u] is embedded as [x], at the path [p]. *)
  Inductive emb : string -> attr -> list string -> Prop :=
  | emb_top u : dget (AStr u) m = None -> emb u (AStr u) [u]
  | emb_in u w x p : dget (AStr u) m = Some (AStr w) -> emb w x p -> emb u (ATup [AStr u; x]) (p ++ [u]).

  Lemma emb_head u x p : emb u x p -> forall u' p', emb u' x p' -> u = u'.
  Proof. intros [?|????] u' p' H'; inversion H'; congruence. Qed.
  Lemma emb_last u x p : emb u x p -> exists p', p = p' ++ [u].
  Proof. intros [?|? ? ? p' _]; [by exists []|by exists p']. Qed.
  Lemma emb_path u x p : is_var u = true -> emb u x p -> get_path x = map AStr p.
  Proof using Hm.
    intros Hu H. induction H as [u Hg|u w x p Hg H IH]; [done|].
    destruct (Hm _ _ Hg) as (u' & w' & [= <-] & [= <-] & _ & Hw). cbn [get_path].
    rewrite decide_False by (intros [= ->]; discriminate Hu). rewrite IH by done. by rewrite map_app.
  Qed.
  Lemma emb_vars (S : string -> Prop) u x p : (forall u w, dget (AStr u) m = Some (AStr w) -> S w) ->
    is_var u = true -> S u -> emb u x p -> Forall (fun u => is_var u = true /\ S u) p.
  Proof using Hm.
    intros HS Hu HSu H. induction H as [u Hg|u w x p Hg H IH]; [by repeat constructor|].
    destruct (Hm _ _ Hg) as (u' & w' & [= <-] & [= <-] & _ & Hw). apply Forall_app. split; [|by repeat constructor].
    apply IH; [done|by eapply HS].
  Qed.
  Lemma emb_avars (S : string -> Prop) u x p : (forall u w, dget (AStr u) m = Some (AStr w) -> S w) ->
    S u -> emb u x p -> forall v, v ∈ avars x -> S v.
  Proof using Hm.
    intros HS HSu H. induction H as [u Hg|u w x p Hg H IH]; intros v Hv; simpl in Hv.
    - destruct (is_var u); [by apply elem_of_list_singleton in Hv as ->|by apply elem_of_nil in Hv].
    - apply elem_of_app in Hv as [Hv|Hv].
      + destruct (is_var u); [by apply elem_of_list_singleton in Hv as ->|by apply elem_of_nil in Hv].
      + rewrite app_nil_r in Hv. apply IH; [|done]. by eapply HS.
  Qed.

  Lemma rename_emb fuel : forall u x, is_var u = true -> rename_embedding fuel m (AStr u) = Ok x -> exists p, emb u x p.
  Proof using Hm.
    induction fuel as [|fuel IH]; intros u x Hu E; [done|]. cbn [rename_embedding] in E.
    destruct (dget (AStr u) m) as [y|] eqn:Eg.
    - destruct (Hm _ _ Eg) as (u' & w & [= <-] & -> & _ & Hw).
      destruct (rename_embedding fuel m (AStr w)) as [x'|] eqn:Ex; [|done]. injection E as <-.
      destruct (IH _ _ Hw Ex) as (p & Hp). exists (p ++ [u]). by eapply emb_in.
    - injection E as <-. exists [u]. by constructor.
  Qed.
  Lemma rename_nonvar fuel s x : is_var s = false -> rename_embedding fuel m (AStr s) = Ok x -> x = AStr s.
  Proof using Hm.
    intros Hs E. destruct fuel as [|fuel]; [done|]. cbn [rename_embedding] in E.
    destruct (dget (AStr s) m) as [y|] eqn:Eg; [|by injection E].
    destruct (Hm _ _ Eg) as (u' & w & [= <-] & -> & Hw & _). congruence.
  Qed.
  Lemma dget_tup l : dget (ATup l) m = None.
  Proof using Hm. destruct (dget (ATup l) m) eqn:E; [|done]. by destruct (Hm _ _ E) as (? & ? & ? & _). Qed.

  (** An attribute and what it becomes. *)
  Inductive ekey : attr -> attr -> Prop :=
  | ek_plain s : is_var s = false -> ekey (AStr s) (AStr s)
  | ek_rel l l' : List.length l <> 2 -> List.length l' <> 2 ->
      Forall2 (fun x x' => exists s, x = AStr s /\ (is_var s = false /\ x' = AStr s \/ is_var s = true /\ exists p, emb s x' p)) l l' ->
      ekey (ATup l) (ATup l')
  | ek_comp a u x p : is_var a = false -> a <> "_" -> is_var u = true -> emb u x p ->
      ekey (ckey a u) (if hidden (AStr a) then ATup [AStr "_"; ATup [AStr a; x]] else ATup [AStr a; x]).

  Lemma rename_tkey fuel k k' : tkey k -> is_has_comp k = None -> rename_embedding fuel m k = Ok k' -> ekey k k'.
  Proof using Hm.
    intros Hk Hh E. destruct Hk as [s Hs|l Hl _ HF|a u H1 H2 H3|p c H1 H2].
    - apply rename_nonvar in E as ->; [|done]. by constructor.
    - destruct fuel as [|fuel]; [done|]. cbn [rename_embedding] in E. rewrite dget_tup in E.
      assert (E' : (let? l' := rmapM (rename_embedding fuel m) l in Ok (ATup l')) = Ok k').
      { destruct l as [|x [|y [|z l]]]; [exact E|exact E|by destruct Hl|exact E]. }
      destruct (rmapM _ l) as [l'|] eqn:El; [|done]. injection E' as <-.
      assert (HF2 : Forall2 (fun x x' => exists s, x = AStr s /\ (is_var s = false /\ x' = AStr s \/ is_var s = true /\ exists p, emb s x' p)) l l').
      { clear -El HF Hm. revert l' El. induction HF as [|x l (s & ->) HF IH]; intros l' El; simpl in El; [injection El as <-; constructor|].
        destruct (rename_embedding fuel m (AStr s)) as [x'|] eqn:Ex; [|done]. cbn [rbind] in El.
        destruct (rmapM _ l) as [l1|]; [|done]. injection El as <-. constructor; [|by apply IH]. exists s. split; [done|].
        destruct (is_var s) eqn:Es; [right|left]; (split; [done|]); [by eapply rename_emb|by eapply rename_nonvar]. }
      apply ek_rel; [done| |done]. by rewrite <- (Forall2_length _ _ _ HF2).
    - assert (Hin : forall fuel y, rename_embedding fuel m (ATup [AStr a; AStr u]) = Ok y -> exists x p, y = ATup [AStr a; x] /\ emb u x p).
      { intros [|fl] y Ey; [done|]. cbn [rename_embedding] in Ey. rewrite dget_tup in Ey.
        destruct (rename_embedding fl m (AStr u)) as [x|] eqn:Ex; [|done]. injection Ey as <-.
        apply rename_emb in Ex as (p & Hp); [|done]. by exists x, p. }
      pose proof (ek_comp a u) as Hek. revert E Hek. unfold ckey. destruct (hidden (AStr a)) eqn:Eh; intros E Hek.
      + destruct fuel as [|fuel]; [done|]. cbn [rename_embedding] in E. rewrite dget_tup in E.
        destruct (rename_embedding fuel m (ATup [AStr a; AStr u])) as [y|] eqn:Ey; [|done]. injection E as <-.
        destruct (Hin _ _ Ey) as (x & p & -> & Hp). by apply (Hek x p).
      + destruct (Hin _ _ E) as (x & p & -> & Hp). by apply (Hek x p).
    - done.
  Qed.

  (** The path of what it becomes. *)
  Lemma ekey_path k k' : ekey k k' ->
    (exists s, k = AStr s /\ is_var s = false /\ get_path k' = [AStr s]) \/
    (exists l l', k = ATup l /\ k' = ATup l' /\ List.length l <> 2 /\ get_path k' = [ATup l']) \/
    (exists a u x p, k = ckey a u /\ is_var a = false /\ a <> "_" /\ is_var u = true /\ emb u x p /\ get_path k' = map AStr p ++ [AStr a]).
  Proof using Hm.
    intros [s Hs|l l' Hl Hl' HF|a u x p H1 H2 H3 He].
    - left. by exists s.
    - right. left. exists l, l'. split; [done|]. split; [done|]. split; [done|]. apply get_path_nonpair.
      destruct l' as [|? [|? [|? ?]]]; done.
    - right. right. exists a, u, x, p. repeat (split; [done|]).
      assert (Hp : get_path (ATup [AStr a; x]) = map AStr p ++ [AStr a]).
      { cbn [get_path]. rewrite decide_False by (intros [= ->]; done). by rewrite (emb_path u x p). }
      destruct (hidden (AStr a)); [|done]. cbn [get_path] in *. rewrite decide_True by done. exact Hp.
  Qed.

  Lemma one_long (x a : attr) p u : [x] = map AStr (p ++ [u]) ++ [a] -> False.
  Proof. intros E. apply (f_equal (@List.length attr)) in E. rewrite app_length, map_length, app_length in E. simpl in E. lia. Qed.
  Lemma ekey_inj k1 k1' k2 k2' : ekey k1 k1' -> ekey k2 k2' -> get_path k1' = get_path k2' -> k1 = k2.
  Proof using Hm.
    intros H1 H2 E.
    destruct (ekey_path _ _ H1) as [(s & -> & Hs & Ep)|[(l & l' & -> & El & Hl & Ep)|(a & u & x & p & -> & Ha1 & Ha2 & Hu & He & Ep)]];
    destruct (ekey_path _ _ H2) as [(s2 & -> & Hs2 & Ep2)|[(l2 & l2' & -> & El2 & Hl2 & Ep2)|(a2 & u2 & x2 & p2 & -> & Ha21 & Ha22 & Hu2 & He2 & Ep2)]];
    rewrite Ep, Ep2 in E.
    - by injection E as ->.
    - done.
    - apply emb_last in He2 as (p' & ->). by apply one_long in E.
    - done.
    - injection E as E. subst. f_equal.
      inversion H1 as [|? ? _ _ HF1 Ea Eb|? ? ? ? ? ? ? ? Ea Eb]; subst; [|exfalso; revert Ea Hl; unfold ckey; destruct (hidden (AStr a)); intros [= <-]; done].
      inversion H2 as [|? ? _ _ HF2 Ea Eb|? ? ? ? ? ? ? ? Ea Eb]; subst; [|exfalso; revert Ea Hl2; unfold ckey; destruct (hidden (AStr a)); intros [= <-]; done].
      clear -HF1 HF2. revert l2 HF2. induction HF1 as [|x x' l l' (s & -> & Hs) HF IH]; intros l2 HF2; inversion HF2 as [|y ? l3 ? (t & -> & Ht) HF3]; subst; [done|].
      f_equal; [|by apply IH]. destruct Hs as [[_ ->]|[_ (p & Hp)]], Ht as [[_ Et]|[_ (p' & Hp')]].
      + by injection Et as ->.
      + inversion Hp'; subst. done.
      + subst. inversion Hp; subst. done.
      + f_equal. by eapply emb_head.
    - apply emb_last in He2 as (p' & ->). by apply one_long in E.
    - apply emb_last in He as (p' & ->). symmetry in E. by apply one_long in E.
    - apply emb_last in He as (p' & ->). symmetry in E. by apply one_long in E.
    - apply app_inj_tail in E as [E [= <-]]. apply emb_last in He as (q & ->). apply emb_last in He2 as (q2 & ->).
      rewrite !map_app in E. apply app_inj_tail in E as [_ [= <-]]. done.
  Qed.

  Lemma ekey_gpath (S : string -> Prop) k k' : (forall u w, dget (AStr u) m = Some (AStr w) -> S w) ->
    (forall v, v ∈ avars k -> S v) -> ekey k k' -> gpath S (get_path k').
  Proof using Hm.
    intros HS HSk He. destruct (ekey_path _ _ He) as [(s & -> & Hs & Ep)|[(l & l' & -> & -> & Hl & Ep)|(a & u & x & p & -> & Ha1 & Ha2 & Hu & Hemb & Ep)]].
    - rewrite Ep. exists [], (AStr s). split; [done|]. split; [constructor|]. split; [done|]. simpl. rewrite Hs. by intros v ?%elem_of_nil.
    - rewrite Ep. exists [], (ATup l'). split; [done|]. split; [constructor|]. split; [done|].
      inversion He as [|? ? _ _ HF Ea Eb|? ? ? ? ? ? ? ? Ea Eb]; subst; [|exfalso; revert Ea Hl; unfold ckey; destruct (hidden (AStr a)); intros [= <-]; done].
      clear -HF HSk HS Hm. simpl in *. induction HF as [|x x' l l' (s & -> & Hs) HF IH]; [done|]. simpl in *. intros v Hv.
      apply elem_of_app in Hv as [Hv|Hv].
      + destruct Hs as [[Hs ->]|[Hs (p & Hp)]].
        * simpl in Hv. rewrite Hs in Hv. by apply elem_of_nil in Hv.
        * revert v Hv. eapply emb_avars; [exact HS| |exact Hp]. apply HSk, elem_of_app. left. rewrite Hs. left.
      + apply IH; [|done]. intros w Hw. apply HSk, elem_of_app. by right.
    - rewrite Ep. exists p, (AStr a). split; [done|]. split; [|split; [done|]].
      + eapply emb_vars; [exact HS|done| |exact Hemb]. by apply HSk, avars_ckey.
      + simpl. rewrite Ha1. by intros v ?%elem_of_nil.
  Qed.
End Emb.

(** ** Undoing the SubComponentProcessor and the Flattener *)
Section Undo.
  Context {X : Type}.
  Notation pv := (pv X).
  Notation inst := (inst X).

  Lemma mapkM_inv {V} (f : attr -> res attr) (d d' : list (attr * V)) : mapkM f d = Ok d' ->
    exists g, Forall (fun e => f (fst e) = Ok (g (fst e))) d.
  Proof.
    intros E. exists (fun a => match f a with Ok b => b | _ => a end). revert E. unfold mapkM. generalize (@nil (attr * V)) as acc.
    induction d as [|[k v] d IH]; intros acc E; [constructor|]. cbn [rfold fst snd] in E.
    destruct (f k) as [k'|] eqn:Ek; [|done]. cbn [rbind] in E. constructor; [cbn [fst]; by rewrite Ek|]. by eapply IH.
  Qed.

  Lemma so_mapping_tkey (d : inst) : Forall (fun e => tkey (fst e)) d ->
    (forall x y, dget x (so_mapping d) = Some y -> exists u w, x = AStr u /\ y = AStr w /\ is_var u = true /\ is_var w = true /\
       has_comp (AStr w) (AStr u) ∈ dkeys d).
  Proof.
    intros HF x y E. destruct (so_mapping_gen d []) as (G1 & _ & _). destruct (G1 x y E) as [H|(k & Hk & Ek)]; [done|].
    pose proof Hk as Hk'. apply is_has_comp_inv in Ek as ->. unfold dkeys in Hk'. apply elem_of_list_fmap in Hk' as ([k w] & Ek & Hin).
    rewrite Forall_forall in HF. specialize (HF _ Hin). cbn [fst] in *. subst k.
    inversion HF as [|l Hl Hh _ El|a u H1 H2 H3 El|p c H1 H2 El]; subst.
    - simpl in Hh. done.
    - exfalso. revert El. unfold ckey. destruct (hidden (AStr a)); intros [=].
    - exists c, p. done.
  Qed.

  (** From an instance without embedded components back to nested data: every
      value is found again, under the path of what its attribute became. *)
  Lemma embed_structurize (S : string -> Prop) fuel (d3 d4 d5 : inst) : dwf d3 ->
    Forall (fun e => tkey (fst e) /\ (forall v, v ∈ avars (fst e) -> S v) /\ plainv (snd e)) d3 ->
    sub_undo fuel d3 = Ok d4 -> structurize d4 = Ok d5 ->
    shp S (PD d5) /\
    forall k v, dget k d3 = Some v -> is_has_comp k = None ->
      exists k', rename_embedding fuel (so_mapping d3) k = Ok k' /\ ekey (so_mapping d3) k k' /\
        plook (get_path k') (PD d5) = Some v.
  Proof.
    intros Hw HF E4 E5. set (m := so_mapping d3).
    assert (HF1 : Forall (fun e => tkey (fst e)) d3) by (eapply Forall_impl; [exact HF|]; by intros e (? & _)).
    pose proof (so_mapping_tkey d3 HF1) as Hm0.
    assert (Hm : forall x y, dget x m = Some y -> exists u w, x = AStr u /\ y = AStr w /\ is_var u = true /\ is_var w = true).
    { intros x y E. destruct (Hm0 x y E) as (u & w & ? & ? & ? & ? & _). by exists u, w. }
    assert (HS : forall u w, dget (AStr u) m = Some (AStr w) -> S w).
    { intros u w E. destruct (Hm0 _ _ E) as (u' & w' & [= <-] & [= <-] & _ & Hwv & Hin).
      unfold dkeys in Hin. apply elem_of_list_fmap in Hin as ([k x] & Ek & Hin). rewrite Forall_forall in HF.
      destruct (HF _ Hin) as (_ & H & _). apply H. rewrite <- Ek. simpl. rewrite Hwv. left. }
    unfold sub_undo in E4. fold m in E4. set (dk := List.filter _ d3) in E4.
    assert (Hdk : forall e, e ∈ dk <-> e ∈ d3 /\ is_has_comp (fst e) = None).
    { intros e. unfold dk. rewrite elem_of_list_In, filter_In, <- elem_of_list_In. by destruct (is_has_comp (fst e)) as [?|]; intuition congruence. }
    destruct (mapkM_inv _ _ _ E4) as (g & Hg). rewrite Forall_forall in Hg, HF.
    assert (Hek : forall e, e ∈ dk -> ekey m (fst e) (g (fst e))).
    { intros e He. pose proof (Hg e He) as E. apply Hdk in He as [He Hh]. eapply rename_tkey; [exact Hm| |done|exact E]. by apply HF. }
    assert (Hwk : dwf dk).
    { unfold dwf, dkeys, dk. clear -Hw. unfold dwf, dkeys in Hw. induction d3 as [|[k v] d IH]; [done|]. simpl in *.
      apply NoDup_cons in Hw as [Hk Hw]. destruct (is_has_comp k); [by apply IH|]. simpl. apply NoDup_cons. split; [|by apply IH].
      intros Hin. apply Hk. apply elem_of_list_fmap in Hin as (e & -> & Hin). apply elem_of_list_In, filter_In in Hin as [Hin _].
      apply elem_of_list_fmap. exists e. split; [done|]. by apply elem_of_list_In. }
    assert (Hnp : NoDup (map (fun e => get_path (g (fst e))) dk)).
    { clear -Hwk Hek Hm. unfold dwf, dkeys in Hwk. induction dk as [|[k v] d IH]; [constructor|]. cbn [map fst] in *.
      apply NoDup_cons in Hwk as [Hk Hwk]. apply NoDup_cons. split; [|apply IH; [intros e He; apply Hek; by right|done]].
      intros Hin. apply elem_of_list_fmap in Hin as ([k2 v2] & Ep & Hin). cbn [fst] in Ep. apply Hk.
      assert (k = k2) as ->.
      { eapply ekey_inj; [exact Hm|apply (Hek (k, v)); left|apply (Hek (k2, v2)); by right|exact Ep]. }
      apply elem_of_list_fmap. by exists (k2, v2). }
    assert (Ed4 : d4 = map (fun e => (g (fst e), snd e)) dk).
    { rewrite (mapkM_ok _ g) in E4; [by injection E4 as <-|by apply Forall_forall|].
      clear -Hnp. induction dk as [|e d IH]; [constructor|]. cbn [map] in *. apply NoDup_cons in Hnp as [Hk Hn].
      apply NoDup_cons. split; [|by apply IH]. intros Hin. apply Hk. apply elem_of_list_fmap in Hin as (e' & Ee & Hin).
      apply elem_of_list_fmap. exists e'. split; [by rewrite Ee|done]. }
    rewrite structurize_all, Ed4, map_map in E5. cbn [fst snd] in E5.
    assert (Hgp : Forall (fun q => gpath S (fst q) /\ plainv (snd q)) (map (fun x : attr * pv => (get_path (g (fst x)), snd x)) dk)).
    { apply Forall_map, Forall_forall. intros e He. cbn [fst snd]. pose proof (Hek e He) as Hke. apply Hdk in He as [He _].
      destruct (HF e He) as (_ & Hv & Hp). split; [|done]. by eapply ekey_gpath. }
    split.
    - eapply shp_ins_all; [exact Hgp| |exact E5]. constructor; [apply dwf_nil|constructor].
    - intros k v Hk Hh. assert (Hin : (k, v) ∈ dk) by (apply Hdk; split; [by apply dget_In|done]).
      exists (g k). split; [apply (Hg _ Hin)|]. split; [apply (Hek _ Hin)|].
      destruct (ins_all_look _ _ _ E5) as [_ K].
      + intros p q Hp Hq. rewrite Forall_forall in Hgp. rewrite elem_of_list_fmap in Hp, Hq.
        destruct Hp as (e & -> & He). destruct Hq as (e' & -> & He'). apply (gpath_apart S); [apply (Hgp _ He)|apply (Hgp _ He')].
      + by rewrite map_map.
      + apply K. apply elem_of_list_fmap. by exists (k, v).
  Qed.
End Undo.
