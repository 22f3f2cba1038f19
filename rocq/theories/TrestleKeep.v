(** * Undoing TRESTLE's preprocessors after attributes were added *)
From stdpp Require Import base decidable list gmap strings sets.
From Coq Require Import Ascii String ZArith.
From Verif Require Import Base Num TreeModel TreeFun TreeScore TreeRefine TreeSorts TreeInv SpecTree TreeState
  TreeTotal TreeLeaf TreeGen Nominal NominalFacts Utils CV Cobweb3 C3Facts C3Scales C3Nominal C3Query C3Tree Query QueryFacts Query3 PropsC3 PropsQ3I
  PyVal Preproc Preproc2 StructMap StructFacts PropsStruct PreStd PreFlat PreSub PreObj PathLook TKeys TObjKeys Trestle SpecTrestle
  TreeKeep TrestleFacts TrestleFresh TrestleRaise TrestleVals TrestleTotal TrestleSim PropsTrestle PropsTrestleI PropsTrestleU.
Set Default Proof Using "Type".
Open Scope list_scope.

Lemma avars_var a v : v ∈ avars a -> is_var v = true.
Proof. intros H. by apply (kvars_var [a]); exists a; split; [left|]. Qed.
Lemma leaves_vars {X} (v : pv X) : forall p w, (p, w) ∈ leaves v -> forall a u, a ∈ p -> u ∈ avars a -> u ∈ pvars v.
Proof.
  induction v as [s|x|l IH|d IH] using pv_ind'; intros p w Hin a u Ha Hu; cbn [leaves] in Hin.
  - apply elem_of_list_singleton in Hin as [= -> _]. by apply elem_of_nil in Ha.
  - apply elem_of_list_singleton in Hin as [= -> _]. by apply elem_of_nil in Ha.
  - apply elem_of_list_singleton in Hin as [= -> _]. by apply elem_of_nil in Ha.
  - apply elem_of_list_In, in_flat_map in Hin as (e & He & Hin). apply in_map_iff in Hin as ([q w'] & Epq & Hq).
    injection Epq as <- <-. cbn [fst snd] in *. apply elem_of_list_In in He, Hq. rewrite Forall_forall in IH.
    eapply pvars_in; [exact He|]. apply elem_of_cons in Ha as [->|Ha]; [by left|right; by eapply IH].
Qed.
Lemma plook_leaf {X} p : forall v w : pv X, plook p v = Some w -> plainv w -> (p, w) ∈ leaves v.
Proof.
  induction p as [|k p IH]; intros v w E Hw.
  - injection E as ->. destruct w; try done; left.
  - cbn [plook] in E. destruct v as [| | |d]; try done. destruct (dget k d) as [u|] eqn:Eg; [|done].
    cbn [leaves]. apply elem_of_list_In, in_flat_map. exists (k, u). split; [apply elem_of_list_In; by apply dget_In|].
    apply in_map_iff. exists (p, w). split; [done|]. apply elem_of_list_In. by apply IH.
Qed.
Lemma obj_pwf {X} (v : pv X) : obj v -> pwf v.
Proof.
  induction v as [s|x|l IH|d IH] using pv_ind'; inversion 1 as [? Hne Hwf HF]; subst. constructor; [done|].
  rewrite Forall_forall in IH, HF. apply Forall_forall. intros e He. destruct (HF e He) as (s & _ & _ & _ & [[_ Ho]|[_ Hp]]); [by apply IH|].
  destruct (snd e); try done; constructor.
Qed.
Lemma t_obj_pwf {X} (d : inst X) : t_obj d -> pwf (PD d).
Proof.
  intros [Hw HF _]. constructor; [done|]. eapply Forall_impl; [exact HF|]. intros [k v] He. unfold top_ok in He. cbn [fst snd] in *.
  assert (Hp : plainv v -> pwf v) by (destruct v; try done; constructor).
  destruct k; [destruct He as [[_ Ho]|[_ ?]]; [by apply obj_pwf|auto]|destruct He; auto|done].
Qed.

Lemma ckey_inj a u a' u' : ckey a u = ckey a' u' -> a <> "_"%string -> a' <> "_"%string -> a = a' /\ u = u'.
Proof. unfold ckey. destruct (hidden (AStr a)), (hidden (AStr a')); intros [=] ? ?; subst; done. Qed.

Lemma tkey_ckey_ne a u : tkey (ckey a u) -> a <> "_"%string.
Proof.
  intros H ->. remember (ckey "_" u) as k eqn:Ek. change (ckey "_" u) with (ATup [AStr "_"; ATup [AStr "_"; AStr u]]) in Ek.
  destruct H as [s Hs|l Hl _ _|a u' _ Ha _|p c _ _].
  - discriminate Ek.
  - injection Ek as ->. by apply Hl.
  - unfold ckey in Ek. destruct (hidden (AStr a)); [|discriminate Ek]. injection Ek as E _. by subst.
  - discriminate Ek.
Qed.

(** ** The renaming of the mapper, undone *)
Section Undo.
  Context {N : NumOps}.
  Notation X := (val3 N).
  Context (c : nat) (d : inst X) (rev : list (attr * attr)) (c1 : nat) (f2 : inst X) (g : string -> string).
  Context (Hgv : given c d rev c1 f2 g).
  Context (bkeys : list attr) (Hbk : forall a, a ∈ bkeys -> aQ (made 0 c) a).
  Context (m : list (attr * attr)) (Hm : map_ok (kvars (dkeys f2)) (kvars bkeys) m).
  Context (Hdisj : m = [] \/ (forall v, kvars (dkeys f2) v -> ~ kvars bkeys v) /\ (forall v, kvars (dkeys f2) v -> AStr v ∈ dkeys m)).
  Context (d2 : inst X) (Hw2 : dwf d2).
  Context (Hsub : forall a v, dget a (rename_flat m f2) = Some v -> dget a d2 = Some v).
  Context (Hext : forall a v, dget a (rename_flat m f2) = None -> dget a d2 = Some v -> tkey a /\ aQ (made 0 c) a /\ plainv v).
  (** The instance uses no name that was made before. *)
  Context (Hfresh : forall u, u ∈ pvars (PD d) -> ~ made 0 c u).

  Let fr := fm (reverse_mapping m).
  Let S (v : string) : Prop := (exists u, u ∈ pvars (PD d) /\ v = g u) \/ made 0 c v.
  Let T := kvars (dkeys f2).
  Let HT : forall v, T v -> is_var v = true := kvars_var (dkeys f2).
  Let HB : forall v, kvars bkeys v -> is_var v = true := kvars_var bkeys.

  Lemma T_given v : T v -> exists u, u ∈ pvars (PD d) /\ v = g u.
  Proof using Hgv.
    intros (a & Ha & Hv). pose proof (gv_keys _ _ _ _ _ _ Hgv) as HF. rewrite Forall_forall in HF.
    unfold dkeys in Ha. apply elem_of_list_fmap in Ha as (e & -> & He). by apply (HF e He).
  Qed.
  Lemma given_not_made u : u ∈ pvars (PD d) -> ~ made 0 c (g u).
  Proof using Hgv.
    intros Hu (n & E & Hn). destruct (gv_made _ _ _ _ _ _ Hgv u Hu) as ((n' & E' & Hn') & _). rewrite E in E'. apply gensym_inj in E'. lia.
  Qed.
  Lemma fr_cases v : (exists t, T t /\ v = fm m t /\ fr v = t) \/ fr v = v.
  Proof using Hm Hdisj.
    destruct (reverse_get m (mo_wf _ _ _ Hm) (mo_inj _ _ _ Hm)) as (_ & _ & Hr).
    unfold fr, fm at 2 3. destruct (dget (AStr v) (reverse_mapping m)) as [o|] eqn:E; [|by right]. left.
    apply Hr in E. destruct (mo_get _ _ _ Hm _ _ E) as (t & w & -> & [= <-] & Ht & _). exists t. split; [done|]. split; [|done].
    unfold fm. by rewrite E.
  Qed.
  Lemma fr_image t : T t -> fr (fm m t) = t.
  Proof using Hm Hdisj HT HB. intros Ht. by apply (fm_target _ _ m Hm HT HB Hdisj t Ht). Qed.
  (** The names in [d2]. *)
  Let R (v : string) : Prop := (exists t, T t /\ v = fm m t) \/ made 0 c v.
  Lemma fr_inj u v : R u -> R v -> fr u = fr v -> u = v.
  Proof using Hm Hdisj HT HB Hgv.
    assert (Hmix : forall u v t, T t -> u = fm m t -> fr u = t -> fr v = v -> R v -> fr u = fr v -> u = v).
    { intros u' v' t Ht -> E1 E2 [(t' & Ht' & ->)|Hmade] E.
      - rewrite (fr_image t Ht), (fr_image t' Ht') in E. by subst.
      - exfalso. destruct (T_given t Ht) as (x & Hx & ->). apply (given_not_made x Hx). congruence. }
    intros Hu Hv E. destruct (fr_cases u) as [(t & Ht & E1 & E2)|E2], (fr_cases v) as [(t' & Ht' & E1' & E2')|E2'].
    - assert (t = t') by congruence. congruence.
    - by eapply Hmix.
    - symmetry. by eapply Hmix.
    - congruence.
  Qed.
  Lemma fr_S v : R v -> S (fr v) /\ (is_var v = true -> is_var (fr v) = true).
  Proof using Hm Hdisj HT HB Hgv.
    intros Hv. destruct (fr_cases v) as [(t & Ht & E1 & E2)|E2]; rewrite E2.
    - split; [left; by apply T_given|]. intros _. by apply HT.
    - split; [|done]. destruct Hv as [(t & Ht & ->)|Hmade]; [left|by right].
      rewrite (fr_image t Ht) in E2. rewrite <- E2. by apply T_given.
  Qed.

  Lemma mapped_ok : rename_flat m f2 = map (fun e => (arename (fm m) (fst e), snd e)) f2 /\ dwf (rename_flat m f2).
  Proof using Hm Hdisj HT HB Hgv.
    apply (rename_target _ _ m Hm HT HB Hdisj f2); [apply Hgv|]. intros a v Ha Hv. by exists a.
  Qed.
  Lemma f2_vars k e v : (k, e) ∈ f2 -> v ∈ avars k -> T v.
  Proof. intros Hin Hv. exists k. split; [|done]. apply elem_of_list_fmap. by exists (k, e). Qed.
  Lemma fr_back k e : (k, e) ∈ f2 -> arename fr (arename (fm m) k) = k.
  Proof using Hm Hdisj HT HB.
    intros Hin. rewrite arename_comp.
    - apply arename_id_on. intros v Hv. apply fr_image. by eapply f2_vars.
    - intros v Hv. apply (fm_target _ _ m Hm HT HB Hdisj). by eapply f2_vars.
  Qed.

  Lemma d2_keys a v : (a, v) ∈ d2 -> (forall u, u ∈ avars a -> R u) /\ tkey a /\ plainv v.
  Proof using Hm Hdisj HT HB Hgv Hw2 Hsub Hext.
    intros Hin. apply (In_dget _ _ _ Hw2) in Hin. destruct mapped_ok as [Er Hw4].
    destruct (dget a (rename_flat m f2)) as [v'|] eqn:E.
    - pose proof (Hsub _ _ E) as E'. rewrite Hin in E'. injection E' as <-.
      apply dget_In in E. rewrite Er in E. apply elem_of_list_fmap in E as ([k v0] & [= -> ->] & Hk).
      pose proof (gv_keys _ _ _ _ _ _ Hgv) as HF. rewrite Forall_forall in HF. destruct (HF _ Hk) as (Ht & _ & Hp). cbn [fst snd] in *.
      assert (Hvar : forall u, u ∈ avars k -> is_var (fm m u) = true).
      { intros u Hu. apply (fm_target _ _ m Hm HT HB Hdisj). by eapply f2_vars. }
      split; [|split; [by apply tkey_rename|done]].
      intros u Hu. apply avars_arename in Hu as (u0 & Hu0 & ->); [|done]. left. exists u0. split; [by eapply f2_vars|done].
    - destruct (Hext _ _ E Hin) as (Ht & HQ & Hp). split; [|done]. intros u Hu. right. by apply HQ.
  Qed.

  Let d3 : inst X := map (fun e => (arename fr (fst e), snd e)) d2.
  Lemma d3_ok : rename_flat (reverse_mapping m) d2 = d3 /\ dwf d3.
  Proof using Hm Hdisj HT HB Hgv Hw2 Hsub Hext.
    assert (Hn : NoDup (map (arename fr) (dkeys d2))).
    { apply NoDup_map_inj_on; [done|]. intros a b Ha Hb.
      unfold dkeys in Ha, Hb. apply elem_of_list_fmap in Ha as ([a0 v] & -> & Ha), Hb as ([b0 w] & -> & Hb). cbn [fst].
      destruct (d2_keys _ _ Ha) as (Ra & _). destruct (d2_keys _ _ Hb) as (Rb & _). apply arename_inj.
      - intros s t Hs Ht. apply fr_inj; auto.
      - intros s Hs. apply fr_S; [auto|]. by eapply avars_var.
      - intros s Hs. apply fr_S; [auto|]. by eapply avars_var. }
    split.
    - unfold d3, fr. apply rename_flat_map; [|exact Hn]. by apply (rev_strs _ _ m Hm HT HB).
    - unfold dwf, dkeys, d3 in *. rewrite map_map in *. exact Hn.
  Qed.
  Lemma d3_keys : Forall (fun e => tkey (fst e) /\ (forall v, v ∈ avars (fst e) -> S v) /\ plainv (snd e)) d3.
  Proof using Hm Hdisj HT HB Hgv Hw2 Hsub Hext.
    unfold d3. apply Forall_map, Forall_forall. intros [a v] Hin. destruct (d2_keys _ _ Hin) as (Ra & Ht & Hp). cbn [fst snd].
    assert (Hvar : forall u, u ∈ avars a -> is_var (fr u) = true).
    { intros u Hu. apply fr_S; [auto|]. by eapply avars_var. }
    split; [by apply tkey_rename|]. split; [|done]. intros u Hu. apply avars_arename in Hu as (u0 & Hu0 & ->); [|done].
    apply fr_S. auto.
  Qed.
  Lemma d3_given k v : dget k f2 = Some v -> dget k d3 = Some v.
  Proof using Hm Hdisj HT HB Hgv Hw2 Hsub Hext.
    intros E. apply dget_In in E. destruct mapped_ok as [Er Hw4]. destruct d3_ok as [_ Hw3].
    apply In_dget; [done|]. unfold d3. apply elem_of_list_fmap. exists (arename (fm m) k, v). cbn [fst snd].
    split; [by rewrite (fr_back k v E)|]. apply dget_In, Hsub. apply In_dget; [done|]. rewrite Er. apply elem_of_list_fmap.
    by exists (k, v).
  Qed.

  (** No has-component relation about a component of the mapped instance was
      added. *)
  Definition owners_kept : Prop := forall w o, has_comp w o ∈ dkeys d2 -> component (dkeys (rename_flat m f2)) o ->
    has_comp w o ∈ dkeys (rename_flat m f2).
  Lemma d3_owners : owners_kept ->
    forall w u, u ∈ pvars (PD d) -> has_comp w (AStr (g u)) ∈ dkeys d3 -> has_comp w (AStr (g u)) ∈ dkeys f2.
  Proof using Hm Hdisj HT HB Hgv Hw2 Hsub Hext.
    intros Hown w u Hu Hin. unfold d3, dkeys in Hin. rewrite map_map in Hin. cbn [fst] in Hin.
    apply elem_of_list_fmap in Hin as ([k v] & Ek & Hin). cbn [fst] in Ek. destruct (d2_keys _ _ Hin) as (Rk & Htk & _).
    destruct mapped_ok as [Er Hw4].
    assert (Hk : exists w0 o0, k = has_comp (AStr w0) (AStr o0) /\ is_var o0 = true).
    { inversion Htk as [s Hs|l Hl Hh HF|a u0 H1 H2 H3|p q0 H1 H2]; subst.
      - simpl in Ek. rewrite Hs in Ek. discriminate Ek.
      - exfalso. revert Ek. destruct l as [|x [|y [|z [|? ?]]]]; try done. cbn [arename map]. unfold has_comp. intros [= E1 _ _].
        apply Forall_cons in HF as [(s & ->) _]. cbn [arename] in E1. cbn [is_has_comp] in Hh.
        destruct (is_var s) eqn:Es.
        + assert (Hv : is_var (fr s) = true). { apply fr_S; [|done]. apply Rk. simpl. rewrite Es. left. }
          injection E1 as E1. rewrite <- E1 in Hv. discriminate Hv.
        + injection E1 as E1. subst s. rewrite decide_True in Hh by done. discriminate Hh.
      - exfalso. rewrite arename_ckey in Ek by done. revert Ek. unfold ckey. destruct (hidden (AStr a)); done.
      - by exists p, q0. }
    destruct Hk as (w0 & o0 & -> & Ho0). cbn [arename has_comp map] in Ek. unfold has_comp in Ek. injection Ek as Ew Eo. rewrite Ho0 in Eo. injection Eo as Eo.
    assert (Hin2 : has_comp (AStr w0) (AStr o0) ∈ dkeys d2) by (unfold dkeys; apply elem_of_list_fmap; by exists (has_comp (AStr w0) (AStr o0), v)).
    assert (Hc : component (dkeys (rename_flat m f2)) (AStr o0)).
    { apply component_kvars. exists o0. split; [done|].
      assert (Him : forall t, T t -> kvars (dkeys (rename_flat m f2)) (fm m t)).
      { intros t (a & Ha & Hv). exists (arename (fm m) a). split.
        - rewrite Er. unfold dkeys in *. rewrite map_map. cbn [fst]. apply elem_of_list_fmap in Ha as (e & -> & He).
          apply elem_of_list_fmap. by exists e.
        - apply avars_arename; [|by exists t]. intros x Hx. apply (fm_target _ _ m Hm HT HB Hdisj). by exists a. }
      destruct (fr_cases o0) as [(t & Ht & -> & _)|E2]; [by apply Him|].
      destruct (Rk o0) as [(t & Ht & ->)|Hmade]; [|by apply Him|].
      - simpl. rewrite Ho0. destruct (is_var w0); [right; left|left].
      - exfalso. apply (given_not_made u Hu). congruence. }
    pose proof (Hown _ _ Hin2 Hc) as Hin4. rewrite Er in Hin4. unfold dkeys in Hin4. rewrite map_map in Hin4. cbn [fst] in Hin4.
    apply elem_of_list_fmap in Hin4 as ([k0 v0] & Ek0 & Hin0). cbn [fst] in Ek0.
    assert (Eb : arename fr (has_comp (AStr w0) (AStr o0)) = k0) by (rewrite Ek0; by eapply fr_back).
    unfold dkeys. apply elem_of_list_fmap. exists (k0, v0). split; [|done]. cbn [fst]. rewrite <- Eb.
    unfold has_comp. cbn [arename map]. rewrite Ho0, Ew, Eo. done.
  Qed.

  (** ** The whole way back *)
  Context (rl : nat) (d4 d5 : inst X).
  Context (E4 : sub_undo rl d3 = Ok d4) (E5 : structurize d4 = Ok d5).

  Lemma rev_var v : S v -> is_var (fm rev v) = true.
  Proof using Hgv.
    intros [(u & Hu & ->)|(n & -> & Hn)].
    - destruct (gv_made _ _ _ _ _ _ Hgv u Hu) as (_ & _ & Hv & ->). done.
    - rewrite (gv_other _ _ _ _ _ _ Hgv); [done|]. intros u Hu E. apply (given_not_made u Hu). exists n. by split.
  Qed.
  Lemma rev_inj u v : S u -> S v -> fm rev u = fm rev v -> u = v.
  Proof using Hgv Hfresh.
    assert (H1 : forall v, made 0 c v -> fm rev v = v).
    { intros w Hw. apply (gv_other _ _ _ _ _ _ Hgv). intros x Hx ->. by apply (given_not_made x Hx). }
    assert (H2 : forall x, x ∈ pvars (PD d) -> fm rev (g x) = x) by (intros x Hx; by apply (gv_made _ _ _ _ _ _ Hgv)).
    intros [(x & Hx & ->)|Hu] [(y & Hy & ->)|Hv] E.
    - rewrite !H2 in E by done. by subst.
    - rewrite H2, H1 in E by done. subst. by apply Hfresh in Hx.
    - rewrite H1, H2 in E by done. subst. by apply Hfresh in Hy.
    - by rewrite !H1 in E by done.
  Qed.

  Lemma ns_back p v : shp S (PD d5) -> plook p (PD d5) = Some v -> plainv v ->
    plook (map (arename (fm rev)) p) (PD (ns_undo rev d5)) = Some v.
  Proof using Hgv Hfresh.
    intros Hs E Hv. unfold ns_undo. rewrite (undo_shp S rev (gv_strs _ _ _ _ _ _ Hgv) rev_var rev_inj _ Hs).
    cbn [prename]. change (plook (map (arename (fm rev)) p) (prename (fm rev) (PD d5)) = Some v).
    rewrite (plook_rename S rev rev_var rev_inj p _ v Hs E). f_equal. by apply plainv_rename.
  Qed.

  Lemma undone_components :
    (forall s v, ([AStr s], v) ∈ ileaves d -> plook [AStr s] (PD (ns_undo rev d5)) = Some v) /\
    (forall p u a v, (p ++ [AStr u; AStr a], v) ∈ ileaves d ->
       exists q, plook (q ++ [AStr u; AStr a]) (PD (ns_undo rev d5)) = Some v).
  Proof using Hm Hdisj HT HB Hgv Hw2 Hsub Hext Hfresh E4 E5.
    destruct d3_ok as [_ Hw3]. destruct (embed_structurize S rl d3 d4 d5 Hw3 d3_keys E4 E5) as [Hshp Hlook].
    assert (Hm3 : forall x y, dget x (so_mapping d3) = Some y -> exists u w, x = AStr u /\ y = AStr w /\ is_var u = true /\ is_var w = true).
    { intros x y E. destruct (so_mapping_tkey d3) with (x := x) (y := y) as (u & w & ? & ? & ? & ? & _); [|done|by exists u, w].
      eapply Forall_impl; [exact d3_keys|]. by intros e (? & _). }
    split.
    - intros s v Hin. destruct (gv_leaf _ _ _ _ _ _ Hgv _ _ Hin) as (Hp & k & Hk & Hh & Hc).
      destruct Hc as [(t & [= <-] & Ht & ->)|[(l & [=] & _)|(us & u & a & E & _)]].
      2:{ exfalso. destruct us as [|x [|y us]]; discriminate E. }
      destruct (Hlook _ _ (d3_given _ _ Hk) Hh) as (k' & _ & Hek & Hl).
      destruct (ekey_path _ Hm3 _ _ Hek) as [(s' & [= <-] & _ & Ep)|[(l & l' & [=] & _)|(a & u & x & p & E & _)]].
      + rewrite Ep in Hl. pose proof (ns_back _ _ Hshp Hl Hp) as Hn. cbn [map arename] in Hn. by rewrite Ht in Hn.
      + exfalso. revert E. unfold ckey. destruct (hidden (AStr a)); done.
    - intros p u a v Hin. destruct (gv_leaf _ _ _ _ _ _ Hgv _ _ Hin) as (Hp & k & Hk & Hh & Hc).
      destruct Hc as [(t & E & _)|[(l & E & _)|(us & u' & a' & E & Ha & Hu & Hud & Ek)]].
      { exfalso. destruct p as [|x [|y p]]; discriminate E. }
      { exfalso. destruct p as [|x [|y p]]; discriminate E. }
      change [AStr u; AStr a] with ([AStr u] ++ [AStr a]) in E. change [AStr u'; AStr a'] with ([AStr u'] ++ [AStr a']) in E.
      rewrite !app_assoc in E. apply app_inj_tail in E as [E [= <-]]. apply app_inj_tail in E as [E [= <-]]. subst k.
      destruct (Hlook _ _ (d3_given _ _ Hk) Hh) as (k' & _ & Hek & Hl).
      destruct (gv_made _ _ _ _ _ _ Hgv u Hud) as (_ & Hgu & _ & Hru).
      destruct (ekey_path _ Hm3 _ _ Hek) as [(s' & Es & _)|[(l & l' & El & _ & Hl2 & _)|(a2 & u2 & x & p2 & E2 & Ha2 & Hn2 & Hu2 & Hemb & Ep)]].
      + exfalso. revert Es. unfold ckey. destruct (hidden (AStr a)); done.
      + exfalso. revert El Hl2. unfold ckey. destruct (hidden (AStr a)); intros [= <-]; done.
      + assert (Hn1 : a <> "_"%string).
        { pose proof (gv_keys _ _ _ _ _ _ Hgv) as HF. rewrite Forall_forall in HF. apply dget_In in Hk. destruct (HF _ Hk) as (Ht & _). cbn [fst] in Ht.
          by apply (tkey_ckey_ne a (g u)). }
        destruct (ckey_inj _ _ _ _ E2 Hn1 Hn2) as [<- <-]. destruct (emb_last _ _ _ _ Hemb) as (p3 & ->).
        rewrite Ep in Hl. pose proof (ns_back _ _ Hshp Hl Hp) as Hn. rewrite !map_app in Hn. cbn [map arename] in Hn.
        rewrite Hgu, Hru, Ha, <- app_assoc in Hn. eexists. exact Hn.
  Qed.

  Lemma undone_all : owners_kept -> forall p v, (p, v) ∈ ileaves d -> plook p (PD (ns_undo rev d5)) = Some v.
  Proof using Hm Hdisj HT HB Hgv Hw2 Hsub Hext Hfresh E4 E5.
    intros Hown p v Hin. destruct d3_ok as [_ Hw3]. destruct (embed_structurize S rl d3 d4 d5 Hw3 d3_keys E4 E5) as [Hshp Hlook].
    destruct (gv_back _ _ _ _ _ _ Hgv d3) with (p := p) (v := v) as (k & k1 & n & Hk & Hh & Ep & Hre); [| |by apply d3_owners|done|].
    { eapply Forall_impl; [exact d3_keys|]. by intros e (? & _). }
    { intros k Hk. destruct (dget_key_Some _ _ Hk) as [w Ew]. apply d3_given in Ew. by eapply dget_Some_key. }
    destruct (Hlook _ _ (d3_given _ _ Hk) Hh) as (k' & Erl & _ & Hl).
    assert (k' = k1) as ->.
    { pose proof (rename_below (so_mapping d3) rl (n + rl) ltac:(lia) k _ Erl) as E1. rewrite Hre in E1 by lia. congruence. }
    destruct (gv_leaf _ _ _ _ _ _ Hgv _ _ Hin) as (Hp & _). rewrite Ep in Hl. pose proof (ns_back _ _ Hshp Hl Hp) as Hn.
    rewrite map_map in Hn. replace (map (fun x => arename (fm rev) (arename g x)) p) with p in Hn; [done|].
    rewrite <- (map_id p) at 1. apply map_ext_in. intros a Ha. apply elem_of_list_In in Ha.
    assert (Hav : forall u, u ∈ avars a -> u ∈ pvars (PD d)).
    { intros u Hu. by eapply (leaves_vars (PD d)). }
    rewrite arename_comp.
    - symmetry. apply arename_id_on. intros u Hu. apply (gv_made _ _ _ _ _ _ Hgv). by apply Hav.
    - intros u Hu. by destruct (gv_made _ _ _ _ _ _ Hgv u (Hav u Hu)) as (_ & Hx & _).
  Qed.
End Undo.
