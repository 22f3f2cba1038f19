(** * What the first three preprocessors make of an instance of components *)
From stdpp Require Import base decidable list strings.
From Coq Require Import Ascii String ZArith.
From Verif Require Import Base PyVal Preproc PreTuple PreStd PreFlat Preproc2 PreSub PreObj StructMap StructFacts PathLook TKeys TrestleFresh.
Set Default Proof Using "Type".
Open Scope string_scope.
Open Scope list_scope.

Section Keys.
  Context {X : Type}.
  Notation pv := (pv X).
  Notation inst := (inst X).

  (** ** Leaves and their flattened names without owners *)
  Lemma hidden_var s : is_var s = true -> hidden (AStr s) = false.
  Proof. intros Hv. simpl. unfold is_var, head_is in Hv. destruct s as [|c s]; [done|]. apply Ascii.eqb_eq in Hv as ->. done. Qed.
  Lemma plain_leaves (v w : pv) p : plainv v -> (p, w) ∈ leaves v -> p = [] /\ w = v.
  Proof. destruct v; try done; intros _ H; simpl in H; apply elem_of_list_singleton in H as [= -> ->]; done. Qed.

  Lemma obj_leaf (v : pv) : obj v -> forall p w, (p, w) ∈ leaves v ->
    forall k u0, extract_attr k = AStr u0 -> is_var u0 = true ->
    plainv w /\ exists us u a, p = map AStr us ++ [AStr a] /\ is_var a = false /\ a <> "_" /\ is_var u = true /\
      (us = [] /\ u = u0 \/ exists us', us = us' ++ [u]) /\ extract_attr (enc k p) = ckey a u.
  Proof.
    induction v as [s|x|l IH|d IH] using pv_ind'; inversion 1 as [? Hne Hwf HF]; subst. intros p w Hin k u0 Hk Hu0.
    cbn [leaves] in Hin. apply elem_of_list_In, in_flat_map in Hin as (e & He & Hin).
    apply in_map_iff in Hin as ([q u] & Epq & Hq). injection Epq as <- <-. apply elem_of_list_In in He, Hq.
    rewrite Forall_forall in IH, HF. destruct (HF e He) as (s & Es & _ & Hs & [[Hv Ho]|[Hv Hp]]); rewrite Es; cbn [enc fst snd].
    - rewrite hidden_var by done. destruct (IH e He Ho q u Hq (ATup [AStr s; k]) s) as (Hpl & us & u1 & a & -> & H1 & H2 & H3 & H4 & H5).
      + cbn [extract_attr isvar]. by rewrite Hv.
      + done.
      + split; [done|]. exists (s :: us), u1, a. repeat (split; [done|]). split; [|done]. right.
        destruct H4 as [[-> ->]|(us' & ->)]; [by exists []|by exists (s :: us')].
    - destruct (plain_leaves _ _ _ Hp Hq) as [-> ->]. split; [done|]. exists [], u0, s. repeat (split; [done|]). split; [by left|].
      cbn [enc]. unfold ckey. assert (Hex : extract_attr (ATup [AStr s; k]) = ATup [AStr s; AStr u0]).
      { cbn [extract_attr isvar]. by rewrite Hv, Hk. }
      destruct (hidden (AStr s)); [|done]. cbn [extract_attr isvar] in *. by rewrite Hex.
  Qed.

  Lemma t_obj_leaf (d : inst) p (w : pv) : t_obj d -> (p, w) ∈ ileaves d ->
    plainv w /\
    ((exists s, p = [AStr s] /\ is_var s = false /\ extract_attr (enc_top p) = AStr s) \/
     (exists l, p = [ATup l] /\ List.length l <> 2 /\ is_has_comp (ATup l) = None /\ Forall (fun x => exists s, x = AStr s) l /\
        extract_attr (enc_top p) = ATup l) \/
     (exists us u a, p = map AStr us ++ [AStr u; AStr a] /\ is_var a = false /\ a <> "_" /\ is_var u = true /\
        extract_attr (enc_top p) = ckey a u)).
  Proof.
    intros [Hwf HF _] Hin. unfold ileaves in Hin. apply elem_of_list_In, in_flat_map in Hin as (e & He & Hin).
    apply in_map_iff in Hin as ([q u] & Epq & Hq). injection Epq as <- <-. apply elem_of_list_In in He, Hq.
    rewrite Forall_forall in HF. pose proof (HF e He) as Hx. unfold top_ok in Hx. cbn [enc_top fst snd].
    destruct (fst e) as [s|l|z] eqn:Ee; [|destruct Hx as (Hp & Hl & Hc & HFl)|done].
    - destruct Hx as [[Hv Ho]|[Hv Hp]].
      + destruct (obj_leaf _ Ho q u Hq (AStr s) s eq_refl Hv) as (Hpl & us & u1 & a & -> & H1 & H2 & H3 & H4 & H5).
        split; [done|]. right. right. destruct H4 as [[-> ->]|(us' & ->)].
        * by exists [], s, a.
        * exists (s :: us'), u1, a. repeat (split; [|done]). cbn [map app]. by rewrite map_app, <- app_assoc.
      + destruct (plain_leaves _ _ _ Hp Hq) as [-> ->]. split; [done|]. left. by exists s.
    - destruct (plain_leaves _ _ _ Hp Hq) as [-> ->]. split; [done|]. right. left. exists l.
      repeat (split; [done|]). split.
      + eapply Forall_impl; [exact HFl|]. intros x (s & -> & _). by exists s.
      + cbn [enc]. rewrite extract_rel by (intros x y ->; done). f_equal.
        clear -HFl. induction HFl as [|x l (s & -> & _) HF IH]; [done|]. simpl. by rewrite IH.
  Qed.

  (** ** Owners *)
  Lemma addrs_extract (v : pv) : obj v -> forall k w, extract_attr k = AStr w -> is_var w = true ->
    forall s y, (s, y) ∈ addrs k v -> is_var s = true /\ exists w', extract_attr y = AStr w' /\ is_var w' = true.
  Proof.
    induction v as [s|x|l IH|d IH] using pv_ind'; inversion 1 as [? Hne Hwf HF]; subst. intros k w Hk Hw s y Hin.
    cbn [addrs] in Hin. apply elem_of_list_In, in_flat_map in Hin as (e & He & Hin). apply elem_of_list_In in He, Hin.
    rewrite Forall_forall in IH, HF. destruct (HF e He) as (t & Et & _ & _ & [[Hv Ho]|[Hv Hp]]); rewrite Et in Hin.
    - apply elem_of_app in Hin as [Hin|Hin].
      + destruct (obj_dict _ Ho) as (d' & Ed). rewrite Ed in Hin. apply elem_of_list_singleton in Hin as [= -> ->]. eauto.
      + eapply (IH e He Ho (ATup [AStr t; k]) t); [|done|exact Hin]. cbn [extract_attr isvar]. by rewrite Hv.
    - rewrite (addrs_plain _ _ Hp), app_nil_r in Hin. destruct (snd e); try done; by apply elem_of_nil in Hin.
  Qed.
  Lemma iaddrs_extract (d : inst) s y : t_obj d -> (s, y) ∈ iaddrs d -> is_var s = true /\ exists w, extract_attr y = AStr w /\ is_var w = true.
  Proof.
    intros [Hwf HF _] Hin. unfold iaddrs in Hin. apply elem_of_list_In, in_flat_map in Hin as (e & He & Hin).
    apply elem_of_list_In in He, Hin. rewrite Forall_forall in HF. pose proof (HF e He) as Hx. unfold top_ok in Hx.
    destruct (fst e) as [t|l|z]; [|by apply elem_of_nil in Hin..]. destruct Hx as [[Hv Ho]|[Hv Hp]].
    - by eapply (addrs_extract _ Ho (AStr t) t).
    - rewrite (addrs_plain _ _ Hp) in Hin. by apply elem_of_nil in Hin.
  Qed.

  (** ** Renaming *)
  Lemma leaves_prename f (v : pv) : forall p w, (p, w) ∈ leaves v -> plainv w -> (map (arename f) p, w) ∈ leaves (prename f v).
  Proof.
    induction v as [s|x|l IH|d IH] using pv_ind'; intros p w Hin Hp.
    - simpl in Hin. apply elem_of_list_singleton in Hin as [= -> ->]. left.
    - simpl in Hin. apply elem_of_list_singleton in Hin as [= -> ->]. left.
    - simpl in Hin. apply elem_of_list_singleton in Hin as [= -> ->]. done.
    - cbn [leaves prename] in *. apply elem_of_list_In, in_flat_map in Hin as (e & He & Hin).
      apply in_map_iff in Hin as ([q u] & Epq & Hq). injection Epq as <- <-. cbn [fst snd] in *. rewrite Forall_forall in IH.
      apply elem_of_list_In, in_flat_map. exists (arename f (fst e), prename f (snd e)). split.
      + apply in_map_iff. by exists e.
      + apply in_map_iff. exists (map (arename f) q, u). split; [done|]. apply elem_of_list_In in Hq.
        apply elem_of_list_In. apply IH; [by apply elem_of_list_In|done|done].
  Qed.
  Lemma leaves_peq (v : pv) : forall v', peq v v' -> forall p w, (p, w) ∈ leaves v -> plainv w -> (p, w) ∈ leaves v'.
  Proof.
    induction v as [s|x|l IH|d IH] using pv_ind'; intros v' Hv p w Hin Hp.
    - inversion Hv; subst. done.
    - inversion Hv; subst. done.
    - simpl in Hin. apply elem_of_list_singleton in Hin as [= -> ->]. done.
    - inversion Hv as [| | |? d' e' HF HP]; subst. cbn [leaves] in *.
      apply elem_of_list_In, in_flat_map in Hin as (e & He & Hin). apply elem_of_list_In in He.
      apply in_map_iff in Hin as ([q u] & Epq & Hq). injection Epq as <- <-. cbn [fst snd] in *. rewrite Forall_forall in IH.
      apply elem_of_list_lookup in He as (i & Hi). destruct (Forall2_lookup_l _ _ _ _ _ HF Hi) as (e2 & Hi2 & Ee & Hpe).
      apply elem_of_list_In, in_flat_map. exists e2. split.
      + apply elem_of_list_In. rewrite <- HP. by eapply elem_of_list_lookup_2.
      + apply in_map_iff. exists (q, u). cbn [fst snd]. split; [by rewrite Ee|].
        apply elem_of_list_In in Hq. apply elem_of_list_In.
        apply (IH e ltac:(by eapply elem_of_list_lookup_2) _ Hpe); done.
  Qed.

  Lemma cnames_pvars (d : inst) u : t_obj d -> u ∈ cnames (PD d) -> u ∈ pvars (PD d).
  Proof.
    intros [_ HF _] Hin. cbn [cnames] in Hin.
    apply elem_of_list_In, in_flat_map in Hin as (e & He & Hu). apply elem_of_list_In in He, Hu. rewrite Forall_forall in HF.
    pose proof (HF e He) as Hx. eapply pvars_in; [exact He|]. destruct e as [a w]. unfold top_ok in Hx. cbn [fst snd] in *.
    apply elem_of_app in Hu as [Hu|Hu].
    - destruct a as [t|l|z]; [|by apply elem_of_nil in Hu..]. destruct Hx as [[Hv Ho]|[Hv Hp]].
      + destruct (obj_dict _ Ho) as (d' & ->). apply elem_of_list_singleton in Hu as ->. left. simpl. rewrite Hv. left.
      + destruct w; try done; by apply elem_of_nil in Hu.
    - destruct a as [t|l|z]; [|destruct Hx as [Hp _]; rewrite (cnames_plain _ Hp) in Hu; by apply elem_of_nil in Hu|done].
      destruct Hx as [[Hv Ho]|[Hv Hp]]; [right; by eapply cnames_vars|]. rewrite (cnames_plain _ Hp) in Hu. by apply elem_of_nil in Hu.
  Qed.
End Keys.

(** ** Addresses may be extended *)
Lemma occ_ext addr addr' a : (forall v, v ∈ avars a -> is_var v = true -> addr' v = addr v) ->
  (forall s, is_var s = false -> addr s = None -> addr' s = None) -> occ addr a -> occ addr' a.
Proof.
  intros H1 H2. induction a as [s|l IH|z] using attr_ind'; intros Ho.
  - inversion Ho; subst. constructor. destruct (is_var s) eqn:Es; [|by apply H2].
    rewrite H1; [done| |done]. simpl. rewrite Es. left.
  - inversion Ho as [| |? Hne HF|x y Hx Hb Hy|v y Hv Ha Hb Hr Hy]; subst.
    + apply occ_rel; [done|]. clear Hne Ho. induction HF as [|x l Hx HF IHl]; [constructor|].
      apply Forall_cons in IH as [IHx IH]. constructor.
      * apply IHx; [|done]. intros v Hv. apply H1. simpl. apply elem_of_app. by left.
      * apply IHl; [done|]. intros v Hv. apply H1. simpl. apply elem_of_app. by right.
    + apply Forall_cons in IH as [_ IH]. apply Forall_cons in IH as [IHy _]. apply occ_const; [done|done|].
      apply IHy; [|done]. intros v Hv. apply H1. simpl. apply elem_of_app. right. apply elem_of_app. by left.
    + apply Forall_cons in IH as [_ IH]. apply Forall_cons in IH as [IHy _].
      apply occ_var; [done| |done|done|].
      * rewrite H1; [done| |done]. simpl. rewrite Hv. left.
      * apply IHy; [|done]. intros w Hw. apply H1. simpl. apply elem_of_app. right. apply elem_of_app. by left.
  - constructor.
Qed.

Section Stages.
  Context {X : Type}.
  Notation pv := (pv X).
  Notation inst := (inst X).
  Context (pystr : attr -> string) (setord : list attr -> list attr).
  Hypothesis setord_spec : forall l x, x ∈ setord l <-> x ∈ l.
  Context (vt : pv) (Hvt : plainv vt).

  (** What the stages make of an instance [d]: [g] renames its variables, [f2]
      is handed to the structure mapper. *)
  Record given (c : nat) (d : inst) (rev : list (attr * attr)) (c1 : nat) (f2 : inst) (g : string -> string) : Prop := {
    gv_made : forall u, u ∈ pvars (PD d) -> made c c1 (g u) /\ is_var (g u) = true /\ is_var u = true /\ fm rev (g u) = u;
    gv_other : forall w, (forall u, u ∈ pvars (PD d) -> w <> g u) -> fm rev w = w;
    gv_strs : forall o c, dget o rev = Some c -> exists v w, o = AStr v /\ c = AStr w /\ is_var v = true;
    gv_wf : dwf f2;
    gv_keys : Forall (fun e => tkey (fst e) /\ (forall v, v ∈ avars (fst e) -> exists u, u ∈ pvars (PD d) /\ v = g u) /\ plainv (snd e)) f2;
    gv_leaf : forall p v, (p, v) ∈ ileaves d -> plainv v /\
      exists k, dget k f2 = Some v /\ is_has_comp k = None /\
        ((exists s, p = [AStr s] /\ is_var s = false /\ k = AStr s) \/
         (exists l, p = [ATup l] /\ k = arename g (ATup l)) \/
         (exists us u a, p = map AStr us ++ [AStr u; AStr a] /\ is_var a = false /\ is_var u = true /\ u ∈ pvars (PD d) /\ k = ckey a (g u)));
    gv_back : forall d3 : inst, Forall (fun e => tkey (fst e)) d3 ->
      (forall k, k ∈ dkeys f2 -> k ∈ dkeys d3) ->
      (forall w u, u ∈ pvars (PD d) -> has_comp w (AStr (g u)) ∈ dkeys d3 -> has_comp w (AStr (g u)) ∈ dkeys f2) ->
      forall p v, (p, v) ∈ ileaves d ->
        exists k k1 n, dget k f2 = Some v /\ is_has_comp k = None /\ get_path k1 = map (arename g) p /\
          forall fuel, n <= fuel -> rename_embedding fuel (so_mapping d3) k = Ok k1;
    gv_flat : nested d = [] -> forall w u, has_comp w u ∉ dkeys f2;
  }.

  Lemma given_stages c (d : inst) d1 rev c1 f f2 : t_obj d ->
    ns_transform pystr setord c d = (Ok (d1, rev), c1) -> flatten d1 = Ok f -> sub_transform vt f = Ok f2 ->
    exists g, given c d rev c1 f2 g.
  Proof using setord_spec Hvt.
    intros Hd E1 Ef E2. destruct (t_obj_std d Hd) as [Hs Hu].
    destruct (ns_transform_ok pystr setord setord_spec c d Hs) as (d1' & s & E1' & HG & Hdom & Hp).
    rewrite E1 in E1'. injection E1' as <- -> ->. set (g := fm (snd s)) in *. exists g.
    assert (Hf : renames g (pvars (PD d))).
    { split.
      - intros u Hu'. apply Hdom in Hu'. unfold g. destruct (fm_good c s u HG Hu') as (n & -> & _). done.
      - intros u v Hu' Hv'. apply (fm_inj c s); [done| |]; by apply Hdom. }
    destruct (t_obj_rename g d Hf Hd) as [Hd1 Hcn].
    assert (Hq : "??" ∉ cnames (PD (irename g d))).
    { rewrite Hcn. intros Hin. apply elem_of_list_fmap in Hin as (u & Eu & Hin). apply (cnames_pvars d u Hd) in Hin.
      apply Hdom in Hin. destruct (fm_good c s u HG Hin) as (n & Eg & _). unfold g in Eu. rewrite Eg in Eu. discriminate Eu. }
    apply peq_sym in Hp. pose proof (t_obj_peq _ _ Hp Hd1) as Hd1'.
    assert (Hq' : "??" ∉ cnames (PD d1)) by (by rewrite <- (cnames_peq _ _ Hp)).
    pose proof (t_obj_flat d1 Hd1') as Hfl. pose proof (t_obj_occ_at d1 Hd1' Hq') as Hocc.
    assert (Ef2 : f = map (fun q => (enc_top (fst q), snd q)) (ileaves d1)).
    { rewrite (flatten_ok d1 Hfl) in Ef. by injection Ef as <-. }
    assert (Hwf : dwf f).
    { rewrite Ef2. unfold dwf, dkeys. rewrite map_map. exact (enc_top_nodup d1 Hfl). }
    assert (HF : Forall (fun e => occ (assoc (iaddrs d1)) (fst e) /\ is_has_comp (fst e) = None) f).
    { rewrite Ef2. apply Forall_map. exact Hocc. }
    destruct (sub_round_trip_rels (assoc (iaddrs d1)) vt f Hwf HF) as (f2' & E2' & K1 & K2 & K3 & _).
    rewrite E2 in E2'. injection E2' as <-.
    assert (Hwf2 : dwf f2) by (by eapply sub_transform_wf).
    assert (Haddr : forall v y, assoc (iaddrs d1) v = Some y -> is_var v = true /\ exists w, extract_attr y = AStr w /\ is_var w = true).
    { intros v y Ea. assert (Hin : (v, y) ∈ iaddrs d1).
      { unfold assoc in Ea. destruct (List.find _ (iaddrs d1)) as [[s' y']|] eqn:Ef0; [|done]. injection Ea as <-.
        apply find_some in Ef0 as [Hin Hb]. apply bool_decide_eq_true in Hb. cbn [fst snd] in *. subst. by apply elem_of_list_In. }
      by apply (iaddrs_extract d1). }
    (* variables of the result *)
    assert (Hpv : forall v, v ∈ pvars (PD d1) -> exists u, u ∈ pvars (PD d) /\ v = g u).
    { intros v Hv. apply (pvars_peq _ _ Hp) in Hv. change (PD (irename g d)) with (prename g (PD d)) in Hv.
      apply pvars_prename in Hv; [done|]. apply Hf. }
    assert (HQ : keysQ (fun v => exists u, u ∈ pvars (PD d) /\ v = g u) f2).
    { eapply sub_transform_Q; [|exact (flatten_Q _ d1 f Hpv Ef)|exact E2].
      intros (u & Hu' & E). apply Hdom in Hu'. unfold g in E. destruct (fm_good c s u HG Hu') as (n & Eg & _). rewrite Eg in E. discriminate E. }
    (* leaves *)
    assert (Hlf : forall p v, (p, v) ∈ ileaves d -> plainv v /\ (map (arename g) p, v) ∈ ileaves d1).
    { intros p v Hin. destruct (t_obj_leaf d p v Hd Hin) as [Hpl _]. split; [done|].
      apply (leaves_peq _ _ Hp); [|done]. change (PD (irename g d)) with (prename g (PD d)). by apply leaves_prename. }
    assert (Hget : forall q v, (q, v) ∈ ileaves d1 -> dget (extract_attr (enc_top q)) f2 = Some v /\ is_has_comp (extract_attr (enc_top q)) = None).
    { intros q v Hin. assert (Hk : (extract_attr (enc_top q), v) ∈ List.filter keep f2).
      { rewrite K1, Ef2, map_map. apply elem_of_list_fmap. by exists (q, v). }
      apply elem_of_list_In, filter_In in Hk as [Hk1 Hk2]. apply elem_of_list_In in Hk1. split; [by apply In_dget|].
      unfold keep in Hk2. cbn [fst] in Hk2. by destruct (is_has_comp (extract_attr (enc_top q))). }
    assert (Hpd : forall u, u ∈ pvars (PD d) -> is_var u = true).
    { intros u Hu'. apply Hdom in Hu'. by destruct (good_dget c s u HG Hu') as (n & _ & _ & ?). }
    split.
    - intros u Hu'. pose proof (Hpd u Hu') as Hvu. apply Hdom in Hu'. destruct (fm_good c s u HG Hu') as (n & Eg & Hn).
      fold g in Eg. split; [exists n; by rewrite Eg|]. split; [rewrite Eg; done|]. split; [done|].
      unfold fm at 1. change (map (fun e : attr * attr => (snd e, fst e)) (snd s)) with (rev_of s).
      unfold g. by rewrite (rev_get c s u HG Hu').
    - intros w Hw. unfold fm. destruct (dget (AStr w) _) as [t|] eqn:Eg; [|done]. exfalso.
      apply dget_In in Eg. apply elem_of_list_fmap in Eg as ([a b] & [= <- <-] & Hin).
      destruct HG as (G0 & G1 & G2 & G3). rewrite Forall_forall in G3. destruct (G3 _ Hin) as (v & n & Ea & Hv & Eb & Hn).
      cbn [fst snd] in *. subst. injection Eb as ->. assert (Hdv : dom (snd s) v) by (unfold dom, dkeys; apply elem_of_list_fmap; by exists (AStr v, AStr (gensym_name n))).
      apply (Hw v); [by apply Hdom|]. unfold g, fm. by rewrite (In_dget _ _ _ G1 Hin).
    - intros o t Eo. apply dget_In in Eo. apply elem_of_list_fmap in Eo as ([a b] & [= <- <-] & Hin).
      destruct HG as (G0 & G1 & G2 & G3). rewrite Forall_forall in G3. destruct (G3 _ Hin) as (v & n & Ea & Hv & Eb & Hn).
      cbn [fst snd] in *. subst. by exists (gensym_name n), v.
    - done.
    - apply Forall_forall. intros [k v] Hin. cbn [fst snd].
      assert (Hk : k ∈ dkeys f2) by (apply elem_of_list_fmap; by exists (k, v)).
      destruct (is_has_comp k) as [[p0 c0]|] eqn:Eh.
      + destruct (K2 k Hk) as (u & y & Hvu & Ea & ->); [by rewrite Eh|]. destruct (Haddr _ _ Ea) as (_ & w & Ew & Hw).
        split; [rewrite Ew; by constructor|]. split; [by apply HQ|].
        (* the value of an added relation *)
        assert (Hv : forall acc l, Forall (fun e : attr * pv => plainv (snd e)) acc -> Forall (fun e : attr * pv => plainv (snd e)) l -> forall r,
          rfold (fun acc e => let? rels := has_components (fst e) in
             let acc := fold_left (fun acc r => dset r vt acc) rels acc in
             Ok (dset (extract_attr (fst e)) (snd e) acc)) acc l = Ok r -> Forall (fun e : attr * pv => plainv (snd e)) r).
        { assert (Hds : forall k (v : pv) acc, plainv v -> Forall (fun e : attr * pv => plainv (snd e)) acc -> Forall (fun e : attr * pv => plainv (snd e)) (dset k v acc)).
          { clear. intros k v acc Hv Hacc. induction Hacc as [|[k' v'] acc H Hacc IH]; simpl; [by repeat constructor|].
            case_decide; constructor; done. }
          intros acc l Hacc Hl. revert acc Hacc. induction Hl as [|[a w'] l Hw' Hl IH]; intros acc Hacc r Er; cbn [rfold] in Er; [by injection Er as <-|].
          cbn [fst snd] in Er. destruct (has_components a) as [rels|]; [|done]. cbn [rbind] in Er.
          eapply IH; [|exact Er]. apply Hds; [done|]. clear -Hacc Hds Hvt. revert acc Hacc.
          induction rels as [|r rels IH]; intros acc Hacc; simpl; [done|]. apply IH. by apply Hds. }
        assert (Hvf : Forall (fun e : attr * pv => plainv (snd e)) f).
        { rewrite Ef2. apply Forall_map, Forall_forall. intros [q v0] Hq0. cbn [snd]. by apply (t_obj_leaf d1 q v0 Hd1' Hq0). }
        pose proof (Hv [] f (Forall_nil_2 _) Hvf f2 E2) as Hall. rewrite Forall_forall in Hall. by apply (Hall _ Hin).
      + assert (Hin2 : (k, v) ∈ List.filter keep f2).
        { apply elem_of_list_In, filter_In. split; [by apply elem_of_list_In|]. unfold keep. cbn [fst]. by rewrite Eh. }
        rewrite K1, Ef2, map_map in Hin2. apply elem_of_list_fmap in Hin2 as ([q v0] & [= -> ->] & Hq0). cbn [fst snd] in *.
        destruct (t_obj_leaf d1 q v0 Hd1' Hq0) as [Hpl Hc]. split; [|split; [by apply HQ|done]].
        destruct Hc as [(t & -> & Ht & Ex)|[(l & -> & H1 & H2 & H3 & Ex)|(us & u & a & -> & H1 & H2 & H3 & Ex)]]; rewrite Ex; by constructor.
    - intros p v Hin. destruct (Hlf p v Hin) as [Hpl Hin1]. split; [done|]. destruct (Hget _ _ Hin1) as [Hg1 Hg2].
      eexists. split; [exact Hg1|]. split; [done|].
      destruct (t_obj_leaf d p v Hd Hin) as [_ [(t & -> & Ht & Ex)|[(l & -> & H1 & H2 & H3 & Ex)|(us & u & a & -> & H1 & H2 & H3 & Ex)]]].
      + left. exists t. split; [done|]. split; [done|]. cbn [map arename enc_top enc extract_attr]. by rewrite Ht.
      + right. left. exists l. split; [done|]. cbn [map enc_top enc].
        destruct (t_obj_leaf d1 _ v Hd1' Hin1) as [_ [(t & Et & Ht & Ex')|[(l' & El & _ & _ & _ & Ex')|(us' & u' & a' & Eu & _)]]].
        * discriminate Et.
        * cbn [map enc_top enc] in Ex'. rewrite Ex'. injection El as <-. done.
        * exfalso. cbn [map] in Eu. destruct us'; discriminate Eu.
      + right. right. exists us, u, a. split; [done|]. split; [done|]. split; [done|]. 
        assert (Hup : u ∈ pvars (PD d)).
        { clear -Hin H3 Hd. assert (Hgen : forall v0 p0 (w0 : pv), (p0, w0) ∈ leaves v0 -> forall u0, AStr u0 ∈ p0 -> is_var u0 = true -> u0 ∈ pvars v0).
          { clear. induction v0 as [s|x|l IH|d IH] using pv_ind'; intros p0 w0 Hin u0 Hu Hv; cbn [leaves] in Hin.
            - apply elem_of_list_singleton in Hin as [= -> _]. by apply elem_of_nil in Hu.
            - apply elem_of_list_singleton in Hin as [= -> _]. by apply elem_of_nil in Hu.
            - apply elem_of_list_singleton in Hin as [= -> _]. by apply elem_of_nil in Hu.
            - apply elem_of_list_In, in_flat_map in Hin as (e & He & Hin). apply in_map_iff in Hin as ([q w] & Epq & Hq).
              injection Epq as <- <-. cbn [fst snd] in *. apply elem_of_list_In in He, Hq. rewrite Forall_forall in IH.
              eapply pvars_in; [exact He|]. apply elem_of_cons in Hu as [Hu|Hu].
              + left. rewrite <- Hu. simpl. rewrite Hv. left.
              + right. by eapply IH. }
          apply (Hgen (PD d) _ _ Hin u); [|done]. apply elem_of_app. right. left. }
        split; [done|].
        destruct (t_obj_leaf d1 _ v Hd1' Hin1) as [_ [(t & Et & _)|[(l' & El & _)|(us' & u' & a' & Eu & _ & _ & _ & Ex')]]].
        * exfalso. rewrite map_app in Et. destruct us as [|x [|y us]]; discriminate Et.
        * exfalso. rewrite map_app in El. destruct us as [|x [|y us]]; discriminate El.
        * rewrite Ex'. rewrite map_app in Eu. cbn [map arename] in Eu. rewrite H1, H3 in Eu.
          change [AStr (g u); AStr a] with ([AStr (g u)] ++ [AStr a]) in Eu. change [AStr u'; AStr a'] with ([AStr u'] ++ [AStr a']) in Eu.
          rewrite !app_assoc in Eu. apply app_inj_tail in Eu as [Eu [= <-]]. apply app_inj_tail in Eu as [_ [= <-]]. done.
    - intros d3 Ht3 Hsub Hown p v Hin. destruct (Hlf p v Hin) as [Hpl Hin1]. destruct (Hget _ _ Hin1) as [Hg1 Hg2].
      set (q := map (arename g) p) in *. set (k1 := enc_top q) in *.
      exists (extract_attr k1), k1, (asize k1). split; [done|]. split; [done|].
      pose proof (ileaves_names d1 Hfl) as Hn. rewrite Forall_forall in Hn. destruct (Hn _ Hin1) as (a0 & q0 & Eq & Hpr & Hno). cbn [fst] in Eq.
      split; [unfold k1; rewrite Eq; by apply get_path_top|].
      set (addr := assoc (iaddrs d1)).
      set (addr' := fun s : string => match addr s with Some y => Some y | None =>
              if decide (AStr s ∈ map (fun u => AStr (g u)) (pvars (PD d))) then None else dget (AStr s) (so_mapping d3) end).
      pose proof (so_mapping_tkey d3 Ht3) as Hm3.
      assert (Hsnd : sound addr' (so_mapping d3)).
      { intros x y Exy. destruct (Hm3 x y Exy) as (u & w & -> & -> & Hvu & Hvw & Hk3).
        assert (Hgiven : forall y0, addr u = Some y0 -> AStr u ∈ map (fun u => AStr (g u)) (pvars (PD d))).
        { intros y0 Ea. assert (Hnn : u ∈ nested d1).
          { rewrite <- (iaddrs_names d1 Hd1'). destruct (decide (u ∈ map fst (iaddrs d1))) as [|Hni]; [done|].
            unfold addr in Ea. rewrite assoc_none in Ea by done. done. }
          assert (Hc1 : u ∈ cnames (PD d1)).
          { unfold nested in Hnn. cbn [cnames]. apply elem_of_list_In, in_flat_map in Hnn as (e & He & Hne).
            apply elem_of_list_In, in_flat_map. exists e. split; [done|]. apply in_or_app. by right. }
          apply (cnames_pvars d1 u Hd1') in Hc1. destruct (Hpv u Hc1) as (u0 & Hu0 & ->).
          apply elem_of_list_fmap. by exists u0. }
        destruct (decide (AStr u ∈ map (fun u => AStr (g u)) (pvars (PD d)))) as [Hg|Hng].
        - apply elem_of_list_fmap in Hg as (u0 & [= ->] & Hu0).
          pose proof (Hown _ _ Hu0 Hk3) as Hk2. destruct (K2 _ Hk2) as (u1 & y & Hv1 & Ea & Er); [done|].
          unfold has_comp in Er. injection Er as Ew Eu. subst. exists (g u0), y. split; [done|]. split; [|done].
          unfold addr', addr. by rewrite Ea.
        - exists u, (AStr w). split; [done|]. split; [|done]. unfold addr'.
          destruct (addr u) as [y0|] eqn:Ea; [exfalso; by eapply Hng, Hgiven|].
          rewrite decide_False by done. done. }
      rewrite Forall_forall in Hocc. destruct (Hocc _ Hin1) as [Ho _]. cbn [fst] in Ho. fold k1 addr in Ho.
      assert (Hvk : forall u, u ∈ avars k1 -> exists u0, u0 ∈ pvars (PD d) /\ u = g u0).
      { intros u Hu'. apply (flatten_Q (fun v => exists u, u ∈ pvars (PD d) /\ v = g u) d1 f Hpv Ef k1); [|done].
        rewrite Ef2. unfold dkeys. rewrite map_map. apply elem_of_list_fmap. by exists (q, v). }
      intros fuel Hfuel. apply rename_embedding_ok with addr'; [done| | |done].
      + eapply occ_ext; [| |exact Ho].
        * intros u Hu' Hvu. unfold addr'. destruct (addr u) as [y|]; [done|].
          destruct (Hvk u Hu') as (u0 & Hu0 & ->). rewrite decide_True; [done|]. apply elem_of_list_fmap. by exists u0.
        * intros t Ht Ea. unfold addr'. rewrite Ea. destruct (decide _); [done|].
          destruct (dget (AStr t) (so_mapping d3)) as [y|] eqn:Ey; [|done].
          destruct (Hm3 _ _ Ey) as (u & w & [= <-] & _ & Hvu & _). congruence.
      + intros u Hu'. destruct (K3 (k1, v) u) as (y & Ea & Hk); [|done|].
        * rewrite Ef2. apply elem_of_list_fmap. by exists (q, v).
        * apply Hsub in Hk. destruct (so_mapping_gen d3 []) as (_ & G2 & _). apply (G2 _ (extract_attr y) (AStr u) Hk). done.
    - intros Hnest w u Hk. destruct (K2 _ Hk) as (u1 & y & Hv1 & Ea & Er); [done|].
      assert (Hnn : u1 ∈ nested d1).
      { rewrite <- (iaddrs_names d1 Hd1'). destruct (decide (u1 ∈ map fst (iaddrs d1))) as [|Hni]; [done|].
        rewrite assoc_none in Ea by done. done. }
      assert (Hp2 : ieq d1 (irename g d)) by (by apply peq_sym).
      assert (E0 : nested (irename g d) = map g (nested d)).
      { clear -Hd Hf. destruct Hd as [_ HF _]. unfold nested, irename. rewrite flat_map_concat_map, map_map, <- flat_map_concat_map. cbn [snd].
        assert (Hgen : forall l, (forall e, e ∈ l -> e ∈ d) -> flat_map (fun x => cnames (prename g (snd x))) l = map g (flat_map (fun e => cnames (snd e)) l)).
        { induction l as [|e l IH]; intros Hsub; [done|]. cbn [flat_map]. rewrite map_app, IH by (intros x Hx; apply Hsub; by right). f_equal.
          assert (He : e ∈ d) by (apply Hsub; left). rewrite Forall_forall in HF. pose proof (HF e He) as Hx. unfold top_ok in Hx.
          assert (Hr : renames g (pvars (snd e))).
          { eapply renames_sub; [|exact Hf]. intros u Hu. eapply pvars_in; eauto. }
          destruct (fst e) as [t|l'|z]; [|destruct Hx as [Hpl _]|done].
          - destruct Hx as [[_ Ho]|[_ Hpl]]; [by apply (obj_rename _ _ Hr)|]. by rewrite plainv_rename, (cnames_plain _ Hpl).
          - by rewrite plainv_rename, (cnames_plain _ Hpl). }
        by apply Hgen. }
      rewrite (nested_peq _ _ Hp2), E0, Hnest in Hnn. by apply elem_of_nil in Hnn.
  Qed.
End Stages.
