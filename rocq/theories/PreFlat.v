(** * Facts about the Flattener *)
From stdpp Require Import base decidable list strings.
From Coq Require Import Ascii String ZArith.
From Verif Require Import Base PyVal Preproc.
Set Default Proof Using "Type".

Local Arguments flat_key : simpl never.

Section Flat.
  Context {X : Type}.
  Notation pv := (pv X).
  Notation inst := (inst X).

  (** The leaves of a value with the path that leads to them. *)
  Fixpoint leaves (v : pv) : list (list attr * pv) :=
    match v with
    | PD d => flat_map (fun e => map (fun q => (fst e :: fst q, snd q)) (leaves (snd e))) d
    | _ => [([], v)]
    end.

  Definition ileaves (d : inst) : list (list attr * pv) :=
    flat_map (fun e => map (fun q => (fst e :: fst q, snd q)) (leaves (snd e))) d.

  (** Names that may be used inside a component: anything that the sanity
      check accepts as an attribute, except the reserved name ['_']. *)
  Definition name_ok (a : attr) : Prop := attr_ok a = true /\ a <> AStr "_".

  (** A value whose components are not empty and use such names. *)
  Inductive comp_ok : pv -> Prop :=
    | co_str s : comp_ok (PStr s)
    | co_x x : comp_ok (PX x)
    | co_list l : comp_ok (PL l)
    | co_dict d : d <> [] -> dwf d -> Forall (fun e => name_ok (fst e)) d ->
        Forall (fun e => comp_ok (snd e)) d -> comp_ok (PD d).

  (** At the top level relations are allowed too, if they are not pairs. *)
  Definition flat_ok (d : inst) : Prop :=
    dwf d /\ Forall (fun e => is_pair (fst e) = false) d /\
    Forall (fun e => comp_ok (snd e)) d.

  (** The flattened name of the leaf at path [p] below [k]. *)
  Fixpoint enc (k : attr) (p : list attr) : attr :=
    match p with
    | [] => k
    | a :: p => enc (if hidden a then ATup [AStr "_"; ATup [a; k]] else ATup [a; k]) p
    end.

  Lemma get_path_one k a : name_ok a ->
    get_path (if hidden a then ATup [AStr "_"; ATup [a; k]] else ATup [a; k]) = get_path k ++ [a].
  Proof.
    intros [_ Hn]. destruct (hidden a); simpl.
    - by rewrite decide_False.
    - by rewrite decide_False.
  Qed.

  Lemma get_path_enc k p :
    Forall name_ok p -> get_path (enc k p) = get_path k ++ p.
  Proof.
    revert k. induction p as [|a p IH]; intros k Hp; simpl.
    - by rewrite app_nil_r.
    - apply Forall_cons in Hp as [Ha Hp]. rewrite IH by done.
      rewrite get_path_one by done. by rewrite <- app_assoc.
  Qed.

  Lemma leaves_names v : comp_ok v -> Forall (fun q => Forall name_ok (fst q)) (leaves v).
  Proof.
    induction v as [s|x|l IH|d IH] using pv_ind'; intros Hv; simpl;
      try (repeat constructor; fail).
    inversion Hv as [| | |? _ _ Hn Hc]; subst. clear Hv.
    induction d as [|[a w] d IHd]; simpl; [constructor|].
    apply Forall_cons in IH as [Hw IH]. apply Forall_cons in Hn as [Ha Hn].
    apply Forall_cons in Hc as [Hcw Hc]. apply Forall_app. split; [|by apply IHd].
    apply Forall_map. eapply Forall_impl; [by apply Hw|].
    intros [p q] Hp. simpl in *. by constructor.
  Qed.

  Lemma leaves_nonnil v : comp_ok v -> leaves v <> [].
  Proof.
    induction v as [s|x|l IH|d IH] using pv_ind'; intros Hv; simpl; try done.
    inversion Hv as [| | |? Hd _ Hn Hc]; subst. destruct d as [|[a w] d]; [done|].
    apply Forall_cons in IH as [Hw IH]. apply Forall_cons in Hc as [Hcw Hc]. simpl in *.
    intros He. apply app_eq_nil in He as [He _]. apply map_eq_nil in He. by apply Hw.
  Qed.

  Lemma leaves_nodup v : comp_ok v -> NoDup (map fst (leaves v)).
  Proof.
    induction v as [s|x|l IH|d IH] using pv_ind'; intros Hv; simpl;
      try (apply NoDup_singleton).
    inversion Hv as [| | |? _ Hd Hn Hc]; subst. clear Hv Hn.
    induction d as [|[a w] d IHd]; simpl; [constructor|].
    apply Forall_cons in IH as [Hw IH]. apply dwf_cons in Hd as [Ha Hd].
    apply Forall_cons in Hc as [Hcw Hc]. rewrite map_app. apply NoDup_app.
    split; [|split; [|by apply IHd]].
    - rewrite map_map. simpl. rewrite <- (map_map fst (cons a)).
      apply NoDup_fmap_2; [|by apply Hw]. intros ?? E. by inversion E.
    - intros p Hp Hp'. rewrite map_map in Hp. simpl in Hp.
      apply elem_of_list_fmap in Hp as [[p1 x1] [-> _]]. simpl in Hp'.
      apply elem_of_list_fmap in Hp' as [[p2 x2] [E Hp']].
      apply elem_of_list_In, in_flat_map in Hp' as [[b u] [Hbu Hin]].
      apply in_map_iff in Hin as [[p3 x3] [E3 _]]. simpl in *.
      injection E3 as <- <-. injection E as <- <-.
      apply Ha. apply elem_of_list_fmap. exists (a, u). split; [done|].
      by apply elem_of_list_In.
  Qed.

  Lemma enc_nodup k (l : list (list attr * pv)) :
    Forall (fun q => Forall name_ok (fst q)) l -> NoDup (map fst l) ->
    NoDup (map (fun q => enc k (fst q)) l).
  Proof.
    intros Hn. induction Hn as [|[p x] l Hp Hl IH]; simpl; intros Hnd; [constructor|].
    apply NoDup_cons in Hnd as [Hni Hnd]. apply NoDup_cons. split; [|by apply IH].
    intros Hin. apply elem_of_list_fmap in Hin as [[p' x'] [E Hin]]. simpl in *.
    assert (Hp' : Forall name_ok p').
    { rewrite Forall_forall in Hl. by apply (Hl (p', x')). }
    apply (f_equal get_path) in E. rewrite !get_path_enc in E by done.
    apply app_inv_head in E. subst. apply Hni.
    apply elem_of_list_fmap. by exists (p', x').
  Qed.

  Lemma enc_cons k a p : enc k (a :: p) = enc (enc k [a]) p.
  Proof. done. Qed.

  Lemma flat_key_ok k a : name_ok a -> flat_key (Some k) a = Ok (enc k [a]).
  Proof. intros [Ha _]. unfold flat_key. by rewrite Ha. Qed.

  Lemma flat_val_ok k v :
    comp_ok v -> flat_val k v = Ok (map (fun q => (enc k (fst q), snd q)) (leaves v)).
  Proof.
    revert k. induction v as [s|x|l IH|d IH] using pv_ind'; intros k Hv; simpl; try done.
    pose proof (leaves_nodup _ Hv) as Hnd. pose proof (leaves_names _ Hv) as Hnm.
    pose proof (enc_nodup k _ Hnm Hnd) as Hen. clear Hnd Hnm.
    inversion Hv as [| | |? _ Hd Hn Hc]; subst. clear Hv Hd.
    (* the loop, with what it has accumulated so far *)
    simpl in Hen.
    match goal with |- ?g d [] = Ok (map ?h ?l) =>
      assert (Hgo : forall acc, NoDup (dkeys acc ++ map (fun q => enc k (fst q)) l) ->
        g d acc = Ok (acc ++ map h l)) end.
    { clear Hen. induction d as [|[a w] d IHd]; intros acc Hnd; [by rewrite app_nil_r|].
      apply Forall_cons in IH as [Hw IH]. apply Forall_cons in Hn as [Ha Hn].
      apply Forall_cons in Hc as [Hcw Hc]. cbn [fst snd] in *.
      rewrite (flat_key_ok k a Ha). unfold rbind at 1. rewrite (Hw _ Hcw). unfold rbind at 1.
      simpl in Hnd. rewrite map_app, map_map in Hnd. simpl in Hnd. rewrite app_assoc in Hnd.
      assert (Hk : dkeys (map (fun q : list attr * pv => (enc (enc k [a]) q.1, q.2)) (leaves w)) =
                   map (fun q => enc (if hidden a then ATup [AStr "_"; ATup [a; k]]
                                      else ATup [a; k]) q.1) (leaves w)).
      { unfold dkeys. rewrite map_map. done. }
      rewrite dupd_app.
      2:{ rewrite Hk. apply NoDup_app in Hnd as [Hnd _]. exact Hnd. }
      rewrite IHd.
      - simpl. rewrite map_app, map_map. simpl. by rewrite app_assoc.
      - done.
      - done.
      - done.
      - rewrite dkeys_app, Hk. exact Hnd. }
    rewrite Hgo by done. done.
  Qed.

  (** The whole instance: its leaves, under their flattened names. *)
  Definition enc_top (p : list attr) : attr :=
    match p with [] => AStr "" | a :: p => enc a p end.

  Lemma ileaves_names d : flat_ok d ->
    Forall (fun q => exists a p, fst q = a :: p /\ is_pair a = false /\ Forall name_ok p) (ileaves d).
  Proof.
    intros (_ & Hp & Hc). unfold ileaves. induction d as [|[a w] d IHd]; simpl; [constructor|].
    apply Forall_cons in Hp as [Ha Hp]. apply Forall_cons in Hc as [Hcw Hc].
    apply Forall_app. split; [|by apply IHd].
    apply Forall_map. eapply Forall_impl; [by apply leaves_names|].
    intros [p q] Hq. simpl in *. eauto.
  Qed.

  Lemma get_path_nonpair a : is_pair a = false -> get_path a = [a].
  Proof. destruct a as [s|[|x [|y [|z l]]]|z]; done. Qed.

  Lemma get_path_top a p : is_pair a = false -> Forall name_ok p ->
    get_path (enc_top (a :: p)) = a :: p.
  Proof. intros Ha Hp. simpl. rewrite get_path_enc by done. by rewrite get_path_nonpair. Qed.

  Lemma ileaves_nodup d : flat_ok d -> NoDup (map fst (ileaves d)).
  Proof.
    intros (Hd & _ & Hc). unfold ileaves. induction d as [|[a w] d IHd]; simpl; [constructor|].
    apply dwf_cons in Hd as [Ha Hd]. apply Forall_cons in Hc as [Hcw Hc].
    rewrite map_app. apply NoDup_app. split; [|split; [|by apply IHd]].
    - rewrite map_map. simpl. rewrite <- (map_map fst (cons a)).
      apply NoDup_fmap_2; [|by apply leaves_nodup]. intros ?? E. by inversion E.
    - intros p Hp Hp'. rewrite map_map in Hp. simpl in Hp.
      apply elem_of_list_fmap in Hp as [[p1 x1] [-> _]]. simpl in Hp'.
      apply elem_of_list_fmap in Hp' as [[p2 x2] [E Hp']].
      apply elem_of_list_In, in_flat_map in Hp' as [[b u] [Hbu Hin]].
      apply in_map_iff in Hin as [[p3 x3] [E3 _]]. simpl in *.
      injection E3 as <- <-. injection E as <- <-.
      apply Ha. apply elem_of_list_fmap. exists (a, u). split; [done|].
      by apply elem_of_list_In.
  Qed.

  Lemma enc_top_nodup d : flat_ok d -> NoDup (map (fun q => enc_top (fst q)) (ileaves d)).
  Proof.
    intros Hd. pose proof (ileaves_nodup d Hd) as Hnd. pose proof (ileaves_names d Hd) as Hn.
    clear Hd. induction Hn as [|[p x] l (a & p' & E & Ha & Hp) Hl IH]; simpl in *; [constructor|].
    subst. apply NoDup_cons in Hnd as [Hni Hnd]. apply NoDup_cons. split; [|by apply IH].
    intros Hin. apply elem_of_list_fmap in Hin as [[q y] [E Hin]]. simpl in *.
    rewrite Forall_forall in Hl. destruct (Hl _ Hin) as (b & q' & E' & Hb & Hq). simpl in E'. subst.
    apply (f_equal get_path) in E. simpl in E. rewrite !get_path_enc in E by done.
    rewrite !get_path_nonpair in E by done. simpl in E. injection E as <- <-.
    apply Hni. apply elem_of_list_fmap. by exists (a :: p', y).
  Qed.

  Lemma flatten_ok d :
    flat_ok d -> flatten d = Ok (map (fun q => (enc_top (fst q), snd q)) (ileaves d)).
  Proof.
    intros Hd. pose proof (enc_top_nodup d Hd) as Hnd. destruct Hd as (_ & _ & Hc).
    unfold flatten.
    assert (Hgo : forall acc, NoDup (dkeys acc ++ map (fun q => enc_top (fst q)) (ileaves d)) ->
      rfold (fun acc e => rbind (flat_val (fst e) (snd e)) (fun so => Ok (dupd acc so))) acc d =
      Ok (acc ++ map (fun q => (enc_top (fst q), snd q)) (ileaves d))).
    { clear Hnd. unfold ileaves. induction d as [|[a w] d IHd]; intros acc Hnd.
      - by rewrite app_nil_r.
      - apply Forall_cons in Hc as [Hcw Hc]. cbn [rfold fst snd]. cbn [snd] in Hcw.
        rewrite flat_val_ok by done. unfold rbind at 2. unfold rbind at 1.
        simpl in Hnd. rewrite map_app, map_map in Hnd. simpl in Hnd. rewrite app_assoc in Hnd.
        assert (Hk : dkeys (map (fun q : list attr * pv => (enc a q.1, q.2)) (leaves w)) =
                     map (fun q => enc a q.1) (leaves w)).
        { unfold dkeys. rewrite map_map. done. }
        rewrite dupd_app.
        2:{ rewrite Hk. apply NoDup_app in Hnd as [Hnd _]. exact Hnd. }
        rewrite IHd.
        + simpl. rewrite map_app, map_map. simpl. by rewrite app_assoc.
        + done.
        + rewrite dkeys_app, Hk. exact Hnd. }
    by rewrite Hgo.
  Qed.

  (** ** Undoing *)

  (** Storing all leaves of some list one after the other. *)
  Definition ins_all (l : list (list attr * pv)) (d : inst) : res inst :=
    rfold (fun acc q => ins_path (fst q) (snd q) acc) d l.

  Lemma ins_all_app l1 l2 d :
    ins_all (l1 ++ l2) d = rbind (ins_all l1 d) (ins_all l2).
  Proof.
    unfold ins_all. revert d. induction l1 as [|q l1 IH]; intros d; simpl; [done|].
    destruct (ins_path _ _ d); simpl; [apply IH|done].
  Qed.

  (** Once component [k] exists, storing below it changes only it. *)
  Lemma ins_all_below k (l : list (list attr * pv)) s d :
    Forall (fun q => fst q <> []) l -> dget k d = Some (PD s) ->
    ins_all (map (fun q => (k :: fst q, snd q)) l) d =
    rbind (ins_all l s) (fun s' => Ok (dset k (PD s') d)).
  Proof.
    unfold ins_all. revert s d. induction l as [|[p x] l IH]; intros s d Hl Hg; simpl.
    - by rewrite dset_same.
    - apply Forall_cons in Hl as [Hp Hl]. simpl in Hp.
      destruct p as [|a p]; [done|]. rewrite Hg.
      destruct (ins_path (a :: p) x s) as [s'|e] eqn:E; cbn [rbind]; [|done].
      rewrite (IH s') by (done || by rewrite dget_dset_eq).
      destruct (rfold _ s' l); cbn [rbind]; [|done]. by rewrite dset_dset.
  Qed.

  Lemma ins_all_fresh k (l : list (list attr * pv)) d :
    l <> [] -> Forall (fun q => fst q <> []) l -> k ∉ dkeys d ->
    ins_all (map (fun q => (k :: fst q, snd q)) l) d =
    rbind (ins_all l []) (fun s' => Ok (d ++ [(k, PD s')])).
  Proof.
    intros Hne Hl Hk. destruct l as [|[p x] l]; [done|].
    apply Forall_cons in Hl as [Hp Hl]. simpl in Hp. destruct p as [|a p]; [done|].
    unfold ins_all at 1 2. cbn [map rfold fst snd].
    assert (Hn : dget k d = None) by by apply dget_None.
    change (ins_path (k :: a :: p) x d) with
      (match dget k d with
       | None => rbind (ins_path (a :: p) x []) (fun s => Ok (dset k (PD s) d))
       | Some (PD s) => rbind (ins_path (a :: p) x s) (fun s => Ok (dset k (PD s) d))
       | Some _ => Err TypeError
       end). rewrite Hn.
    destruct (ins_path (a :: p) x []) as [s'|e] eqn:E; cbn [rbind]; [|done].
    change (rfold _ (dset k (PD s') d) (map _ l)) with
      (ins_all (map (fun q => (k :: fst q, snd q)) l) (dset k (PD s') d)).
    rewrite (ins_all_below k l s') by (done || by rewrite dget_dset_eq).
    unfold ins_all. destruct (rfold _ s' l); cbn [rbind]; [|done].
    rewrite dset_dset. by rewrite dset_fresh.
  Qed.

  Lemma leaves_paths_nonnil v :
    (exists d, v = PD d) -> Forall (fun q => fst q <> []) (leaves v).
  Proof.
    intros [d ->]. simpl. induction d as [|[a w] d IH]; simpl; [constructor|].
    apply Forall_app. split; [|done]. apply Forall_map. apply Forall_forall.
    by intros [p x] _.
  Qed.

  Lemma ins_all_entries (d : inst) acc :
    NoDup (dkeys acc ++ dkeys d) ->
    Forall (fun e => comp_ok (snd e)) d ->
    Forall (fun e => forall d', snd e = PD d' -> ins_all (leaves (snd e)) [] = Ok d') d ->
    ins_all (ileaves d) acc = Ok (acc ++ d).
  Proof.
    intros Hnd Hc Hi. revert acc Hnd. unfold ileaves.
    induction d as [|[a w] d IH]; intros acc Hnd; cbn [flat_map fst snd].
    - unfold ins_all. simpl. by rewrite app_nil_r.
    - apply Forall_cons in Hc as [Hcw Hc]. apply Forall_cons in Hi as [Hw Hi].
      cbn [snd] in *. simpl in Hnd.
      assert (Ha : a ∉ dkeys acc).
      { apply NoDup_app in Hnd as (_ & Hx & _). intros Hin. apply (Hx _ Hin). left. }
      assert (H1 : ins_all (map (fun q => (a :: fst q, snd q)) (leaves w)) acc =
                   Ok (acc ++ [(a, w)])).
      { destruct w as [s|x|l|d'].
        - unfold ins_all. simpl. by rewrite dset_fresh.
        - unfold ins_all. simpl. by rewrite dset_fresh.
        - unfold ins_all. simpl. by rewrite dset_fresh.
        - rewrite ins_all_fresh; [|by apply leaves_nonnil|apply leaves_paths_nonnil; eauto|done].
          by rewrite (Hw d' eq_refl). }
      rewrite ins_all_app, H1. cbn [rbind]. rewrite IH; [by rewrite <- app_assoc|done|done|].
      rewrite dkeys_app. simpl. by rewrite <- app_assoc.
  Qed.

  Lemma ins_all_leaves v : comp_ok v -> forall d, v = PD d -> ins_all (leaves v) [] = Ok d.
  Proof.
    induction v as [s|x|l IH|d IH] using pv_ind'; intros Hv d0 E; try done.
    injection E as <-. inversion Hv as [| | |? _ Hd _ Hc]; subst.
    change (leaves (PD d)) with (ileaves d). rewrite ins_all_entries; [done|done|done|].
    rewrite Forall_forall in IH, Hc. apply Forall_forall. intros e He d' Ed.
    rewrite (IH e He (Hc e He) d' Ed). done.
  Qed.

  Lemma is_pair_enc a b p : is_pair (enc a (b :: p)) = true.
  Proof.
    revert a b. induction p as [|c p IH]; intros a b.
    - simpl. by destruct (hidden b).
    - rewrite enc_cons. apply IH.
  Qed.

  Lemma structurize_flat d : flat_ok d ->
    structurize (map (fun q => (enc_top (fst q), snd q)) (ileaves d)) = ins_all (ileaves d) [].
  Proof.
    intros Hd. pose proof (ileaves_names d Hd) as Hn. unfold structurize, ins_all.
    generalize (@nil (attr * pv)). induction Hn as [|[q x] l (a & p & E & Ha & Hp) Hl IH];
      intros acc; simpl; [done|].
    simpl in E. subst q.
    pose proof (get_path_top a p Ha Hp) as HG. cbn [enc_top] in *. rewrite HG.
    destruct p as [|b p].
    - cbn [enc]. rewrite Ha. simpl. by rewrite IH.
    - assert (Hpair : is_pair (enc a (b :: p)) = true).
      { apply is_pair_enc. }
      rewrite Hpair. destruct (ins_path _ x acc); simpl; [apply IH|done].
  Qed.

  Theorem structurize_flatten d : flat_ok d ->
    exists f, flatten d = Ok f /\ structurize f = Ok d.
  Proof.
    intros Hd. eexists. split; [by apply flatten_ok|].
    rewrite structurize_flat by done. destruct Hd as (Hd & _ & Hc).
    rewrite ins_all_entries; [done|done|done|].
    apply Forall_forall. intros e He d' Ed. rewrite Forall_forall in Hc.
    by rewrite (ins_all_leaves _ (Hc e He) d' Ed).
  Qed.

  (** Where flattened attributes are hidden: exactly where the last name on
      the path is. *)
  Lemma hidden_enc k p a : hidden (enc k (p ++ [a])) = bool_decide (a = AStr "_") || hidden a.
  Proof.
    revert k. induction p as [|b p IH]; intros k; simpl; [|apply IH].
    destruct (hidden a) eqn:E; simpl; [by rewrite orb_true_r|by rewrite orb_false_r].
  Qed.
End Flat.
