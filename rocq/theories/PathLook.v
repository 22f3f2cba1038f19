(** * Looking values up at a path, and what building and renaming nested
    instances does to what is found there *)
From stdpp Require Import base decidable list strings.
From Coq Require Import Ascii String ZArith.
From Verif Require Import Base PyVal Preproc PreStd PreFlat Preproc2 PreObj StructMap StructFacts.
Set Default Proof Using "Type".
Open Scope string_scope.
Open Scope list_scope.

Section Look.
  Context {X : Type}.
  Notation pv := (pv X).
  Notation inst := (inst X).

  (** ** Specification: the value that [v[k1][k2]...] gives. *)
  Fixpoint plook (p : list attr) (v : pv) : option pv :=
    match p with
    | [] => Some v
    | k :: p => match v with PD d => match dget k d with Some w => plook p w | None => None end | _ => None end
    end.

  (** [p] is a beginning of [q]. *)
  Definition apart (p q : list attr) : Prop := (forall r, q <> p ++ r) /\ (forall r, p <> q ++ r).
  Lemma apart_sym p q : apart p q -> apart q p.
  Proof. by intros [H1 H2]. Qed.

  Lemma plook_nil p : p <> [] -> plook p (PD []) = None.
  Proof. by destruct p. Qed.

  (** ** [_structurize] *)
  Lemma ins_path_cons k k2 p (v : pv) d : ins_path (k :: k2 :: p) v d =
    match dget k d with
    | None => let? s := ins_path (k2 :: p) v [] in Ok (dset k (PD s) d)
    | Some (PD s) => let? s' := ins_path (k2 :: p) v s in Ok (dset k (PD s') d)
    | Some _ => Err TypeError
    end.
  Proof. done. Qed.

  Lemma ins_path_here p (v : pv) : forall d d', ins_path p v d = Ok d' -> plook p (PD d') = Some v.
  Proof.
    induction p as [|k p IH]; intros d d' E; [done|]. destruct p as [|k2 p].
    - cbn [ins_path] in E. injection E as <-. cbn [plook]. by rewrite dget_dset_eq.
    - rewrite ins_path_cons in E.
      cbn [plook]. destruct (dget k d) as [w|].
      + destruct w as [| | |s]; try done. destruct (ins_path (k2 :: p) v s) as [s'|] eqn:E2; [|done].
        cbn [rbind] in E. injection E as <-. rewrite dget_dset_eq. exact (IH _ _ E2).
      + destruct (ins_path (k2 :: p) v []) as [s'|] eqn:E2; [|done].
        cbn [rbind] in E. injection E as <-. rewrite dget_dset_eq. exact (IH _ _ E2).
  Qed.

  Lemma ins_path_there p (v : pv) : forall q d d', ins_path p v d = Ok d' -> apart p q ->
    plook q (PD d') = plook q (PD d).
  Proof.
    induction p as [|k p IH]; intros q d d' E [H1 H2]; [done|].
    destruct q as [|k' q]; [by destruct (H2 (k :: p))|]. destruct p as [|k2 p].
    - cbn [ins_path] in E. injection E as <-. cbn [plook].
      rewrite dget_dset_ne; [done|]. intros ->. by apply (H1 q).
    - rewrite ins_path_cons in E. destruct (decide (k' = k)) as [->|Hne].
      + assert (Ha : apart (k2 :: p) q).
        { split; intros r Hr; [apply (H1 r)|apply (H2 r)]; simpl; by rewrite Hr. }
        assert (Hq : q <> []) by (intros ->; by destruct (H2 (k2 :: p))).
        cbn [plook]. destruct (dget k d) as [w|].
        * destruct w as [| | |s]; try done. destruct (ins_path (k2 :: p) v s) as [s'|] eqn:E2; [|done].
          cbn [rbind] in E. injection E as <-. rewrite dget_dset_eq. exact (IH _ _ _ E2 Ha).
        * destruct (ins_path (k2 :: p) v []) as [s'|] eqn:E2; [|done].
          cbn [rbind] in E. injection E as <-. rewrite dget_dset_eq. rewrite (IH _ _ _ E2 Ha).
          by apply plook_nil.
      + cbn [plook]. assert (Hg : dget k' d' = dget k' d); [|by rewrite Hg].
        destruct (dget k d) as [w|].
        * destruct w as [| | |s]; try done. destruct (ins_path (k2 :: p) v s) as [s'|] eqn:E2; [|done].
          cbn [rbind] in E. injection E as <-. by rewrite dget_dset_ne.
        * destruct (ins_path (k2 :: p) v []) as [s'|] eqn:E2; [|done].
          cbn [rbind] in E. injection E as <-. by rewrite dget_dset_ne.
  Qed.

  Lemma ins_all_look (l : list (list attr * pv)) : forall d d', ins_all l d = Ok d' ->
    (forall p q, p ∈ map fst l -> q ∈ map fst l -> p <> q -> apart p q) -> NoDup (map fst l) ->
    (forall q, (forall p, p ∈ map fst l -> apart p q) -> plook q (PD d') = plook q (PD d)) /\
    (forall p v, (p, v) ∈ l -> plook p (PD d') = Some v).
  Proof.
    induction l as [|[p v] l IH]; intros d d' E Ha Hn.
    - injection E as <-. split; [done|]. intros p v H. by apply elem_of_nil in H.
    - change (rbind (ins_path p v d) (fun acc => ins_all l acc) = Ok d') in E.
      destruct (ins_path p v d) as [d1|] eqn:E1; [|done]. cbn [rbind] in E.
      cbn [map fst] in Hn, Ha. apply NoDup_cons in Hn as [Hp Hn].
      destruct (IH d1 d' E) as [K1 K2]; [intros; apply Ha; (by right) || done|done|]. split.
      + intros q Hq. rewrite K1 by (intros p' Hp'; apply Hq; by right).
        apply (ins_path_there p v); [done|]. apply Hq. left.
      + intros p' v' Hin. apply elem_of_cons in Hin as [[= -> ->]|Hin]; [|by apply K2].
        rewrite K1.
        * by eapply ins_path_here.
        * intros q Hq. apply Ha; [by right|left|]. intros ->. done.
  Qed.

  Lemma structurize_all (d : inst) : structurize d = ins_all (map (fun e => (get_path (fst e), snd e)) d) [].
  Proof.
    unfold structurize, ins_all. generalize (@nil (attr * pv)).
    induction d as [|[k v] d IH]; intros acc; [done|]. cbn [rfold map fst snd].
    destruct (is_pair k) eqn:Ek.
    - destruct (ins_path (get_path k) v acc); cbn [rbind]; [apply IH|done].
    - rewrite get_path_nonpair by done. cbn [ins_path rbind]. apply IH.
  Qed.

  (** ** Nested instances with components under variables of [S] and plain
      values elsewhere *)
  Section Shape.
    Context (S : string -> Prop).
    Inductive shp : pv -> Prop :=
    | shp_intro d : dwf d -> Forall (fun e =>
        (exists s, fst e = AStr s /\ is_var s = true /\ S s /\ shp (snd e)) \/
        (isvar (fst e) = false /\ (forall v, v ∈ avars (fst e) -> S v) /\ plainv (snd e))) d -> shp (PD d).
    Definition entry_ok (e : attr * pv) : Prop :=
      (exists s, fst e = AStr s /\ is_var s = true /\ S s /\ shp (snd e)) \/
      (isvar (fst e) = false /\ (forall v, v ∈ avars (fst e) -> S v) /\ plainv (snd e)).

    Lemma shp_plain v : shp v -> plainv v -> False.
    Proof. intros [d _ _]. done. Qed.
    Lemma shp_dset d k v : shp (PD d) -> entry_ok (k, v) -> shp (PD (dset k v d)).
    Proof.
      intros Hd He. inversion Hd as [? Hw HF]; subst. constructor; [by apply dset_wf|].
      apply Forall_forall. intros [k' v'] Hin.
      assert (Hg : dget k' (dset k v d) = Some v') by (apply In_dget; [by apply dset_wf|done]).
      rewrite dget_dset in Hg. case_decide as Hk.
      - injection Hg as <-. subst. exact He.
      - apply dget_In in Hg. rewrite Forall_forall in HF. by apply (HF (k', v')).
    Qed.

    (** Components on the way, an attribute at the end. *)
    Definition gpath (p : list attr) : Prop :=
      exists us a, p = map AStr us ++ [a] /\ Forall (fun u => is_var u = true /\ S u) us /\
        isvar a = false /\ (forall v, v ∈ avars a -> S v).

    Lemma gpath_apart p q : gpath p -> gpath q -> p <> q -> apart p q.
    Proof.
      assert (H : forall us a us' a' r, Forall (fun u => is_var u = true /\ S u) us' -> isvar a = false ->
        map AStr us' ++ [a'] = (map AStr us ++ [a]) ++ r -> r = []).
      { induction us as [|u us IH]; intros a us' a' r Hus Ha E.
        - destruct us' as [|u' us']; [by injection E|]. injection E as E _. subst a.
          apply Forall_cons in Hus as [[Hu _] _]. simpl in Ha. congruence.
        - destruct us' as [|u' us']; [by destruct us|]. injection E as -> E.
          apply Forall_cons in Hus as [_ Hus]. by eapply IH. }
      intros (us & a & -> & Hus & Ha & _) (us' & a' & -> & Hus' & Ha' & _) Hne. split; intros r E.
      - pose proof (H us a us' a' r Hus' Ha E) as ->. rewrite app_nil_r in E. congruence.
      - pose proof (H us' a' us a r Hus Ha' E) as ->. rewrite app_nil_r in E. congruence.
    Qed.

    Lemma shp_ins us a (v : pv) : Forall (fun u => is_var u = true /\ S u) us -> isvar a = false ->
      (forall v, v ∈ avars a -> S v) -> plainv v ->
      forall d d', shp (PD d) -> ins_path (map AStr us ++ [a]) v d = Ok d' -> shp (PD d').
    Proof.
      intros Hus Ha Hav Hv. induction us as [|u us IH]; intros d d' Hd E.
      - injection E as <-. apply shp_dset; [done|]. by right.
      - apply Forall_cons in Hus as [[Hu HSu] Hus].
        assert (E' : match dget (AStr u) d with
                     | None => let? s := ins_path (map AStr us ++ [a]) v [] in Ok (dset (AStr u) (PD s) d)
                     | Some (PD s) => let? s' := ins_path (map AStr us ++ [a]) v s in Ok (dset (AStr u) (PD s') d)
                     | Some _ => Err TypeError end = Ok d').
        { destruct us; exact E. }
        destruct (dget (AStr u) d) as [w|] eqn:Eg.
        + destruct w as [| | |s]; try done. destruct (ins_path _ v s) as [s'|] eqn:E2; [|done]. injection E' as <-.
          apply shp_dset; [done|]. left. exists u. split; [done|]. split; [done|]. split; [done|].
          eapply (IH Hus s); [|exact E2]. inversion Hd as [? Hw HF]; subst. rewrite Forall_forall in HF.
          apply dget_In in Eg. destruct (HF _ Eg) as [(? & _ & _ & _ & H)|(_ & _ & H)]; done.
        + destruct (ins_path _ v []) as [s'|] eqn:E2; [|done]. injection E' as <-.
          apply shp_dset; [done|]. left. exists u. split; [done|]. split; [done|]. split; [done|].
          eapply (IH Hus []); [|exact E2]. constructor; [apply dwf_nil|constructor].
    Qed.

    Lemma shp_ins_all (l : list (list attr * pv)) : Forall (fun q => gpath (fst q) /\ plainv (snd q)) l ->
      forall d d', shp (PD d) -> ins_all l d = Ok d' -> shp (PD d').
    Proof.
      induction 1 as [|[p v] l [(us & a & Ep & Hus & Ha & Hav) Hv] Hl IH]; intros d d' Hd E; [by injection E as <-|].
      change (rbind (ins_path p v d) (fun acc => ins_all l acc) = Ok d') in E. cbn [fst snd] in *. subst p.
      destruct (ins_path _ v d) as [d1|] eqn:E1; [|done]. eapply IH; [|exact E]. by eapply shp_ins.
    Qed.

    (** ** [undo_transform] of the NameStandardizer *)
    Section Undo.
      Context (rev : list (attr * attr)).
      Context (Hstrs : forall o c, dget o rev = Some c -> exists v w, o = AStr v /\ c = AStr w /\ is_var v = true).
      Context (Hvar : forall v, S v -> is_var (fm rev v) = true).
      Context (Hinj : forall u v, S u -> S v -> fm rev u = fm rev v -> u = v).

      Lemma ren_elem_strs a : ren_elem rev a = arename (fm rev) a.
      Proof using Hstrs. by apply ren_elem_fm. Qed.
      Lemma undo_name_shp k v : entry_ok (k, v) -> undo_name rev k v = arename (fm rev) k.
      Proof using Hstrs.
        intros [(s & Es & Hs & _ & Hd)|(Hk & _ & Hv)]; simpl in *.
        - inversion Hd as [d _ _]; subst. simpl. rewrite Hs. unfold fm. destruct (dget (AStr s) rev) as [c|] eqn:E; [|done].
          destruct (Hstrs _ _ E) as (v & w & _ & -> & _). done.
        - destruct k as [s|l|z]; simpl in Hk.
          + cbn [arename]. rewrite Hk. by destruct v.
          + assert (E : rename_relation rev (ATup l) = arename (fm rev) (ATup l)).
            { simpl. f_equal. apply map_ext. apply ren_elem_strs. }
            by destruct v.
          + by destruct v.
      Qed.
      Lemma entry_vars k v u : entry_ok (k, v) -> u ∈ avars k -> S u.
      Proof.
        intros [(s & Es & Hs & HS & _)|(_ & H & _)] Hu; simpl in *; [|by apply H]. subst k. simpl in Hu.
        rewrite Hs in Hu. by apply elem_of_list_singleton in Hu as ->.
      Qed.
      Lemma undo_keys_inj k v k' v' : entry_ok (k, v) -> entry_ok (k', v') ->
        arename (fm rev) k = arename (fm rev) k' -> k = k'.
      Proof using Hvar Hinj.
        intros H1 H2. apply arename_inj.
        - intros s t Hs Ht. apply Hinj; [by eapply entry_vars; [exact H1|]|by eapply entry_vars; [exact H2|]].
        - intros s Hs. apply Hvar. by eapply entry_vars; [exact H1|].
        - intros s Hs. apply Hvar. by eapply entry_vars; [exact H2|].
      Qed.
      Lemma undo_shp v : shp v -> undo_val rev v = prename (fm rev) v.
      Proof using Hstrs Hvar Hinj.
        induction v as [s|x|l IH|d IH] using pv_ind'; inversion 1 as [? Hw HF]; subst. cbn [undo_val prename].
        assert (Em : map (fun e => (undo_name rev (fst e) (snd e), undo_val rev (snd e))) d =
                     map (fun e => (arename (fm rev) (fst e), prename (fm rev) (snd e))) d).
        { apply map_ext_in. intros [k w] Hin. apply elem_of_list_In in Hin. rewrite Forall_forall in IH, HF.
          pose proof (HF _ Hin) as He. cbn [fst snd]. rewrite (undo_name_shp k w He). f_equal.
          destruct He as [(s & _ & _ & _ & Hs)|(_ & _ & Hp)]; [by apply (IH _ Hin)|by destruct w]. }
        rewrite Em, dupd_app; [done|]. cbn [dkeys map app]. unfold dkeys. rewrite map_map. cbn [fst].
        change (NoDup (map (fun x : attr * pv => arename (fm rev) (fst x)) d)).
        rewrite Forall_forall in HF. clear -HF Hw Hvar Hinj. induction d as [|[k w] d IHd]; [constructor|].
        apply dwf_cons in Hw as [Hk Hw]. cbn [map fst]. apply NoDup_cons. split.
        - intros Hin. apply elem_of_list_fmap in Hin as ([k' w'] & E & Hin). cbn [fst] in E. apply Hk.
          rewrite (undo_keys_inj k w k' w'); [|apply (HF (k, w)); left|apply (HF (k', w')); by right|done].
          apply elem_of_list_fmap. by exists (k', w').
        - apply IHd; [done|]. intros e He. apply HF. by right.
      Qed.
      Lemma plook_rename p : forall v w, shp v -> plook p v = Some w ->
        plook (map (arename (fm rev)) p) (prename (fm rev) v) = Some (prename (fm rev) w).
      Proof using Hvar Hinj.
        induction p as [|k p IH]; intros v w Hv E; [by injection E as ->|]. cbn [plook map] in *.
        destruct v as [| | |d]; try done. destruct (dget k d) as [u|] eqn:Eg; [|done].
        inversion Hv as [? Hw HF]; subst. rewrite Forall_forall in HF. apply dget_In in Eg.
        cbn [prename].
        assert (Hd : dget (arename (fm rev) k) (map (fun e => (arename (fm rev) (fst e), prename (fm rev) (snd e))) d)
                     = Some (prename (fm rev) u)).
        { clear -Eg HF Hw Hvar Hinj. induction d as [|[k' w'] d IHd]; [by apply elem_of_nil in Eg|].
          apply dwf_cons in Hw as [Hk Hw]. cbn [map fst snd dget].
          apply elem_of_cons in Eg as [[= <- <-]|Eg]; [by rewrite decide_True|].
          rewrite decide_False.
          - apply IHd; try done. intros e He. apply HF. by right.
          - intros E. apply Hk. rewrite (undo_keys_inj k' w' k u); [| | |done].
            + apply elem_of_list_fmap. by exists (k, u).
            + apply (HF (k', w')). left.
            + apply (HF (k, u)). by right. }
        rewrite Hd. destruct (HF _ Eg) as [(s & _ & _ & _ & Hs)|(_ & _ & Hp)]; [by apply IH|].
        destruct p; [by injection E as ->|]. destruct u; done.
      Qed.
    End Undo.
  End Shape.
End Look.
