(** * What becomes of the values and the names of an instance on its way
    through TRESTLE's pipeline. *)
From stdpp Require Import base decidable list gmap strings sets.
From Coq Require Import Ascii String ZArith.
From Verif Require Import Base Num TreeModel Nominal Utils CV Cobweb3 Query Query3 PyVal Preproc Preproc2
  StructMap StructFacts PreStd Trestle SpecTree SpecTrestle TreeFun TreeScore TreeSorts TreeState TreeKeep TrestleFacts TrestleFresh.
Set Default Proof Using "Type".
Open Scope list_scope.

(** ** Values *)
Section Vals.
  Context {X : Type}.
  Notation pv := (pv X).
  (** A property of values that does not look into lists. *)
  Context (V : pv -> Prop).
  Hypothesis HV : forall l l', V (PL l) -> V (PL l').

  (** It holds of everything that is not a component. *)
  Inductive pV : pv -> Prop :=
  | pV_str s : V (PStr s) -> pV (PStr s)
  | pV_x x : V (PX x) -> pV (PX x)
  | pV_list l : V (PL l) -> pV (PL l)
  | pV_dict d : Forall (fun e => pV (snd e)) d -> pV (PD d).
  Definition valsV (d : list (attr * pv)) : Prop := Forall (fun e => V (snd e)) d.

  Lemma pV_peq u v : peq u v -> pV u -> pV v.
  Proof using HV.
    revert v. induction u as [t|x|l IH|d IH] using pv_ind'; intros v Hp Hu; inversion Hp as [| | |? d' e HF HP]; subst.
    - done.
    - done.
    - inversion Hu; subst. constructor. by eapply HV.
    - inversion Hu as [| | |? Hd]; subst. constructor. rewrite <- HP. clear HP Hp Hu.
      revert d' HF. induction IH as [|a d Ha Hd' IHd]; intros d' HF; inversion HF as [|? b ? d2 [E1 E2] HF']; subst; [constructor|].
      apply Forall_cons in Hd as [H1 H2]. constructor; auto.
  Qed.
  Lemma pV_prename f v : pV v -> pV (prename f v).
  Proof using HV.
    induction v as [t|x|l IH|d IH] using pv_ind'; intros Hv; inversion Hv as [| | |? Hd]; subst; simpl; try done.
    - constructor. by eapply HV.
    - constructor. apply Forall_map. simpl. rewrite Forall_forall in IH, Hd |- *. auto.
  Qed.

  Lemma valsV_dset k v d : V v -> valsV d -> valsV (dset k v d).
  Proof.
    intros Hv. induction 1 as [|[a w] d Hw Hd IH]; simpl; [by repeat constructor|].
    case_decide; by constructor.
  Qed.
  Lemma valsV_dupd b : forall a, valsV a -> valsV b -> valsV (dupd a b).
  Proof.
    unfold dupd. induction b as [|[k v] b IH]; intros a Ha Hb; simpl; [done|].
    apply Forall_cons in Hb as [H1 H2]. apply IH; [|done]. by apply valsV_dset.
  Qed.
  Lemma flat_val_V v : pV v -> forall k so, flat_val k v = Ok so -> valsV so.
  Proof.
    induction v as [t|x|l IH|d IH] using pv_ind'; intros Hv k so E; inversion Hv as [| | |? Hd]; subst;
      try (injection E as <-; by repeat constructor).
    cbn [flat_val] in E. match type of E with ?f d [] = _ => set (go := f) in E end.
    assert (H : forall acc, valsV acc -> go d acc = Ok so -> valsV so).
    { clear E Hv. induction IH as [|[a w] d Ha Hd' IHd]; intros acc Hacc E; cbn [go] in E; fold go in E.
      - by injection E as <-.
      - apply Forall_cons in Hd as [H1 H2].
        destruct (flat_key (Some k) a) as [k'|] eqn:Ek; [|done]. cbn [rbind] in E.
        destruct (flat_val k' w) as [so'|] eqn:Ev; [|done]. cbn [rbind] in E.
        eapply IHd; [done| |exact E]. apply valsV_dupd; [done|]. by eapply Ha. }
    apply (H []); [constructor|done].
  Qed.
  Lemma flatten_V (d : inst X) f : pV (PD d) -> flatten d = Ok f -> valsV f.
  Proof.
    unfold flatten. intros Hd. inversion Hd as [| | |? Hd']; subst. clear Hd.
    assert (H : forall acc, valsV acc ->
      rfold (fun acc e => rbind (flat_val (fst e) (snd e)) (fun so => Ok (dupd acc so))) acc d = Ok f -> valsV f).
    { induction Hd' as [|[a w] d Hw Hd IH]; intros acc Hacc E; simpl in E; [by injection E as <-|].
      destruct (flat_val a w) as [so|] eqn:Ev; [|done]. cbn [rbind] in E. eapply IH; [|exact E].
      apply valsV_dupd; [done|]. by eapply flat_val_V. }
    apply H. constructor.
  Qed.
  Lemma sub_transform_V vt d d' : V vt -> valsV d -> sub_transform vt d = Ok d' -> valsV d'.
  Proof.
    unfold sub_transform. intros Hvt Hd.
    assert (H : forall acc, valsV acc ->
      rfold (fun acc (e : attr * pv) => rbind (has_components (fst e)) (fun rels =>
        Ok (dset (extract_attr (fst e)) (snd e) (fold_left (fun acc r => dset r vt acc) rels acc)))) acc d = Ok d' -> valsV d').
    { induction Hd as [|[a w] d Hw Hd IH]; intros acc Hacc E; cbn [rfold] in E; [by injection E as <-|].
      cbn [fst snd] in E. destruct (has_components a) as [rels|] eqn:Ea; [|done]. cbn [rbind] in E.
      eapply IH; [|exact E]. apply valsV_dset; [done|]. clear -Hacc Hvt. revert acc Hacc.
      induction rels as [|r rels IH]; intros acc Hacc; simpl; [done|]. apply IH. by apply valsV_dset. }
    apply (H []). constructor.
  Qed.
  Lemma rename_flat_V m d : valsV d -> valsV (rename_flat m d).
  Proof.
    intros Hd. unfold rename_flat. assert (H : forall acc, valsV acc ->
      valsV (fold_left (fun acc e => dset (flat_name m (fst e)) (snd e) acc) d acc)).
    { induction Hd as [|[a w] d Hw Hd IH]; intros acc Hacc; simpl; [done|]. apply IH. by apply valsV_dset. }
    apply H. constructor.
  Qed.
  Lemma ns_transform_V pystr setord c (d : inst X) d' rev c' :
    (forall l x, x ∈ setord l <-> x ∈ l) -> pwf (PD d) -> pV (PD d) ->
    ns_transform pystr setord c d = (Ok (d', rev), c') -> pV (PD d').
  Proof using HV.
    intros Hso Hw Hd E. pose proof (ns_transform_rel pystr setord _ _ _ _ Hw E) as Hok.
    destruct (ns_transform_ok pystr setord Hso c d Hok) as (d2 & s & E2 & HG & Hdom & Hp).
    rewrite E in E2. injection E2 as -> -> ->. eapply pV_peq; [apply peq_sym; exact Hp|].
    exact (pV_prename (fm (snd s)) _ Hd).
  Qed.
End Vals.

Lemma pV_mono {X} (V V' : pv X -> Prop) v : (forall u, V u -> V' u) -> pV V v -> pV V' v.
Proof.
  intros H. induction v as [t|x|l IH|d IH] using pv_ind'; inversion 1 as [| | |? Hd]; subst; constructor; auto.
  apply Forall_forall. intros e He. rewrite Forall_forall in IH. rewrite Forall_forall in Hd. auto.
Qed.

(** ** Names *)
(** No numbers, empty strings or empty tuples in it. *)
Fixpoint wn (a : attr) : bool :=
  match a with
  | AStr s => negb (bool_decide (s = ""))
  | ATup l => negb (bool_decide (l = [])) && forallb wn l
  | ANum _ => false
  end.
Lemma wn_tup l : wn (ATup l) = true <-> l <> [] /\ Forall (fun a => wn a = true) l.
Proof.
  simpl. rewrite andb_true_iff, negb_true_iff, bool_decide_eq_false, forallb_forall, Forall_forall.
  setoid_rewrite elem_of_list_In. done.
Qed.
Lemma wn_ok a : wn a = true -> attr_ok a = true.
Proof. destruct a as [[|]|[|]|]; done. Qed.
Lemma wn_tup_ok a : wn a = true -> tup_ok a = true.
Proof.
  induction a as [s|l IH|z] using attr_ind'; [done| |done]. intros [_ H]%wn_tup. simpl.
  apply forallb_forall. intros x Hx. apply elem_of_list_In in Hx. rewrite Forall_forall in IH, H. auto.
Qed.
Lemma wn_rel_ok a : wn a = true -> rel_ok a.
Proof. destruct a; [done| |done]. apply wn_tup_ok. Qed.
Lemma wn_sane a : wn a = true -> sane_rel a = true.
Proof.
  induction a as [s|l IH|z] using attr_ind'; [done| |done]. intros [_ H]%wn_tup. simpl.
  apply forallb_forall. intros x Hx. apply elem_of_list_In in Hx. rewrite Forall_forall in IH, H.
  rewrite (IH x Hx (H x Hx)), andb_true_r. by apply wn_ok, H.
Qed.
Lemma wn_arename f a : (forall v, v ∈ avars a -> is_var (f v) = true) -> wn a = true -> wn (arename f a) = true.
Proof.
  induction a as [s|l IH|z] using attr_ind'; intros Hf Ha; [| |done].
  - simpl in *. destruct (is_var s) eqn:E; [|done]. specialize (Hf s ltac:(left)). simpl.
    apply negb_true_iff, bool_decide_eq_false. intros E'. by rewrite E' in Hf.
  - cbn [arename]. apply wn_tup in Ha as [Hne Ha]. apply wn_tup. split; [by destruct l|].
    apply Forall_map. rewrite Forall_forall in IH, Ha |- *. intros x Hx. apply IH; [done| |auto].
    intros v Hv. apply Hf. simpl. apply elem_of_list_In, in_flat_map. exists x. split; by apply elem_of_list_In.
Qed.
Lemma visible_arename f a : (forall v, v ∈ avars a -> is_var (f v) = true) -> visible a = true -> visible (arename f a) = true.
Proof.
  unfold visible. rewrite !negb_true_iff. destruct a as [s|[|x l]|z]; [| |  |done]; [|done|]; intros Hf Hh.
  - simpl in *. destruct (is_var s) eqn:E; [|done]. specialize (Hf s ltac:(left)).
    unfold is_var, head_is in Hf. destruct (f s) as [|c t]; [done|]. simpl. apply Ascii.eqb_eq in Hf as ->. done.
  - simpl in *. apply bool_decide_eq_false in Hh. apply bool_decide_eq_false. intros E. apply Hh.
    destruct x as [s|?|?]; simpl in E; try done. destruct (is_var s) eqn:Es; [|done].
    injection E as E. specialize (Hf s). rewrite E in Hf. discriminate Hf. apply elem_of_app. left. simpl. rewrite Es. left.
Qed.

Definition keysW {V} (d : list (attr * V)) : Prop := Forall (fun e => wn (fst e) = true) d.
(** Some attribute is visible. *)
Definition seen {V} (d : list (attr * V)) : Prop := exists a, visible a = true /\ a ∈ dkeys d.

Lemma keysW_dset {V} k (v : V) d : wn k = true -> keysW d -> keysW (dset k v d).
Proof.
  intros Hk. induction 1 as [|[a w] d Hw Hd IH]; simpl; [by repeat constructor|]. case_decide; by constructor.
Qed.
Lemma keysW_dupd {V} (b : list (attr * V)) : forall a, keysW a -> keysW b -> keysW (dupd a b).
Proof.
  unfold dupd. induction b as [|[k v] b IH]; intros a Ha Hb; simpl; [done|].
  apply Forall_cons in Hb as [H1 H2]. apply IH; [|done]. by apply keysW_dset.
Qed.
Lemma dkeys_dset_mono {V} k (v : V) d (a : attr) : a ∈ dkeys d -> a ∈ dkeys (dset k v d).
Proof. intros H. apply elem_of_dkeys_dset. by right. Qed.
Lemma Forall2_In_l {A B} (R : A -> B -> Prop) l l' x : Forall2 R l l' -> x ∈ l -> exists y, y ∈ l' /\ R x y.
Proof.
  induction 1 as [|a b l l' Hab H IH]; intros Hx; [by apply elem_of_nil in Hx|].
  apply elem_of_cons in Hx as [->|Hx]; [exists b; split; [left|done]|].
  destruct (IH Hx) as (y & ? & ?). exists y. split; [by right|done].
Qed.

Section Names.
  Context {X : Type}.
  Notation pv := (pv X).
  Inductive pN : pv -> Prop :=
  | pN_str s : pN (PStr s)
  | pN_x x : pN (PX x)
  | pN_list l : Forall pN l -> pN (PL l)
  | pN_dict d : Forall (fun e => wn (fst e) = true) d -> Forall (fun e => pN (snd e)) d -> pN (PD d).
  (** An attribute that is visible and holds something other than a
      component. *)
  Inductive pvis : pv -> Prop :=
  | pvis_here a v d : (a, v) ∈ d -> visible a = true -> (forall d', v <> PD d') -> pvis (PD d)
  | pvis_in a v d : (a, v) ∈ d -> pvis v -> pvis (PD d).

  Lemma pvis_cons a w d : pvis (PD ((a, w) :: d)) ->
    (visible a = true /\ (forall d', w <> PD d')) \/ pvis w \/ pvis (PD d).
  Proof.
    intros H. inversion H as [b v' d0 Hin Hb Hnd|b v' d0 Hin Hb]; subst; apply elem_of_cons in Hin as [[= -> ->]|Hin].
    - by left.
    - right. right. by apply (pvis_here b v').
    - by right; left.
    - right. right. by apply (pvis_in b v').
  Qed.
  Lemma pN_std_ok v : pwf v -> pN v -> std_ok v.
  Proof.
    induction v as [t|x|l IH|d IH] using pv_ind'; intros Hw Hn; inversion Hw; inversion Hn; subst; constructor; try done.
    - rewrite Forall_forall in *. auto.
    - rewrite Forall_forall in *. intros e He. apply wn_rel_ok. auto.
    - rewrite Forall_forall in *. auto.
  Qed.
  Lemma pN_peq u v : peq u v -> pN u -> pN v.
  Proof.
    revert v. induction u as [t|x|l IH|d IH] using pv_ind'; intros v Hp Hu; inversion Hp as [| |? l' HF|? d' e HF HP]; subst.
    - done.
    - done.
    - inversion Hu as [| |? Hl|]; subst. constructor. clear Hp Hu. revert l' HF.
      induction IH as [|a l Ha Hl' IHl]; intros l' HF; inversion HF; subst; [constructor|].
      apply Forall_cons in Hl as [? ?]. constructor; auto.
    - inversion Hu as [| | |? H1 H2]; subst.
      assert (H : Forall (fun e => wn (fst e) = true) d' /\ Forall (fun e => pN (snd e)) d').
      { clear HP Hp Hu. revert d' HF. induction IH as [|a d Ha Hd' IHd]; intros d' HF; inversion HF as [|? b ? d2 [E1 E2] HF']; subst; [done|].
        apply Forall_cons in H1 as [H1 H1']. apply Forall_cons in H2 as [H2 H2']. destruct (IHd H1' H2' _ HF').
        split; constructor; auto. by rewrite <- E1. }
      rewrite HP in H. constructor; apply H.
  Qed.
  Lemma pN_prename f v : (forall u, u ∈ pvars v -> is_var (f u) = true) -> pN v -> pN (prename f v).
  Proof.
    induction v as [t|x|l IH|d IH] using pv_ind'; intros Hf Hv; inversion Hv as [| |? Hl|? H1 H2]; subst; simpl; try done.
    - constructor. apply Forall_map. rewrite Forall_forall in IH, Hl |- *. intros e He. destruct e; try by auto.
      apply IH; [done| |auto]. intros u Hu. apply Hf. simpl. apply elem_of_list_In, in_flat_map. eexists. split; [by apply elem_of_list_In|].
      by apply elem_of_list_In.
    - assert (Hin : forall e u, e ∈ d -> u ∈ avars (fst e) ++ pvars (snd e) -> u ∈ pvars (PD d)).
      { intros e u He Hu. simpl. apply elem_of_list_In, in_flat_map. exists e. split; by apply elem_of_list_In. }
      rewrite Forall_forall in IH, H1, H2. constructor; apply Forall_map, Forall_forall; intros e He; simpl.
      + apply wn_arename; [|auto]. intros u Hu. apply Hf, (Hin e); [done|]. apply elem_of_app. by left.
      + apply IH; [done| |auto]. intros u Hu. apply Hf, (Hin e); [done|]. apply elem_of_app. by right.
  Qed.
  Lemma pvis_peq u v : peq u v -> pvis u -> pvis v.
  Proof.
    intros Hp Hu. revert v Hp. induction Hu as [a v d Hin Ha Hv|a v d Hin Hv IH]; intros v' Hp; inversion Hp as [| | |? d' e HF HP]; subst.
    - apply (Forall2_In_l _ d d' _ HF) in Hin as ([a' w] & Hin & [E1 E2]). simpl in *. subst a'.
      apply (pvis_here a w); [by rewrite <- HP|done|]. intros d2 ->. inversion E2; subst. by eapply Hv.
    - apply (Forall2_In_l _ d d' _ HF) in Hin as ([a' w] & Hin & [E1 E2]). simpl in *. subst a'.
      apply (pvis_in a w); [by rewrite <- HP|]. by apply IH.
  Qed.
  Lemma pvis_prename f v : (forall u, u ∈ pvars v -> is_var (f u) = true) -> pvis v -> pvis (prename f v).
  Proof.
    intros Hf Hv. induction Hv as [a v d Hin Ha Hv|a v d Hin Hv IH].
    - apply (pvis_here (arename f a) (prename f v)).
      + apply elem_of_list_fmap. by exists (a, v).
      + apply visible_arename; [|done]. intros u Hu. apply Hf. simpl. apply elem_of_list_In, in_flat_map.
        exists (a, v). split; [by apply elem_of_list_In|]. apply elem_of_list_In, elem_of_app. by left.
      + intros d'. destruct v; try done. by destruct (Hv d0).
    - apply (pvis_in (arename f a) (prename f v)).
      + apply elem_of_list_fmap. by exists (a, v).
      + apply IH. intros u Hu. apply Hf. simpl. apply elem_of_list_In, in_flat_map.
        exists (a, v). split; [by apply elem_of_list_In|]. apply elem_of_list_In, elem_of_app. by right.
  Qed.

  Lemma flat_key_total k a : wn k = true -> wn a = true ->
    exists k', flat_key (Some k) a = Ok k' /\ wn k' = true /\ (visible a = true -> visible k' = true).
  Proof.
    intros Hk Ha. unfold flat_key. rewrite (wn_ok a Ha). eexists. split; [done|].
    assert (Hp : wn (ATup [a; k]) = true) by (apply wn_tup; split; [done|by repeat constructor]).
    unfold visible. destruct (hidden a) eqn:Hh.
    - split; [|done]. apply wn_tup. split; [done|]. by repeat constructor.
    - split; [done|]. intros _. apply negb_true_iff. simpl. apply bool_decide_eq_false. intros ->. discriminate Hh.
  Qed.
  Lemma dupd_keys_l {V} (b a : list (attr * V)) x : x ∈ dkeys a -> x ∈ dkeys (dupd a b).
  Proof.
    unfold dupd. revert a. induction b as [|[k v] b IH]; intros a Ha; simpl; [done|]. apply IH. by apply dkeys_dset_mono.
  Qed.
  Lemma dupd_keys_r {V} (b a : list (attr * V)) x : x ∈ dkeys b -> x ∈ dkeys (dupd a b).
  Proof.
    unfold dupd. revert a. induction b as [|[k v] b IH]; intros a Hb; simpl; [by apply elem_of_nil in Hb|].
    apply elem_of_cons in Hb as [->|Hb]; [|by apply IH]. apply (dupd_keys_l b). apply dset_in_keys.
  Qed.
  Lemma seen_l {V} (a b : list (attr * V)) : seen a -> seen (dupd a b).
  Proof. intros (x & Hx & Hin). exists x. split; [done|]. by apply dupd_keys_l. Qed.
  Lemma seen_r {V} (a b : list (attr * V)) : seen b -> seen (dupd a b).
  Proof. intros (x & Hx & Hin). exists x. split; [done|]. by apply dupd_keys_r. Qed.

  Lemma flat_val_total v : pN v -> forall k, wn k = true ->
    exists so, flat_val k v = Ok so /\ keysW so /\ (pvis v -> seen so) /\
               ((forall d, v <> PD d) -> visible k = true -> seen so).
  Proof.
    induction v as [t|x|l IH|d IH] using pv_ind'; intros Hv k Hk;
      try (eexists; split; [reflexivity|]; split; [by repeat constructor|]; split; [by inversion 1|];
           intros _ Hvis; exists k; split; [done|left]).
    cbn [flat_val]. match goal with |- context [?f d []] => set (go := f) end.
    inversion Hv as [| | |? H1 H2]; subst.
    assert (H : forall acc, keysW acc -> exists so, go d acc = Ok so /\ keysW so /\ (seen acc \/ pvis (PD d) -> seen so)).
    { clear Hv. induction IH as [|[a w] d Ha Hd IHd]; intros acc Hacc; cbn [go]; fold go.
      - eexists. split; [done|]. split; [done|]. intros [?|H]; [done|]. inversion H as [??? Hin|??? Hin]; subst; by apply elem_of_nil in Hin.
      - apply Forall_cons in H1 as [H1 H1']. apply Forall_cons in H2 as [H2 H2']. simpl in H1, H2.
        destruct (flat_key_total k a Hk H1) as (k' & Ek & Hk' & Hvk). rewrite Ek. cbn [rbind].
        destruct (Ha H2 k' Hk') as (so & Es & Hso & Hv1 & Hv2). simpl in Es. rewrite Es. cbn [rbind].
        destruct (IHd H1' H2' (dupd acc so)) as (so' & Es' & Hso' & Hv'); [by apply keysW_dupd|].
        exists so'. split; [done|]. split; [done|]. intros [Hs|Hs]; apply Hv'.
        + left. by apply seen_l.
        + apply pvis_cons in Hs as [[Hb Hnd]|[Hb|Hb]]; [|left; by apply seen_r, Hv1|by right].
          left. apply seen_r, Hv2; auto. }
    destruct (H []) as (so & Es & Hso & Hs); [constructor|]. exists so. split; [done|]. split; [done|].
    split; [by auto|]. intros Hnd. by destruct (Hnd d).
  Qed.
  Lemma flatten_total (d : inst X) : pN (PD d) -> exists f, flatten d = Ok f /\ keysW f /\ (pvis (PD d) -> seen f).
  Proof.
    intros Hd. inversion Hd as [| | |? H1 H2]; subst. clear Hd. unfold flatten.
    assert (H : forall acc, keysW acc -> exists f,
      rfold (fun acc e => rbind (flat_val (fst e) (snd e)) (fun so => Ok (dupd acc so))) acc d = Ok f /\
      keysW f /\ (seen acc \/ pvis (PD d) -> seen f)).
    { induction d as [|[a w] d IH]; intros acc Hacc; cbn [rfold].
      - eexists. split; [done|]. split; [done|]. intros [?|H]; [done|]. inversion H as [??? Hin|??? Hin]; subst; by apply elem_of_nil in Hin.
      - apply Forall_cons in H1 as [H1 H1']. apply Forall_cons in H2 as [H2 H2']. simpl in H1, H2. cbn [fst snd].
        destruct (flat_val_total w H2 a H1) as (so & Es & Hso & Hv1 & Hv2). rewrite Es. cbn [rbind].
        destruct (IH H1' H2' (dupd acc so)) as (so' & Es' & Hso' & Hv'); [by apply keysW_dupd|].
        exists so'. split; [done|]. split; [done|]. intros [Hs|Hs]; apply Hv'.
        + left. by apply seen_l.
        + apply pvis_cons in Hs as [[Hb Hnd]|[Hb|Hb]]; [|left; by apply seen_r, Hv1|by right].
          left. apply seen_r, Hv2; auto. }
    destruct (H []) as (f & Ef & Hf & Hs); [constructor|]. exists f. auto.
  Qed.
End Names.

(** *** Sub-components *)
Lemma extract_wn a : wn a = true -> wn (extract_attr a) = true.
Proof.
  induction a as [s|l IH|z] using attr_ind'; intros Ha; [done| |done].
  apply wn_tup in Ha as [Hne Hl]. destruct l as [|x [|y [|w l]]]; [done| | |].
  - simpl. apply Forall_cons in Hl as [Hx _]. apply Forall_cons in IH as [IHx _]. rewrite IHx by done. done.
  - apply Forall_cons in Hl as [Hx Hl]. apply Forall_cons in Hl as [Hy _].
    apply Forall_cons in IH as [IHx IH]. apply Forall_cons in IH as [IHy _].
    cbn [extract_attr]. destruct (isvar x); [done|]. apply wn_tup. split; [done|]. repeat constructor; auto.
  - change (wn (ATup (map extract_attr (x :: y :: w :: l))) = true). apply wn_tup. split; [done|]. apply Forall_map.
    rewrite Forall_forall in IH, Hl. apply Forall_forall. auto.
Qed.
Lemma extract_head x : extract_attr x = AStr "_" -> x = AStr "_".
Proof.
  destruct x as [s|[|x [|y [|w l]]]|z]; simpl; try done.
  destruct (isvar x) eqn:E; [|done]. by intros ->.
Qed.
Lemma isvar_visible a : isvar a = true -> visible a = true.
Proof.
  destruct a as [[|c s]|l|z]; try done. simpl. unfold is_var, head_is. intros ->%Ascii.eqb_eq. done.
Qed.
Lemma extract_visible a : visible a = true -> visible (extract_attr a) = true.
Proof.
  intros Ha. destruct a as [s|[|x [|y [|w l]]]|z]; try done.
  - unfold visible in *. simpl in *. rewrite negb_true_iff in *. apply bool_decide_eq_false in Ha. apply bool_decide_eq_false.
    intros E. by apply Ha, extract_head.
  - cbn [extract_attr]. destruct (isvar x) eqn:E; [by apply isvar_visible|done].
  - unfold visible in *. simpl in *. rewrite negb_true_iff in *. apply bool_decide_eq_false in Ha. apply bool_decide_eq_false.
    intros E. by apply Ha, extract_head.
Qed.
Lemma has_comp_wn i c : wn i = true -> wn c = true -> wn (has_comp i c) = true.
Proof. intros Hi Hc. apply wn_tup. split; [done|]. by repeat constructor. Qed.
Notation stW st := (forall l i, st = Some (l, i) -> wn l = true /\ wn i = true) (only parsing).
Lemma comp_step_wn x y st : wn x = true -> wn y = true -> stW st ->
  Forall (fun a => wn a = true) (fst (comp_step x y st)) /\ stW (snd (comp_step x y st)).
Proof.
  intros Hx Hy Hs. unfold comp_step. destruct (isvar x); simpl; [|split; [constructor|done]]. split.
  - destruct st as [[l i]|]; [|constructor]. destruct (Hs _ _ eq_refl). repeat constructor. by apply has_comp_wn.
  - intros l i [= <- <-]. split; [done|by apply extract_wn].
Qed.
Lemma comp_end_wn a st : stW st -> Forall (fun a => wn a = true) (comp_end a st).
Proof.
  intros Hs. unfold comp_end. destruct st as [[l i]|]; [|constructor]. destruct (isvar a); [|constructor].
  destruct (Hs _ _ eq_refl). repeat constructor. by apply has_comp_wn.
Qed.
Lemma comp_loop_total a : wn a = true -> forall st, stW st ->
  exists L, comp_loop a st = Ok L /\ Forall (fun a => wn a = true) L.
Proof.
  induction a as [s|l IH|z] using attr_ind'; intros Ha st Hst.
  - destruct s as [|c1 [|c2 [|c3 s]]]; try (eexists; split; [reflexivity|]; by apply comp_end_wn).
    cbn [comp_loop]. set (x := AStr (String c1 "")). set (y := AStr (String c2 "")).
    destruct (comp_step_wn x y st eq_refl eq_refl Hst) as [H1 H2].
    destruct (comp_step x y st) as [r st']. eexists. split; [reflexivity|]. apply Forall_app. split; [done|by apply comp_end_wn].
  - apply wn_tup in Ha as [Hne Hl].
    destruct l as [|x [|y [|w l]]]; try (eexists; split; [reflexivity|]; by apply comp_end_wn).
    apply Forall_cons in Hl as [Hx Hl]. apply Forall_cons in Hl as [Hy _].
    apply Forall_cons in IH as [IHx IH]. apply Forall_cons in IH as [IHy _].
    cbn [comp_loop]. destruct (comp_step_wn x y st Hx Hy Hst) as [H1 H2].
    destruct (comp_step x y st) as [r st']. simpl in H1, H2. destruct (IHy Hy st' H2) as (L & -> & HL).
    cbn [rbind]. eexists. split; [reflexivity|]. by apply Forall_app.
  - done.
Qed.
Lemma has_components_total a : wn a = true -> exists L, has_components a = Ok L /\ Forall (fun a => wn a = true) L.
Proof.
  induction a as [s|l IH|z] using attr_ind'; intros Ha; [by exists []| |done].
  assert (Hgo : forall l, Forall (fun a => wn a = true -> exists L, has_components a = Ok L /\ Forall (fun a => wn a = true) L) l ->
     Forall (fun a => wn a = true) l ->
     exists L, (fix go (l : list attr) : res (list attr) :=
       match l with
       | [] => Ok []
       | x :: l => rbind (has_components x) (fun r => rbind (go l) (fun r' => Ok (r ++ r')))
       end) l = Ok L /\ Forall (fun a => wn a = true) L).
  { clear. induction l as [|x l IHl]; intros IH Hl; [by exists []|].
    apply Forall_cons in IH as [IHx IH]. apply Forall_cons in Hl as [Hx Hl].
    destruct (IHx Hx) as (r & -> & Hr). cbn [rbind]. destruct (IHl IH Hl) as (r' & E' & Hr').
    exists (r ++ r'). split; [|by apply Forall_app]. rewrite E'. done. }
  pose proof (proj2 (proj1 (wn_tup l) Ha)) as Hl.
  destruct l as [|x [|y [|w l]]]; [exact (Hgo _ IH Hl)|exact (Hgo _ IH Hl)| |exact (Hgo _ IH Hl)].
  cbn [has_components]. by apply comp_loop_total.
Qed.
Lemma sub_transform_total {V} (vt : V) d : keysW d ->
  exists d', sub_transform vt d = Ok d' /\ keysW d' /\ (seen d -> seen d').
Proof.
  unfold sub_transform. intros Hd.
  assert (H : forall acc, keysW acc -> exists d',
    rfold (fun acc (e : attr * V) => rbind (has_components (fst e)) (fun rels =>
      Ok (dset (extract_attr (fst e)) (snd e) (fold_left (fun acc r => dset r vt acc) rels acc)))) acc d = Ok d' /\
    keysW d' /\ (seen acc \/ seen d -> seen d')).
  { induction Hd as [|[a w] d Ha Hd IH]; intros acc Hacc; cbn [rfold fst snd].
    - eexists. split; [done|]. split; [done|]. intros [?|(x & _ & Hx)]; [done|]. by apply elem_of_nil in Hx.
    - simpl in Ha. destruct (has_components_total a Ha) as (rels & -> & Hr). cbn [rbind].
      set (acc1 := fold_left (fun acc r => dset r vt acc) rels acc).
      assert (H1 : keysW acc1 /\ (forall x, x ∈ dkeys acc -> x ∈ dkeys acc1)).
      { unfold acc1. clear -Hr Hacc. revert acc Hacc. induction Hr as [|r rels Hr HF IH]; intros acc Hacc; simpl; [done|].
        destruct (IH (dset r vt acc)) as [A B]; [by apply keysW_dset|]. split; [done|]. intros x Hx. by apply B, dkeys_dset_mono. }
      destruct H1 as [H1 H2]. destruct (IH (dset (extract_attr a) w acc1)) as (d' & E & Hk & Hs).
      { apply keysW_dset; [by apply extract_wn|done]. }
      exists d'. split; [done|]. split; [done|]. intros [(x & Hx & Hin)|(x & Hx & Hin)]; apply Hs.
      + left. exists x. split; [done|]. by apply dkeys_dset_mono, H2.
      + apply elem_of_cons in Hin as [->|Hin].
        * left. exists (extract_attr a). split; [by apply extract_visible|]. apply dset_in_keys.
        * right. by exists x. }
  destruct (H []) as (d' & E & Hk & Hs); [constructor|]. exists d'. auto.
Qed.
