(** * Facts about predict and infer_missing for any arithmetic. *)
From stdpp Require Import base decidable tactics gmap strings list.
From Verif Require Import Base Num TreeModel TreeFun TreeScore TreeRefine TreeSorts TreeInv
  SpecTree TreeState Nominal NominalFacts Utils Query.

Section Choice.
  Context {N : NumOps} (rng : nat -> num N) {X : Type}.

  Lemma wc_loop_in (l : list (X * num N)) c : forall r u, wc_loop r u l = Ok c -> c ∈ map fst l.
  Proof.
    induction l as [|[c' w] l IH]; intros r u E; [done|]. simpl in E.
    destruct (nltb N w (nofnat N 0)); [done|]. destruct (nltb N r _).
    - injection E as ->. left.
    - right. by eapply IH.
  Qed.

  Lemma weighted_choice_in (l : list (X * num N)) c a :
    fst (weighted_choice rng l a) = Ok c -> c ∈ map fst l.
  Proof.
    unfold weighted_choice, uniform, abind, random_, aret, alift. simpl. apply wc_loop_in.
  Qed.

  Lemma draw_vals (l : list (X * num N)) : forall a, exists ks,
    fst (amapM (fun p : X * num N => abind (random_ rng) (fun r => aret (snd p, r, fst p))) l a) = Ok ks /\
    map snd ks = map fst l.
  Proof.
    induction l as [|p l IH]; intros a; [by exists []|]. cbn [amapM].
    destruct (IH (Amb (am_ctr a) (S (am_rpos a)))) as (ks & E & Hk).
    exists ((snd p, rng (am_rpos a), fst p) :: ks). split; [|simpl; by f_equal].
    unfold abind at 1. unfold abind at 1, random_ at 1, aret at 1. unfold abind at 1.
    destruct (amapM _ l _) as [r a']. simpl in E. by subst r.
  Qed.

  Lemma most_likely_in vcmp (l : list (X * num N)) c a :
    fst (most_likely_choice rng vcmp l a) = Ok c -> c ∈ map fst l.
  Proof.
    unfold most_likely_choice. destruct l as [|p l]; [done|].
    destruct (existsb _ (p :: l)); [done|]. unfold abind at 1.
    destruct (draw_vals (p :: l) a) as (ks & E & Hk).
    destruct (amapM _ (p :: l) a) as [r a']. simpl in E. subst r.
    destruct (mclash vcmp ks); [done|].
    pose proof (sort_desc_perm (mkey_lt vcmp) ks) as Hp.
    destruct (sort_desc (mkey_lt vcmp) ks) as [|[[p0 r0] v0] rest]; [done|]. simpl. intros [= ->].
    change (c ∈ map fst (p :: l)). rewrite <- Hk. apply (Permutation_map snd) in Hp.
    rewrite <- Hp. left.
  Qed.
End Choice.

Section Predict.
  Context {N : NumOps} (rng : nat -> num N) (ncmp : nom -> nom -> option bool).
  Notation C := (CobwebClass N).

  Lemma weighted_in (s : nsum) a b ws d : dget a (ns_av s) = Some d ->
    get_weighted_values (N:=N) s a b = Ok ws ->
    map fst ws = map (fun q => Some (fst q)) d ++ if b then [None] else [].
  Proof.
    unfold get_weighted_values. intros ->.
    destruct (rmapM _ d) as [ch|e] eqn:Er; [|done]. cbn [rbind].
    assert (Hch : map fst ch = map (fun q : nom * nat => Some (fst q)) d).
    { clear -Er. revert ch Er. induction d as [|q d IH]; intros ch Er; cbn [rmapM] in Er.
      - by injection Er as <-.
      - destruct (pydiv N _ _); [|done]. cbn [rbind] in Er.
        destruct (rmapM _ d) as [ys|]; [|done]. cbn [rbind] in Er. injection Er as <-.
        cbn [map]. f_equal. by apply IH. }
    destruct b.
    - destruct (pydiv N _ _); [|done]. cbn [rbind]. intros [= <-]. rewrite map_app. by rewrite Hch.
    - intros [= <-]. by rewrite Hch, app_nil_r.
  Qed.

  (** What predict can return, whatever the arithmetic and the draws. *)
  Lemma predict_known (s : nsum) a f b am r :
    fst (predict rng ncmp s a f b am) = Ok r ->
    (forall v, r = Some v -> exists d, dget a (ns_av s) = Some d /\ v ∈ dkeys d) /\
    (b = false -> a ∈ dkeys (ns_av s) -> exists v, r = Some v).
  Proof.
    unfold predict. destruct (choose_fn f) as [c|]; [|done].
    destruct (dget a (ns_av s)) as [d|] eqn:Hd.
    - unfold abind, alift. destruct (get_weighted_values s a b) as [ws|] eqn:Ew; [|done].
      intros E. assert (Hin : r ∈ map fst ws).
      { destruct c; [by eapply most_likely_in|by eapply weighted_choice_in]. }
      rewrite (weighted_in s a b ws d Hd Ew) in Hin. apply elem_of_app in Hin as [Hin|Hin].
      + apply elem_of_list_fmap in Hin as (q & -> & Hq). split; [|by eauto].
        intros v [= <-]. exists d. split; [done|]. apply elem_of_list_fmap. by exists q.
      + destruct b; [|by inversion Hin]. apply elem_of_list_singleton in Hin as ->. by split.
    - intros [= <-]. split; [done|]. intros _ Hk. by apply dget_None in Hd.
  Qed.

  Notation st := (st C).

  (** The loop of infer_missing. *)
  Lemma infer_loop_spec (tb : nsum) f b attrs : forall (i : inst) (s : st) r s',
    infer_loop C (CobwebQuery rng ncmp) tb f b attrs i s = (r, s') ->
    st_heap s' = st_heap s /\ st_root s' = st_root s /\ st_ctx s' = st_ctx s /\
    forall j : inst, r = Ok j ->
      (forall a v, dget a i = Some v -> dget a j = Some v) /\
      (forall a v, dget a i = None -> dget a j = Some v ->
        a ∈ attrs /\ exists d, dget a (ns_av tb) = Some d /\ v ∈ dkeys d) /\
      (b = false -> forall a, a ∈ attrs -> a ∈ dkeys (ns_av tb) -> exists v, dget a j = Some v) /\
      (dwf i -> dwf j).
  Proof.
    induction attrs as [|a attrs IH]; intros i s r s' E; simpl in E.
    - injection E as <- <-. split; [done|]. split; [done|]. split; [done|]. intros j [= <-].
      split; [done|]. split; [congruence|]. split; [|done]. intros _ a Ha. inversion Ha.
    - change (nq_has (CobwebQuery rng ncmp) i a) with (dmem a i) in E.
      destruct (dmem a i) eqn:Em.
      + destruct (IH _ _ _ _ E) as (H1 & H2 & H3 & H4). split; [done|]. split; [done|]. split; [done|].
        intros j Hj. destruct (H4 j Hj) as (K1 & K2 & K3 & K4). split; [done|]. split.
        { intros a' v Hn Hv. destruct (K2 a' v Hn Hv) as [Ha Hd]. split; [by right|done]. }
        split; [|done]. intros Hb a' Ha' Hk. apply elem_of_cons in Ha' as [->|Ha']; [|by apply K3].
        unfold dmem in Em. destruct (dget a i) as [v|] eqn:Ei; [|done]. exists v. by apply K1.
      + unfold mbind, mamb in E.
        change (nq_predict (CobwebQuery rng ncmp) (st_ctx s) tb a f b) with (predict rng ncmp tb a f b) in E.
        destruct (predict rng ncmp tb a f b (st_amb s)) as [[w|e] a'] eqn:Ep.
        * assert (Hp : fst (predict rng ncmp tb a f b (st_amb s)) = Ok w) by (by rewrite Ep).
          apply predict_known in Hp as [Hv Hb].
          destruct (IH _ _ _ _ E) as (H1 & H2 & H3 & H4). split; [done|]. split; [done|]. split; [done|].
          assert (Ei : dget a i = None) by (unfold dmem in Em; by destruct (dget a i)).
          intros j Hj. destruct (H4 j Hj) as (K1 & K2 & K3 & K4).
          assert (Hpre : forall a' v, dget a' i = Some v -> dget a' (match w with Some v => dset a v i | None => i end) = Some v).
          { intros a1 v1 Hi1. destruct w as [w|]; [|done]. rewrite dget_dset_ne; [done|congruence]. }
          split; [|split; [|split]].
          -- intros a1 v1 Hi1. apply K1. by apply Hpre.
          -- intros a1 v1 Hi1 Hj1. destruct w as [w|].
             ++ destruct (decide (a1 = a)) as [->|Hne].
                ** split; [left|]. destruct (Hv w eq_refl) as (d & Hd & Hw). exists d. split; [done|].
                   assert (dget a j = Some w) by (apply K1; exact (dget_dset_eq a w i)). congruence.
                ** destruct (K2 a1 v1) as [Ha Hd]; [exact (eq_trans (dget_dset_ne a1 a w i Hne) Hi1)|done|].
                   split; [by right|done].
             ++ destruct (K2 a1 v1 Hi1 Hj1) as [Ha Hd]. split; [by right|done].
          -- intros Hbf a1 Ha1 Hk. apply elem_of_cons in Ha1 as [->|Ha1]; [|by apply K3].
             destruct (Hb Hbf Hk) as (v & ->). exists v. apply K1. exact (dget_dset_eq a v i).
          -- intros Hwf. apply K4. destruct w as [w|]; [|done]. by apply dset_wf.
        * injection E as <- <-. done.
  Qed.
End Predict.
