(** * Two node classes related by a simulation build the same tree.

    Used with relations such as "equal up to hidden attributes" to show that
    part of the data does not influence the algorithm. *)
From stdpp Require Import base decidable list gmap strings.
From Verif Require Import Base Num TreeModel TreeFun.

(** Related results: both raise the same exception, or both return related values. *)
Definition rrel {X Y} (R : X -> Y -> Prop) (r1 : res X) (r2 : res Y) : Prop :=
  match r1, r2 with
  | Ok a, Ok b => R a b
  | Err e, Err e' => e = e'
  | _, _ => False
  end.

Lemma rrel_eq {X} (r1 r2 : res X) : rrel eq r1 r2 <-> r1 = r2.
Proof. destruct r1, r2; simpl; split; intros; try done; congruence. Qed.

Lemma rbind_rel {X Y X' Y'} (R : X -> Y -> Prop) (R' : X' -> Y' -> Prop) r1 r2 f1 f2 :
  rrel R r1 r2 -> (forall a b, R a b -> rrel R' (f1 a) (f2 b)) ->
  rrel R' (rbind r1 f1) (rbind r2 f2).
Proof. destruct r1, r2; simpl; try done; auto. Qed.

Lemma rmapM_rel {X Y X' Y'} (R : X -> Y -> Prop) (R' : X' -> Y' -> Prop) f1 f2 l1 l2 :
  Forall2 R l1 l2 -> (forall a b, R a b -> rrel R' (f1 a) (f2 b)) ->
  rrel (Forall2 R') (rmapM f1 l1) (rmapM f2 l2).
Proof.
  intros HF Hf. induction HF as [|a b l1 l2 Hab HF IH]; simpl; [constructor|].
  eapply rbind_rel; [by apply Hf|]. intros a' b' Hab'.
  eapply rbind_rel; [exact IH|]. intros la lb Hl. simpl. by constructor.
Qed.

Lemma rfold_rel {X Y B1 B2} (R : X -> Y -> Prop) (RB : B1 -> B2 -> Prop) f1 f2 l1 l2 : forall b1 b2,
  Forall2 R l1 l2 -> RB b1 b2 ->
  (forall b b' x y, RB b b' -> R x y -> rrel RB (f1 b x) (f2 b' y)) ->
  rrel RB (rfold f1 b1 l1) (rfold f2 b2 l2).
Proof.
  intros b1 b2 HF. revert b1 b2. induction HF as [|a b l1 l2 Hab HF IH]; intros b1 b2 Hb Hf;
    simpl; [done|].
  eapply rbind_rel; [by apply Hf|]. intros. by apply IH.
Qed.

Section Rel.
  Context {N : NumOps} (C1 C2 : NodeClass N) (rng : nat -> num N).
  Notation S1 := (nc_sum C1). Notation S2 := (nc_sum C2).
  Notation I1 := (nc_inst C1). Notation I2 := (nc_inst C2).
  Variable Rs : S1 -> S2 -> Prop.
  Variable Ri : I1 -> I2 -> Prop.
  Variable Rx : nc_ctx C1 -> nc_ctx C2 -> Prop.

  Record local_sim : Prop := {
    sim_empty : Rs (nc_empty C1) (nc_empty C2);
    sim_count : forall s1 s2, Rs s1 s2 -> nc_count C1 s1 = nc_count C2 s2;
    sim_inc : forall s1 s2 i1 i2, Rs s1 s2 -> Ri i1 i2 ->
      Rs (fst (nc_inc C1 s1 i1)) (fst (nc_inc C2 s2 i2)) /\
      snd (nc_inc C1 s1 i1) = snd (nc_inc C2 s2 i2);
    sim_add : forall s1 s2 o1 o2, Rs s1 s2 -> Rs o1 o2 ->
      Rs (fst (nc_add C1 s1 o1)) (fst (nc_add C2 s2 o2)) /\
      snd (nc_add C1 s1 o1) = snd (nc_add C2 s2 o2);
    sim_ecg : forall x1 x2 s1 s2, Rx x1 x2 -> Rs s1 s2 -> nc_ecg C1 x1 s1 = nc_ecg C2 x2 s2;
    sim_exact : forall s1 s2 i1 i2, Rs s1 s2 -> Ri i1 i2 ->
      nc_exact C1 s1 i1 = nc_exact C2 s2 i2;
  }.
  Hypothesis Sim : local_sim.

  Lemma tinc_rel s1 s2 i1 i2 : Rs s1 s2 -> Ri i1 i2 -> rrel Rs (tinc C1 s1 i1) (tinc C2 s2 i2).
  Proof.
    intros Hs Hi. destruct (sim_inc Sim _ _ _ _ Hs Hi) as [H1 H2]. unfold tinc.
    destruct (nc_inc C1 s1 i1) as [a [e|]], (nc_inc C2 s2 i2) as [b [e'|]]; simpl in *;
      congruence || done.
  Qed.
  Lemma tadd_rel s1 s2 o1 o2 : Rs s1 s2 -> Rs o1 o2 -> rrel Rs (tadd C1 s1 o1) (tadd C2 s2 o2).
  Proof.
    intros Hs Ho. destruct (sim_add Sim _ _ _ _ Hs Ho) as [H1 H2]. unfold tadd.
    destruct (nc_add C1 s1 o1) as [a [e|]], (nc_add C2 s2 o2) as [b [e'|]]; simpl in *;
      congruence || done.
  Qed.
  Lemma tcopy_rel s1 s2 : Rs s1 s2 -> rrel Rs (tcopy C1 s1) (tcopy C2 s2).
  Proof. apply tadd_rel, (sim_empty Sim). Qed.

  Definition tabrel (p : nat * S1) (q : nat * S2) : Prop := fst p = fst q /\ Rs (snd p) (snd q).

  Lemma tabrel_snd l1 l2 : Forall2 tabrel l1 l2 -> Forall2 Rs (map snd l1) (map snd l2).
  Proof. induction 1 as [|? ? ? ? [? ?]]; simpl; constructor; auto. Qed.

  Lemma tabrel_filter (p : nat -> bool) l1 l2 : Forall2 tabrel l1 l2 ->
    Forall2 tabrel (List.filter (fun c => p (fst c)) l1) (List.filter (fun c => p (fst c)) l2).
  Proof.
    induction 1 as [|a b ? ? [E ?]]; simpl; [constructor|]. rewrite E.
    destruct (p (fst b)); [|done]. by constructor.
  Qed.

  Section Ctx.
    Variables (x1 : nc_ctx C1) (x2 : nc_ctx C2).
    Hypothesis Hx : Rx x1 x2.

    Lemma ecg_rel s1 s2 : Rs s1 s2 -> rrel eq (nc_ecg C1 x1 s1) (nc_ecg C2 x2 s2).
    Proof. intros Hs. apply rrel_eq. by apply (sim_ecg Sim). Qed.

    Lemma cu_rel s1 s2 k1 k2 : Rs s1 s2 -> Forall2 Rs k1 k2 ->
      rrel eq (category_utility C1 x1 s1 k1) (category_utility C2 x2 s2 k2).
    Proof.
      intros Hs Hk. unfold category_utility.
      pose proof (Forall2_length _ _ _ Hk) as Hlen.
      destruct Hk as [|a b k1 k2 Hab Hk]; [done|].
      rewrite Hlen. eapply (rbind_rel eq).
      - eapply (rfold_rel Rs eq); [by constructor|done|].
        intros u u' c c' -> Hc. rewrite (sim_count Sim _ _ Hs), (sim_count Sim _ _ Hc).
        eapply (rbind_rel eq); [by apply rrel_eq|]. intros ? p ->.
        eapply (rbind_rel eq); [by apply ecg_rel|]. intros ? e ->. done.
      - intros ? acc ->. eapply (rbind_rel eq); [by apply ecg_rel|]. intros ? e ->.
        by apply rrel_eq.
    Qed.

    Lemma rci_rel s1 s2 i1 i2 : Rs s1 s2 -> Ri i1 i2 ->
      rrel eq (relative_cu_for_insert C1 x1 s1 i1) (relative_cu_for_insert C2 x2 s2 i2).
    Proof.
      intros Hs Hi. unfold relative_cu_for_insert.
      eapply rbind_rel; [by apply tcopy_rel|]. intros t1 t2 Ht.
      eapply rbind_rel; [by apply tinc_rel|]. intros u1 u2 Hu.
      eapply (rbind_rel eq); [by apply ecg_rel|]. intros ? e ->.
      eapply (rbind_rel eq); [by apply ecg_rel|]. intros ? e' ->.
      simpl. by rewrite (sim_count Sim _ _ Hs).
    Qed.

    Lemma const_rel s1 s2 k1 k2 i1 i2 : Rs s1 s2 -> Forall2 Rs k1 k2 -> Ri i1 i2 ->
      rrel eq (compute_relative_CU_const C1 x1 s1 k1 i1) (compute_relative_CU_const C2 x2 s2 k2 i2).
    Proof.
      intros Hs Hk Hi. unfold compute_relative_CU_const.
      eapply rbind_rel; [by apply tcopy_rel|]. intros t1 t2 Ht.
      eapply rbind_rel; [by apply tinc_rel|]. intros u1 u2 Hu.
      eapply (rbind_rel eq); [by apply ecg_rel|]. intros ? e ->.
      eapply (rbind_rel eq).
      - eapply (rfold_rel Rs eq); [done|done|].
        intros u u' c c' -> Hc. rewrite (sim_count Sim _ _ Hs), (sim_count Sim _ _ Hc).
        eapply (rbind_rel eq); [by apply rrel_eq|]. intros ? p ->.
        eapply (rbind_rel eq); [by apply ecg_rel|]. intros ? e' ->. done.
      - intros ? acc ->. rewrite (Forall2_length _ _ _ Hk). by apply rrel_eq.
    Qed.

    Lemma cu_new_rel s1 s2 k1 k2 i1 i2 : Rs s1 s2 -> Forall2 Rs k1 k2 -> Ri i1 i2 ->
      rrel eq (cu_for_new_child C1 x1 s1 k1 i1) (cu_for_new_child C2 x2 s2 k2 i2).
    Proof.
      intros Hs Hk Hi. unfold cu_for_new_child.
      eapply rbind_rel; [by apply tcopy_rel|]. intros t1 t2 Ht.
      eapply rbind_rel; [eapply rmapM_rel; [exact Hk|apply tcopy_rel]|]. intros tk1 tk2 Htk.
      eapply rbind_rel; [by apply tinc_rel|]. intros u1 u2 Hu.
      eapply rbind_rel; [apply tinc_rel; [apply (sim_empty Sim)|done]|]. intros n1 n2 Hn.
      apply cu_rel; [done|]. apply Forall2_app; [done|]. by constructor.
    Qed.

    Lemma cu_merge_rel s1 s2 k1 k2 b1 b1' b2 b2' i1 i2 :
      Rs s1 s2 -> Forall2 tabrel k1 k2 -> tabrel b1 b1' -> tabrel b2 b2' -> Ri i1 i2 ->
      rrel eq (cu_for_merge C1 x1 s1 k1 b1 b2 i1) (cu_for_merge C2 x2 s2 k2 b1' b2' i2).
    Proof.
      intros Hs Hk [E1 Hb1] [E2 Hb2] Hi. unfold cu_for_merge.
      eapply rbind_rel; [by apply tcopy_rel|]. intros t1 t2 Ht.
      eapply rbind_rel; [by apply tinc_rel|]. intros u1 u2 Hu.
      eapply rbind_rel; [apply tadd_rel; [apply (sim_empty Sim)|done]|]. intros m1 m2 Hm.
      eapply rbind_rel; [by apply tadd_rel|]. intros n1 n2 Hn.
      eapply rbind_rel; [by apply tinc_rel|]. intros o1 o2 Ho.
      eapply rbind_rel.
      - eapply (rmapM_rel tabrel Rs).
        + rewrite E1, E2. pose proof (tabrel_filter
            (fun c : nat => negb (bool_decide (c = fst b1')) && negb (bool_decide (c = fst b2')))
            _ _ Hk) as Hq. exact Hq.
        + intros a b [_ Hab]. by apply tcopy_rel.
      - intros tk1 tk2 Htk. apply cu_rel; [done|]. by constructor.
    Qed.

    Lemma cu_split_rel s1 s2 k1 k2 b l1 l2 :
      Rs s1 s2 -> Forall2 tabrel k1 k2 -> Forall2 tabrel l1 l2 ->
      rrel eq (cu_for_split C1 x1 s1 k1 b l1) (cu_for_split C2 x2 s2 k2 b l2).
    Proof.
      intros Hs Hk Hl. unfold cu_for_split.
      eapply rbind_rel; [by apply tcopy_rel|]. intros t1 t2 Ht.
      eapply rbind_rel.
      - eapply (rmapM_rel tabrel Rs).
        + pose proof (tabrel_filter (fun c : nat => negb (bool_decide (c = b))) _ _
            (Forall2_app Hk Hl)) as Hq. exact Hq.
        + intros a c [_ Hab]. by apply tcopy_rel.
      - intros tk1 tk2 Htk. by apply cu_rel.
    Qed.

    (** Ambient code *)
    Lemma abind_eq {X Y} (m1 m2 : A X) (f1 f2 : X -> A Y) a :
      m1 a = m2 a -> (forall v a', f1 v a' = f2 v a') -> abind m1 f1 a = abind m2 f2 a.
    Proof. intros E Hf. unfold abind. rewrite E. destruct (m2 a) as [[v|e] a']; auto. Qed.

    Lemma two_best_rel s1 s2 k1 k2 i1 i2 a :
      Rs s1 s2 -> Forall2 tabrel k1 k2 -> Ri i1 i2 ->
      two_best_children C1 rng x1 s1 k1 i1 a = two_best_children C2 rng x2 s2 k2 i2 a.
    Proof.
      intros Hs Hk Hi. unfold two_best_children.
      pose proof (Forall2_length _ _ _ Hk) as Hlen.
      destruct k1 as [|c1 k1], k2 as [|c2 k2]; [done|by inversion Hk|by inversion Hk|].
      remember (c1 :: k1) as kk1 eqn:E1. remember (c2 :: k2) as kk2 eqn:E2.
      clear E1 E2 c1 c2 k1 k2.
      rewrite Hlen. apply abind_eq.
      - clear Hlen. revert a. induction Hk as [|[n1 c1] [n2 c2] k1 k2 [En Hc] Hk IH]; intros a;
          [done|]. simpl in En, Hc. subst n2. simpl. apply abind_eq.
        + apply abind_eq; [done|]. intros _ a'. apply abind_eq.
          * unfold alift. simpl. f_equal. apply rrel_eq. by apply rci_rel.
          * intros u a''. apply abind_eq; [done|]. intros r a3. unfold aret.
            simpl. by rewrite (sim_count Sim _ _ Hc).
        + intros y a'. apply abind_eq; [apply IH|]. done.
      - intros l a'. apply abind_eq; [done|]. intros _ a''. apply abind_eq; [done|].
        intros _ a3. apply abind_eq.
        + unfold alift. f_equal. apply rrel_eq. apply const_rel; [done| |done].
          by apply tabrel_snd.
        + intros const a4. rewrite (sim_count Sim _ _ Hs). done.
    Qed.

    Definition otabrel (o1 : option (nat * S1)) (o2 : option (nat * S2)) : Prop :=
      match o1, o2 with
      | Some p, Some q => tabrel p q
      | None, None => True
      | _, _ => False
      end.

    Lemma best_op_rel s1 s2 k1 k2 i1 i2 b1 b1' o2 o2' l1 l2 cu ps a :
      Rs s1 s2 -> Forall2 tabrel k1 k2 -> Ri i1 i2 -> tabrel b1 b1' -> otabrel o2 o2' ->
      Forall2 tabrel l1 l2 ->
      get_best_operation C1 rng x1 s1 k1 i1 b1 o2 l1 cu ps a =
      get_best_operation C2 rng x2 s2 k2 i2 b1' o2' l2 cu ps a.
    Proof.
      intros Hs Hk Hi Hb1 Ho2 Hl. unfold get_best_operation.
      pose proof (Forall2_length _ _ _ Hk) as Hlen.
      pose proof (Forall2_length _ _ _ Hl) as Hlen2.
      apply abind_eq; [done|]. intros o1 a1. apply abind_eq.
      { destruct (decide (OpNew ∈ ps)); [|done]. rewrite Hlen.
        apply abind_eq; [done|]. intros _ a2. apply abind_eq; [|done].
        unfold alift. f_equal. apply rrel_eq. apply cu_new_rel; [done|by apply tabrel_snd|done]. }
      intros oo2 a2. apply abind_eq.
      { destruct o2 as [b2|], o2' as [b2'|]; try done. simpl in Ho2. rewrite Hlen.
        destruct (decide _); [|done].
        apply abind_eq; [done|]. intros _ a3. apply abind_eq; [|done].
        unfold alift. f_equal. apply rrel_eq. by apply cu_merge_rel. }
      intros oo3 a3. apply abind_eq; [|done].
      rewrite Hlen, Hlen2. destruct (decide _); [|done].
      apply abind_eq; [done|]. intros _ a4. apply abind_eq; [|done].
      unfold alift. f_equal. apply rrel_eq. destruct Hb1 as [E1 _]. rewrite E1.
      by apply cu_split_rel.
    Qed.
  End Ctx.

  (** Trees with the same ids and shape and related tables. *)
  Inductive trel : tree C1 -> tree C2 -> Prop :=
  | trel_intro id s1 s2 k1 k2 : Rs s1 s2 -> Forall2 trel k1 k2 -> trel (T id s1 k1) (T id s2 k2).

  Lemma trel_inv id1 id2 s1 s2 k1 k2 : trel (T id1 s1 k1) (T id2 s2 k2) ->
    id1 = id2 /\ Rs s1 s2 /\ Forall2 trel k1 k2.
  Proof. inversion 1; subst. done. Qed.
  Lemma trel_tid t1 t2 : trel t1 t2 -> tid t1 = tid t2.
  Proof. by destruct 1. Qed.
  Lemma trel_tsum t1 t2 : trel t1 t2 -> Rs (tsum t1) (tsum t2).
  Proof. by destruct 1. Qed.
  Lemma trel_tkids t1 t2 : trel t1 t2 -> Forall2 trel (tkids t1) (tkids t2).
  Proof. by destruct 1. Qed.

  Lemma trel_tables k1 k2 : Forall2 trel k1 k2 -> Forall2 tabrel (tables k1) (tables k2).
  Proof.
    induction 1 as [|a b k1 k2 Hab Hk IH]; simpl; constructor; [|done].
    split; simpl; [by apply trel_tid|by apply trel_tsum].
  Qed.

  Lemma kfind_rel j k1 k2 : Forall2 trel k1 k2 ->
    match kfind j k1, kfind j k2 with
    | Some a, Some b => trel a b
    | None, None => True
    | _, _ => False
    end.
  Proof.
    induction 1 as [|a b k1 k2 Hab Hk IH]; simpl; [done|].
    rewrite (trel_tid _ _ Hab). by destruct (decide (j = tid b)).
  Qed.
  Lemma kremove_rel j k1 k2 : Forall2 trel k1 k2 -> Forall2 trel (kremove j k1) (kremove j k2).
  Proof.
    induction 1 as [|a b k1 k2 Hab Hk IH]; simpl; [constructor|].
    rewrite (trel_tid _ _ Hab). destruct (decide (j = tid b)); [done|by constructor].
  Qed.
  Lemma kreplace_rel j t1 t2 k1 k2 : trel t1 t2 -> Forall2 trel k1 k2 ->
    Forall2 trel (kreplace j t1 k1) (kreplace j t2 k2).
  Proof.
    intros Ht. induction 1 as [|a b k1 k2 Hab Hk IH]; simpl; [constructor|].
    rewrite (trel_tid _ _ Hab). destruct (decide (j = tid b)); by constructor.
  Qed.
  Lemma kupdate_rel m j t1 t2 k1 k2 : trel t1 t2 -> Forall2 trel k1 k2 ->
    Forall2 trel (kupdate m j t1 k1) (kupdate m j t2 k2).
  Proof.
    intros Ht Hk. unfold kupdate. destruct m.
    - apply Forall2_app; [by apply kremove_rel|by constructor].
    - by apply kreplace_rel.
  Qed.

  Definition orel (o1 : fout C1) (o2 : fout C2) : Prop :=
    trel (fo_tree o1) (fo_tree o2) /\ fo_moved o1 = fo_moved o2 /\
    fo_res o1 = fo_res o2 /\ fo_amb o1 = fo_amb o2.

  Lemma orel_mk t1 t2 m r a : trel t1 t2 -> orel (FOut t1 m r a) (FOut t2 m r a).
  Proof. done. Qed.

  Lemma inc_cases s1 s2 i1 i2 : Rs s1 s2 -> Ri i1 i2 ->
    exists s1' s2' e, nc_inc C1 s1 i1 = (s1', e) /\ nc_inc C2 s2 i2 = (s2', e) /\ Rs s1' s2'.
  Proof.
    intros Hs Hi. destruct (sim_inc Sim _ _ _ _ Hs Hi) as [H1 H2].
    destruct (nc_inc C1 s1 i1) as [a e], (nc_inc C2 s2 i2) as [b e']; simpl in *. subst e'. eauto 6.
  Qed.
  Lemma add_cases s1 s2 i1 i2 : Rs s1 s2 -> Rs i1 i2 ->
    exists s1' s2' e, nc_add C1 s1 i1 = (s1', e) /\ nc_add C2 s2 i2 = (s2', e) /\ Rs s1' s2'.
  Proof.
    intros Hs Hi. destruct (sim_add Sim _ _ _ _ Hs Hi) as [H1 H2].
    destruct (nc_add C1 s1 i1) as [a e], (nc_add C2 s2 i2) as [b e']; simpl in *. subst e'. eauto 6.
  Qed.

  Lemma fnew_child_rel m id s1 s2 k1 k2 i1 i2 a : Rs s1 s2 -> Forall2 trel k1 k2 -> Ri i1 i2 ->
    orel (fnew_child C1 m id s1 k1 i1 a) (fnew_child C2 m id s2 k2 i2 a).
  Proof.
    intros Hs Hk Hi. unfold fnew_child.
    destruct (inc_cases _ _ _ _ (sim_empty Sim) Hi) as (u1 & u2 & e & -> & -> & Hu).
    destruct e as [e|].
    - apply orel_mk. by constructor.
    - apply orel_mk. constructor; [done|]. apply Forall2_app; [done|].
      constructor; [|constructor]. constructor; [done|constructor].
  Qed.

  Lemma fmerged_rel t1 t2 u1 u2 : trel t1 t2 -> trel u1 u2 ->
    match fmerged C1 t1 u1, fmerged C2 t2 u2 with
    | inl s, inl s' => Rs s s'
    | inr e, inr e' => e = e'
    | _, _ => False
    end.
  Proof.
    intros Ht Hu. unfold fmerged.
    destruct (add_cases _ _ _ _ (sim_empty Sim) (trel_tsum _ _ Ht)) as (a & b & e & -> & -> & Hab).
    destruct e as [e|]; [done|].
    destruct (add_cases _ _ _ _ Hab (trel_tsum _ _ Hu)) as (c & d & e & -> & -> & Hcd).
    by destruct e.
  Qed.

  Theorem fcob_rel fuel : forall x1 x2 t1 t2 i1 i2 a,
    Rx x1 x2 -> trel t1 t2 -> Ri i1 i2 ->
    orel (fcob C1 rng fuel x1 t1 i1 a) (fcob C2 rng fuel x2 t2 i2 a).
  Proof.
    induction fuel as [|fuel IH]; intros x1 x2 t1 t2 i1 i2 a Hx Ht Hi; [done|].
    destruct t1 as [id s1 k1], t2 as [id' s2 k2].
    pose proof Ht as (-> & Hs & Hk)%trel_inv. cbn [fcob].
    destruct Hk as [|c1 c2 k1 k2 Hc Hk].
    - rewrite (sim_exact Sim _ _ _ _ Hs Hi). destruct (nc_exact C2 s2 i2) as [ex|e]; [|done].
      rewrite (sim_count Sim _ _ Hs). destruct (ex || (nc_count C2 s2 =? 0)%nat).
      + destruct (inc_cases _ _ _ _ Hs Hi) as (u1 & u2 & e & -> & -> & Hu).
        apply orel_mk. constructor; [done|constructor].
      + unfold ffringe.
        destruct (add_cases _ _ _ _ (sim_empty Sim) Hs) as (u1 & u2 & e & -> & -> & Hu).
        destruct e as [e|]; [done|].
        destruct (inc_cases _ _ _ _ Hu Hi) as (v1 & v2 & e & -> & -> & Hv).
        destruct e as [e|].
        * apply orel_mk. constructor; [done|]. constructor; [done|constructor].
        * apply fnew_child_rel; [done| |done]. constructor; [done|constructor].
    - assert (Hkk : Forall2 trel (c1 :: k1) (c2 :: k2)) by (by constructor).
      remember (c1 :: k1) as kk1 eqn:E1. remember (c2 :: k2) as kk2 eqn:E2.
      clear E1 E2 Hc Hk c1 c2 k1 k2.
      rewrite (two_best_rel x1 x2 Hx s1 s2 _ (tables kk2) i1 i2) by (by try apply trel_tables).
      destruct (two_best_children C2 rng x2 s2 (tables kk2) i2 a) as [[[[cu b1] b2]|e] a1]; [|done].
      pose proof (kfind_rel b1 _ _ Hkk) as Hf1.
      destruct (kfind b1 kk1) as [k1|], (kfind b1 kk2) as [k1'|]; try done.
      assert (Hf2 : match
          match b2 with None => Some None | Some b2 =>
            match kfind b2 kk1 with None => None | Some k2 => Some (Some k2) end end,
          match b2 with None => Some None | Some b2 =>
            match kfind b2 kk2 with None => None | Some k2 => Some (Some k2) end end with
        | Some (Some u), Some (Some v) => trel u v
        | Some None, Some None => True
        | None, None => True
        | _, _ => False end).
      { destruct b2 as [b2|]; [|done]. pose proof (kfind_rel b2 _ _ Hkk) as Hf2.
        destruct (kfind b2 kk1), (kfind b2 kk2); done. }
      destruct (match b2 with None => Some None | Some b2 =>
            match kfind b2 kk1 with None => None | Some k2 => Some (Some k2) end end) as [ok2|];
      destruct (match b2 with None => Some None | Some b2 =>
            match kfind b2 kk2 with None => None | Some k2 => Some (Some k2) end end) as [ok2'|];
        [|by destruct ok2|done|done].
      cbv zeta.
      rewrite (best_op_rel x1 x2 Hx s1 s2 (tables kk1) (tables kk2) i1 i2 (b1, tsum k1) (b1, tsum k1')
        _ (match ok2' with None => None | Some k2 => Some (tid k2, tsum k2) end)
        _ (tables (tkids k1'))).
      2: done. 2: by apply trel_tables. 2: done.
      2: { split; [done|]. by apply trel_tsum. }
      2: { destruct ok2, ok2'; try done. simpl. split; [by apply trel_tid|by apply trel_tsum]. }
      2: { by apply trel_tables, trel_tkids. }
      destruct (get_best_operation C2 rng x2 s2 (tables kk2) i2 (b1, tsum k1')
        (match ok2' with None => None | Some k2 => Some (tid k2, tsum k2) end)
        (tables (tkids k1')) cu all_ops a1) as [[[u o]|e] a2]; [|done].
      destruct o.
      + destruct (inc_cases _ _ _ _ Hs Hi) as (u1 & u2 & e & -> & -> & Hu).
        destruct e as [e|]; [apply orel_mk; by constructor|].
        destruct (IH x1 x2 k1 k1' i1 i2 a2 Hx Hf1 Hi) as (H1 & H2 & H3 & H4).
        cbv zeta. rewrite H2, H3, H4. apply orel_mk. constructor; [done|]. by apply kupdate_rel.
      + destruct (inc_cases _ _ _ _ Hs Hi) as (u1 & u2 & e & -> & -> & Hu).
        destruct e as [e|]; [apply orel_mk; by constructor|].
        by apply fnew_child_rel.
      + destruct ok2 as [k2|], ok2' as [k2'|]; try done.
        destruct (inc_cases _ _ _ _ Hs Hi) as (u1 & u2 & e & -> & -> & Hu).
        destruct e as [e|]; [apply orel_mk; by constructor|].
        pose proof (fmerged_rel _ _ _ _ Hf1 Hf2) as Hm.
        cbv zeta.
        destruct (fmerged C1 k1 k2) as [sm|e], (fmerged C2 k1' k2') as [sm'|e']; try done.
        2:{ rewrite Hm. apply orel_mk. by constructor. }
        assert (Htm : trel (T (am_ctr (anext a2)) sm [k1; k2]) (T (am_ctr (anext a2)) sm' [k1'; k2'])).
        { constructor; [done|]. constructor; [done|]. constructor; [done|constructor]. }
        destruct (IH x1 x2 _ _ i1 i2 (anext a2) Hx Htm Hi) as (H1 & H2 & H3 & H4).
        rewrite H2, H3, H4. apply orel_mk. constructor; [done|].
        apply kupdate_rel; [done|]. apply Forall2_app; [|by constructor].
        rewrite (trel_tid _ _ Hf2). by apply kremove_rel, kremove_rel.
      + apply IH; [done| |done]. constructor; [done|].
        apply Forall2_app; [by apply kremove_rel|by apply trel_tkids].
  Qed.

  Theorem fcat_rel fuel : forall x1 x2 t1 t2 i1 i2 a,
    Rx x1 x2 -> trel t1 t2 -> Ri i1 i2 ->
    fcat C1 rng fuel x1 t1 i1 a = fcat C2 rng fuel x2 t2 i2 a.
  Proof.
    induction fuel as [|fuel IH]; intros x1 x2 t1 t2 i1 i2 a Hx Ht Hi; [done|].
    destruct t1 as [id s1 k1], t2 as [id' s2 k2].
    pose proof Ht as (-> & Hs & Hk)%trel_inv. cbn [fcat].
    destruct Hk as [|c1 c2 k1 k2 Hc Hk]; [done|].
    assert (Hkk : Forall2 trel (c1 :: k1) (c2 :: k2)) by (by constructor).
    rewrite (two_best_rel x1 x2 Hx s1 s2 _ (tables (c2 :: k2)) i1 i2) by (by try apply trel_tables).
    destruct (two_best_children C2 rng x2 s2 (tables (c2 :: k2)) i2 a) as [[[[cu b1] b2]|e] a1]; [|done].
    pose proof (kfind_rel b1 _ _ Hkk) as Hf1.
    destruct (kfind b1 (c1 :: k1)) as [k1'|], (kfind b1 (c2 :: k2)) as [k2'|]; try done.
    by apply IH.
  Qed.
End Rel.

(** Simulations that also go on when the context is updated. *)
Record simulation {N : NumOps} (C1 C2 : NodeClass N) (Rs : nc_sum C1 -> nc_sum C2 -> Prop)
    (Ri : nc_inst C1 -> nc_inst C2 -> Prop) (Rx : nc_ctx C1 -> nc_ctx C2 -> Prop) : Prop := {
  sim_local :> local_sim C1 C2 Rs Ri Rx;
  sim_pre : forall x1 x2 i1 i2, Rx x1 x2 -> Ri i1 i2 ->
    Rx (nc_pre C1 x1 i1) (nc_pre C2 x2 i2);
}.
