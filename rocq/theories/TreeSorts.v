(** * What one pass of the loop can do to a tree.

    [sorts i c t t' moved r] is a nondeterministic description of the loop of
    CobwebTree.cobweb: it forgets how the operation is chosen and only says
    which operations are possible and what each of them does.  [fcob_sorts]
    shows that every run of the algorithm is one of them; invariants are then
    proved by induction on [sorts], so they hold whatever the scores are. *)
From stdpp Require Import base decidable list gmap strings.
From Verif Require Import Base Num TreeModel TreeFun TreeScore TreeRefine.

Section Sorts.
  Context {N : NumOps} (C : NodeClass N) (rng : nat -> num N).
  Notation S' := (nc_sum C).
  Notation I := (nc_inst C).
  Notation tree := (tree C).

  (** [r = Err e]: the pass stopped with an exception; [t'] is the tree it
      left behind.  New ids are larger than [c]. *)
  Inductive sorts (i : I) : nat -> tree -> tree -> bool -> res nat -> Prop :=
  | so_stop c t e : sorts i c t t false (Err e)
  | so_match c id s s' b :
      nc_exact C s i = Ok b -> b = true \/ nc_count C s = 0 ->
      nc_inc C s i = (s', None) ->
      sorts i c (T id s []) (T id s' []) false (Ok id)
  | so_fringe c id s s0 s1 s2 m n :
      nc_exact C s i = Ok false -> nc_count C s <> 0 ->
      nc_add C (nc_empty C) s = (s0, None) ->
      nc_inc C s0 i = (s1, None) ->
      nc_inc C (nc_empty C) i = (s2, None) ->
      c < m -> m < n ->
      sorts i c (T id s []) (T m s1 [T id s []; T n s2 []]) true (Ok n)
  | so_best c c' id s s' kids k rest t' mv r kids' :
      nc_inc C s i = (s', None) ->
      Permutation kids (k :: rest) -> c <= c' ->
      sorts i c' k t' mv r ->
      Permutation kids' (t' :: rest) ->
      sorts i c (T id s kids) (T id s' kids') false r
  | so_new c id s s' s2 kids n :
      kids <> [] ->
      nc_inc C s i = (s', None) ->
      nc_inc C (nc_empty C) i = (s2, None) ->
      c < n ->
      sorts i c (T id s kids) (T id s' (kids ++ [T n s2 []])) false (Ok n)
  | so_merge c m s0 sm id s s' kids k1 k2 rest t' mv r kids' :
      nc_inc C s i = (s', None) ->
      Permutation kids (k1 :: k2 :: rest) -> rest <> [] ->
      nc_add C (nc_empty C) (tsum k1) = (s0, None) ->
      nc_add C s0 (tsum k2) = (sm, None) ->
      c < m ->
      sorts i m (T m sm [k1; k2]) t' mv r ->
      Permutation kids' (t' :: rest) ->
      sorts i c (T id s kids) (T id s' kids') false r
  | so_split c c' id s kids k rest kids1 t' mv r :
      Permutation kids (k :: rest) -> tkids k <> [] ->
      Permutation kids1 (rest ++ tkids k) -> c <= c' ->
      sorts i c' (T id s kids1) t' mv r ->
      sorts i c (T id s kids) t' mv r.

  (** All nodes of a tree satisfy [P]. *)
  Inductive tall (P : S' -> Prop) : tree -> Prop :=
  | tall_intro id s kids : P s -> Forall (tall P) kids -> tall P (T id s kids).

  Lemma tall_inv P id s kids : tall P (T id s kids) <-> P s /\ Forall (tall P) kids.
  Proof. split; [inversion 1; done|]. intros [? ?]. by constructor. Qed.

  (** Tables on which the table operations succeed. *)
  Record closed (P : S' -> Prop) (i : I) : Prop := {
    cl_empty : P (nc_empty C);
    cl_inc : forall s, P s -> exists s', nc_inc C s i = (s', None) /\ P s';
    cl_add : forall s1 s2, P s1 -> P s2 ->
               exists s', nc_add C s1 s2 = (s', None) /\ P s';
  }.

  Theorem fcob_sorts P i (HP : closed P i) fuel : forall x (t : tree) a,
    tall P t -> NoDup (ids t) -> (forall j, j ∈ ids t -> j <= am_ctr a) ->
    let o := fcob C rng fuel x t i a in
    sorts i (am_ctr a) t (fo_tree o) (fo_moved o) (fo_res o) /\ tall P (fo_tree o).
  Proof.
    induction fuel as [|fuel IH]; intros x t a Hall Hnd Hb.
    { split; [apply so_stop|done]. }
    destruct t as [id s kids]. cbn [fcob].
    apply tall_inv in Hall as [HPs Hkids].
    destruct (cl_inc _ _ HP s HPs) as (s' & Hinc & HPs').
    destruct (cl_inc _ _ HP _ (cl_empty _ _ HP)) as (s2 & Hinc2 & HPs2).
    destruct kids as [|k0 ks0].
    - destruct (nc_exact C s i) as [ex|e] eqn:Eex.
      2:{ split; [apply so_stop|by constructor]. }
      destruct (ex || (nc_count C s =? 0)%nat) eqn:Eor.
      { rewrite Hinc. simpl. split; [|by constructor]. eapply so_match; [done| |done].
        apply orb_true_iff in Eor as [->|E]; [by left|]. right.
        by apply Nat.eqb_eq. }
      apply orb_false_iff in Eor as [-> E]. apply Nat.eqb_neq in E.
      unfold ffringe, fnew_child.
      destruct (cl_add _ _ HP _ _ (cl_empty _ _ HP) HPs) as (s0 & Hadd & HPs0).
      destruct (cl_inc _ _ HP s0 HPs0) as (s1 & Hinc1 & HPs1).
      rewrite Hadd, Hinc1, Hinc2. simpl. split.
      { eapply so_fringe; eauto; simpl; lia. }
      constructor; [done|]. repeat constructor; done.
    - set (kids := k0 :: ks0) in *.
      assert (Hne0 : kids <> []) by done. clearbody kids.
      assert (Hstop : forall e a1 mv, mv = false ->
        sorts i (am_ctr a) (T id s kids)
          (fo_tree (FOut (T id s kids) mv (Err e) a1)) mv (Err e) /\
        tall P (fo_tree (FOut (T id s kids) mv (Err e) a1))).
      { intros e a1 mv ->. split; [apply so_stop|by constructor]. }
      destruct kids as [|k0' ks0']; [done|].
      set (kids := k0' :: ks0') in *.
      destruct (two_best_children C rng x s (tables kids) i a) as [[[[cu b1] b2]|e] a1] eqn:E2.
      2:{ by apply Hstop. }
      pose proof (proj1 (NoDup_kids _ _ _ _) Hnd) as [_ Hndk].
      destruct (two_best_kids _ _ _ _ _ _ _ _ _ _ _ (NoDup_tids _ _ Hndk) E2)
        as (Ha1 & k1 & Hk1 & Hb2).
      rewrite Hk1.
      set (o2 := match b2 with
                 | Some b0 => match kfind b0 kids with Some k2 => Some (Some k2) | None => None end
                 | None => Some None end).
      assert (Ho2 : exists ok2, o2 = Some ok2 /\
        match ok2 with
        | None => True
        | Some k2 => exists b0, b2 = Some b0 /\ kfind b0 kids = Some k2 /\ tid k2 = b0 /\ b1 <> b0
        end).
      { unfold o2. destruct b2 as [b0|]; [|by exists None].
        destruct Hb2 as [Hne [k2 Hk2]]. rewrite Hk2. exists (Some k2). split; [done|].
        exists b0. split; [done|]. split; [done|].
        apply kfind_split in Hk2 as (? & ? & ? & ? & ?). done. }
      destruct Ho2 as (ok2 & -> & Hok2).
      match goal with |- context [get_best_operation ?c ?r ?x ?s ?k ?i ?p ?q ?bk ?cu ?l ?a] =>
        pose proof (best_op_mono c r x s k i p q bk cu l a) as Hm;
        destruct (get_best_operation c r x s k i p q bk cu l a) as [[[u o]|e] a2] eqn:E3 end.
      2:{ by apply Hstop. }
      apply best_op_applicable in E3 as (_ & Happm & Happs).
      destruct Hm as [Ha2 _]. simpl in Ha2.
      assert (Hb' : forall j, j ∈ ids (T id s kids) -> j <= am_ctr a2).
      { intros j Hj. specialize (Hb j Hj). lia. }
      pose proof (kremove_perm _ _ _ _ Hk1) as Hp1.
      assert (Hk1in : k1 ∈ kids).
      { rewrite Hp1 at 1. left. }
      assert (Hk1nd : NoDup (ids k1)).
      { pose proof Hk1 as (l1 & l2 & E & _)%kfind_split.
        rewrite E in Hndk. by apply NoDup_kid in Hndk as [? _]. }
      assert (Hk1P : tall P k1).
      { rewrite Forall_forall in Hkids. by apply Hkids. }
      assert (Hrest1 : Forall (tall P) (kremove b1 kids)).
      { rewrite Hp1 in Hkids at 1. by apply Forall_cons in Hkids as [_ ?]. }
      clear Hne0. destruct o.
      + rewrite Hinc.
        destruct (IH x k1 a2 Hk1P Hk1nd) as [Hs Hall].
        { intros j Hj. apply Hb'. by eapply ids_kid. }
        cbn [fo_tree fo_moved fo_res].
        pose proof (kupdate_perm C (fo_moved (fcob C rng fuel x k1 i a2)) _ _ _
                      (fo_tree (fcob C rng fuel x k1 i a2)) Hk1) as Hq.
        split.
        * eapply so_best; [exact Hinc|exact Hp1| |exact Hs|exact Hq]. lia.
        * constructor; [done|]. rewrite Hq. apply Forall_cons. done.
      + rewrite Hinc. unfold fnew_child. rewrite Hinc2.
        cbn [fo_tree fo_moved fo_res am_ctr anext]. split.
        * apply (so_new i (am_ctr a) id s s' s2 kids (S (am_ctr a2))); [done|done|done|lia].
        * constructor; [done|]. apply Forall_app. split; [done|].
          apply Forall_singleton. by constructor.
      + destruct ok2 as [k2|]; [|by apply Hstop].
        destruct Hok2 as (b0 & -> & Hk2 & Ht2 & Hne). rewrite Hinc. unfold fmerged.
        destruct (merge_ids C id s s kids b1 b0 k1 k2 (am_ctr a2) Hnd Hb' Hk1 Hk2 Hne)
          as (Hk2' & _ & _).
        pose proof (kremove_perm _ _ _ _ Hk2') as Hp2.
        assert (Hk2P : tall P k2 /\ Forall (tall P) (kremove b0 (kremove b1 kids))).
        { rewrite Hp2 in Hrest1 at 1. by apply Forall_cons in Hrest1. }
        destruct Hk2P as [Hk2P Hrest2].
        assert (HP1 : P (tsum k1)) by (destruct k1; by apply tall_inv in Hk1P as [? _]).
        assert (HP2 : P (tsum k2)) by (destruct k2; by apply tall_inv in Hk2P as [? _]).
        destruct (cl_add _ _ HP _ _ (cl_empty _ _ HP) HP1) as (sa & Ha & HPa).
        destruct (cl_add _ _ HP _ _ HPa HP2) as (sm & Hb0 & HPm).
        rewrite Ha, Hb0. simpl am_ctr. rewrite Ht2.
        destruct (merge_ids C id s sm kids b1 b0 k1 k2 (am_ctr a2) Hnd Hb' Hk1 Hk2 Hne)
          as (_ & Hperm & Hkm).
        set (m := S (am_ctr a2)) in *. cbv zeta.
        set (kids' := kremove b0 (kremove b1 kids) ++ [T m sm [k1; k2]]) in *.
        assert (Hndm : NoDup (ids (T m sm [k1; k2]))).
        { assert (Hnd' : NoDup (concat (map ids kids'))).
          { rewrite Hperm. apply NoDup_cons. split; [|done]. intros Hin.
            assert (m <= am_ctr a2); [|unfold m in *; lia]. apply Hb'. by right. }
          pose proof (kfind_split _ _ _ _ Hkm) as (l1 & l2 & E & _).
          rewrite E in Hnd'. by apply NoDup_kid in Hnd' as [? _]. }
        assert (Hbm : forall j, j ∈ ids (T m sm [k1; k2]) -> j <= am_ctr (anext a2)).
        { intros j Hj. assert (Hj' : j ∈ concat (map ids kids')).
          { apply elem_of_ids_kids. eexists. split; [|exact Hj].
            unfold kids'. apply elem_of_app. right. left. }
          rewrite Hperm in Hj'. apply elem_of_cons in Hj' as [->|Hj']; [done|].
          assert (j <= am_ctr a2) by (apply Hb'; by right). simpl. lia. }
        destruct (IH x (T m sm [k1; k2]) (anext a2)) as [Hs Hall];
          [repeat constructor; done|done|done|].
        cbn [fo_tree fo_moved fo_res].
        assert (Hq : Permutation
          (kupdate (fo_moved (fcob C rng fuel x (T m sm [k1; k2]) i (anext a2))) m
             (fo_tree (fcob C rng fuel x (T m sm [k1; k2]) i (anext a2))) kids')
          (fo_tree (fcob C rng fuel x (T m sm [k1; k2]) i (anext a2))
             :: kremove b0 (kremove b1 kids))).
        { rewrite (kupdate_perm C _ _ _ _ _ Hkm). f_equiv.
          pose proof (kremove_perm _ _ _ _ Hkm) as Hq. unfold kids' in Hq at 1.
          rewrite <- Permutation_cons_append in Hq.
          by apply Permutation_cons_inv in Hq. }
        split.
        * eapply so_merge; [exact Hinc| | |exact Ha|exact Hb0| |exact Hs|exact Hq].
          -- rewrite Hp1 at 1. f_equiv. exact Hp2.
          -- intros Hnil. rewrite Hnil in Hp2. apply Permutation_length in Hp1, Hp2.
             destruct (Happm eq_refl) as [Hlen _]. unfold tables in Hlen.
             rewrite map_length in Hlen. simpl in *. lia.
          -- simpl; lia.
        * constructor; [done|]. rewrite Hq. apply Forall_cons. done.
      + set (kids1 := kremove b1 kids ++ tkids k1) in *.
        assert (Hsub : forall j, j ∈ concat (map ids kids1) -> j ∈ concat (map ids kids)).
        { intros j. rewrite (concat_ids_perm _ _ _ Hp1). unfold kids1.
          rewrite concat_ids_app. destruct k1 as [i1 s1 ks1]. simpl.
          rewrite !elem_of_cons, !elem_of_app. tauto. }
        destruct (IH x (T id s kids1) a2) as [Hs Hall].
        * constructor; [done|]. apply Forall_app. split; [done|].
          destruct k1. by apply tall_inv in Hk1P as [_ ?].
        * apply NoDup_kids in Hnd as [Hn1 Hn2]. apply NoDup_kids. split.
          { intros Hin. by apply Hn1, Hsub. }
          rewrite (concat_ids_perm _ _ _ Hp1) in Hn2. unfold kids1. clearbody kids.
          rewrite concat_ids_app. destruct k1 as [i1 s1 ks1]. simpl in Hn2 |- *.
          apply NoDup_cons in Hn2 as [_ Hn2].
          by rewrite (Permutation_app_comm (concat (map ids (kremove b1 kids)))).
        * intros j Hj. apply Hb'. apply elem_of_cons in Hj as [->|Hj]; [left|].
          right. by apply Hsub.
        * split; [|done]. eapply so_split; [exact Hp1| |done| |exact Hs]; [|lia].
          intros Hnil. rewrite Hnil in Happs. by apply Happs.
  Qed.

  (** ** Termination: the fuel of the model is never used up. *)
  Lemma tsize_perm (l1 l2 : list tree) :
    Permutation l1 l2 -> sumn (map tsize l1) = sumn (map tsize l2).
  Proof. intros H. by apply sumn_perm, Permutation_map. Qed.

  Lemma tsize_pos (t : tree) : 0 < tsize t.
  Proof. destruct t. simpl. lia. Qed.

  (** Class methods do not raise the model-only exceptions. *)
  Definition real_exn (e : exn) : Prop := e <> OutOfFuel /\ e <> Dangling.
  Definition rres {X} (r : res X) : Prop :=
    match r with Ok _ => True | Err e => real_exn e end.
  Record real_class : Prop := {
    rc_inc : forall s i, match snd (nc_inc C s i) with None => True | Some e => real_exn e end;
    rc_add : forall s s2, match snd (nc_add C s s2) with None => True | Some e => real_exn e end;
    rc_ecg : forall x s, rres (nc_ecg C x s);
    rc_exact : forall s i, rres (nc_exact C s i);
  }.

  Definition areal {X} (m : A X) : Prop := forall a, rres (fst (m a)).
  Lemma areal_ret {X} (v : X) : areal (aret v).
  Proof. done. Qed.
  Lemma areal_raise {X} e : real_exn e -> areal (@araise X e).
  Proof. intros H a. done. Qed.
  Lemma areal_lift {X} (r : res X) : rres r -> areal (alift r).
  Proof. intros H a. done. Qed.
  Lemma areal_temps n : areal (atemps n).
  Proof. done. Qed.
  Lemma areal_random : areal (arandom rng).
  Proof. done. Qed.
  Lemma areal_bind {X Y} (m : A X) (f : X -> A Y) :
    areal m -> (forall v, areal (f v)) -> areal (abind m f).
  Proof.
    intros Hm Hf a. unfold abind. specialize (Hm a).
    destruct (m a) as [[v|e] a1]; simpl in *; [apply Hf|done].
  Qed.
  Lemma areal_mapM {X Y} (f : X -> A Y) l :
    (forall v, areal (f v)) -> areal (amapM f l).
  Proof.
    intros Hf. induction l; simpl; [done|].
    apply areal_bind; [done|]. intros. apply areal_bind; [done|]. intros. done.
  Qed.
  Lemma rres_bind {X Y} (r : res X) (f : X -> res Y) :
    rres r -> (forall v, rres (f v)) -> rres (rbind r f).
  Proof. destruct r; simpl; auto. Qed.
  Lemma rres_mapM {X Y} (f : X -> res Y) l :
    (forall v, rres (f v)) -> rres (rmapM f l).
  Proof.
    intros Hf. induction l; simpl; [done|].
    apply rres_bind; [done|]. intros. apply rres_bind; [done|]. done.
  Qed.
  Lemma rres_fold {X Y} (f : Y -> X -> res Y) l : forall acc,
    (forall v w, rres (f v w)) -> rres (rfold f acc l).
  Proof.
    induction l; intros acc Hf; simpl; [done|]. apply rres_bind; [done|].
    intros. by apply IHl.
  Qed.
  Lemma rres_pydiv u v : rres (pydiv N u v).
  Proof. unfold pydiv. destruct (neqb N v _); [split; discriminate|done]. Qed.

  Section Real.
    Hypothesis RC : real_class.
    Lemma rres_tinc s i : rres (tinc C s i).
    Proof.
      unfold tinc. pose proof (rc_inc RC s i). destruct (nc_inc C s i) as [? [?|]]; done.
    Qed.
    Lemma rres_tadd s s2 : rres (tadd C s s2).
    Proof.
      unfold tadd. pose proof (rc_add RC s s2). destruct (nc_add C s s2) as [? [?|]]; done.
    Qed.
    Lemma rres_tcopy s : rres (tcopy C s).
    Proof. apply rres_tadd. Qed.

    Ltac rres :=
      repeat lazymatch goal with
      | |- rres (rbind _ _) => simple apply rres_bind; [|intros]
      | |- rres (pydiv _ _ _) => apply rres_pydiv
      | |- rres (nc_ecg _ _ _) => apply (rc_ecg RC)
      | |- rres (tinc _ _ _) => apply rres_tinc
      | |- rres (tadd _ _ _) => apply rres_tadd
      | |- rres (tcopy _ _) => apply rres_tcopy
      | |- rres (rmapM _ _) => simple apply rres_mapM; intros
      | |- rres (rfold _ _ _) => simple apply rres_fold; intros
      | |- rres (if ?b then _ else _) => destruct b
      | |- rres (Ok _) => exact Logic.I
      end.

    Lemma rres_cu x s l : rres (category_utility C x s l).
    Proof. unfold category_utility. destruct l; [done|]. rres. Qed.

    Ltac areal :=
      repeat lazymatch goal with
      | |- areal (abind _ _) => simple apply areal_bind; [|intros]
      | |- areal (aret _) => apply areal_ret
      | |- areal (atemps _) => apply areal_temps
      | |- areal (arandom _) => apply areal_random
      | |- areal (araise _) => apply areal_raise; split; discriminate
      | |- areal (alift _) => apply areal_lift
      | |- areal (amapM _ _) => simple apply areal_mapM; intros
      | |- areal (if ?b then _ else _) => destruct b
      | |- areal (match ?b with _ => _ end) => destruct b
      | |- rres (category_utility _ _ _ _) => apply rres_cu
      | |- rres _ => progress rres
      end.

    Lemma two_best_real x s kids i : areal (two_best_children C rng x s kids i).
    Proof.
      unfold two_best_children, relative_cu_for_insert, compute_relative_CU_const. areal.
    Qed.
    Lemma best_op_real x s kids i b1 b2 bk cu ops :
      areal (get_best_operation C rng x s kids i b1 b2 bk cu ops).
    Proof.
      unfold get_best_operation, cu_for_new_child, cu_for_merge, cu_for_split. areal.
    Qed.

    Theorem fcob_terminates fuel : forall x (t : tree) i a,
      NoDup (ids t) -> (forall j, j ∈ ids t -> j <= am_ctr a) ->
      tsize t <= fuel ->
      rres (fo_res (fcob C rng fuel x t i a)).
    Proof.
      induction fuel as [|fuel IH]; intros x t i a Hnd Hb Hsz.
      { pose proof (tsize_pos t). lia. }
      destruct t as [id s kids]. cbn [fcob].
      pose proof (rc_inc RC s i) as Rinc.
      pose proof (rc_inc RC (nc_empty C) i) as Rinc0.
      destruct kids as [|k0 ks0].
      - pose proof (rc_exact RC s i) as Rex.
        destruct (nc_exact C s i) as [ex|e]; [|done].
        destruct (ex || (nc_count C s =? 0)%nat).
        { destruct (nc_inc C s i) as [? [?|]]; done. }
        unfold ffringe, fnew_child.
        pose proof (rc_add RC (nc_empty C) s) as Radd.
        destruct (nc_add C (nc_empty C) s) as [s0 [e|]]; [done|].
        pose proof (rc_inc RC s0 i) as Rinc1.
        destruct (nc_inc C s0 i) as [s1 [e|]]; [done|].
        destruct (nc_inc C (nc_empty C) i) as [s2 [e|]]; done.
      - set (kids := k0 :: ks0) in *.
        pose proof (two_best_real x s (tables kids) i a) as R2.
        destruct (two_best_children C rng x s (tables kids) i a) as [[[[cu b1] b2]|e] a1] eqn:E2;
          [|done].
        pose proof (proj1 (NoDup_kids _ _ _ _) Hnd) as [_ Hndk].
        destruct (two_best_kids _ _ _ _ _ _ _ _ _ _ _ (NoDup_tids _ _ Hndk) E2)
          as (Ha1 & k1 & Hk1 & Hb2).
        rewrite Hk1.
        set (o2 := match b2 with
                   | Some b0 => match kfind b0 kids with Some k2 => Some (Some k2) | None => None end
                   | None => Some None end).
        assert (Ho2 : exists ok2, o2 = Some ok2 /\
          match ok2 with
          | None => True
          | Some k2 => exists b0, b2 = Some b0 /\ kfind b0 kids = Some k2 /\ tid k2 = b0 /\ b1 <> b0
          end).
        { unfold o2. destruct b2 as [b0|]; [|by exists None].
          destruct Hb2 as [Hne [k2 Hk2]]. rewrite Hk2. exists (Some k2). split; [done|].
          exists b0. split; [done|]. split; [done|].
          apply kfind_split in Hk2 as (? & ? & ? & ? & ?). done. }
        destruct Ho2 as (ok2 & -> & Hok2).
        match goal with |- context [get_best_operation ?c ?r ?x ?s ?k ?i ?p ?q ?bk ?cu ?l ?a] =>
          pose proof (best_op_mono c r x s k i p q bk cu l a) as Hm;
          pose proof (best_op_real x s k i p q bk cu l a) as R3;
          destruct (get_best_operation c r x s k i p q bk cu l a) as [[[u o]|e] a2] eqn:E3 end;
          [|done].
        apply best_op_applicable in E3 as (_ & Happm & Happs).
        destruct Hm as [Ha2 _]. simpl in Ha2. clear R2 R3.
        assert (Hb' : forall j, j ∈ ids (T id s kids) -> j <= am_ctr a2).
        { intros j Hj. specialize (Hb j Hj). lia. }
        pose proof (kremove_perm _ _ _ _ Hk1) as Hp1.
        assert (Hk1in : k1 ∈ kids) by (rewrite Hp1 at 1; left).
        assert (Hk1nd : NoDup (ids k1)).
        { pose proof Hk1 as (l1 & l2 & E & _)%kfind_split.
          rewrite E in Hndk. by apply NoDup_kid in Hndk as [? _]. }
        clearbody kids.
        assert (Hsz1 : S (tsize k1 + sumn (map tsize (kremove b1 kids))) <= S fuel).
        { change (S (sumn (map tsize kids)) <= S fuel) in Hsz.
          rewrite (tsize_perm _ _ Hp1) in Hsz. simpl in Hsz. lia. }
        destruct o.
        + destruct (nc_inc C s i) as [s' [e|]]; [done|]. simpl fo_res.
          apply IH; [done| |lia].
          intros j Hj. apply Hb'. by eapply ids_kid.
        + destruct (nc_inc C s i) as [s' [e|]]; [done|]. unfold fnew_child.
          destruct (nc_inc C (nc_empty C) i) as [s2 [e|]]; done.
        + destruct ok2 as [k2|]; [|split; discriminate].
          destruct Hok2 as (b0 & -> & Hk2 & Ht2 & Hne).
          destruct (nc_inc C s i) as [s' [e|]]; [done|].
          destruct (fmerged C k1 k2) as [sm|e] eqn:Em.
          2:{ unfold fmerged in Em. simpl.
              pose proof (rc_add RC (nc_empty C) (tsum k1)) as Ra.
              destruct (nc_add C (nc_empty C) (tsum k1)) as [s0 [e0|]];
                [injection Em as <-; done|].
              pose proof (rc_add RC s0 (tsum k2)) as Rb.
              destruct (nc_add C s0 (tsum k2)) as [s1 [e0|]];
                [injection Em as <-; done|done]. }
          simpl am_ctr. rewrite Ht2.
          destruct (merge_ids C id s sm kids b1 b0 k1 k2 (am_ctr a2) Hnd Hb' Hk1 Hk2 Hne)
            as (Hk2' & Hperm & Hkm).
          set (m := S (am_ctr a2)) in *. cbv zeta.
          set (kids' := kremove b0 (kremove b1 kids) ++ [T m sm [k1; k2]]) in *.
          pose proof (kremove_perm _ _ _ _ Hk2') as Hp2.
          simpl fo_res. apply IH.
          * assert (Hnd' : NoDup (concat (map ids kids'))).
            { rewrite Hperm. apply NoDup_cons. split; [|done]. intros Hin.
              assert (m <= am_ctr a2); [|unfold m in *; lia]. apply Hb'. by right. }
            pose proof (kfind_split _ _ _ _ Hkm) as (l1 & l2 & E & _).
            rewrite E in Hnd'. by apply NoDup_kid in Hnd' as [? _].
          * intros j Hj. assert (Hj' : j ∈ concat (map ids kids')).
            { apply elem_of_ids_kids. eexists. split; [|exact Hj].
              unfold kids'. apply elem_of_app. right. left. }
            rewrite Hperm in Hj'. apply elem_of_cons in Hj' as [->|Hj']; [done|].
            assert (j <= am_ctr a2) by (apply Hb'; by right). simpl. lia.
          * rewrite (tsize_perm _ _ Hp2) in Hsz1. simpl in Hsz1 |- *.
            assert (0 < sumn (map tsize (kremove b0 (kremove b1 kids)))); [|lia].
            destruct (Happm eq_refl) as [Hlen _]. unfold tables in Hlen.
            rewrite map_length in Hlen. apply Permutation_length in Hp1, Hp2.
            simpl in Hp1, Hp2.
            destruct (kremove b0 (kremove b1 kids)) as [|k3 l3]; simpl in *; [lia|].
            pose proof (tsize_pos k3). lia.
        + set (kids1 := kremove b1 kids ++ tkids k1) in *.
          assert (Hsub : forall j, j ∈ concat (map ids kids1) -> j ∈ concat (map ids kids)).
          { intros j. rewrite (concat_ids_perm _ _ _ Hp1). unfold kids1.
            rewrite concat_ids_app. destruct k1 as [i1 s1 ks1]. simpl.
            rewrite !elem_of_cons, !elem_of_app. tauto. }
          apply IH.
          * apply NoDup_kids in Hnd as [Hn1 Hn2]. apply NoDup_kids. split.
            { intros Hin. by apply Hn1, Hsub. }
            rewrite (concat_ids_perm _ _ _ Hp1) in Hn2. unfold kids1.
            rewrite concat_ids_app. destruct k1 as [i1 s1 ks1]. simpl in Hn2 |- *.
            apply NoDup_cons in Hn2 as [_ Hn2].
            by rewrite (Permutation_app_comm (concat (map ids (kremove b1 kids)))).
          * intros j Hj. apply Hb'. apply elem_of_cons in Hj as [->|Hj]; [left|].
            right. by apply Hsub.
          * unfold kids1. simpl. rewrite map_app, sumn_app.
            destruct k1. simpl in *. lia.
    Qed.

    Theorem fcat_terminates fuel : forall x (t : tree) i a,
      NoDup (ids t) -> tsize t <= fuel ->
      rres (fst (fcat C rng fuel x t i a)).
    Proof.
      induction fuel as [|fuel IH]; intros x t i a Hnd Hsz.
      { pose proof (tsize_pos t). lia. }
      destruct t as [id s kids]. cbn [fcat].
      destruct kids as [|k0 ks0]; [done|]. set (kids := k0 :: ks0) in *.
      pose proof (two_best_real x s (tables kids) i a) as R2.
      destruct (two_best_children C rng x s (tables kids) i a) as [[[[cu b1] b2]|e] a1] eqn:E2;
        [|done].
      pose proof (proj1 (NoDup_kids _ _ _ _) Hnd) as [_ Hndk].
      destruct (two_best_kids _ _ _ _ _ _ _ _ _ _ _ (NoDup_tids _ _ Hndk) E2)
        as (Ha1 & k1 & Hk1 & Hb2).
      rewrite Hk1. apply IH.
      - pose proof Hk1 as (l1 & l2 & E & _)%kfind_split.
        rewrite E in Hndk. by apply NoDup_kid in Hndk as [? _].
      - clearbody kids. change (S (sumn (map tsize kids)) <= S fuel) in Hsz.
        rewrite (tsize_perm _ _ (kremove_perm _ _ _ _ Hk1)) in Hsz. simpl in Hsz. lia.
    Qed.
  End Real.

  (** Every categorisation ends in a leaf, reached through child links. *)
  Inductive leaf_of : tree -> nat -> S' -> Prop :=
  | leaf_here id s : leaf_of (T id s []) id s
  | leaf_below id s kids k j sj :
      k ∈ kids -> leaf_of k j sj -> leaf_of (T id s kids) j sj.

  Theorem fcat_leaf fuel : forall x (t : tree) i a j,
    fst (fcat C rng fuel x t i a) = Ok j -> exists sj, leaf_of t j sj.
  Proof.
    induction fuel as [|fuel IH]; intros x t i a j; [done|].
    destruct t as [id s kids]. cbn [fcat].
    destruct kids as [|k0 ks0].
    { intros [= <-]. exists s. constructor. }
    set (kids := k0 :: ks0) in *.
    destruct (two_best_children C rng x s (tables kids) i a) as [[[[cu b1] b2]|e] a1] eqn:E2;
      [|done].
    destruct (kfind b1 kids) as [k1|] eqn:Hk1; [|done].
    intros (sj & Hl)%IH. exists sj. apply (leaf_below _ _ _ k1); [|done].
    rewrite (kremove_perm _ _ _ _ Hk1) at 1. left.
  Qed.

  Lemma fcat_mono fuel : forall x (t : tree) i a,
    ale a (snd (fcat C rng fuel x t i a)).
  Proof.
    induction fuel as [|fuel IH]; intros x t i a; [done|].
    destruct t as [id s kids]. cbn [fcat].
    destruct kids as [|k0 ks0]; [done|]. set (kids := k0 :: ks0) in *.
    pose proof (two_best_mono C rng x s (tables kids) i a) as Hm.
    destruct (two_best_children C rng x s (tables kids) i a) as [[[[cu b1] b2]|e] a1]; [|done].
    destruct (kfind b1 kids) as [k1|]; [|done].
    etrans; [exact Hm|]. apply IH.
  Qed.
End Sorts.
