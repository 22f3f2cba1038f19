(** * The scores over the real numbers, for any node class.

    Algebra behind relative category utility (cobweb.py:576-665), the choice
    of the two best children and of the operation. *)
From Coq Require Import Reals Lra.
From stdpp Require Import base decidable tactics gmap strings list.
From Verif Require Import Base Num TreeModel TreeFun TreeScore SortFacts.
Local Open Scope R_scope.

Lemma rfold_app {A B} (f : B -> A -> res B) b l1 l2 :
  rfold f b (l1 ++ l2) = rbind (rfold f b l1) (fun b' => rfold f b' l2).
Proof. revert b. induction l1 as [|a l1 IH]; intros b; simpl; [done|]. destruct (f b a); simpl; auto. Qed.

Lemma rmapM_ok {A B} (f : A -> res B) l l' :
  rmapM f l = Ok l' <-> Forall2 (fun a b => f a = Ok b) l l'.
Proof.
  revert l'. induction l as [|a l IH]; intros l'; simpl.
  - split; [intros [= <-]; constructor | inversion 1; done].
  - split.
    + destruct (f a) as [b|] eqn:Ea; simpl; [|done].
      destruct (rmapM f l) as [bs|]; simpl; [|done]. intros [= <-].
      constructor; [done|]. by apply IH.
    + inversion 1 as [|? ? ? ? H1 H2]; subst. rewrite H1. simpl.
      apply IH in H2. by rewrite H2.
Qed.

Lemma Rdiv_pydiv (a b u : R) : pydiv ROps a b = Ok u <-> b <> 0 /\ u = a / b.
Proof.
  unfold pydiv. simpl. change (INR 0) with 0. unfold Reqb.
  destruct (Req_EM_T b 0); split; try done.
  - by intros [? _].
  - by intros [= <-].
  - by intros [_ ->].
Qed.

Lemma abind_ok {X Y} (m : A X) (f : X -> A Y) a v a1 :
  m a = (Ok v, a1) -> abind m f a = f v a1.
Proof. unfold abind. by intros ->. Qed.

Section Score.
  Context (C : NodeClass ROps) (rng : nat -> R) (x : nc_ctx C).
  Notation S' := (nc_sum C).
  Notation I := (nc_inst C).
  Notation ecg := (nc_ecg C x).
  Notation cnt s := (INR (nc_count C s)).

  (** Sum of [count k / d * e] over the children and their guesses. *)
  Fixpoint wsum (d : R) (kids : list S') (es : list R) : R :=
    match kids, es with
    | k :: kids, e :: es => cnt k / d * e + wsum d kids es
    | _, _ => 0
    end.

  Definition guesses (kids : list S') (es : list R) : Prop :=
    Forall2 (fun k e => ecg k = Ok e) kids es.

  Lemma wsum_fold d kids a r :
    rfold (fun acc k =>
             rbind (pydiv ROps (cnt k) d) (fun p =>
             rbind (ecg k) (fun e => Ok (acc + p * e)))) a kids = Ok r <->
    (kids = [] \/ d <> 0) /\ exists es, guesses kids es /\ r = a + wsum d kids es.
  Proof.
    revert a. induction kids as [|k kids IH]; intros a; simpl.
    - split.
      + intros [= <-]. split; [by left|]. exists []. split; [constructor|simpl; lra].
      + intros [_ (es & Hg & ->)]. inversion Hg; subst. simpl. f_equal. lra.
    - split.
      + intros E. destruct (pydiv ROps (cnt k) d) as [p|] eqn:Ep; simpl in E; [|done].
        apply Rdiv_pydiv in Ep as [Hd Ep].
        destruct (ecg k) as [e|] eqn:Ee; simpl in E; [|done].
        apply IH in E as [_ (es & Hg & ->)]. split; [by right|].
        exists (e :: es). split; [by constructor|]. simpl. subst p. lra.
      + intros [[?|Hd] (es & Hg & ->)]; [done|].
        inversion Hg as [|? e ? es' He Hg']; subst.
        assert (Ep : pydiv ROps (cnt k) d = Ok (cnt k / d)) by (by apply Rdiv_pydiv).
        rewrite Ep, He. simpl. apply IH. split; [by right|].
        exists es'. split; [done|lra].
  Qed.

  Lemma cu_ok (s : S') kids u : kids <> [] ->
    category_utility C x s kids = Ok u <->
    cnt s <> 0 /\ exists es e, guesses kids es /\ ecg s = Ok e /\
      u = (wsum (cnt s) kids es - e) / INR (length kids).
  Proof.
    intros Hne.
    assert (Hn : INR (length kids) <> 0).
    { apply not_0_INR. by destruct kids. }
    unfold category_utility. destruct kids as [|k0 ks0]; [done|].
    set (kids := k0 :: ks0) in *. split.
    - intros E.
      match type of E with rbind ?f _ = _ => destruct f as [acc|] eqn:Ef end; [|done].
      cbn [rbind] in E. change (nofnat ROps 0) with 0 in Ef. apply wsum_fold in Ef as [Hd (es & Hg & ->)].
      destruct (ecg s) as [e|] eqn:Ee; [|done]. cbn [rbind] in E.
      apply Rdiv_pydiv in E as [_ ->]. destruct Hd as [|Hd]; [done|].
      split; [done|]. exists es, e. split; [done|]. split; [done|].
      simpl nsub. rewrite Rplus_0_l. done.
    - intros [Hd (es & e & Hg & He & ->)].
      match goal with |- rbind ?f _ = _ => assert (Ef : f = Ok (0 + wsum (cnt s) kids es)) end.
      { apply wsum_fold. split; [by right|]. exists es. done. }
      rewrite Ef. cbn [rbind]. rewrite He. cbn [rbind]. apply Rdiv_pydiv. split; [done|].
      simpl nsub. by rewrite Rplus_0_l.
  Qed.

  (** Children may be listed in any order. *)
  Lemma wsum_perm d kids kids' es : Permutation kids kids' -> guesses kids es ->
    exists es', guesses kids' es' /\ wsum d kids es = wsum d kids' es'.
  Proof.
    intros Hp. revert es. induction Hp as [|k l l' Hp IH|a b l|l1 l2 l3 H1 IH1 H2 IH2]; intros es Hg.
    - exists es. done.
    - inversion Hg as [|? e ? es' He Hg']; subst.
      destruct (IH es' Hg') as (es2 & Hg2 & E). exists (e :: es2).
      split; [by constructor|]. simpl. by rewrite E.
    - inversion Hg as [|? e1 ? es1 He1 Hg1]; subst. inversion Hg1 as [|? e2 ? es2 He2 Hg2]; subst.
      exists (e2 :: e1 :: es2). split; [by repeat constructor|]. simpl. lra.
    - destruct (IH1 _ Hg) as (es2 & Hg2 & E2). destruct (IH2 _ Hg2) as (es3 & Hg3 & E3).
      exists es3. split; [done|]. congruence.
  Qed.

  Lemma cu_perm s kids kids' u : Permutation kids kids' ->
    category_utility C x s kids = Ok u -> category_utility C x s kids' = Ok u.
  Proof.
    intros Hp E. destruct kids as [|k0 ks0].
    { apply Permutation_nil in Hp. by subst. }
    assert (kids' <> []).
    { intros ->. symmetry in Hp. by apply Permutation_nil in Hp. }
    apply cu_ok in E as [Hd (es & e & Hg & He & ->)]; [|done].
    apply cu_ok; [done|]. split; [done|].
    destruct (wsum_perm (cnt s) _ _ es Hp Hg) as (es' & Hg' & Ew).
    exists es', e. split; [done|]. split; [done|]. rewrite Ew.
    by rewrite (Permutation_length Hp).
  Qed.

  (** ** Relative CU *)

  (** Copies are exact and incrementing adds one to the count. *)
  Definition copies (s : S') : Prop := tcopy C s = Ok s.
  Definition counts (i : I) : Prop :=
    forall s s', tinc C s i = Ok s' -> nc_count C s' = S (nc_count C s).

  Lemma insert_map (kids : list (nat * S')) b i tb tb' :
    Forall (fun c => copies (snd c)) kids -> NoDup (map fst kids) ->
    (b, tb) ∈ kids -> tinc C tb i = Ok tb' ->
    exists l1 l2, kids = l1 ++ (b, tb) :: l2 /\
      rmapM (fun c => rbind (tcopy C (snd c)) (fun tc =>
               if decide (fst c = b) then tinc C tc i else Ok tc)) kids =
      Ok (map snd l1 ++ tb' :: map snd l2).
  Proof.
    intros Hc Hnd Hin Hi. apply elem_of_list_split in Hin as (l1 & l2 & ->).
    exists l1, l2. split; [done|].
    assert (Hoth : forall l, (forall c, c ∈ l -> fst c <> b) -> Forall (fun c => copies (snd c)) l ->
      Forall2 (fun c t => rbind (tcopy C (snd c)) (fun tc =>
               if decide (fst c = b) then tinc C tc i else Ok tc) = Ok t) l (map snd l)).
    { intros l Hne Hl. induction l as [|c l IH]; simpl; [constructor|].
      apply Forall_cons in Hl as [Hc0 Hl]. constructor.
      - rewrite Hc0. simpl. rewrite decide_False; [done|]. apply Hne. left.
      - apply IH; [|done]. intros c' Hc'. apply Hne. by right. }
    rewrite map_app in Hnd. simpl in Hnd. apply NoDup_app in Hnd as (_ & Hd1 & Hnd2).
    apply NoDup_cons in Hnd2 as [Hd2 _].
    apply Forall_app in Hc as [Hc1 Hc2]. apply Forall_cons in Hc2 as [Hc0 Hc2].
    apply rmapM_ok. apply Forall2_app; [apply Hoth; [|done]|constructor; [|apply Hoth; [|done]]].
    - intros c Hc <-. apply (Hd1 (fst c)); [|left]. apply elem_of_list_fmap. eauto.
    - rewrite Hc0. simpl. by rewrite decide_True.
    - intros c Hc <-. apply Hd2. apply elem_of_list_fmap. eauto.
  Qed.

  Lemma wsum_app d l1 l2 e1 e2 : length l1 = length e1 ->
    wsum d (l1 ++ l2) (e1 ++ e2) = wsum d l1 e1 + wsum d l2 e2.
  Proof.
    revert e1. induction l1 as [|k l1 IH]; intros [|e e1] Hl; simpl in *; try done; [lra|].
    rewrite IH by lia. lra.
  Qed.

  Theorem insert_formula s (kids : list (nat * S')) b tb i r k :
    copies s -> Forall (fun c => copies (snd c)) kids -> counts i ->
    NoDup (map fst kids) -> (b, tb) ∈ kids ->
    relative_cu_for_insert C x tb i = Ok r ->
    compute_relative_CU_const C x s (map snd kids) i = Ok k ->
    cu_for_insert C x s kids b i =
      Ok (r / (INR (length kids) * INR (nc_count C s + 1)) + k).
  Proof.
    intros Hs Hk Hcnt Hnd Hin Er Ek.
    assert (Hcp : copies tb) by (rewrite Forall_forall in Hk; exact (Hk _ Hin)).
    unfold relative_cu_for_insert in Er. rewrite Hcp in Er. simpl in Er.
    destruct (tinc C tb i) as [tb'|] eqn:Ei; simpl in Er; [|done].
    destruct (ecg tb') as [e1|] eqn:Ee1; simpl in Er; [|done].
    destruct (ecg tb) as [e2|] eqn:Ee2; simpl in Er; [|done].
    unfold compute_relative_CU_const in Ek. rewrite Hs in Ek. simpl in Ek.
    destruct (tinc C s i) as [s1|] eqn:Es1; simpl in Ek; [|done].
    destruct (ecg s1) as [es1|] eqn:Ee3; cbn [rbind] in Ek; [|done].
    destruct (rfold _ _ _) as [acc|] eqn:Ef in Ek; cbn [rbind] in Ek; [|done].
    change (INR 0) with 0 in Ef. apply wsum_fold in Ef as [_ (es & Hg & ->)].
    apply Rdiv_pydiv in Ek as [Hn ->].
    rewrite map_length in *.
    destruct (insert_map kids b i tb tb' Hk Hnd Hin Ei) as (l1 & l2 & Hkids & Em).
    unfold cu_for_insert. rewrite Hs. simpl. rewrite Es1. simpl. rewrite Em. simpl.
    pose proof (Hcnt _ _ Es1) as Hc1. pose proof (Hcnt _ _ Ei) as Hc2.
    rewrite Hkids, map_app in Hg. simpl in Hg.
    apply Forall2_app_inv_l in Hg as (g1 & g2 & Hg1 & Hg2 & ->).
    inversion Hg2 as [|? e ? g2' He Hg2']; subst g2. rewrite Ee2 in He. injection He as <-.
    apply cu_ok; [by destruct (map snd l1)|]. split.
    { rewrite Hc1. by apply not_0_INR. }
    exists (g1 ++ e1 :: g2'), es1. split.
    { apply Forall2_app; [done|]. by constructor. }
    split; [done|].
    injection Er as <-. rewrite Hkids in *.
    rewrite map_app. simpl map. rewrite !wsum_app by (by apply Forall2_length in Hg1).
    simpl wsum. rewrite Hc1, Hc2, !app_length, !map_length in *. simpl length in *.
    replace (nc_count C s + 1)%nat with (S (nc_count C s)) by lia.
    replace (nc_count C tb + 1)%nat with (S (nc_count C tb)) by lia.
    assert (INR (S (nc_count C s)) <> 0) by (by apply not_0_INR).
    rewrite map_length. match goal with |- ?a = ?b => change (@eq R a b) end.
    field. done.
  Qed.

  (** ** two_best_children *)
  Definition key_of (a : amb) (j : nat) (i : I) (c : nat * S') (k : ckey (N:=ROps)) : Prop :=
    let '(u, n, r, id) := k in
    relative_cu_for_insert C x (snd c) i = Ok u /\ n = nc_count C (snd c) /\
    r = rng (am_rpos a + j)%nat /\ id = fst c.

  Lemma score_keys (kids : list (nat * S')) (i : I) a l a' :
    amapM (fun c =>
             abind (atemps 1) (fun _ =>
             abind (alift (relative_cu_for_insert C x (snd c) i)) (fun u =>
             abind (arandom (N:=ROps) rng) (fun r =>
             aret (u, nc_count C (snd c), r, fst c))))) kids a = (Ok l, a') ->
    length l = length kids /\
    forall j c, kids !! j = Some c -> exists k, l !! j = Some k /\ key_of a j i c k.
  Proof.
    revert a l a'. induction kids as [|c kids IH]; intros a l a'; simpl.
    - unfold aret. intros [= <- <-]. done.
    - unfold abind, atemps, alift, arandom, aret at 1. simpl.
      destruct (relative_cu_for_insert C x (snd c) i) as [u|e] eqn:Eu; simpl; [|congruence].
      match goal with |- context [amapM ?f kids ?b] =>
        destruct (amapM f kids b) as [[l0|e0] a0] eqn:E end; [|congruence].
      intros [= <- <-]. simpl. apply IH in E as [Hl Hk]. split; [f_equal; exact Hl|].
      intros [|j] c' Hj; simpl in *.
      + injection Hj as <-. eexists. split; [done|]. unfold key_of.
        rewrite Nat.add_0_r. done.
      + destruct (Hk j c' Hj) as (k & Hk1 & Hk2). exists k. split; [done|].
        destruct k as [[[u' n'] r'] id']. unfold key_of in *. simpl in Hk2.
        rewrite Nat.add_succ_r. done.
  Qed.

  (** What it means for [cu], [b1], [b2] to be the answer of
      two_best_children. *)
  Lemma two_best_keys s (kids : list (nat * S')) i a cu b1 b2 a' :
    two_best_children C rng x s kids i a = (Ok (cu, b1, b2), a') ->
    exists l rel n r rest k,
      length l = length kids /\
      (forall j c, kids !! j = Some c -> exists k, l !! j = Some k /\ key_of a j i c k) /\
      sort_desc (ckey_lt (N:=ROps)) l = (rel, n, r, b1) :: rest /\
      b2 = match rest with [] => None | (_, _, _, b) :: _ => Some b end /\
      compute_relative_CU_const C x s (map snd kids) i = Ok k /\
      cu = rel / INR (nc_count C s + 1) / INR (length kids) + k.
  Proof.
    unfold two_best_children. destruct kids as [|c0 kids0]; [done|].
    remember (c0 :: kids0) as kids eqn:Hkids. unfold abind at 1.
    match goal with |- context [amapM ?f kids a] =>
      destruct (amapM f kids a) as [[l|e] a0] eqn:E end; [|done].
    unfold abind, alift, araise, aret, atemps.
    destruct (has_tie l); [done|]. simpl.
    destruct (compute_relative_CU_const C x s _ i) as [k|] eqn:Ek; [|done].
    destruct (sort_desc ckey_lt l) as [|[[[rel c1] r1] b1'] rest] eqn:Es; [done|].
    destruct (pydiv ROps rel _) as [q|] eqn:Eq; [|done].
    destruct (pydiv ROps q _) as [q'|] eqn:Eq'; [|done].
    intros Heq. apply score_keys in E as [Hl Hk]. injection Heq as <- <- <- <-.
    apply Rdiv_pydiv in Eq as [_ ->]. apply Rdiv_pydiv in Eq' as [_ ->].
    exists l, rel, c1, r1, rest, k. done.
  Qed.

  (** Comparing relative CU is comparing CU. *)
  Lemma two_best_max s (kids : list (nat * S')) i a cu b1 b2 a' :
    copies s -> Forall (fun c => copies (snd c)) kids -> counts i -> NoDup (map fst kids) ->
    two_best_children C rng x s kids i a = (Ok (cu, b1, b2), a') ->
    cu_for_insert C x s kids b1 i = Ok cu /\
    (forall c, c ∈ map fst kids -> exists u, cu_for_insert C x s kids c i = Ok u /\ u <= cu) /\
    (forall c2, b2 = Some c2 ->
       forall c u u2, c ∈ map fst kids -> c <> b1 ->
         cu_for_insert C x s kids c i = Ok u -> cu_for_insert C x s kids c2 i = Ok u2 -> u <= u2).
  Proof.
    intros Hs Hk Hcnt Hnd E. apply two_best_keys in E as (l & rel & n & r & rest & k & Hl & Hkey & Es & Hb2 & Ek & ->).
    set (D := INR (length kids) * INR (nc_count C s + 1)).
    assert (HD : forall u u', u <= u' -> u / D + k <= u' / D + k).
    { intros u u' Hu. apply Rplus_le_compat_r. unfold Rdiv. apply Rmult_le_compat_r; [|done].
      assert (0 <= D) by (apply Rmult_le_pos; apply pos_INR).
      destruct (Req_dec D 0) as [->|]; [rewrite Rinv_0; lra|].
      left. apply Rinv_0_lt_compat. lra. }
    (* every child has a key, and every key belongs to a child *)
    assert (Hcu : forall j c, kids !! j = Some c -> exists u n r,
       l !! j = Some (u, n, r, fst c) /\ cu_for_insert C x s kids (fst c) i = Ok (u / D + k)).
    { intros j c Hj. destruct (Hkey j c Hj) as ([[[u n0] r0] id] & Hlj & (Hu & -> & -> & ->)).
      exists u, (nc_count C (snd c)), (rng (am_rpos a + j)%nat). split; [done|].
      apply insert_formula with (tb := snd c); try done.
      destruct c. by apply elem_of_list_lookup_2 in Hj. }
    assert (Hinv : forall u n r id, (u, n, r, id) ∈ l -> cu_for_insert C x s kids id i = Ok (u / D + k)).
    { intros u n0 r0 id Hin. apply elem_of_list_lookup in Hin as (j & Hj).
      destruct (lookup_lt_is_Some_2 kids j) as [c Hc].
      { rewrite <- Hl. by eapply lookup_lt_Some. }
      destruct (Hcu j c Hc) as (u' & n' & r' & Hlj & Hcui).
      pose proof (eq_trans (eq_sym Hj) Hlj) as Heq.
      by injection Heq as -> -> -> ->. }
    assert (Hb1 : cu_for_insert C x s kids b1 i = Ok (rel / D + k)).
    { eapply Hinv. rewrite <- (sort_desc_perm ckey_lt), Es. left. }
    assert (Heq : rel / INR (nc_count C s + 1) / INR (length kids) = rel / D).
    { unfold D. destruct (decide (length kids = 0%nat)) as [->|Hne].
      - simpl INR. unfold Rdiv. rewrite Rmult_0_l, Rinv_0. lra.
      - assert (INR (length kids) <> 0) by (by apply not_0_INR).
        assert (INR (nc_count C s + 1) <> 0) by (apply not_0_INR; lia). by field. }
    rewrite Heq. split; [done|]. split.
    - intros c Hc. apply elem_of_list_fmap in Hc as (c' & -> & Hc).
      apply elem_of_list_lookup in Hc as (j & Hj).
      destruct (Hcu j c' Hj) as (u & n' & r' & Hlj & Hcui).
      exists (u / D + k). split; [done|]. apply HD.
      destruct (sort_desc_head ckey_lt ckey_trans ckey_total l _ _ Es) as [_ Hmax].
      destruct (Hmax (u, n', r', fst c')) as [Heq'|Hge]; [by eapply elem_of_list_lookup_2| |].
      + injection Heq'; intros; subst; lra.
      + by apply ckey_ge in Hge as [Hge _].
    - intros c2 Hc2 c u u2 Hc Hne Eu Eu2. rewrite Hb2 in Hc2.
      destruct rest as [|[[[u2' n2] r2] b2'] rest]; [done|]. injection Hc2 as ->.
      pose proof (sort_desc_perm ckey_lt l) as Hp. rewrite Es in Hp.
      assert (Hr2 : cu_for_insert C x s kids c2 i = Ok (u2' / D + k)).
      { eapply Hinv. rewrite <- Hp. right. left. }
      rewrite Eu2 in Hr2. injection Hr2 as ->.
      apply elem_of_list_fmap in Hc as (c' & -> & Hc).
      apply elem_of_list_lookup in Hc as (j & Hj).
      destruct (Hcu j c' Hj) as (u' & n' & r' & Hlj & Hcui). rewrite Eu in Hcui.
      injection Hcui as ->. apply HD.
      assert (Hin : (u', n', r', fst c') ∈ l) by (by eapply elem_of_list_lookup_2).
      rewrite <- Hp in Hin. apply elem_of_cons in Hin as [Hin|Hin]; [congruence|].
      apply elem_of_cons in Hin as [Hin|Hin]; [injection Hin; intros; subst; lra|].
      pose proof (sort_desc_sorted ckey_lt ckey_trans ckey_total l) as Hsort. rewrite Es in Hsort.
      inversion Hsort as [|? ? Hsort' _]; subst. inversion Hsort' as [|? ? _ Hf]; subst.
      rewrite Forall_forall in Hf. by apply Hf, ckey_ge in Hin as [Hge _].
  Qed.

  (** ** get_best_operation *)
  Section BestOp.
    Context (s : S') (kids : list (nat * S')) (i : I) (b1 : nat * S')
      (b2 : option (nat * S')) (bk : list (nat * S')) (cu : R) (possible : list op).

    (** Is the operation open at this concept? *)
    Definition applies (o : op) : bool :=
      bool_decide (o ∈ possible) &&
      match o with
      | OpBest | OpNew => true
      | OpMerge => bool_decide (2 < length kids)%nat && match b2 with Some _ => true | None => false end
      | OpSplit => match bk with [] => false | _ => true end
      end.

    (** The CU that the corresponding method predicts for it. *)
    Definition predicted (o : op) (u : R) : Prop :=
      match o with
      | OpBest => u = cu
      | OpNew => cu_for_new_child C x s (map snd kids) i = Ok u
      | OpMerge => exists b, b2 = Some b /\ cu_for_merge C x s kids b1 b i = Ok u
      | OpSplit => cu_for_split C x s kids (fst b1) bk = Ok u
      end.

    (** Which call of random() belongs to it: open operations draw in the
        order best, new, merge, split. *)
    Definition draw (o : op) : nat :=
      match o with
      | OpBest => 0
      | OpNew => Nat.b2n (applies OpBest)
      | OpMerge => Nat.b2n (applies OpBest) + Nat.b2n (applies OpNew)
      | OpSplit => Nat.b2n (applies OpBest) + Nat.b2n (applies OpNew) + Nat.b2n (applies OpMerge)
      end.

    Lemma draw_inj o o' : applies o = true -> applies o' = true -> draw o = draw o' -> o = o'.
    Proof.
      intros H1 H2. destruct o, o'; try done; unfold draw; rewrite ?H1, ?H2; simpl; lia.
    Qed.

    Lemma predicted_det o u u' : predicted o u -> predicted o u' -> u = u'.
    Proof.
      destruct o; simpl.
      - congruence.
      - congruence.
      - intros (b & Hb & E) (b' & Hb' & E'). congruence.
      - congruence.
    Qed.

    Lemma best_op_keys (rg : nat -> R) a :
      (forall o, applies o = true -> exists u, predicted o u) ->
      exists ks, (forall u r o, (u, r, o) ∈ ks <->
          applies o = true /\ predicted o u /\ r = rg (am_rpos a + draw o)%nat) /\
        fst (get_best_operation C rg x s kids i b1 b2 bk cu possible a) =
          match sort_desc (okey_lt (N:=ROps)) ks with
          | [] => Err IndexError
          | (u, _, o) :: _ => Ok (u, o)
          end.
    Proof.
      intros Hp. unfold get_best_operation.
      assert (Hm : forall o, applies o = true <-> o ∈ possible /\
        match o with
        | OpBest | OpNew => True
        | OpMerge => (2 < length kids)%nat /\ b2 <> None
        | OpSplit => (0 < length bk)%nat
        end).
      { intros o. unfold applies. rewrite andb_true_iff, bool_decide_eq_true.
        apply and_iff_compat_l. destruct o; [done|done| |].
        - rewrite andb_true_iff, bool_decide_eq_true. apply and_iff_compat_l.
          by destruct b2.
        - destruct bk; simpl; split; intros; try done; lia. }
      assert (Hus : exists us : op -> R, forall o, applies o = true -> predicted o (us o)).
      { assert (Hd : forall o, exists u, applies o = true -> predicted o u).
        { intros o. destruct (applies o) eqn:E; [|by exists 0].
          destruct (Hp o E) as [u Hu]. by exists u. }
        destruct (Hd OpBest) as [u1 H1], (Hd OpNew) as [u2 H2], (Hd OpMerge) as [u3 H3],
          (Hd OpSplit) as [u4 H4].
        exists (fun o => match o with OpBest => u1 | OpNew => u2 | OpMerge => u3 | OpSplit => u4 end).
        by intros []. }
      destruct Hus as [us Hus].
      pose (piece o := if applies o then [(us o, rg (am_rpos a + draw o)%nat, o)] else []).
      exists (piece OpBest ++ piece OpNew ++ piece OpMerge ++ piece OpSplit). split.
      { assert (Hpc : forall o' u r o, (u, r, o) ∈ piece o' <->
          o' = o /\ applies o = true /\ u = us o /\ r = rg (am_rpos a + draw o)%nat).
        { intros o' u r o. unfold piece. destruct (applies o') eqn:E.
          - rewrite elem_of_list_singleton. split.
            + intros [= -> -> ->]. done.
            + by intros (-> & _ & -> & ->).
          - split; [intros Hin; inversion Hin|]. intros (-> & ? & _). congruence. }
        intros u r o. rewrite !elem_of_app, !Hpc. split.
        - intros Hin.
          assert (Hin' : applies o = true /\ u = us o /\ r = rg (am_rpos a + draw o)%nat) by tauto.
          destruct Hin' as (Ha & -> & ->). auto.
        - intros (Ha & Hpr & ->). rewrite (predicted_det _ _ _ Hpr (Hus _ Ha)).
          destruct o; tauto. }
      assert (E1 : (if decide (OpBest ∈ possible) then
          abind (arandom (N:=ROps) rg) (fun r => aret [(cu, r, OpBest)]) else aret []) a =
        (Ok (piece OpBest), Amb (am_ctr a) (am_rpos a + draw OpNew))).
      { unfold piece. unfold draw at 2. destruct (applies OpBest) eqn:Ea.
        - rewrite (Hus _ Ea). apply Hm in Ea as [Ea _]. rewrite decide_True by done.
          unfold abind, arandom, aret. simpl. rewrite Nat.add_0_r, Nat.add_1_r. done.
        - rewrite decide_False; [|intros Hin; assert (applies OpBest = true) by (by apply Hm); congruence].
          unfold aret. simpl. rewrite Nat.add_0_r. by destruct a. }
      assert (E2 : forall c, exists c', (if decide (OpNew ∈ possible)
           then abind (atemps (2 + length kids)) (fun _ =>
                abind (alift (cu_for_new_child C x s (map snd kids) i)) (fun u =>
                abind (arandom (N:=ROps) rg) (fun r => aret [(u, r, OpNew)])))
           else aret []) (Amb c (am_rpos a + draw OpNew)) =
        (Ok (piece OpNew), Amb c' (am_rpos a + draw OpMerge))).
      { intros c. unfold piece. destruct (applies OpNew) eqn:Ea.
        - pose proof (Hus _ Ea) as Hu. simpl in Hu. pose proof Ea as Ea'.
          apply Hm in Ea as [Ea _]. rewrite decide_True by done.
          eexists. unfold abind, arandom, aret, atemps, alift. rewrite Hu. simpl.
          rewrite Ea'. simpl. do 2 f_equal. lia.
        - rewrite decide_False; [|intros Hin; assert (applies OpNew = true) by (by apply Hm); congruence].
          eexists. unfold aret. simpl. rewrite Ea. simpl. rewrite Nat.add_0_r. done. }
      assert (E3 : forall bo c, bo = b2 -> exists c', (match bo with
          | Some b2 =>
            if decide (OpMerge ∈ possible /\ (2 < length kids)%nat)
            then abind (atemps (length kids)) (fun _ =>
                 abind (alift (cu_for_merge C x s kids b1 b2 i)) (fun u =>
                 abind (arandom (N:=ROps) rg) (fun r => aret [(u, r, OpMerge)])))
            else aret []
          | None => aret []
          end) (Amb c (am_rpos a + draw OpMerge)) =
        (Ok (piece OpMerge), Amb c' (am_rpos a + draw OpSplit))).
      { intros bo c Hbo. unfold piece. destruct (applies OpMerge) eqn:Ea.
        - pose proof (Hus _ Ea) as (b & Hb & Hu). pose proof Ea as Ea'.
          apply Hm in Ea as (Ea & Hl & _). rewrite Hb in Hbo. subst bo. rewrite decide_True by done.
          eexists. unfold abind, arandom, aret, atemps, alift. rewrite Hu. simpl.
          rewrite Ea'. simpl. do 2 f_equal. lia.
        - exists c. assert (Hn : aret (X:=list (okey (N:=ROps))) [] (Amb c (am_rpos a + draw OpMerge)) =
            (Ok [], Amb c (am_rpos a + draw OpSplit))).
          { unfold aret. simpl. rewrite Ea. simpl. rewrite Nat.add_0_r. done. }
          destruct bo as [b|]; [|exact Hn].
          rewrite decide_False; [exact Hn|]. intros [Hin Hl].
          assert (applies OpMerge = true) by (apply Hm; by rewrite <- Hbo). congruence. }
      assert (E4 : forall c, exists c', (if decide (OpSplit ∈ possible /\ (0 < length bk)%nat)
           then abind (atemps (length kids + length bk)) (fun _ =>
                abind (alift (cu_for_split C x s kids (fst b1) bk)) (fun u =>
                abind (arandom (N:=ROps) rg) (fun r => aret [(u, r, OpSplit)])))
           else aret []) (Amb c (am_rpos a + draw OpSplit)) =
        (Ok (piece OpSplit), c')).
      { intros c. unfold piece. destruct (applies OpSplit) eqn:Ea.
        - pose proof (Hus _ Ea) as Hu. simpl in Hu.
          apply Hm in Ea. rewrite decide_True by done.
          eexists. unfold abind, arandom, aret, atemps, alift. rewrite Hu. done.
        - rewrite decide_False; [|intros Hin; assert (applies OpSplit = true) by (by apply Hm); congruence].
          eexists. done. }
      etransitivity; [apply (f_equal fst); eapply abind_ok; exact E1|].
      destruct (E2 (am_ctr a)) as [c2 E2'].
      etransitivity; [apply (f_equal fst); eapply abind_ok; exact E2'|].
      destruct (E3 b2 c2 eq_refl) as [c3 E3'].
      etransitivity; [apply (f_equal fst); eapply abind_ok; exact E3'|].
      destruct (E4 c3) as [c4 E4'].
      etransitivity; [apply (f_equal fst); eapply abind_ok; exact E4'|].
      by destruct (sort_desc okey_lt _) as [|[[u r] o] rest].
    Qed.

    (** If the call returns, all open operations got a prediction. *)
    Lemma best_op_all (rg : nat -> R) a v a' :
      get_best_operation C rg x s kids i b1 b2 bk cu possible a = (Ok v, a') ->
      forall o, applies o = true -> exists u, predicted o u.
    Proof.
      unfold get_best_operation, applies, predicted.
      intros E o. rewrite andb_true_iff, bool_decide_eq_true. intros [Hin Ho].
      unfold abind at 1 in E.
      match type of E with context [(if decide (OpBest ∈ possible) then ?m else ?n) a] =>
        destruct ((if decide (OpBest ∈ possible) then m else n) a) as [[o1|e] a1] end; [|done].
      unfold abind at 1 in E. destruct o.
      - eauto.
      - rewrite decide_True in E by done. unfold abind, atemps, alift in E.
        destruct (cu_for_new_child C x s (map snd kids) i); [eauto|done].
      - match type of E with context [(if decide (OpNew ∈ possible) then ?m else ?n) a1] =>
          destruct ((if decide (OpNew ∈ possible) then m else n) a1) as [[o2|e] a2] end; [|done].
        apply andb_true_iff in Ho as [Hl Ho]. apply bool_decide_eq_true in Hl.
        destruct b2 as [b|]; [|done]. rewrite decide_True in E by done.
        unfold abind, atemps, alift in E.
        destruct (cu_for_merge C x s kids b1 b i) eqn:Em; [eauto|done].
      - match type of E with context [(if decide (OpNew ∈ possible) then ?m else ?n) a1] =>
          destruct ((if decide (OpNew ∈ possible) then m else n) a1) as [[o2|e] a2] end; [|done].
        unfold abind at 1 in E.
        match type of E with context [match b2 with Some b => @?f b | None => ?n end a2] =>
          destruct (match b2 with Some b => f b | None => n end a2) as [[o3|e] a3] end; [|done].
        rewrite decide_True in E by (split; [done|]; destruct bk; simpl; [done|lia]).
        unfold abind, atemps, alift in E.
        destruct (cu_for_split C x s kids (fst b1) bk); [eauto|done].
    Qed.

    Theorem best_op_max (rg : nat -> R) a u o a' :
      get_best_operation C rg x s kids i b1 b2 bk cu possible a = (Ok (u, o), a') ->
      applies o = true /\ predicted o u /\
      forall o', applies o' = true -> exists u', predicted o' u' /\ u' <= u /\
        (u' = u -> rg (am_rpos a + draw o')%nat <= rg (am_rpos a + draw o)%nat /\
           (rg (am_rpos a + draw o')%nat = rg (am_rpos a + draw o)%nat -> name_le o' o)).
    Proof.
      intros E. pose proof (best_op_all rg a _ _ E) as Hall.
      destruct (best_op_keys rg a Hall) as (ks & Hks & Eg). rewrite E in Eg. simpl in Eg.
      destruct (sort_desc okey_lt ks) as [|[[u0 r0] o0] rest] eqn:Es; [done|].
      injection Eg as <- <-.
      destruct (sort_desc_head okey_lt okey_trans okey_total ks _ _ Es) as [Hin Hmax].
      apply Hks in Hin as (Ha & Hp & ->). split; [done|]. split; [done|].
      intros o' Ho'. destruct (Hall o' Ho') as [u' Hu']. exists u'. split; [done|].
      destruct (Hmax (u', rg (am_rpos a + draw o')%nat, o')) as [Heq|Hge]; [by apply Hks| |].
      - injection Heq; intros; subst. split; [lra|]. intros _. split; [lra|]. intros _. by apply rank_name.
      - by apply okey_ge in Hge.
    Qed.

    (** Every operation tied for the maximum wins under some draws. *)
    Theorem best_op_tie (rg : nat -> R) a u o a' o' :
      get_best_operation C rg x s kids i b1 b2 bk cu possible a = (Ok (u, o), a') ->
      applies o' = true -> predicted o' u ->
      exists rg', (forall n, 0 <= rg' n < 1) /\
        fst (get_best_operation C rg' x s kids i b1 b2 bk cu possible a) = Ok (u, o').
    Proof.
      intros E Ho' Hp'. pose proof (best_op_all rg a _ _ E) as Hall.
      destruct (best_op_max rg a u o a' E) as (Ha & Hp & Hmax).
      pose (rg' := fun n => if decide (n = (am_rpos a + draw o')%nat) then 1/2 else 0).
      exists rg'. split; [intros n; unfold rg'; destruct (decide _); lra|].
      destruct (best_op_keys rg' a Hall) as (ks & Hks & Eg).
      destruct (get_best_operation C rg' x s kids i b1 b2 bk cu possible a) as [r a2] eqn:E2.
      simpl in *. destruct (sort_desc okey_lt ks) as [|[[u0 r0] o0] rest] eqn:Es.
      { exfalso. pose proof (sort_desc_perm okey_lt ks) as Hperm. rewrite Es in Hperm.
        apply Permutation_nil in Hperm. subst ks.
        assert (Hin : (u, rg' (am_rpos a + draw o')%nat, o') ∈ ([] : list (okey (N:=ROps)))) by (by apply Hks).
        inversion Hin. }
      subst r. destruct (best_op_max rg' a u0 o0 a2 E2) as (Ha0 & Hp0 & Hmax0).
      destruct (Hmax0 o' Ho') as (u1 & Hu1 & Hle1 & Hdr).
      rewrite (predicted_det _ _ _ Hu1 Hp') in *.
      destruct (Hmax o0 Ha0) as (u2 & Hu2 & Hle2 & _).
      rewrite (predicted_det _ _ _ Hu2 Hp0) in *.
      assert (u = u0) by lra. subst u0. do 2 f_equal.
      apply draw_inj; [done|done|]. destruct (Hdr eq_refl) as [Hdr' _]. clear Hdr. rename Hdr' into Hdr. unfold rg' in Hdr.
      rewrite (decide_True _ _ eq_refl) in Hdr. destruct (decide _) as [He|]; [lia|lra].
    Qed.
  End BestOp.
End Score.
