(** * Rescaling the expected correct guesses changes no tree.

    Every decision of the algorithm compares category utilities, and these are
    weighted means of expected correct guesses minus the one of the parent.
    When the tables add up, replacing every expected value [e] by
    [al * e + be] with [0 < al] multiplies every category utility by [al]. *)
From Coq Require Import Reals Lra.
From stdpp Require Import base decidable tactics gmap strings list.
From Verif Require Import Base Num TreeModel TreeFun TreeScore TreeRefine TreeSorts TreeInv
  SpecTree TreeState TreeRel TreeSim CVFacts.
Local Open Scope R_scope.

Definition rfmap {X Y} (f : X -> Y) (r : res X) : res Y :=
  match r with Ok x => Ok (f x) | Err e => Err e end.

(** The class whose expected_correct_guesses is rescaled. *)
Definition rescaled (C : NodeClass ROps) (al be : R) : NodeClass ROps := {|
  nc_sum := nc_sum C; nc_inst := nc_inst C; nc_ctx := nc_ctx C;
  nc_empty := nc_empty C; nc_count := nc_count C; nc_inc := nc_inc C; nc_add := nc_add C;
  nc_ecg := fun x s => rfmap (fun e : R => al * e + be) (nc_ecg C x s) : res (num ROps);
  nc_exact := nc_exact C; nc_pre := nc_pre C;
|}.

Lemma sort_desc_map {X Y} (f : X -> Y) lt1 lt2 :
  (forall a b, lt2 (f a) (f b) = lt1 a b) ->
  forall l, sort_desc lt2 (map f l) = map f (sort_desc lt1 l).
Proof.
  intros Hl. assert (Hins : forall a l, insert_desc lt2 (f a) (map f l) = map f (insert_desc lt1 a l)).
  { intros a l. induction l as [|b l IH]; [done|]. cbn [map insert_desc]. rewrite Hl.
    destruct (lt1 a b); [by rewrite IH|done]. }
  intros l. induction l as [|a l IH]; [done|]. unfold sort_desc in *. cbn [map foldr].
  by rewrite IH, Hins.
Qed.

(** Counting instances. *)
Record count_laws (C : NodeClass ROps) : Prop := {
  cl_empty0 : nc_count C (nc_empty C) = 0%nat;
  cl_incS : forall s i s', nc_inc C s i = (s', None) -> nc_count C s' = S (nc_count C s);
  cl_addn : forall s o s', nc_add C s o = (s', None) ->
    nc_count C s' = (nc_count C s + nc_count C o)%nat;
}.

Section Aff.
  Context (C : NodeClass ROps) (rng : nat -> num ROps) (al be : R).
  Hypothesis Hal : 0 < al.
  Hypothesis CL : count_laws C.
  Notation D := (rescaled C al be).
  Notation S' := (nc_sum C).
  Notation cnt := (nc_count C).

  Lemma tinc_count s i s' : tinc C s i = Ok s' -> cnt s' = S (cnt s).
  Proof.
    unfold tinc. destruct (nc_inc C s i) as [u [e|]] eqn:E; [done|]. intros [= <-].
    by apply (cl_incS _ CL) in E.
  Qed.
  Lemma tadd_count s o s' : tadd C s o = Ok s' -> cnt s' = (cnt s + cnt o)%nat.
  Proof.
    unfold tadd. destruct (nc_add C s o) as [u [e|]] eqn:E; [done|]. intros [= <-].
    by apply (cl_addn _ CL) in E.
  Qed.
  Lemma tcopy_count s s' : tcopy C s = Ok s' -> cnt s' = cnt s.
  Proof. intros H%tadd_count. by rewrite (cl_empty0 _ CL) in H. Qed.

  Lemma rmapM_count {X} (f : X -> res S') (g : X -> nat) l : forall tk,
    (forall x s, f x = Ok s -> cnt s = g x) ->
    rmapM f l = Ok tk -> map cnt tk = map g l.
  Proof.
    induction l as [|x l IH]; intros tk Hf; simpl; [by intros [= <-]|].
    destruct (f x) as [s|e] eqn:E; [|done]. simpl.
    destruct (rmapM f l) as [r|e] eqn:Er; [|done]. simpl. intros [= <-].
    simpl. by rewrite (Hf _ _ E), (IH r Hf eq_refl).
  Qed.

  Definition total (l : list S') : nat := sumn (map cnt l).

  Lemma pydiv_R (u v : R) : pydiv ROps u v = if Reqb v 0 then Err ZeroDivisionError else Ok (u / v).
  Proof. done. Qed.

  Section Ctx.
    Variable x : nc_ctx C.

    Notation E1 := (nc_ecg C x : S' -> res R).
    Definition E2 (s : S') : res R := rfmap (fun e : R => al * e + be) (E1 s).

    Lemma ecgD s : nc_ecg D x s = rfmap (fun e : R => al * e + be) (nc_ecg C x s).
    Proof. done. Qed.

    (** The weighted sum. *)
    Definition wstep (E : S' -> res R) (n : nat) (acc : R) (k : S') : res R :=
      rbind (pydiv ROps (INR (cnt k)) (INR n)) (fun p : R =>
      rbind (E k) (fun e : R => Ok (acc + p * e))).
    Lemma wstep_ok E n acc k : INR n <> 0 ->
      wstep E n acc k = rfmap (fun e : R => acc + INR (cnt k) / INR n * e) (E k).
    Proof. intros Hn. unfold wstep. rewrite pydiv_ok by done. cbn [rbind]. by destruct (E k). Qed.

    Lemma wsum_aff n (kids : list S') : forall acc c : R,
      INR n <> 0 ->
      rfold (wstep E2 n) (al * acc + be * c) kids =
      rfmap (fun r : R => al * r + be * (c + INR (total kids) / INR n))
        (rfold (wstep E1 n) acc kids).
    Proof.
      induction kids as [|k kids IH]; intros acc c Hn.
      - cbn [rfold rfmap]. f_equal. unfold total. simpl. field. done.
      - cbn [rfold]. rewrite !wstep_ok by done. unfold E2 at 1.
        destruct (E1 k) as [e|e]; [|done]. cbn [rfmap rbind].
        replace (al * acc + be * c + INR (cnt k) / INR n * (al * e + be)) with
          (al * (acc + INR (cnt k) / INR n * e) + be * (c + INR (cnt k) / INR n)) by ring.
        rewrite IH by done.
        destruct (rfold (wstep E1 n) _ kids) as [r|e']; [|done]. cbn [rfmap].
        f_equal. unfold total. cbn [map sumn]. rewrite plus_INR. field. done.
    Qed.

    Definition cuE (E : S' -> res R) (s : S') (kids : list S') : res R :=
      rbind (rfold (wstep E (cnt s)) 0 kids) (fun acc : R =>
      rbind (E s) (fun e : R => pydiv ROps (acc - e) (INR (length kids)))).

    Lemma cu_aff s kids : total kids = cnt s ->
      category_utility D x s kids = rfmap (Rmult al) (category_utility C x s kids).
    Proof.
      intros Ht. destruct kids as [|k0 ks].
      { change (Ok (0:R) = Ok (al * 0)). f_equal. ring. }
      change (cuE E2 s (k0 :: ks) = rfmap (Rmult al) (cuE E1 s (k0 :: ks))). unfold cuE.
      set (kids := k0 :: ks) in *.
      assert (Hlen : INR (length kids) <> 0) by (apply not_0_INR; done).
      destruct (decide (cnt s = 0%nat)) as [Hz|Hz].
      { assert (E : forall E acc k ks, rfold (wstep E 0) acc (k :: ks) = Err ZeroDivisionError).
        { intros E b j js. cbn [rfold]. unfold wstep at 1. rewrite pydiv_R.
          change (INR 0) with 0. unfold Reqb. by destruct (Req_EM_T 0 0). }
        rewrite Hz. unfold kids. by rewrite !E. }
      assert (Hn : INR (cnt s) <> 0) by (by apply not_0_INR).
      pose proof (wsum_aff (cnt s) kids 0 0 Hn) as Hw.
      replace (al * 0 + be * 0) with 0 in Hw by ring. rewrite Hw.
      destruct (rfold (wstep E1 (cnt s)) 0 kids) as [r|e]; [|done]. cbn [rfmap rbind].
      unfold E2. destruct (E1 s) as [e|e]; [|done]. cbn [rfmap rbind].
      rewrite !pydiv_ok by done. cbn [rfmap]. f_equal. rewrite Ht. field. done.
    Qed.

    Lemma rci_aff s i :
      relative_cu_for_insert D x s i =
      rfmap (fun e : R => al * e + be) (relative_cu_for_insert C x s i).
    Proof.
      unfold relative_cu_for_insert.
      change (tcopy D s) with (tcopy C s). destruct (tcopy C s) as [t|e]; [|done]. cbn [rbind].
      change (tinc D t i) with (tinc C t i). destruct (tinc C t i) as [u|e]; [|done]. cbn [rbind].
      rewrite !ecgD. destruct (nc_ecg C x u) as [e1|e]; [|done].
      destruct (nc_ecg C x s) as [e2|e]; [|done]. cbn [rfmap rbind].
      f_equal. change (nc_count D s) with (cnt s).
      change (INR (cnt s + 1) * (al * e1 + be) - INR (cnt s) * (al * e2 + be) =
              al * (INR (cnt s + 1) * e1 - INR (cnt s) * e2) + be).
      rewrite plus_INR. simpl (INR 1). ring.
    Qed.

    Definition constE (E : S' -> res R) (s : S') (kids : list S') (i : nc_inst C) : res R :=
      rbind (tcopy C s) (fun t => rbind (tinc C t i) (fun t =>
      rbind (E t) (fun u : R =>
      rbind (rfold (wstep E (cnt s + 1)) 0 kids) (fun c : R =>
      pydiv ROps (c - u) (INR (length kids)))))).

    Lemma const_aff s kids i : kids <> [] -> total kids = cnt s ->
      compute_relative_CU_const D x s kids i =
      rfmap (fun c : R => al * c - be / INR (cnt s + 1) / INR (length kids))
        (compute_relative_CU_const C x s kids i).
    Proof.
      intros Hne Ht.
      change (constE E2 s kids i =
        rfmap (fun c : R => al * c - be / INR (cnt s + 1) / INR (length kids)) (constE E1 s kids i)).
      unfold constE.
      assert (Hlen : INR (length kids) <> 0) by (apply not_0_INR; by destruct kids).
      assert (Hn : INR (cnt s + 1) <> 0) by (apply not_0_INR; lia).
      destruct (tcopy C s) as [t|e]; [|done]. cbn [rbind].
      destruct (tinc C t i) as [u|e]; [|done]. cbn [rbind].
      unfold E2 at 1. destruct (E1 u) as [e1|e]; [|done]. cbn [rfmap rbind].
      pose proof (wsum_aff (cnt s + 1) kids 0 0 Hn) as Hw.
      replace (al * 0 + be * 0) with 0 in Hw by ring. rewrite Hw.
      destruct (rfold (wstep E1 (cnt s + 1)) 0 kids) as [r|e]; [|done]. cbn [rfmap rbind].
      rewrite !pydiv_ok by done. cbn [rfmap]. f_equal. rewrite Ht.
      rewrite plus_INR in *. simpl (INR 1) in *. field. split; done.
    Qed.

    Lemma total_app l1 l2 : total (l1 ++ l2) = (total l1 + total l2)%nat.
    Proof. unfold total. by rewrite map_app, sumn_app. Qed.

    (** The candidate utilities over a given category utility. *)
    Notation CU1 := (category_utility C x : S' -> list S' -> res R).
    Notation CU2 := (category_utility D x : S' -> list S' -> res R).
    Definition newE (U : S' -> list S' -> res R) s kids i : res R :=
      rbind (tcopy C s) (fun t => rbind (rmapM (tcopy C) kids) (fun tk =>
      rbind (tinc C t i) (fun t => rbind (tinc C (nc_empty C) i) (fun new =>
      U t (tk ++ [new]))))).
    Definition mergeE (U : S' -> list S' -> res R) s (kids : list (nat * S')) (b1 b2 : nat * S') i : res R :=
      rbind (tcopy C s) (fun t => rbind (tinc C t i) (fun t =>
      rbind (tadd C (nc_empty C) (snd b1)) (fun m => rbind (tadd C m (snd b2)) (fun m =>
      rbind (tinc C m i) (fun m =>
      rbind (rmapM (fun c => tcopy C (snd c))
             (List.filter (fun c => negb (bool_decide (fst c = fst b1)) &&
                                    negb (bool_decide (fst c = fst b2))) kids)) (fun tk =>
      U t (m :: tk))))))).
    Definition splitE (U : S' -> list S' -> res R) s (kids : list (nat * S')) (best : nat) bk : res R :=
      rbind (tcopy C s) (fun t =>
      rbind (rmapM (fun c => tcopy C (snd c))
             (List.filter (fun c => negb (bool_decide (fst c = best))) (kids ++ bk)))
        (fun tk => U t tk)).

    Lemma cu_new_aff s kids i : total kids = cnt s ->
      cu_for_new_child D x s kids i = rfmap (Rmult al) (cu_for_new_child C x s kids i).
    Proof.
      intros Ht. change (newE CU2 s kids i = rfmap (Rmult al) (newE CU1 s kids i)). unfold newE.
      destruct (tcopy C s) as [t|e] eqn:E1; [|done]. cbn [rbind].
      destruct (rmapM (tcopy C) kids) as [tk|e] eqn:E2; [|done]. cbn [rbind].
      destruct (tinc C t i) as [u|e] eqn:E3; [|done]. cbn [rbind].
      destruct (tinc C (nc_empty C) i) as [new|e] eqn:E4; [|done]. cbn [rbind].
      apply cu_aff. rewrite total_app. apply tcopy_count in E1. apply tinc_count in E3, E4.
      unfold total in *. rewrite (rmapM_count _ cnt _ _ tcopy_count E2), Ht. simpl.
      rewrite (cl_empty0 _ CL) in E4. lia.
    Qed.

    Lemma filter_total (p : nat * S' -> bool) kids :
      (total (map snd (List.filter p kids)) + total (map snd (List.filter (fun c => negb (p c)) kids)) =
       total (map snd kids))%nat.
    Proof.
      unfold total. induction kids as [|c kids IH]; [done|]. cbn [List.filter map sumn].
      destruct (p c); cbn [negb map sumn]; lia.
    Qed.

    Lemma filter_one (kids : list (nat * S')) b : NoDup (map fst kids) -> b ∈ kids ->
      List.filter (fun c => bool_decide (fst c = fst b)) kids = [b].
    Proof.
      induction kids as [|c kids IH]; intros Hnd Hin; [by apply elem_of_nil in Hin|].
      cbn [map] in Hnd. apply NoDup_cons in Hnd as [Hni Hnd]. cbn [List.filter].
      apply elem_of_cons in Hin as [->|Hin].
      - rewrite bool_decide_true by done. f_equal.
        clear IH Hnd. induction kids as [|d kids IH]; [done|]. cbn [map] in Hni.
        apply not_elem_of_cons in Hni as [H1 H2]. cbn [List.filter].
        rewrite bool_decide_false by (intros E; apply H1; done). by apply IH.
      - rewrite bool_decide_false; [by apply IH|]. intros E. apply Hni.
        apply elem_of_list_In, in_map_iff. exists b. split; [done|]. by apply elem_of_list_In.
    Qed.

    Lemma filter_others (kids : list (nat * S')) b : NoDup (map fst kids) -> b ∈ kids ->
      (total (map snd (List.filter (fun c => negb (bool_decide (fst c = fst b))) kids)) + cnt (snd b) =
       total (map snd kids))%nat.
    Proof.
      intros Hnd Hin. rewrite <- (filter_total (fun c => bool_decide (fst c = fst b)) kids).
      rewrite (filter_one kids b Hnd Hin). unfold total at 2. simpl. lia.
    Qed.

    Lemma filter_notin (l : list (nat * S')) b : b ∉ map fst l ->
      List.filter (fun c => negb (bool_decide (fst c = b))) l = l.
    Proof.
      induction l as [|d kids IH]; intros Hni; [done|]. cbn [map] in Hni.
      apply not_elem_of_cons in Hni as [H1 H2]. cbn [List.filter].
      rewrite bool_decide_false by (intros E; apply H1; done). cbn [negb]. by rewrite IH.
    Qed.

    Lemma cu_merge_aff s (kids : list (nat * S')) (b1 b2 : nat * S') i :
      total (map snd kids) = cnt s -> NoDup (map fst kids) -> b1 ∈ kids -> b2 ∈ kids ->
      fst b1 <> fst b2 ->
      cu_for_merge D x s kids b1 b2 i = rfmap (Rmult al) (cu_for_merge C x s kids b1 b2 i).
    Proof.
      intros Ht Hnd H1 H2 Hne.
      change (mergeE CU2 s kids b1 b2 i = rfmap (Rmult al) (mergeE CU1 s kids b1 b2 i)). unfold mergeE.
      destruct (tcopy C s) as [t|e] eqn:E1; [|done]. cbn [rbind].
      destruct (tinc C t i) as [u|e] eqn:E3; [|done]. cbn [rbind].
      destruct (tadd C (nc_empty C) (snd b1)) as [m|e] eqn:E4; [|done]. cbn [rbind].
      destruct (tadd C m (snd b2)) as [m'|e] eqn:E5; [|done]. cbn [rbind].
      destruct (tinc C m' i) as [m2|e] eqn:E6; [|done]. cbn [rbind].
      match goal with |- context [rmapM ?f ?l] => set (fl := l); destruct (rmapM f fl) as [tk|e] eqn:E7 end;
        [|done]. cbn [rbind].
      apply cu_aff. apply tcopy_count in E1. apply tinc_count in E3, E6. apply tadd_count in E4, E5.
      unfold total. cbn [map sumn].
      rewrite (rmapM_count _ (fun c => cnt (snd c)) _ _ (fun c => tcopy_count (snd c)) E7).
      rewrite (cl_empty0 _ CL) in E4.
      assert (Hfl : (total (map snd fl) + cnt (snd b1) + cnt (snd b2) = total (map snd kids))%nat).
      { assert (Efl : fl = List.filter (fun c => negb (bool_decide (fst c = fst b2)))
          (List.filter (fun c => negb (bool_decide (fst c = fst b1))) kids)).
        { unfold fl. clear. induction kids as [|c kids IH]; [done|]. cbn [List.filter].
          destruct (bool_decide (fst c = fst b1)); cbn [negb andb List.filter]; [done|].
          destruct (bool_decide (fst c = fst b2)); cbn [negb]; [done|]. by rewrite IH. }
        rewrite Efl. set (k' := List.filter (fun c => negb (bool_decide (fst c = fst b1))) kids).
        pose proof (filter_others kids b1 Hnd H1) as Ha. fold k' in Ha.
        assert (Hk' : b2 ∈ k').
        { unfold k'. apply elem_of_list_In, filter_In. split; [by apply elem_of_list_In|].
          rewrite bool_decide_false by done. done. }
        assert (Hndk' : NoDup (map fst k')).
        { unfold k'. clear -Hnd. induction kids as [|c kids IH]; [apply NoDup_nil_2|].
          cbn [map] in Hnd. apply NoDup_cons in Hnd as [Hni Hnd]. cbn [List.filter].
          destruct (negb _); [|by apply IH]. cbn [map]. apply NoDup_cons. split; [|by apply IH].
          intros Hin. apply Hni. apply elem_of_list_In, in_map_iff in Hin as (d & Ed & Hd).
          apply filter_In in Hd as [Hd _]. apply elem_of_list_In, in_map_iff. eauto. }
        pose proof (filter_others k' b2 Hndk' Hk') as Hb. lia. }
      unfold total in *. rewrite map_map in Hfl. rewrite Ht in Hfl. lia.
    Qed.

    Lemma cu_split_aff s (kids bk : list (nat * S')) (b1 : nat * S') :
      total (map snd kids) = cnt s -> NoDup (map fst kids) -> b1 ∈ kids ->
      total (map snd bk) = cnt (snd b1) -> fst b1 ∉ map fst bk ->
      cu_for_split D x s kids (fst b1) bk = rfmap (Rmult al) (cu_for_split C x s kids (fst b1) bk).
    Proof.
      intros Ht Hnd H1 Hb Hni. 
      change (splitE CU2 s kids (fst b1) bk = rfmap (Rmult al) (splitE CU1 s kids (fst b1) bk)).
      unfold splitE.
      destruct (tcopy C s) as [t|e] eqn:E1; [|done]. cbn [rbind].
      match goal with |- context [rmapM ?f ?l] => set (fl := l); destruct (rmapM f fl) as [tk|e] eqn:E7 end;
        [|done]. cbn [rbind].
      apply cu_aff. apply tcopy_count in E1. unfold total.
      rewrite (rmapM_count _ (fun c => cnt (snd c)) _ _ (fun c => tcopy_count (snd c)) E7).
      pose proof (filter_others kids b1 Hnd H1) as Ha.
      assert (Hfl : (total (map snd fl) = cnt s)%nat); [|unfold total in Hfl; rewrite map_map in Hfl; lia].
      unfold fl. rewrite List.filter_app, (filter_notin bk) by done.
      rewrite map_app, total_app. lia.
    Qed.

    (** ** The two best children *)
    Notation sc := (fun e : R => al * e + be).
    Definition rk (k : ckey (N:=ROps)) : ckey (N:=ROps) :=
      let '(u, c, r, j) := k in (sc u, c, r, j).

    Lemma sc_eqb u v : Reqb (sc u) (sc v) = Reqb u v.
    Proof.
      destruct (Reqb u v) eqn:E.
      - apply Reqb_true in E. apply Reqb_true. by rewrite E.
      - apply Reqb_false in E. apply Reqb_false. intros Hc. apply E. cbn in Hc.
        apply (Rmult_eq_reg_l al); lra.
    Qed.
    Lemma sc_ltb u v : Rltb (sc u) (sc v) = Rltb u v.
    Proof.
      destruct (Rltb u v) eqn:E.
      - apply Rltb_true in E. apply Rltb_true. cbn.
        pose proof (Rmult_lt_compat_l al u v Hal E). lra.
      - apply Rltb_false in E. apply Rltb_false. cbn.
        pose proof (Rmult_le_compat_l al v u (Rlt_le _ _ Hal) E). lra.
    Qed.

    Lemma rk_lt a b : ckey_lt (rk a) (rk b) = ckey_lt a b.
    Proof.
      destruct a as [[[u c] r] j], b as [[[v d] q] k]. cbn [rk ckey_lt].
      change (neqb ROps (sc u) (sc v)) with (Reqb (sc u) (sc v)).
      change (nltb ROps (sc u) (sc v)) with (Rltb (sc u) (sc v)).
      by rewrite sc_eqb, sc_ltb.
    Qed.
    Lemma rk_tied a b : ckey_tied (rk a) (rk b) = ckey_tied a b.
    Proof.
      destruct a as [[[u c] r] j], b as [[[v d] q] k]. cbn [rk ckey_tied].
      change (neqb ROps (sc u) (sc v)) with (Reqb (sc u) (sc v)). by rewrite sc_eqb.
    Qed.
    Lemma rk_tie l : has_tie (map rk l) = has_tie l.
    Proof.
      induction l as [|k l IH]; [done|]. cbn [map has_tie]. rewrite IH. f_equal.
      clear IH. induction l as [|k' l IH]; [done|]. cbn [map existsb]. by rewrite rk_tied, IH.
    Qed.

    Lemma abind_run {X Y} (m : A X) (k : X -> A Y) a :
      abind m k a = match m a with (Ok v, a') => k v a' | (Err e, a') => (Err e, a') end.
    Proof. done. Qed.

    Definition tb_score (f : S' -> res R) (c : nat * S') : A (ckey (N:=ROps)) :=
      abind (atemps 1) (fun _ =>
      abind (alift (f (snd c))) (fun u =>
      abind (arandom rng) (fun r => aret (u, cnt (snd c), r, fst c)))).

    Lemma scores_aff (f : S' -> res R) (kids : list (nat * S')) : forall a,
      amapM (tb_score (fun s => rfmap sc (f s))) kids a =
      (rfmap (map rk) (fst (amapM (tb_score f) kids a)), snd (amapM (tb_score f) kids a)).
    Proof.
      induction kids as [|c kids IH]; intros a; [done|]. cbn [amapM].
      assert (E : tb_score (fun s => rfmap sc (f s)) c a =
        (rfmap rk (fst (tb_score f c a)), snd (tb_score f c a))).
      { unfold tb_score, abind, atemps, alift. by destruct (f (snd c)). }
      rewrite (abind_run (tb_score (fun s => rfmap sc (f s)) c)), (abind_run (tb_score f c)), E.
      destruct (tb_score f c a) as [[k|e] a1]; [|done]. cbn [fst snd rfmap].
      rewrite (abind_run (amapM (tb_score (fun s => rfmap sc (f s))) kids)),
        (abind_run (amapM (tb_score f) kids)), IH.
      destruct (amapM (tb_score f) kids a1) as [[ks|e] a2]; done.
    Qed.

    (** Once the scores are known. *)
    Definition tb_tail (l : list (ckey (N:=ROps))) (cst : res R) (n k : nat)
      : A (R * nat * option nat) :=
      abind (if has_tie l then araise TypeError else aret tt) (fun _ =>
      abind (atemps 1) (fun _ =>
      abind (alift cst) (fun const =>
      match sort_desc ckey_lt l with
      | [] => araise OtherException
      | (rel, _, _, b1) :: rest =>
        abind (alift (pydiv ROps rel (INR (n + 1)))) (fun q =>
        abind (alift (pydiv ROps q (INR k))) (fun q =>
        aret (q + const, b1, match rest with [] => None | (_, _, _, b2) :: _ => Some b2 end)))
      end))).
    Definition tbE (f : S' -> res R) (cst : res R) (n : nat) (kids : list (nat * S'))
      : A (R * nat * option nat) :=
      abind (amapM (tb_score f) kids) (fun l => tb_tail l cst n (length kids)).

    Lemma tb_unfold1 s (kids : list (nat * S')) i : kids <> [] ->
      two_best_children C rng x s kids i =
      tbE (fun c => relative_cu_for_insert C x c i)
        (compute_relative_CU_const C x s (map snd kids) i) (cnt s) kids.
    Proof. by destruct kids. Qed.
    Lemma tb_unfold2 s (kids : list (nat * S')) i : kids <> [] ->
      two_best_children D rng x s kids i =
      tbE (fun c => relative_cu_for_insert D x c i)
        (compute_relative_CU_const D x s (map snd kids) i) (cnt s) kids.
    Proof. by destruct kids. Qed.

    Definition rb (p : R * nat * option nat) : R * nat * option nat :=
      let '(cu, b1, b2) := p in (al * cu, b1, b2).

    Lemma tb_tail_aff l cst n k a : INR k <> 0 ->
      tb_tail (map rk l) (rfmap (fun c : R => al * c - be / INR (n + 1) / INR k) cst) n k a =
      (rfmap rb (fst (tb_tail l cst n k a)), snd (tb_tail l cst n k a)).
    Proof.
      intros Hk. assert (Hn : INR (n + 1) <> 0) by (apply not_0_INR; lia).
      unfold tb_tail. rewrite rk_tie. unfold abind, alift, atemps.
      destruct (has_tie l); [done|]. unfold aret at 1 3.
      destruct cst as [cst|e]; [|done]. cbn [rfmap fst snd].
      rewrite (sort_desc_map rk ckey_lt ckey_lt rk_lt).
      destruct (sort_desc ckey_lt l) as [|[[[rel c] r] b1] rest]; [done|]. cbn [map rk].
      rewrite !pydiv_ok by done. unfold aret. cbn [fst snd rfmap rb].
      f_equal. f_equal. f_equal; [f_equal|].
      - change (num ROps) with R. rewrite plus_INR in *. simpl (INR 1) in *. field. split; done.
      - destruct rest as [|[[[? ?] ?] ?] ?]; done.
    Qed.

    Lemma two_best_aff s (kids : list (nat * S')) i a : kids <> [] -> total (map snd kids) = cnt s ->
      two_best_children D rng x s kids i a =
      (rfmap rb (fst (two_best_children C rng x s kids i a)),
       snd (two_best_children C rng x s kids i a)).
    Proof.
      intros Hne Ht. rewrite tb_unfold1, tb_unfold2 by done. unfold tbE.
      assert (Hlen : INR (length kids) <> 0) by (apply not_0_INR; by destruct kids).
      assert (Hne' : map snd kids <> []) by (by destruct kids).
      rewrite const_aff by done. rewrite map_length.
      rewrite !abind_run.
      assert (E : amapM (tb_score (fun c => relative_cu_for_insert D x c i)) kids a =
        amapM (tb_score (fun c => rfmap sc (relative_cu_for_insert C x c i))) kids a).
      { clear. revert a. induction kids as [|c kids IH]; intros a; [done|]. cbn [amapM].
        assert (E : tb_score (fun c => relative_cu_for_insert D x c i) c a =
          tb_score (fun c => rfmap sc (relative_cu_for_insert C x c i)) c a).
        { unfold tb_score, abind, atemps, alift. by rewrite rci_aff. }
        apply abind_eq; [exact E|]. intros k a1. apply abind_eq; [apply IH|done]. }
      rewrite E. clear E. rewrite scores_aff.
      match goal with |- context [amapM ?f kids a] => destruct (amapM f kids a) as [[l|e] a1] end; [|done].
      cbn [fst snd rfmap]. by apply tb_tail_aff.
    Qed.

    (** ** The best operation *)
    Notation mu := (Rmult al).
    Definition ro (k : okey (N:=ROps)) : okey (N:=ROps) := let '(u, r, o) := k in (mu u, r, o).
    Lemma ro_lt a b : okey_lt (ro a) (ro b) = okey_lt a b.
    Proof.
      destruct a as [[u r] o], b as [[v q] p]. cbn [ro okey_lt].
      change (neqb ROps (mu u) (mu v)) with (Reqb (mu u) (mu v)).
      change (nltb ROps (mu u) (mu v)) with (Rltb (mu u) (mu v)).
      change (neqb ROps u v) with (Reqb u v). change (nltb ROps u v) with (Rltb u v).
      assert (He : Reqb (mu u) (mu v) = Reqb u v).
      { rewrite <- (sc_eqb u v). destruct (Reqb (sc u) (sc v)) eqn:E.
        - apply Reqb_true in E. apply Reqb_true. cbn in E. lra.
        - apply Reqb_false in E. apply Reqb_false. cbn in E. lra. }
      assert (Hl : Rltb (mu u) (mu v) = Rltb u v).
      { rewrite <- (sc_ltb u v). destruct (Rltb (sc u) (sc v)) eqn:E.
        - apply Rltb_true in E. apply Rltb_true. cbn in E. lra.
        - apply Rltb_false in E. apply Rltb_false. cbn in E. lra. }
      by rewrite He, Hl.
    Qed.

    (** One entry of the list of candidates: [u] is scored, [tmp] temporaries made. *)
    Definition entry (b : bool) (tmp : nat) (u : res R) (o : op) : A (list (okey (N:=ROps))) :=
      if b then abind (atemps tmp) (fun _ => abind (alift u) (fun u =>
                abind (arandom rng) (fun r => aret [(u, r, o)]))) else aret [].

    Lemma entry_aff b tmp u o a :
      entry b tmp (rfmap mu u) o a =
      (rfmap (map ro) (fst (entry b tmp u o a)), snd (entry b tmp u o a)).
    Proof. unfold entry. destruct b; [|done]. by destruct u. Qed.

    Definition entry0 (b : bool) (u : R) : A (list (okey (N:=ROps))) :=
      if b then abind (arandom rng) (fun r => aret [(u, r, OpBest)]) else aret [].

    Definition boE (un us : res R) (um : nat * S' -> res R) (nk nb : nat)
        (b2 : option (nat * S')) (cu : R) (ps : list op) : A (R * op) :=
      abind (entry0 (bool_decide (OpBest ∈ ps)) cu) (fun o1 =>
      abind (entry (bool_decide (OpNew ∈ ps)) (2 + nk) un OpNew) (fun o2 =>
      abind (match b2 with
             | Some b2 => entry (bool_decide (OpMerge ∈ ps /\ (2 < nk)%nat)) nk (um b2) OpMerge
             | None => aret [] end) (fun o3 =>
      abind (entry (bool_decide (OpSplit ∈ ps /\ (0 < nb)%nat)) (nk + nb) us OpSplit) (fun o4 =>
      match sort_desc okey_lt (o1 ++ o2 ++ o3 ++ o4) with
      | [] => araise IndexError
      | (u, _, o) :: _ => aret (u, o)
      end)))).

    Lemma bd_if (P : Prop) `{H : Decision P} {X} (u v : X) :
      (if bool_decide P then u else v) = if decide P then u else v.
    Proof. case_bool_decide; by case_decide. Qed.

    Lemma bo_unfold1 s (kids bk : list (nat * S')) i (b1 : nat * S') (b2 : option (nat * S')) cu ps a :
      get_best_operation C rng x s kids i b1 b2 bk cu ps a =
      boE (cu_for_new_child C x s (map snd kids) i) (cu_for_split C x s kids (fst b1) bk)
        (fun b2 => cu_for_merge C x s kids b1 b2 i) (length kids) (length bk) b2 cu ps a.
    Proof.
      unfold get_best_operation, boE, entry0, entry.
      apply abind_eq; [by rewrite bd_if|]. intros o1 a1.
      apply abind_eq; [by rewrite bd_if|]. intros o2 a2.
      apply abind_eq; [destruct b2 as [b2|]; [by rewrite bd_if|done]|]. intros o3 a3.
      apply abind_eq; [by rewrite bd_if|]. done.
    Qed.
    Lemma bo_unfold2 s (kids bk : list (nat * S')) i (b1 : nat * S') (b2 : option (nat * S')) cu ps a :
      get_best_operation D rng x s kids i b1 b2 bk cu ps a =
      boE (cu_for_new_child D x s (map snd kids) i) (cu_for_split D x s kids (fst b1) bk)
        (fun b2 => cu_for_merge D x s kids b1 b2 i) (length kids) (length bk) b2 cu ps a.
    Proof.
      unfold get_best_operation, boE, entry0, entry.
      apply abind_eq; [by rewrite bd_if|]. intros o1 a1.
      apply abind_eq; [by rewrite bd_if|]. intros o2 a2.
      apply abind_eq; [destruct b2 as [b2|]; [by rewrite bd_if|done]|]. intros o3 a3.
      apply abind_eq; [by rewrite bd_if|]. done.
    Qed.

    Definition rop (p : R * op) : R * op := (mu (fst p), snd p).
    Lemma boE_aff un us um um' nk nb b2 cu ps a :
      (forall b, b2 = Some b -> um' b = rfmap mu (um b)) ->
      boE (rfmap mu un) (rfmap mu us) um' nk nb b2 (mu cu) ps a =
      (rfmap rop (fst (boE un us um nk nb b2 cu ps a)), snd (boE un us um nk nb b2 cu ps a)).
    Proof.
      intros Hm. unfold boE.
      assert (E1 : entry0 (bool_decide (OpBest ∈ ps)) (mu cu) a =
        (rfmap (map ro) (fst (entry0 (bool_decide (OpBest ∈ ps)) cu a)),
         snd (entry0 (bool_decide (OpBest ∈ ps)) cu a))).
      { unfold entry0. destruct (bool_decide (OpBest ∈ ps)); done. }
      match goal with |- abind ?m ?k a = _ => rewrite (abind_run m k a) end. rewrite E1.
      match goal with |- context [abind ?m ?k a] => rewrite (abind_run m k a) end.
      match goal with |- context [rfmap (map ro) (fst ?m)] => destruct m as [[o1|e] a1] end; [|done].
      cbn [fst snd rfmap]. clear E1.
      match goal with |- context [abind (entry ?b ?t (rfmap mu un) OpNew) ?k a1] =>
        rewrite (abind_run (entry b t (rfmap mu un) OpNew) k a1) end.
      rewrite entry_aff.
      match goal with |- context [abind (entry ?b ?t un OpNew) ?k a1] =>
        rewrite (abind_run (entry b t un OpNew) k a1) end.
      match goal with |- context [rfmap (map ro) (fst ?m)] => destruct m as [[o2|e] a2] end; [|done].
      cbn [fst snd rfmap].
      assert (E3 : (match b2 with
             | Some b2 => entry (bool_decide (OpMerge ∈ ps /\ (2 < nk)%nat)) nk (um' b2) OpMerge
             | None => aret [] end) a2 =
        let p := (match b2 with
             | Some b2 => entry (bool_decide (OpMerge ∈ ps /\ (2 < nk)%nat)) nk (um b2) OpMerge
             | None => aret [] end) a2 in (rfmap (map ro) (fst p), snd p)).
      { destruct b2 as [b2|]; [|done]. rewrite (Hm b2 eq_refl). by rewrite entry_aff. }
      match goal with |- abind ?m ?k a2 = _ => rewrite (abind_run m k a2) end. rewrite E3. cbv zeta.
      clear E3.
      match goal with |- context [abind ?m ?k a2] => rewrite (abind_run m k a2) end.
      match goal with |- context [rfmap (map ro) (fst ?m)] => destruct m as [[o3|e] a3] end; [|done].
      cbn [fst snd rfmap].
      match goal with |- abind ?m ?k a3 = _ => rewrite (abind_run m k a3) end. rewrite entry_aff.
      match goal with |- context [abind ?m ?k a3] => rewrite (abind_run m k a3) end.
      match goal with |- context [rfmap (map ro) (fst ?m)] => destruct m as [[o4|e] a4] end; [|done].
      cbn [fst snd rfmap].
      rewrite <- !map_app, (sort_desc_map ro okey_lt okey_lt ro_lt).
      destruct (sort_desc okey_lt (o1 ++ o2 ++ o3 ++ o4)) as [|[[u r] o] rest]; done.
    Qed.

    Lemma best_op_aff s (kids bk : list (nat * S')) i (b1 : nat * S') (b2 : option (nat * S')) cu ps a :
      total (map snd kids) = cnt s -> NoDup (map fst kids) -> b1 ∈ kids ->
      (forall b, b2 = Some b -> b ∈ kids /\ fst b1 <> fst b) ->
      (bk <> [] -> total (map snd bk) = cnt (snd b1)) -> fst b1 ∉ map fst bk ->
      get_best_operation D rng x s kids i b1 b2 bk (mu cu) ps a =
      (rfmap rop (fst (get_best_operation C rng x s kids i b1 b2 bk cu ps a)),
       snd (get_best_operation C rng x s kids i b1 b2 bk cu ps a)).
    Proof.
      intros Ht Hnd H1 H2 Hbk Hni. rewrite bo_unfold1, bo_unfold2, cu_new_aff by done.
      assert (Hm : forall b, b2 = Some b ->
        cu_for_merge D x s kids b1 b i = rfmap mu (cu_for_merge C x s kids b1 b i)).
      { intros b Hb. destruct (H2 b Hb). by apply cu_merge_aff. }
      destruct (decide (bk = [])) as [->|Hne].
      - assert (E : forall un us us' um nk b2 cu ps a,
          boE un us um nk 0 b2 cu ps a = boE un us' um nk 0 b2 cu ps a).
        { intros un us us' um nk b0 c0 p0 a0. unfold boE.
          apply abind_eq; [done|]. intros ? ?. apply abind_eq; [done|]. intros ? ?.
          apply abind_eq; [done|]. intros ? ?. apply abind_eq; [|done].
          rewrite bool_decide_false by lia. done. }
        cbn [length]. rewrite (E _ _ (rfmap mu (cu_for_split C x s kids (fst b1) []))).
        by apply boE_aff.
      - rewrite cu_split_aff by auto. by apply boE_aff.
    Qed.
  End Ctx.

  (** ** Trees whose tables add up *)
  Notation tree1 := (tree C).
  Inductive bal : tree1 -> Prop :=
  | bal_leaf id s : bal (T id s [])
  | bal_node id s kids : kids <> [] -> total (map tsum kids) = cnt s -> Forall bal kids ->
      bal (T id s kids).

  Lemma bal_inv id s kids : bal (T id s kids) ->
    Forall bal kids /\ (kids <> [] -> total (map tsum kids) = cnt s).
  Proof. inversion 1; subst; split; auto; done. Qed.

  Lemma tables_snd (kids : list tree1) : map snd (tables kids) = map tsum kids.
  Proof. unfold tables. rewrite map_map. done. Qed.
  Lemma total_perm (l1 l2 : list S') : Permutation l1 l2 -> total l1 = total l2.
  Proof. intros H. unfold total. by apply sumn_perm, Permutation_map. Qed.

  Definition Rq (s : nc_sum C) (s' : nc_sum D) : Prop := s = s'.
  Notation trq := (trel C D Rq).
  Notation orq := (orel C D Rq).

  Lemma trq_tables (k1 : list tree1) (k2 : list (tree D)) : Forall2 trq k1 k2 ->
    (tables k2 : list (nat * S')) = tables k1.
  Proof.
    induction 1 as [|u v k1 k2 Huv Hk IH]; [done|]. cbn [tables map].
    destruct Huv as [id s1 s2 l1 l2 Hs _]. unfold Rq in Hs. subst s2.
    cbn [tid tsum]. f_equal. exact IH.
  Qed.

  Lemma two_best_trq x s (k1 : list tree1) (k2 : list (tree D)) i a :
    Forall2 trq k1 k2 -> k1 <> [] -> total (map tsum k1) = cnt s ->
    two_best_children D rng x s (tables k2) i a =
    (rfmap rb (fst (two_best_children C rng x s (tables k1) i a)),
     snd (two_best_children C rng x s (tables k1) i a)).
  Proof.
    intros Hk Hne Ht. pose proof (trq_tables _ _ Hk) as E.
    refine (eq_ind_r (fun l : list (nat * S') => two_best_children D rng x s l i a = _) _ E).
    apply two_best_aff; [by destruct k1|]. by rewrite tables_snd.
  Qed.

  Lemma fnew_child_aff m id s (k1 : list tree1) (k2 : list (tree D)) i a : Forall2 trq k1 k2 ->
    orq (fnew_child C m id s k1 i a) (fnew_child D m id s k2 i a).
  Proof.
    intros Hk. unfold fnew_child. change (nc_inc D (nc_empty D) i) with (nc_inc C (nc_empty C) i).
    destruct (nc_inc C (nc_empty C) i) as [u [e|]]; apply orel_mk; (constructor; [done|]); [done|].
    apply Forall2_app; [done|]. apply Forall2_cons_2; [|apply Forall2_nil_2].
    constructor; [done|apply Forall2_nil_2].
  Qed.

  Theorem fcob_aff fuel : forall x (t1 : tree1) (t2 : tree D) i a,
    trq t1 t2 -> bal t1 -> NoDup (ids t1) -> (forall j, j ∈ ids t1 -> (j <= am_ctr a)%nat) ->
    orq (fcob C rng fuel x t1 i a) (fcob D rng fuel x t2 i a).
  Proof.
    induction fuel as [|fuel IH]; intros x t1 t2 i a Ht Hbal Hnd Hb; [done|].
    destruct t1 as [id s k1], t2 as [id' s2 k2].
    pose proof Ht as (-> & Hs & Hk)%trel_inv. unfold Rq in Hs. subst s2. cbn [fcob].
    destruct Hk as [|c1 c2 k1 k2 Hc Hk].
    - change (nc_exact D s i) with (nc_exact C s i). destruct (nc_exact C s i) as [ex|e]; [|done].
      change (nc_count D s) with (cnt s). destruct (ex || (cnt s =? 0)%nat).
      + change (nc_inc D s i) with (nc_inc C s i). destruct (nc_inc C s i) as [u e].
        apply orel_mk. constructor; [done|apply Forall2_nil_2].
      + unfold ffringe. change (nc_add D (nc_empty D) s) with (nc_add C (nc_empty C) s).
        destruct (nc_add C (nc_empty C) s) as [u [e|]]; [done|].
        change (nc_inc D u i) with (nc_inc C u i). destruct (nc_inc C u i) as [v [e|]].
        * apply orel_mk. constructor; [done|]. apply Forall2_cons_2; [done|apply Forall2_nil_2].
        * apply fnew_child_aff. apply Forall2_cons_2; [done|apply Forall2_nil_2].
    - assert (Hkk : Forall2 trq (c1 :: k1) (c2 :: k2)) by (by constructor).
      assert (Hne : c1 :: k1 <> []) by done.
      remember (c1 :: k1) as kk1 eqn:Ek1. remember (c2 :: k2) as kk2 eqn:Ek2.
      clear Ek1 Ek2 Hc Hk c1 c2 k1 k2.
      apply bal_inv in Hbal as [Hbk Htot]. specialize (Htot Hne).
      rewrite (two_best_trq x s kk1 kk2 i a Hkk Hne Htot).
      destruct (two_best_children C rng x s (tables kk1) i a) as [[[[cu b1] b2]|e] a1] eqn:E2;
        [|done]. cbn [fst snd rfmap rb].
      pose proof (proj1 (NoDup_kids _ _ _ _) Hnd) as [_ Hndk].
      destruct (two_best_kids _ _ _ _ _ _ _ _ _ _ _ (NoDup_tids _ _ Hndk) E2)
        as (Ha1 & k1 & Hk1 & Hb2).
      pose proof (kfind_rel C D Rq b1 _ _ Hkk) as Hf1. rewrite Hk1 in *.
      destruct (kfind b1 kk2) as [k1'|]; [|done].
      assert (Ho2 : exists ok2 ok2',
        match b2 with None => Some None | Some b2 =>
          match kfind b2 kk1 with None => None | Some k2 => Some (Some k2) end end = Some ok2 /\
        match b2 with None => Some None | Some b2 =>
          match kfind b2 kk2 with None => None | Some k2 => Some (Some k2) end end = Some ok2' /\
        match ok2, ok2' with
        | None, None => True
        | Some k2, Some k2' => trq k2 k2' /\ kfind (tid k2) kk1 = Some k2 /\ b1 <> tid k2
        | _, _ => False
        end).
      { destruct b2 as [b0|]; [|by exists None, None].
        destruct Hb2 as [Hn [k2 Hk2]]. pose proof (kfind_rel C D Rq b0 _ _ Hkk) as Hf2.
        rewrite Hk2 in *. destruct (kfind b0 kk2) as [k2'|]; [|done].
        exists (Some k2), (Some k2'). split; [done|]. split; [done|]. split; [done|].
        pose proof (kfind_split _ _ _ _ Hk2) as (? & ? & ? & Et2 & ?). by rewrite Et2. }
      destruct Ho2 as (ok2 & ok2' & -> & -> & Hok2). cbv zeta.
      pose proof (kfind_split _ _ _ _ Hk1) as (l1 & l2 & Ekk & Et1 & _).
      pose proof (kremove_perm _ _ _ _ Hk1) as Hp1.
      assert (Hk1in : k1 ∈ kk1) by (rewrite Ekk; apply elem_of_app; right; left).
      assert (Hbk1 : bal k1) by (rewrite Forall_forall in Hbk; by apply Hbk).
      assert (Hk1nd : NoDup (ids k1)).
      { rewrite Ekk in Hndk. by apply NoDup_kid in Hndk as [? _]. }
      assert (Hbest : get_best_operation D rng x s (tables kk2) i (b1, tsum k1')
          (match ok2' with None => None | Some k2 => Some (tid k2, tsum k2) end)
          (tables (tkids k1')) (al * cu) all_ops a1 =
        (rfmap rop (fst (get_best_operation C rng x s (tables kk1) i (b1, tsum k1)
          (match ok2 with None => None | Some k2 => Some (tid k2, tsum k2) end)
          (tables (tkids k1)) cu all_ops a1)),
         snd (get_best_operation C rng x s (tables kk1) i (b1, tsum k1)
          (match ok2 with None => None | Some k2 => Some (tid k2, tsum k2) end)
          (tables (tkids k1)) cu all_ops a1))).
      { assert (Ea : (tsum k1' : S') = tsum k1) by (symmetry; exact (trel_tsum C D Rq _ _ Hf1)).
        assert (Eb : (match ok2' with None => None | Some k2 => Some (tid k2, tsum k2) end
                      : option (nat * S')) =
          match ok2 with None => None | Some k2 => Some (tid k2, tsum k2) end).
        { destruct ok2 as [k2|], ok2' as [k2'|]; try done. destruct Hok2 as [Hr _].
          pose proof (trel_tsum C D Rq _ _ Hr) as Hq. unfold Rq in Hq.
          rewrite (trel_tid C D Rq _ _ Hr). f_equal. f_equal. symmetry. exact Hq. }
        pose proof (trq_tables _ _ (trel_tkids C D Rq _ _ Hf1)) as Ec.
        pose proof (trq_tables _ _ Hkk) as Ed.
        refine (eq_ind_r (fun l : list (nat * S') => get_best_operation D rng x s l i (b1, tsum k1')
          _ _ (al * cu) all_ops a1 = _) _ Ed).
        refine (eq_ind_r (fun l : list (nat * S') => get_best_operation D rng x s (tables kk1) i
          (b1, tsum k1') _ l (al * cu) all_ops a1 = _) _ Ec).
        refine (eq_ind_r (fun l : option (nat * S') => get_best_operation D rng x s (tables kk1) i
          (b1, tsum k1') l (tables (tkids k1)) (al * cu) all_ops a1 = _) _ Eb).
        refine (eq_ind_r (fun l : S' => get_best_operation D rng x s (tables kk1) i
          (b1, l) (match ok2 with None => None | Some k2 => Some (tid k2, tsum k2) end)
           (tables (tkids k1)) (al * cu) all_ops a1 = _) _ Ea).
        apply best_op_aff.
        - by rewrite tables_snd.
        - rewrite tables_ids. by apply NoDup_tids.
        - unfold tables. apply elem_of_list_In, in_map_iff. exists k1. rewrite Et1.
          split; [done|]. by apply elem_of_list_In.
        - intros b. destruct ok2 as [k2|]; [|done]. intros [= <-].
          destruct ok2' as [k2'|]; [|done]. destruct Hok2 as (_ & Hk2 & Hn2). split; [|done].
          pose proof (kfind_split _ _ _ _ Hk2) as (m1 & m2 & -> & _).
          unfold tables. apply elem_of_list_In, in_map_iff. exists k2. split; [done|].
          apply elem_of_list_In, elem_of_app. right. left.
        - intros Hnb. rewrite tables_snd. destruct k1 as [j1 sk1 kk]. apply bal_inv in Hbk1 as [_ Hx].
          apply Hx. by destruct kk.
        - rewrite tables_ids. simpl. rewrite <- Et1. destruct k1 as [j1 sk1 kk]. simpl.
          apply NoDup_kids in Hk1nd as [Hn1 _]. intros Hin. apply Hn1.
          apply elem_of_list_In, in_map_iff in Hin as (kc & Ekc & Hkc).
          apply elem_of_ids_kids. exists kc. apply elem_of_list_In in Hkc. split; [done|].
          rewrite <- Ekc. destruct kc. left. }
      rewrite Hbest. clear Hbest.
      match goal with |- context [get_best_operation C ?r ?x ?s ?k ?i ?p ?q ?bk ?cu ?l ?a] =>
        pose proof (best_op_mono C r x s k i p q bk cu l a) as Hm;
        destruct (get_best_operation C r x s k i p q bk cu l a) as [[[u o]|e] a2] eqn:E3 end; [|done].
      cbn [fst snd rfmap rop].
      apply best_op_applicable in E3 as (_ & Happm & Happs).
      destruct Hm as [Ha2 _]. simpl in Ha2.
      assert (Hb' : forall j, j ∈ ids (T id' s kk1) -> (j <= am_ctr a2)%nat).
      { intros j Hj. specialize (Hb j Hj). lia. }
      change (nc_inc D s i) with (nc_inc C s i).
      destruct o.
      + destruct (nc_inc C s i) as [s' [e|]]; [apply orel_mk; by constructor|].
        destruct (IH x k1 k1' i a2 Hf1 Hbk1 Hk1nd) as (H1 & H2 & H3 & H4).
        { intros j Hj. apply Hb'. by eapply ids_kid. }
        rewrite H2, H3, H4. apply orel_mk. constructor; [done|]. by apply kupdate_rel.
      + destruct (nc_inc C s i) as [s' [e|]]; [apply orel_mk; by constructor|].
        by apply fnew_child_aff.
      + destruct ok2 as [k2|], ok2' as [k2'|]; try done.
        destruct Hok2 as (Hf2 & Hk2 & Hn2).
        destruct (nc_inc C s i) as [s' [e|]]; [apply orel_mk; by constructor|].
        assert (Hm : fmerged D k1' k2' = fmerged C k1 k2).
        { unfold fmerged. destruct Hf1 as [? ? ? ? ? Hq1 _], Hf2 as [? ? ? ? ? Hq2 _].
          unfold Rq in Hq1, Hq2. subst. done. }
        rewrite Hm. clear Hm.
        destruct (fmerged C k1 k2) as [sm|e] eqn:Em; [|apply orel_mk; by constructor].
        set (m := am_ctr (anext a2)).
        assert (Htm : trq (T m sm [k1; k2]) (@T _ D m sm [k1'; k2'])).
        { constructor; [done|]. apply Forall2_cons_2; [done|].
          apply Forall2_cons_2; [done|apply Forall2_nil_2]. }
        destruct (merge_ids C id' s sm kk1 b1 (tid k2) k1 k2 (am_ctr a2) Hnd Hb' Hk1 Hk2 Hn2)
          as (_ & Hperm & Hkm).
        set (kids' := kremove (tid k2) (kremove b1 kk1) ++ [T (S (am_ctr a2)) sm [k1; k2]]) in *.
        destruct (IH x (T m sm [k1; k2]) (@T _ D m sm [k1'; k2']) i (anext a2) Htm)
          as (H1 & H2 & H3 & H4).
        { apply bal_node; [done| |].
          - unfold fmerged in Em.
            destruct (nc_add C (nc_empty C) (tsum k1)) as [u0 [e|]] eqn:Ea; [done|].
            destruct (nc_add C u0 (tsum k2)) as [u1 [e|]] eqn:Eb; [done|]. injection Em as <-.
            apply (cl_addn _ CL) in Ea, Eb. rewrite (cl_empty0 _ CL) in Ea.
            unfold total. simpl. lia.
          - apply Forall_cons_2; [done|]. apply Forall_cons_2; [|apply Forall_nil_2].
            rewrite Forall_forall in Hbk. apply Hbk.
            pose proof (kfind_split _ _ _ _ Hk2) as (? & ? & -> & _). apply elem_of_app. right. left. }
        { assert (Hnd' : NoDup (concat (map ids kids'))).
          { rewrite Hperm. apply NoDup_cons. split; [|by apply NoDup_kids in Hnd as [_ ?]]. intros Hin.
            assert (S (am_ctr a2) <= am_ctr a2)%nat; [|lia]. apply Hb'. by right. }
          pose proof (kfind_split _ _ _ _ Hkm) as (m1 & m2 & E & _).
          rewrite E in Hnd'. by apply NoDup_kid in Hnd' as [? _]. }
        { intros j Hj. assert (Hj' : j ∈ concat (map ids kids')).
          { apply elem_of_ids_kids. eexists. split; [|exact Hj].
            unfold kids'. apply elem_of_app. right. left. }
          rewrite Hperm in Hj'. apply elem_of_cons in Hj' as [->|Hj']; [done|].
          assert (j <= am_ctr a2)%nat by (apply Hb'; by right). simpl. lia. }
        rewrite H2, H3, H4. apply orel_mk. constructor; [done|].
        apply kupdate_rel; [done|]. apply Forall2_app.
        * rewrite (trel_tid C D Rq _ _ Hf2). by apply kremove_rel, kremove_rel.
        * apply Forall2_cons_2; [done|apply Forall2_nil_2].
      + set (kids1 := kremove b1 kk1 ++ tkids k1) in *.
        assert (Hsub : forall j, j ∈ concat (map ids kids1) -> j ∈ concat (map ids kk1)).
        { intros j. rewrite (concat_ids_perm _ _ _ Hp1). unfold kids1.
          rewrite concat_ids_app. destruct k1 as [i1 s1 ks1]. simpl.
          rewrite !elem_of_cons, !elem_of_app. tauto. }
        assert (Hnk : tkids k1 <> []).
        { intros Hnil. rewrite Hnil in Happs. by apply Happs. }
        apply IH.
        * constructor; [done|]. apply Forall2_app; [by apply kremove_rel|by apply trel_tkids].
        * assert (Htk1 : total (map tsum (tkids k1)) = cnt (tsum k1) /\ Forall bal (tkids k1)).
          { destruct k1 as [j1 sk1 ks]. apply bal_inv in Hbk1 as [? Hx]. split; [by apply Hx|done]. }
          destruct Htk1 as [Htk1 Hbks].
          assert (Htk : total (map tsum kk1) =
            (cnt (tsum k1) + total (map tsum (kremove b1 kk1)))%nat).
          { rewrite (total_perm _ _ (Permutation_map tsum Hp1)). done. }
          apply bal_node.
          -- unfold kids1. intros [_ ?]%app_eq_nil. done.
          -- unfold kids1. rewrite map_app, total_app. lia.
          -- unfold kids1. apply Forall_app. split; [|done].
             rewrite Hp1 in Hbk at 1. by apply Forall_cons in Hbk as [_ ?].
        * apply NoDup_kids in Hnd as [Hn1 Hn2]. apply NoDup_kids. split.
          { intros Hin. by apply Hn1, Hsub. }
          rewrite (concat_ids_perm _ _ _ Hp1) in Hn2. unfold kids1.
          rewrite concat_ids_app. destruct k1 as [i1 s1 ks1]. simpl in Hn2 |- *.
          apply NoDup_cons in Hn2 as [_ Hn2].
          by rewrite (Permutation_app_comm (concat (map ids (kremove b1 kk1)))).
        * intros j Hj. apply Hb'. apply elem_of_cons in Hj as [->|Hj]; [left|].
          right. by apply Hsub.
  Qed.

  Theorem fcat_aff fuel : forall x (t1 : tree1) (t2 : tree D) i a,
    trq t1 t2 -> bal t1 -> NoDup (ids t1) ->
    fcat C rng fuel x t1 i a = fcat D rng fuel x t2 i a.
  Proof.
    induction fuel as [|fuel IH]; intros x t1 t2 i a Ht Hbal Hnd; [done|].
    destruct t1 as [id s k1], t2 as [id' s2 k2].
    pose proof Ht as (-> & Hs & Hk)%trel_inv. unfold Rq in Hs. subst s2. cbn [fcat].
    destruct Hk as [|c1 c2 k1 k2 Hc Hk]; [done|].
    assert (Hkk : Forall2 trq (c1 :: k1) (c2 :: k2)) by (by constructor).
    assert (Hne : c1 :: k1 <> []) by done.
    remember (c1 :: k1) as kk1 eqn:Ek1. remember (c2 :: k2) as kk2 eqn:Ek2.
    clear Ek1 Ek2 Hc Hk c1 c2 k1 k2.
    apply bal_inv in Hbal as [Hbk Htot]. specialize (Htot Hne).
    rewrite (two_best_trq x s kk1 kk2 i a Hkk Hne Htot).
    destruct (two_best_children C rng x s (tables kk1) i a) as [[[[cu b1] b2]|e] a1] eqn:E2;
      [|done]. cbn [fst snd rfmap rb].
    pose proof (kfind_rel C D Rq b1 _ _ Hkk) as Hf1.
    destruct (kfind b1 kk1) as [k1|] eqn:Hk1, (kfind b1 kk2) as [k1'|]; try done.
    pose proof (kfind_split _ _ _ _ Hk1) as (l1 & l2 & Ekk & Et1 & _).
    apply IH; [done| |].
    - rewrite Forall_forall in Hbk. apply Hbk. rewrite Ekk. apply elem_of_app. right. left.
    - apply NoDup_kids in Hnd as [_ Hndk]. rewrite Ekk in Hndk. by apply NoDup_kid in Hndk as [? _].
  Qed.

  (** ** Sequences of calls *)
  Section Runs.
    Variable Summ : S' -> list (nc_inst C) -> Prop.
    Variable Leaf : list (nc_inst C) -> Prop.
    Variable Good : nc_inst C -> Prop.
    Hypothesis L : summ_laws C Summ Leaf Good.
    Hypothesis RC : real_class C.

    Lemma real_rescaled : real_class D.
    Proof.
      split.
      - apply (rc_inc _ RC).
      - apply (rc_add _ RC).
      - intros x s. pose proof (rc_ecg _ RC x s) as H. change (nc_ecg D x s) with (E2 x s). unfold E2.
        by destruct (nc_ecg C x s).
      - apply (rc_exact _ RC).
    Qed.

    Lemma tinv_bal t l : tinv C Summ Leaf t l -> bal t.
    Proof.
      revert l. induction t as [id s kids IH] using (tree_ind' C). intros l Ht.
      destruct kids as [|k0 ks]; [constructor|].
      apply (tinv_node_iff C Summ Leaf) in Ht as (_ & (ls & HF & _ & Hp) & Hs); [|done].
      assert (Htot : total (map tsum (k0 :: ks)) = cnt s).
      { rewrite (sl_count _ _ _ _ L _ _ Hs), (Permutation_length Hp). clear -L HF.
        unfold total. revert HF. generalize (k0 :: ks). intros kids HF.
        induction HF as [|k l kids ls Hk HF IH]; [done|]. cbn [map sumn concat].
        rewrite app_length. apply tinv_summ in Hk. by rewrite (sl_count _ _ _ _ L _ _ Hk), IH. }
      apply bal_node; [done|done|].
      clear -IH HF. revert IH HF. generalize (k0 :: ks). intros kids IHk. revert ls.
      induction IHk as [|k kids Hk IHk IH]; intros ls HF; [apply Forall_nil_2|].
      apply Forall2_cons_inv_l in HF as (l0 & ls' & H1 & H2 & ->).
      apply Forall_cons_2; [by eapply Hk|by eapply IH].
    Qed.

    Definition arel (s1 : st C) (s2 : st D) : Prop :=
      exists t1 t2 l, state_ok C s1 t1 /\ state_ok D s2 t2 /\ trq t1 t2 /\
        tinv C Summ Leaf t1 l /\
        st_amb s1 = st_amb s2 /\ (st_ctx s1 : nc_ctx C) = st_ctx s2.

    (** The same calls on the two trees. *)
    Definition dcall (c : call C) : call D :=
      match c with
      | CFit i => @CFit _ D i | CCat i => @CCat _ D i
      | COther p q => COther p q | CClear => CClear
      end.

    Definition call_good (c : call C) : Prop :=
      match c with CFit i => Good i | _ => True end.

    Lemma cobweb_aff s1 s2 i : arel s1 s2 -> Good i ->
      fst (cobweb C rng i s1) = fst (cobweb D rng i s2) /\
      ((exists j, fst (cobweb C rng i s1) = Ok j) ->
       arel (snd (cobweb C rng i s1)) (snd (cobweb D rng i s2))).
    Proof.
      intros (t1 & t2 & l & H1 & H2 & Ht & Hti & Ha & Hx) Hg.
      destruct (cobweb_runs C rng s1 t1 i H1) as (s1' & Er1 & Hok1 & Ha1 & Hx1).
      destruct (cobweb_runs D rng s2 t2 i H2) as (s2' & Er2 & Hok2 & Ha2 & Hx2).
      assert (Ho : orq (cob_out C rng s1 t1 i) (cob_out D rng s2 t2 i)).
      { unfold cob_out.
        rewrite (fcob_fuel D rng real_rescaled _ (cob_fuel C s1)).
        - rewrite <- Ha, <- Hx. apply (fcob_aff _ (nc_pre C (st_ctx s1) i)); [done| | |].
          + by eapply tinv_bal.
          + apply H1.
          + apply H1.
        - apply H2.
        - apply H2.
        - by apply state_fuel.
        - rewrite <- (trel_tsize C D Rq _ _ Ht). by apply state_fuel. }
      destruct Ho as (O1 & O2 & O3 & O4).
      rewrite Er1, Er2. cbn [fst snd]. split; [done|].
      intros [j Hj].
      destruct (fcob_sorts C rng (somesum C Summ) i (summ_closed C Summ Leaf Good L i Hg)
        (cob_fuel C s1) (nc_pre C (st_ctx s1) i) t1 (st_amb s1) (tinv_tall C Summ Leaf _ _ Hti)
        (so_nodup _ _ _ H1) (so_bound _ _ _ H1)) as [Hs _].
      change (fcob C rng (cob_fuel C s1) (nc_pre C (st_ctx s1) i) t1 i (st_amb s1)) with
        (cob_out C rng s1 t1 i) in Hs.
      rewrite Hj in Hs.
      eexists _, _, (i :: l). split; [exact Hok1|]. split; [exact Hok2|].
      split; [done|]. split; [by eapply sorts_tinv|]. split; [congruence|].
      rewrite Hx1, Hx2. by rewrite Hx.
    Qed.

    Lemma cat_aff s1 s2 i : arel s1 s2 ->
      fst (cobweb_categorize C rng i s1) = fst (cobweb_categorize D rng i s2) /\
      arel (snd (cobweb_categorize C rng i s1)) (snd (cobweb_categorize D rng i s2)).
    Proof.
      intros (t1 & t2 & l & H1 & H2 & Ht & Hti & Ha & Hx).
      rewrite (categorize_runs C rng s1 t1 i H1), (categorize_runs D rng s2 t2 i H2).
      cbv zeta. cbn [fst snd].
      rewrite (fcat_fuel D rng real_rescaled _ (cob_fuel C s1)).
      - assert (Ef : fcat D rng (cob_fuel C s1) (st_ctx s2) t2 i (st_amb s2) =
          fcat C rng (cob_fuel C s1) (st_ctx s1) t1 i (st_amb s1)).
        { rewrite <- Ha, <- Hx. symmetry. apply (fcat_aff _ (st_ctx s1)); [done|by eapply tinv_bal|apply H1]. }
        rewrite Ef. split; [done|]. exists t1, t2, l.
        pose proof (fcat_mono C rng (cob_fuel C s1) (st_ctx s1) t1 i (st_amb s1)) as [Hm _].
        split; [by apply state_ok_amb|]. split; [apply state_ok_amb; [done|by rewrite <- Ha]|]. done.
      - apply H2.
      - by apply state_fuel.
      - rewrite <- (trel_tsize C D Rq _ _ Ht). by apply state_fuel.
    Qed.

    Theorem exec_aff x0 cs : forall s1 s2, Forall call_good cs -> arel s1 s2 ->
      Forall (fun r => exists j, r = Ok j) (fst (exec C rng x0 cs s1)) ->
      fst (exec C rng x0 cs s1) = fst (exec D rng x0 (map dcall cs) s2) /\
      arel (snd (exec C rng x0 cs s1)) (snd (exec D rng x0 (map dcall cs) s2)).
    Proof.
      induction cs as [|c cs IH]; intros s1 s2 Hg Hs Hr; [done|]. cbn [exec map] in *.
      apply Forall_cons in Hg as [Hc Hg].
      assert (H1 : fst (exec1 C rng x0 c s1) = fst (exec1 D rng x0 (dcall c) s2) /\
        ((exists j, fst (exec1 C rng x0 c s1) = Ok j) ->
         arel (snd (exec1 C rng x0 c s1)) (snd (exec1 D rng x0 (dcall c) s2)))).
      { destruct c as [i|i|p q|]; cbn [exec1 dcall].
        - by apply cobweb_aff.
        - destruct (cat_aff s1 s2 i Hs). done.
        - split; [done|]. intros _.
          destruct Hs as (t1 & t2 & l & H1 & H2 & Ht & Hti & Ha & Hx). exists t1, t2, l. cbn [snd].
          split; [apply state_ok_amb; [done|]; simpl; lia|].
          split; [apply state_ok_amb; [done|]; simpl; lia|].
          split; [done|]. split; [done|]. split; [|done]. simpl. by rewrite Ha.
        - split; [done|]. intros _. cbn [snd].
          destruct Hs as (t1 & t2 & l & H1 & H2 & Ht & Hti & Ha & Hx).
          destruct (clear_runs C x0 s1) as (s1' & -> & Hok1 & Ha1 & Hx1).
          destruct (clear_runs D x0 s2) as (s2' & -> & Hok2 & Ha2 & Hx2).
          cbn [snd]. rewrite Ha in Hok1, Ha1.
          eexists _, _, []. split; [exact Hok1|]. split; [exact Hok2|].
          split; [constructor; [done|apply Forall2_nil_2]|].
          split; [apply ti_leaf; [exact (sl_empty _ _ _ _ L)|exact (sl_leaf_nil _ _ _ _ L)]|].
          split; [congruence|]. by rewrite Hx1, Hx2. }
      destruct H1 as [E1 H1].
      destruct (exec1 C rng x0 c s1) as [r1 s1'], (exec1 D rng x0 (dcall c) s2) as [r2 s2'].
      cbn [fst snd] in *. subst r2.
      specialize (IH s1' s2' Hg).
      destruct (exec C rng x0 cs s1') as [rs1 s1''], (exec D rng x0 (map dcall cs) s2') as [rs2 s2''].
      cbn [fst snd] in *. apply Forall_cons in Hr as [Hr1 Hr].
      destruct (IH (H1 Hr1) Hr) as [-> Hf]. done.
    Qed.

    Lemma arel_fresh ctr rpos x0 : arel (fresh C ctr rpos x0) (fresh D ctr rpos x0).
    Proof.
      eexists _, _, []. split; [apply fresh_ok|]. split; [apply fresh_ok|].
      split; [constructor; [done|apply Forall2_nil_2]|].
      split; [apply ti_leaf; [exact (sl_empty _ _ _ _ L)|exact (sl_leaf_nil _ _ _ _ L)]|]. done.
    Qed.

    (** Rescaling does not show: same results, same concepts, same tables. *)
    Theorem rescaled_same x0 ctr rpos cs :
      Forall call_good cs ->
      Forall (fun r => exists j, r = Ok j) (fst (exec C rng x0 cs (fresh C ctr rpos x0))) ->
      fst (exec C rng x0 cs (fresh C ctr rpos x0)) =
      fst (exec D rng x0 (map dcall cs) (fresh D ctr rpos x0)) /\
      same_view Rq (snd (exec C rng x0 cs (fresh C ctr rpos x0)))
        (snd (exec D rng x0 (map dcall cs) (fresh D ctr rpos x0))).
    Proof.
      intros Hg Hr. destruct (exec_aff x0 cs _ _ Hg (arel_fresh ctr rpos x0) Hr) as [E Hs].
      split; [done|]. destruct Hs as (t1 & t2 & l & H1 & H2 & Ht & _). by eapply trel_view.
    Qed.
  End Runs.

End Aff.
