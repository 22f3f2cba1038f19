(** * Loop bounds are irrelevant; related classes give related runs. *)
From stdpp Require Import base decidable list gmap strings.
From Verif Require Import Base Num TreeModel TreeFun TreeScore TreeRefine TreeSorts TreeInv
  SpecTree TreeState TreeRel.

Section Fuel.
  Context {N : NumOps} (C : NodeClass N) (rng : nat -> num N).

  Lemma fcob_more fuel : forall fuel' x (t : tree C) i a, fuel <= fuel' ->
    fo_res (fcob C rng fuel x t i a) <> Err OutOfFuel ->
    fcob C rng fuel' x t i a = fcob C rng fuel x t i a.
  Proof.
    induction fuel as [|fuel IH]; intros [|fuel'] x t i a Hle; [done|done|lia|].
    apply le_S_n in Hle. destruct t as [id s kids]. cbn [fcob].
    destruct kids as [|k0 ks0]; [done|]. set (kids := k0 :: ks0). clearbody kids.
    destruct (two_best_children C rng x s (tables kids) i a) as [[[[cu b1] b2]|e] a1]; [|done].
    destruct (kfind b1 kids) as [k1|]; [|done]. cbv zeta.
    destruct (match b2 with None => Some None | Some b2 =>
            match kfind b2 kids with None => None | Some k2 => Some (Some k2) end end) as [ok2|];
      [|done].
    destruct (get_best_operation C rng x s (tables kids) i (b1, tsum k1)
        (match ok2 with None => None | Some k2 => Some (tid k2, tsum k2) end)
        (tables (tkids k1)) cu all_ops a1) as [[[u o]|e] a2]; [|done].
    destruct o.
    - destruct (nc_inc C s i) as [s' [e|]]; [done|]. cbn [fo_res]. intros Hr. by rewrite (IH fuel').
    - done.
    - destruct ok2 as [k2|]; [|done]. destruct (nc_inc C s i) as [s' [e|]]; [done|].
      destruct (fmerged C k1 k2) as [sm|e]; [|done]. cbn [fo_res]. intros Hr. by rewrite (IH fuel').
    - intros Hr. by rewrite (IH fuel').
  Qed.

  Lemma fcat_more fuel : forall fuel' x (t : tree C) i a, fuel <= fuel' ->
    fst (fcat C rng fuel x t i a) <> Err OutOfFuel ->
    fcat C rng fuel' x t i a = fcat C rng fuel x t i a.
  Proof.
    induction fuel as [|fuel IH]; intros [|fuel'] x t i a Hle; [done|done|lia|].
    apply le_S_n in Hle. destruct t as [id s kids]. cbn [fcat].
    destruct kids as [|k0 ks0]; [done|]. set (kids := k0 :: ks0). clearbody kids.
    destruct (two_best_children C rng x s (tables kids) i a) as [[[[cu b1] b2]|e] a1]; [|done].
    destruct (kfind b1 kids) as [k1|]; [|done]. intros Hr. by rewrite (IH fuel').
  Qed.

  Hypothesis RC : real_class C.

  Lemma rres_fuel {X} (r : res X) : rres r -> r <> Err OutOfFuel.
  Proof. intros H ->. by destruct H. Qed.

  Lemma fcob_fuel f1 f2 x (t : tree C) i a :
    NoDup (ids t) -> (forall j, j ∈ ids t -> j <= am_ctr a) ->
    tsize t <= f1 -> tsize t <= f2 ->
    fcob C rng f1 x t i a = fcob C rng f2 x t i a.
  Proof.
    intros Hnd Hb.
    assert (H : forall f, tsize t <= f -> fcob C rng f x t i a = fcob C rng (tsize t) x t i a).
    { intros f Hf. apply fcob_more; [done|].
      apply rres_fuel. by apply fcob_terminates. }
    intros H1 H2. by rewrite (H f1), (H f2).
  Qed.

  Lemma fcat_fuel f1 f2 x (t : tree C) i a :
    NoDup (ids t) -> tsize t <= f1 -> tsize t <= f2 ->
    fcat C rng f1 x t i a = fcat C rng f2 x t i a.
  Proof.
    intros Hnd.
    assert (H : forall f, tsize t <= f -> fcat C rng f x t i a = fcat C rng (tsize t) x t i a).
    { intros f Hf. apply fcat_more; [done|].
      apply rres_fuel. by apply fcat_terminates. }
    intros H1 H2. by rewrite (H f1), (H f2).
  Qed.

  Lemma state_fuel s t : state_ok C s t -> tsize t <= cob_fuel C s.
  Proof.
    intros Hok. unfold cob_fuel.
    pose proof (tsize_heap C _ _ _ (so_rep _ _ _ Hok) (so_nodup _ _ _ Hok)). lia.
  Qed.
End Fuel.

Section Sim.
  Context {N : NumOps} (C1 C2 : NodeClass N) (rng : nat -> num N).
  Variable Rs : nc_sum C1 -> nc_sum C2 -> Prop.
  Variable Ri : nc_inst C1 -> nc_inst C2 -> Prop.
  Variable Rx : nc_ctx C1 -> nc_ctx C2 -> Prop.
  Hypothesis Sim : simulation C1 C2 Rs Ri Rx.
  Hypothesis RC2 : real_class C2.

  Definition srel (s1 : st C1) (s2 : st C2) : Prop :=
    exists t1 t2, state_ok C1 s1 t1 /\ state_ok C2 s2 t2 /\ trel C1 C2 Rs t1 t2 /\
      st_amb s1 = st_amb s2 /\ Rx (st_ctx s1) (st_ctx s2).

  Lemma trel_ids t1 : forall t2, trel C1 C2 Rs t1 t2 -> ids t1 = ids t2.
  Proof.
    induction t1 as [id s1 k1 IH] using (tree_ind' C1). intros [id' s2 k2] (-> & Hs & Hk)%trel_inv.
    simpl. f_equal. induction Hk as [|a b k1 k2 Hab Hk IHk]; [done|].
    apply Forall_cons in IH as [IHa IH]. simpl. rewrite (IHa b Hab). f_equal. auto.
  Qed.

  Lemma trel_tsize t1 t2 : trel C1 C2 Rs t1 t2 -> tsize t1 = tsize t2.
  Proof. intros H. by rewrite <- !length_ids, (trel_ids _ _ H). Qed.

  Definition crel (c1 : call C1) (c2 : call C2) : Prop :=
    match c1, c2 with
    | CFit i1, CFit i2 => Ri i1 i2
    | CCat i1, CCat i2 => Ri i1 i2
    | COther a b, COther c d => a = c /\ b = d
    | CClear, CClear => True
    | _, _ => False
    end.

  Lemma cobweb_rel s1 s2 i1 i2 : srel s1 s2 -> Ri i1 i2 ->
    fst (cobweb C1 rng i1 s1) = fst (cobweb C2 rng i2 s2) /\
    srel (snd (cobweb C1 rng i1 s1)) (snd (cobweb C2 rng i2 s2)).
  Proof.
    intros (t1 & t2 & H1 & H2 & Ht & Ha & Hx) Hi.
    destruct (cobweb_runs C1 rng s1 t1 i1 H1) as (s1' & E1 & Hok1 & Ha1 & Hx1).
    destruct (cobweb_runs C2 rng s2 t2 i2 H2) as (s2' & E2 & Hok2 & Ha2 & Hx2).
    rewrite E1, E2. cbn [fst snd].
    assert (Ho : orel C1 C2 Rs (cob_out C1 rng s1 t1 i1) (cob_out C2 rng s2 t2 i2)).
    { unfold cob_out.
      rewrite (fcob_fuel C2 rng RC2 _ (cob_fuel C1 s1)).
      - rewrite <- Ha. apply (fcob_rel C1 C2 rng Rs Ri Rx Sim); [|done|done].
        by apply (sim_pre _ _ _ _ _ Sim).
      - apply H2.
      - apply H2.
      - by apply state_fuel.
      - rewrite <- (trel_tsize _ _ Ht). by apply state_fuel. }
    destruct Ho as (O1 & O2 & O3 & O4).
    split; [done|]. eexists _, _. split; [exact Hok1|]. split; [exact Hok2|].
    split; [done|]. split; [congruence|]. rewrite Hx1, Hx2. by apply (sim_pre _ _ _ _ _ Sim).
  Qed.

  Lemma cat_rel s1 s2 i1 i2 : srel s1 s2 -> Ri i1 i2 ->
    fst (cobweb_categorize C1 rng i1 s1) = fst (cobweb_categorize C2 rng i2 s2) /\
    srel (snd (cobweb_categorize C1 rng i1 s1)) (snd (cobweb_categorize C2 rng i2 s2)).
  Proof.
    intros (t1 & t2 & H1 & H2 & Ht & Ha & Hx) Hi.
    rewrite (categorize_runs C1 rng s1 t1 i1 H1), (categorize_runs C2 rng s2 t2 i2 H2).
    cbv zeta. cbn [fst snd].
    rewrite (fcat_fuel C2 rng RC2 _ (cob_fuel C1 s1)).
    - rewrite <- Ha.
      rewrite (fcat_rel C1 C2 rng Rs Ri Rx Sim _ _ (st_ctx s2) _ t2 _ i2) by done.
      split; [done|]. exists t1, t2.
      pose proof (fcat_mono C2 rng (cob_fuel C1 s1) (st_ctx s2) t2 i2 (st_amb s1)) as [Hm _].
      split; [by apply state_ok_amb|]. split; [apply state_ok_amb; [done|by rewrite <- Ha]|]. done.
    - apply H2.
    - by apply state_fuel.
    - rewrite <- (trel_tsize _ _ Ht). by apply state_fuel.
  Qed.

  Theorem exec1_rel x1 x2 c1 c2 s1 s2 : Rx x1 x2 -> crel c1 c2 -> srel s1 s2 ->
    fst (exec1 C1 rng x1 c1 s1) = fst (exec1 C2 rng x2 c2 s2) /\
    srel (snd (exec1 C1 rng x1 c1 s1)) (snd (exec1 C2 rng x2 c2 s2)).
  Proof.
    intros Hx Hc Hs. destruct c1 as [i1|i1|a b|], c2 as [i2|i2|c d|]; try done; cbn [exec1].
    - by apply cobweb_rel.
    - by apply cat_rel.
    - destruct Hc as [-> ->]. split; [done|].
      destruct Hs as (t1 & t2 & H1 & H2 & Ht & Ha & Hx'). exists t1, t2. cbn [snd].
      rewrite Ha. split; [apply state_ok_amb; [done|]; rewrite Ha; simpl; lia|].
      split; [apply state_ok_amb; [done|]; simpl; lia|]. done.
    - split; [done|]. cbn [snd]. destruct Hs as (t1 & t2 & H1 & H2 & Ht & Ha & Hx').
      destruct (clear_runs C1 x1 s1) as (s1' & -> & Hok1 & Ha1 & Hx1).
      destruct (clear_runs C2 x2 s2) as (s2' & -> & Hok2 & Ha2 & Hx2).
      cbn [snd]. rewrite Ha in Hok1, Ha1.
      eexists _, _. split; [exact Hok1|]. split; [exact Hok2|].
      split; [constructor; [apply (sim_empty C1 C2 Rs Ri Rx Sim)|constructor]|].
      split; [congruence|]. by rewrite Hx1, Hx2.
  Qed.

  Theorem exec_rel x1 x2 cs1 cs2 : forall s1 s2, Rx x1 x2 -> Forall2 crel cs1 cs2 -> srel s1 s2 ->
    fst (exec C1 rng x1 cs1 s1) = fst (exec C2 rng x2 cs2 s2) /\
    srel (snd (exec C1 rng x1 cs1 s1)) (snd (exec C2 rng x2 cs2 s2)).
  Proof.
    intros s1 s2 Hx Hc. revert s1 s2. induction Hc as [|c1 c2 cs1 cs2 Hc Hcs IH]; intros s1 s2 Hs;
      [done|]. cbn [exec].
    destruct (exec1_rel x1 x2 c1 c2 s1 s2 Hx Hc Hs) as [E1 Hs1].
    destruct (exec1 C1 rng x1 c1 s1) as [r1 s1'], (exec1 C2 rng x2 c2 s2) as [r2 s2'].
    cbn [fst snd] in *. subst r2.
    destruct (IH _ _ Hs1) as [E2 Hs2].
    destruct (exec C1 rng x1 cs1 s1') as [rs1 s1''], (exec C2 rng x2 cs2 s2') as [rs2 s2''].
    cbn [fst snd] in *. by subst rs2.
  Qed.

  Lemma srel_fresh ctr rpos x1 x2 : Rx x1 x2 -> srel (fresh C1 ctr rpos x1) (fresh C2 ctr rpos x2).
  Proof.
    intros Hx. eexists _, _. split; [apply fresh_ok|]. split; [apply fresh_ok|].
    split; [constructor; [apply (sim_empty C1 C2 Rs Ri Rx Sim)|constructor]|]. done.
  Qed.

  (** Related states look the same. *)
  Lemma trel_sub t1 t2 u1 : trel C1 C2 Rs t1 t2 -> sub C1 u1 t1 ->
    exists u2, sub C2 u2 t2 /\ trel C1 C2 Rs u1 u2.
  Proof.
    intros Ht Hs. revert t2 Ht. induction Hs as [|id s kids k Hk Hs IH]; intros t2 Ht.
    - exists t2. split; [apply sub_refl|done].
    - destruct t2 as [id' s2 k2]. apply trel_inv in Ht as (-> & HR & HF).
      apply elem_of_list_lookup in Hk as [n Hn].
      destruct (Forall2_lookup_l _ _ _ _ _ HF Hn) as (k' & Hk' & Hkk).
      destruct (IH _ Hkk) as (u2 & Hu2 & Hr). exists u2. split; [|done].
      eapply sub_kid; [|done]. by eapply elem_of_list_lookup_2.
  Qed.

  Theorem trel_view s1 s2 t1 t2 : state_ok C1 s1 t1 -> state_ok C2 s2 t2 -> trel C1 C2 Rs t1 t2 ->
    same_view Rs s1 s2.
  Proof.
    intros H1 H2 Ht.
    assert (Hin : forall id, in_tree s1 id <-> in_tree s2 id).
    { intros id. rewrite (in_tree_ids _ _ _ _ H1), (in_tree_ids _ _ _ _ H2).
      by rewrite (trel_ids _ _ Ht). }
    assert (Hnode : forall id n1 n2, in_tree s1 id ->
      st_heap s1 !! id = Some n1 -> st_heap s2 !! id = Some n2 ->
      nd_parent n1 = nd_parent n2 /\ nd_children n1 = nd_children n2 /\ Rs (nd_sum n1) (nd_sum n2)).
    { intros id n1 n2 Hid E1 E2.
      pose proof (so_rep _ _ _ H1) as R1. pose proof (so_rep _ _ _ H2) as R2.
      apply (in_tree_sub _ _ _ _ H1) in Hid as (u & Hu & <-).
      assert (Hgen : forall p t1 t2, rep C1 (st_heap s1) p t1 -> rep C2 (st_heap s2) p t2 ->
        trel C1 C2 Rs t1 t2 -> sub C1 u t1 ->
        exists q u2, rep C1 (st_heap s1) q u /\ rep C2 (st_heap s2) q u2 /\ trel C1 C2 Rs u u2).
      { clear. intros p t1 t2 R1 R2 Ht Hs. revert p t2 R1 R2 Ht.
        induction Hs as [|id s kids k Hk Hs IH]; intros p t2 R1 R2 Ht; [eauto|].
        destruct t2 as [id' s2' k2]. apply trel_inv in Ht as (-> & HR & HF).
        apply rep_inv in R1 as [_ R1]. apply rep_inv in R2 as [_ R2].
        apply elem_of_list_lookup in Hk as [n Hn].
        destruct (Forall2_lookup_l _ _ _ _ _ HF Hn) as (k' & Hk' & Hkk).
        rewrite Forall_forall in R1. rewrite Forall_forall in R2.
        eapply IH; [apply R1; by eapply elem_of_list_lookup_2|
          apply R2; by eapply elem_of_list_lookup_2|done]. }
      destruct (Hgen None t1 t2 R1 R2 Ht Hu) as (q & u2 & Ru1 & Ru2 & Hr).
      apply rep_lookup in Ru1, Ru2. rewrite (trel_tid _ _ _ _ _ Hr) in *.
      rewrite E1 in Ru1. rewrite E2 in Ru2. injection Ru1 as ->. injection Ru2 as ->. simpl.
      split; [done|]. split; [|by apply trel_tsum in Hr].
      apply trel_tkids in Hr. clear -Hr. induction Hr as [|a b ? ? Hab ? IH]; [done|].
      simpl. by rewrite IH, (trel_tid _ _ _ _ _ Hab). }
    assert (Hal1 : forall id, in_tree s1 id -> exists n, st_heap s1 !! id = Some n).
    { intros id Hid%(in_tree_ids _ _ _ _ H1). eapply rep_dom; [apply H1|done]. }
    assert (Hal2 : forall id, in_tree s1 id -> exists n, st_heap s2 !! id = Some n).
    { intros id Hid%Hin%(in_tree_ids _ _ _ _ H2). eapply rep_dom; [apply H2|done]. }
    split.
    - rewrite (so_root _ _ _ H1), (so_root _ _ _ H2). by eapply trel_tid.
    - done.
    - intros id p Hid. destruct (Hal1 id Hid) as [n1 E1], (Hal2 id Hid) as [n2 E2].
      destruct (Hnode id n1 n2 Hid E1 E2) as (Hp & _). unfold parent_of.
      split; intros (n & E & Hn); [exists n2|exists n1]; (split; [done|]); congruence.
    - intros id p Hid. destruct (Hal1 id Hid) as [n1 E1], (Hal2 id Hid) as [n2 E2].
      destruct (Hnode id n1 n2 Hid E1 E2) as (_ & Hp & _). unfold children_of.
      split; intros (n & E & Hn); [exists n2|exists n1]; (split; [done|]); congruence.
    - intros id tb1 tb2 Hid (n1 & E1 & <-) (n2 & E2 & <-).
      by destruct (Hnode id n1 n2 Hid E1 E2) as (_ & _ & Hp).
  Qed.

  Theorem srel_view s1 s2 : srel s1 s2 -> same_view Rs s1 s2.
  Proof. intros (t1 & t2 & H1 & H2 & Ht & _). by eapply trel_view. Qed.
End Sim.

(** The same tree in two heaps. *)
Lemma same_tree_view {N : NumOps} (C : NodeClass N) s s' t :
  state_ok C s t -> state_ok C s' t -> same_view (C1:=C) (C2:=C) eq s s'.
Proof.
  intros H1 H2. eapply (trel_view C C); [exact H1|exact H2|]. clear.
  induction t as [id s kids IH] using (tree_ind' C). constructor; [done|].
  induction IH; by constructor.
Qed.

Section Clear.
  Context {N : NumOps} (C : NodeClass N) (rng : nat -> num N).
  Hypothesis RC : real_class C.

  Lemma eq_sim : simulation C C eq eq eq.
  Proof. split; [split|]; intros; subst; done. Qed.

  (** A cleared tree behaves as one created at that moment. *)
  Theorem clear_like_new x0 s cs :
    let s1 := snd (mclear C x0 s) in
    let s2 := fresh C (am_ctr (st_amb s)) (am_rpos (st_amb s)) x0 in
    fst (exec C rng x0 cs s1) = fst (exec C rng x0 cs s2) /\
    same_view eq (snd (exec C rng x0 cs s1)) (snd (exec C rng x0 cs s2)).
  Proof.
    cbv zeta.
    assert (Hs : srel C C eq eq (snd (mclear C x0 s))
                   (fresh C (am_ctr (st_amb s)) (am_rpos (st_amb s)) x0)).
    { destruct (clear_runs C x0 s) as (s1 & -> & Hok & Ha & Hx). cbn [snd].
      eexists _, _. split; [exact Hok|]. split; [apply fresh_ok|].
      split; [constructor; [done|constructor]|]. done. }
    assert (Hcs : Forall2 (crel C C eq) cs cs).
    { clear. induction cs as [|c cs IH]; constructor; [|done]. by destruct c. }
    destruct (exec_rel C C rng eq eq eq eq_sim RC x0 x0 cs cs _ _ eq_refl Hcs Hs) as [H1 H2].
    split; [done|]. by eapply srel_view.
  Qed.
End Clear.
