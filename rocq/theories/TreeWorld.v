(** * Two runs whose relation depends on what has been fitted so far.

    [TreeSim] relates two runs by fixed relations.  Here the relations are
    indexed by a "world", which grows with every fit. *)
From stdpp Require Import base decidable list gmap strings.
From Verif Require Import Base Num TreeModel TreeFun TreeScore TreeRefine TreeSorts TreeInv
  SpecTree TreeState TreeRel TreeSim.

Section World.
  Context {N : NumOps} (C1 C2 : NodeClass N) (rng : nat -> num N).
  Context {W : Type}.
  Variable Rs : W -> nc_sum C1 -> nc_sum C2 -> Prop.
  Variable Ri : W -> nc_inst C1 -> nc_inst C2 -> Prop.
  Variable Rx : W -> nc_ctx C1 -> nc_ctx C2 -> Prop.
  (** [next w i1 i2 w']: in world [w], fitting [i1] on one side and [i2] on the
      other leads to world [w']. *)
  Variable next : W -> nc_inst C1 -> nc_inst C2 -> W -> Prop.

  Record world_sim : Prop := {
    ws_local : forall w, local_sim C1 C2 (Rs w) (Ri w) (Rx w);
    ws_inst : forall w i1 i2 w', next w i1 i2 w' -> Ri w' i1 i2;
    ws_ctx : forall w i1 i2 w' x1 x2, next w i1 i2 w' -> Rx w x1 x2 ->
      Rx w' (nc_pre C1 x1 i1) (nc_pre C2 x2 i2);
    ws_mono : forall w i1 i2 w' s1 s2, next w i1 i2 w' -> Rs w s1 s2 -> Rs w' s1 s2;
  }.
  Hypothesis Sim : world_sim.
  Hypothesis RC2 : real_class C2.
  Variable w0 : W.

  (** Related sequences of calls. *)
  Inductive wcalls : W -> list (call C1) -> list (call C2) -> W -> Prop :=
  | wc_nil w : wcalls w [] [] w
  | wc_fit w i1 i2 w' cs1 cs2 w'' : next w i1 i2 w' -> wcalls w' cs1 cs2 w'' ->
      wcalls w (CFit i1 :: cs1) (CFit i2 :: cs2) w''
  | wc_cat w i1 i2 cs1 cs2 w'' : Ri w i1 i2 -> wcalls w cs1 cs2 w'' ->
      wcalls w (CCat i1 :: cs1) (CCat i2 :: cs2) w''
  | wc_other w a b cs1 cs2 w'' : wcalls w cs1 cs2 w'' ->
      wcalls w (COther a b :: cs1) (COther a b :: cs2) w''
  | wc_clear w cs1 cs2 w'' : wcalls w0 cs1 cs2 w'' ->
      wcalls w (CClear :: cs1) (CClear :: cs2) w''.

  Notation wrel w := (srel C1 C2 (Rs w) (Rx w)).

  Lemma trel_mono (R R' : nc_sum C1 -> nc_sum C2 -> Prop) t1 : (forall a b, R a b -> R' a b) ->
    forall t2, trel C1 C2 R t1 t2 -> trel C1 C2 R' t1 t2.
  Proof.
    intros HR. induction t1 as [id s1 k1 IH] using (tree_ind' C1).
    intros [id' s2 k2] (-> & Hs & Hk)%trel_inv. constructor; [auto|].
    induction Hk as [|a b k1 k2 Hab Hk IHk]; [constructor|].
    apply Forall_cons in IH as [IHa IH]. constructor; [auto|]. auto.
  Qed.

  Lemma wcobweb_rel w i1 i2 w' s1 s2 : wrel w s1 s2 -> next w i1 i2 w' ->
    fst (cobweb C1 rng i1 s1) = fst (cobweb C2 rng i2 s2) /\
    wrel w' (snd (cobweb C1 rng i1 s1)) (snd (cobweb C2 rng i2 s2)).
  Proof.
    intros (t1 & t2 & H1 & H2 & Ht & Ha & Hx) Hn.
    apply (trel_mono _ (Rs w')) in Ht; [|intros a b; by eapply ws_mono].
    destruct (cobweb_runs C1 rng s1 t1 i1 H1) as (s1' & E1 & Hok1 & Ha1 & Hx1).
    destruct (cobweb_runs C2 rng s2 t2 i2 H2) as (s2' & E2 & Hok2 & Ha2 & Hx2).
    rewrite E1, E2. cbn [fst snd].
    assert (Ho : orel C1 C2 (Rs w') (cob_out C1 rng s1 t1 i1) (cob_out C2 rng s2 t2 i2)).
    { unfold cob_out.
      rewrite (fcob_fuel C2 rng RC2 _ (cob_fuel C1 s1)).
      - rewrite <- Ha. apply (fcob_rel C1 C2 rng (Rs w') (Ri w') (Rx w')).
        + by apply ws_local.
        + by eapply ws_ctx.
        + done.
        + by eapply ws_inst.
      - apply H2.
      - apply H2.
      - by apply state_fuel.
      - rewrite <- (trel_tsize _ _ _ _ _ Ht). by apply state_fuel. }
    destruct Ho as (O1 & O2 & O3 & O4).
    split; [done|]. eexists _, _. split; [exact Hok1|]. split; [exact Hok2|].
    split; [done|]. split; [congruence|]. rewrite Hx1, Hx2. by eapply ws_ctx.
  Qed.

  Lemma wcat_rel w s1 s2 i1 i2 : wrel w s1 s2 -> Ri w i1 i2 ->
    fst (cobweb_categorize C1 rng i1 s1) = fst (cobweb_categorize C2 rng i2 s2) /\
    wrel w (snd (cobweb_categorize C1 rng i1 s1)) (snd (cobweb_categorize C2 rng i2 s2)).
  Proof.
    intros (t1 & t2 & H1 & H2 & Ht & Ha & Hx) Hi.
    rewrite (categorize_runs C1 rng s1 t1 i1 H1), (categorize_runs C2 rng s2 t2 i2 H2).
    cbv zeta. cbn [fst snd].
    rewrite (fcat_fuel C2 rng RC2 _ (cob_fuel C1 s1)).
    - rewrite <- Ha.
      rewrite (fcat_rel C1 C2 rng (Rs w) (Ri w) (Rx w) (ws_local Sim w) _ _ (st_ctx s2) _ t2 _ i2) by done.
      split; [done|]. exists t1, t2.
      pose proof (fcat_mono C2 rng (cob_fuel C1 s1) (st_ctx s2) t2 i2 (st_amb s1)) as [Hm _].
      split; [by apply state_ok_amb|]. split; [apply state_ok_amb; [done|by rewrite <- Ha]|]. done.
    - apply H2.
    - by apply state_fuel.
    - rewrite <- (trel_tsize _ _ _ _ _ Ht). by apply state_fuel.
  Qed.

  Theorem wexec_rel x1 x2 w cs1 cs2 w' : Rx w0 x1 x2 -> wcalls w cs1 cs2 w' ->
    forall s1 s2, wrel w s1 s2 ->
    fst (exec C1 rng x1 cs1 s1) = fst (exec C2 rng x2 cs2 s2) /\
    wrel w' (snd (exec C1 rng x1 cs1 s1)) (snd (exec C2 rng x2 cs2 s2)).
  Proof.
    intros Hx0 Hcs.
    assert (Hstep : forall w1 c1 c2 cs1 cs2 w2 w' s1 s2,
      fst (exec1 C1 rng x1 c1 s1) = fst (exec1 C2 rng x2 c2 s2) /\
        wrel w1 (snd (exec1 C1 rng x1 c1 s1)) (snd (exec1 C2 rng x2 c2 s2)) ->
      w1 = w2 ->
      (forall s1 s2, wrel w2 s1 s2 -> fst (exec C1 rng x1 cs1 s1) = fst (exec C2 rng x2 cs2 s2) /\
        wrel w' (snd (exec C1 rng x1 cs1 s1)) (snd (exec C2 rng x2 cs2 s2))) ->
      fst (exec C1 rng x1 (c1 :: cs1) s1) = fst (exec C2 rng x2 (c2 :: cs2) s2) /\
        wrel w' (snd (exec C1 rng x1 (c1 :: cs1) s1)) (snd (exec C2 rng x2 (c2 :: cs2) s2))).
    { clear. intros w1 c1 c2 cs1 cs2 w2 w' s1 s2 [E1 Hs1] <- IH. cbn [exec].
      destruct (exec1 C1 rng x1 c1 s1) as [r1 s1'], (exec1 C2 rng x2 c2 s2) as [r2 s2'].
      cbn [fst snd] in *. subst r2.
      destruct (IH _ _ Hs1) as [E2 Hs2].
      destruct (exec C1 rng x1 cs1 s1') as [rs1 s1''], (exec C2 rng x2 cs2 s2') as [rs2 s2''].
      cbn [fst snd] in *. by subst rs2. }
    induction Hcs as [w|w i1 i2 w' cs1 cs2 w'' Hn Hcs IH|w i1 i2 cs1 cs2 w'' Hi Hcs IH
      |w a b cs1 cs2 w'' Hcs IH|w cs1 cs2 w'' Hcs IH]; intros s1 s2 Hs.
    - done.
    - eapply Hstep; [|reflexivity|exact IH]. by eapply wcobweb_rel.
    - eapply Hstep; [|reflexivity|exact IH]. by apply wcat_rel.
    - eapply Hstep; [|reflexivity|exact IH]. cbn [exec1 fst snd]. split; [done|].
      destruct Hs as (t1 & t2 & H1 & H2 & Ht & Ha & Hx'). exists t1, t2.
      rewrite Ha. split; [apply state_ok_amb; [done|]; rewrite Ha; simpl; lia|].
      split; [apply state_ok_amb; [done|]; simpl; lia|]. done.
    - eapply Hstep; [|reflexivity|exact IH]. cbn [exec1 fst snd]. split; [done|].
      destruct Hs as (t1 & t2 & H1 & H2 & Ht & Ha & Hx').
      destruct (clear_runs C1 x1 s1) as (s1' & -> & Hok1 & Ha1 & Hx1).
      destruct (clear_runs C2 x2 s2) as (s2' & -> & Hok2 & Ha2 & Hx2).
      cbn [snd]. rewrite Ha in Hok1, Ha1.
      eexists _, _. split; [exact Hok1|]. split; [exact Hok2|].
      split; [constructor; [apply (sim_empty _ _ _ _ _ (ws_local Sim w0))|constructor]|].
      split; [congruence|]. by rewrite Hx1, Hx2.
  Qed.

  Lemma wrel_fresh ctr rpos x1 x2 : Rx w0 x1 x2 -> wrel w0 (fresh C1 ctr rpos x1) (fresh C2 ctr rpos x2).
  Proof.
    intros Hx. eexists _, _. split; [apply fresh_ok|]. split; [apply fresh_ok|].
    split; [constructor; [apply (sim_empty _ _ _ _ _ (ws_local Sim w0))|constructor]|]. done.
  Qed.
End World.
