(** * evaluation.py: C55, C56, C79 *)
From stdpp Require Import base decidable list gmap strings.
From Verif Require Import Base Num TreeModel TreeFun TreeScore TreeRefine TreeSorts TreeInv
  SpecTree TreeState TreeLeaf Nominal NominalFacts Utils CV Cobweb3 Query Query3 TrestleFacts Eval.
Set Default Proof Using "Type".
Open Scope list_scope.

Section Props.
  Context {N : NumOps} (C : NodeClass N) (rng : nat -> num N) (E : NodeEval C) (x0 : nc_ctx C).
  Notation F := (num N).
  Notation I := (nc_inst C).
  Notation st := (st C).

  (** Whatever it returns, the tree is the same afterwards; ids and random
      numbers may have been used. *)
  Definition only_asks {X} (m : M C X) : Prop :=
    forall evs s r s', reachable C rng x0 evs s -> m s = (r, s') ->
      st_heap s' = st_heap s /\ st_root s' = st_root s /\ st_ctx s' = st_ctx s /\
      am_ctr (st_amb s) <= am_ctr (st_amb s') /\ am_rpos (st_amb s) <= am_rpos (st_amb s').

  Lemma asked evs s s' : reachable C rng x0 evs s ->
    st_heap s' = st_heap s /\ st_root s' = st_root s /\ st_ctx s' = st_ctx s /\
    am_ctr (st_amb s) <= am_ctr (st_amb s') /\ am_rpos (st_amb s) <= am_rpos (st_amb s') ->
    reachable C rng x0 (evs ++ [EOther]) s'.
  Proof.
    intros (ctr & rpos & Hr) (H1 & H2 & H3 & H4 & H5). exists ctr, rpos. eapply run_snoc; [exact Hr|].
    destruct s' as [h r [c p] x]. simpl in *. subst h r x. by constructor.
  Qed.
  Lemma asks_bind {X Y} (m : M C X) (f : X -> M C Y) : only_asks m -> (forall x, only_asks (f x)) -> only_asks (mbind C m f).
  Proof.
    intros Hm Hf evs s r s' Hr Eq. destruct (m s) as [[v|e] s1] eqn:Em.
    - rewrite (mbind_ok C _ _ _ _ _ Em) in Eq. pose proof (Hm _ _ _ _ Hr Em) as Hfr.
      pose proof (Hf v _ _ _ _ (asked _ _ _ Hr Hfr) Eq) as (G1 & G2 & G3 & G4 & G5).
      destruct Hfr as (H1 & H2 & H3 & H4 & H5). rewrite G1, G2, G3. repeat split; [done..|lia|lia].
    - rewrite (mbind_err C _ _ _ _ _ Em) in Eq. injection Eq as <- <-. by eapply Hm.
  Qed.
  Lemma asks_amb {X} (m : nc_ctx C -> A X) : (forall x, amono (m x)) -> only_asks (mamb C m).
  Proof.
    intros Hm evs s r s' _ Eq. unfold mamb in Eq. pose proof (Hm (st_ctx s) (st_amb s)) as Ha.
    destruct (m (st_ctx s) (st_amb s)) as [r' a']. injection Eq as <- <-. simpl. destruct Ha. repeat split; done.
  Qed.
  Lemma asks_pure {X} (f : st -> res X) : only_asks (fun s => (f s, s)).
  Proof. intros evs s r s' _ [= <- <-]. repeat split; lia. Qed.
  Lemma asks_get c : only_asks (mget C c).
  Proof.
    intros evs s r s' _ Eq. unfold mget in Eq. destruct (st_heap s !! c); injection Eq as <- <-; repeat split; lia.
  Qed.
  Lemma asks_cat i : only_asks (cobweb_categorize C rng i).
  Proof.
    intros evs s r s' Hr Eq. destruct (reachable_ok _ _ _ _ _ Hr) as (t & Hok).
    pose proof (categorize_runs C rng s t i Hok) as E2. cbv zeta in E2. rewrite Eq in E2.
    pose proof (fcat_mono C rng (cob_fuel C s) (st_ctx s) t i (st_amb s)) as Hm.
    destruct (fcat C rng (cob_fuel C s) (st_ctx s) t i (st_amb s)) as [r' a']. cbn [fst snd] in *.
    injection E2 as -> ->. simpl. destruct Hm. repeat split; done.
  Qed.
  Lemma asks_concept i a : only_asks (concept_for C rng E i a).
  Proof.
    apply asks_bind; [apply asks_cat|]. intros c. apply asks_bind; [apply asks_get|]. intros n. apply (asks_pure (fun _ => Ok (nd_sum n))).
  Qed.
  Lemma asks_probability i a v : only_asks (score_probability C rng E i a v).
  Proof. apply asks_bind; [apply asks_concept|]. intros tb. apply asks_amb. intros x. apply amono_lift. Qed.
  Lemma asks_error i a v : (forall x tb, amono (ne_pred E x tb a)) -> only_asks (score_error C rng E i a v).
  Proof.
    intros Hp. apply asks_bind; [apply asks_concept|]. intros tb. apply asks_bind; [by apply asks_amb|]. intros p.
    apply (asks_pure (fun _ => error_of C E v p)).
  Qed.
  Lemma asks_squared_error i a v : (forall x tb, amono (ne_pred E x tb a)) -> only_asks (score_squared_error C rng E i a v).
  Proof.
    intros Hp. apply asks_bind; [by apply asks_error|]. intros e. apply (asks_pure (fun _ => Ok (nmul N e e))).
  Qed.
  Lemma asks_absolute_error i a v : (forall x tb, amono (ne_pred E x tb a)) -> only_asks (score_absolute_error C rng E i a v).
  Proof.
    intros Hp. apply asks_bind; [by apply asks_error|]. intros e. apply (asks_pure (fun _ => Ok (nabs (N:=N) e))).
  Qed.
  (** The error scores, when the concept's prediction does not depend on
      random numbers. *)
  Lemma error_leaf i a v s j s1 n p : cobweb_categorize C rng (hide C E i a) s = (Ok j, s1) -> st_heap s1 !! j = Some n ->
    (forall x am, fst (ne_pred E x (nd_sum n) a am) = Ok p) ->
    let r := error_of C E v p in
    fst (score_error C rng E i a v s) = r /\
    fst (score_absolute_error C rng E i a v s) = rbind r (fun e => Ok (nabs e)) /\
    fst (score_squared_error C rng E i a v s) = rbind r (fun e => Ok (nmul N e e)).
  Proof.
    intros Ec Hn Hp r.
    assert (Ee : exists s2, score_error C rng E i a v s = (r, s2)).
    { unfold score_error, concept_for.
      assert (Em : mbind C (cobweb_categorize C rng (hide C E i a)) (fun c => mbind C (mget C c) (fun n => mret C (nd_sum n))) s = (Ok (nd_sum n), s1)).
      { rewrite (mbind_ok C _ _ _ _ _ Ec). assert (Hg : mget C j s1 = (Ok n, s1)) by (unfold mget; by rewrite Hn).
        rewrite (mbind_ok C _ _ _ _ _ Hg). done. }
      rewrite (mbind_ok C _ _ _ _ _ Em). unfold mbind, mamb. specialize (Hp (st_ctx s1) (st_amb s1)).
      destruct (ne_pred E (st_ctx s1) (nd_sum n) a (st_amb s1)) as [r' am']. simpl in Hp. subst r'. by eexists. }
    destruct Ee as (s2 & Ee). rewrite Ee. split; [done|]. unfold score_absolute_error, score_squared_error.
    destruct r as [y|e].
    - by rewrite !(mbind_ok C _ _ _ _ _ Ee).
    - by rewrite !(mbind_err C _ _ _ _ _ Ee).
  Qed.

  (** ** C55 *)
  Section Runs.
    Context (score : I -> attr -> option (ne_val E) -> M C F) (shuffled : nat -> list I -> list I) (a : attr).
    Hypothesis Hask : forall i v, only_asks (score i a v).

    (** Calls that returned, all with instances of [l]. *)
    Definition fits_of (l : list I) (evs : list (event C)) : Prop :=
      all_ok evs /\ all_inst (fun i => i ∈ l) evs.
    (** The [k]-th score of [row] is that of the [k]-th instance of [l] given to
        a tree that was fitted, since it was cleared, with the instances
        before it ([evs0] are the calls before the evaluation). *)
    Definition tested_first (evs0 : list (event C)) (l : list I) (row : list F) : Prop :=
      forall k y, row !! k = Some y -> exists i evs s1 s2,
        l !! k = Some i /\ reachable C rng x0 (evs0 ++ evs) s1 /\ fits_of l evs /\
        history (evs0 ++ evs) = take k l /\
        score i a (ne_get E i a) s1 = (Ok y, s2).

    Lemma fits_of_perm l l' evs : Permutation l l' -> fits_of l evs -> fits_of l' evs.
    Proof.
      intros Hp [H1 H2]. split; [done|]. eapply Forall_impl; [exact H2|]. intros e He i Hi. rewrite <- Hp. by apply He.
    Qed.
    Lemma fits_nil l : fits_of l [].
    Proof. split; apply Forall_nil_2. Qed.
    Lemma fits_of_app l evs evs' : fits_of l evs -> fits_of l evs' -> fits_of l (evs ++ evs').
    Proof. intros [H1 H2] [H3 H4]. split; by apply Forall_app. Qed.

    Lemma row_ok l : forall evs s row s', reachable C rng x0 evs s -> eval_row C rng E score a l s = (Ok row, s') ->
      length row = length l /\
      (exists ext, reachable C rng x0 (evs ++ ext) s' /\ history (evs ++ ext) = history evs ++ l /\ fits_of l ext) /\
      forall k y, row !! k = Some y -> exists i ext s1 s2,
        l !! k = Some i /\ reachable C rng x0 (evs ++ ext) s1 /\ history (evs ++ ext) = history evs ++ take k l /\ fits_of l ext /\
        score i a (ne_get E i a) s1 = (Ok y, s2).
    Proof using Hask.
      induction l as [|i l IH]; intros evs s row s' Hr Eq; simpl in Eq.
      { injection Eq as <- <-. split; [done|]. split; [|intros k y Hk; by rewrite lookup_nil in Hk]. exists []. rewrite !app_nil_r. split; [done|]. split; [done|]. apply fits_nil. }
      destruct (score i a (ne_get E i a) s) as [[y|e] s1] eqn:E1; [|by rewrite (mbind_err C _ _ _ _ _ E1) in Eq].
      rewrite (mbind_ok C _ _ _ _ _ E1) in Eq.
      destruct (cobweb C rng i s1) as [[j|e] s2] eqn:E2; [|by rewrite (mbind_err C _ _ _ _ _ E2) in Eq].
      rewrite (mbind_ok C _ _ _ _ _ E2) in Eq.
      destruct (eval_row C rng E score a l s2) as [[ys|e] s3] eqn:E3; [|by rewrite (mbind_err C _ _ _ _ _ E3) in Eq].
      rewrite (mbind_ok C _ _ _ _ _ E3) in Eq. injection Eq as <- <-.
      pose proof (asked _ _ _ Hr (Hask _ _ _ _ _ _ Hr E1)) as Hr1.
      assert (Hr2 : reachable C rng x0 ((evs ++ [EOther]) ++ [EFit i (Ok j)]) s2).
      { destruct Hr1 as (ctr & rpos & Hr1). exists ctr, rpos. eapply run_snoc; [exact Hr1|]. by constructor. }
      assert (Eh : history ((evs ++ [EOther]) ++ [EFit i (Ok j)]) = history evs ++ [i]) by (rewrite !history_snoc; done).
      assert (Hcons : forall ext, fits_of l ext -> fits_of (i :: l) ([EOther; EFit i (Ok j)] ++ ext)).
      { intros ext [F1 F2]. split.
        - repeat (apply Forall_cons_2; [done|]). done.
        - apply Forall_cons_2; [done|]. apply Forall_cons_2; [intros i' ->; left|].
          eapply Forall_impl; [exact F2|]. intros e He i' Hi'. right. by apply He. }
      destruct (IH _ _ _ _ Hr2 E3) as (L1 & (ext & L2 & L3 & L4) & L5). rewrite Eh in L3, L5.
      rewrite <- !app_assoc in L2, L3. cbn [app] in L2, L3.
      split; [simpl; by rewrite L1|]. split.
      { exists ([EOther; EFit i (Ok j)] ++ ext). cbn [app]. split; [done|]. split; [by rewrite L3, <- app_assoc|]. by apply Hcons. }
      intros [|k] y' Hk; simpl in Hk.
      - injection Hk as <-. exists i, [], s, s1. rewrite !app_nil_r. split; [done|]. split; [done|]. split; [done|]. split; [|done].
        apply fits_nil.
      - destruct (L5 k y' Hk) as (i' & ev & u1 & u2 & M1 & M2 & M3 & M4 & M5). rewrite <- !app_assoc in M2, M3. cbn [app] in M2, M3.
        exists i', ([EOther; EFit i (Ok j)] ++ ev), u1, u2. cbn [app].
        split; [done|]. split; [done|]. split; [by rewrite M3, <- app_assoc|]. split; [|done]. by apply Hcons.
    Qed.

    Hypothesis Hshuf : forall r l, Permutation l (shuffled r l).

    Lemma clear_reach evs s s' : reachable C rng x0 evs s -> mclear C x0 s = (Ok tt, s') -> reachable C rng x0 (evs ++ [EClear]) s'.
    Proof. intros (ctr & rpos & Hr) Ec. exists ctr, rpos. eapply run_snoc; [exact Hr|]. by constructor. Qed.
    Lemma clear_runs s : exists s', mclear C x0 s = (Ok tt, s').
    Proof. eexists. reflexivity. Qed.
    Lemma take_fits n l ext : fits_of (take n l) ext -> fits_of l ([EClear] ++ ext).
    Proof.
      intros [F1 F2]. split; (apply Forall_cons_2; [done|]); [done|]. eapply Forall_impl; [exact F2|].
      intros e He i Hi. specialize (He i Hi). rewrite <- (take_drop n l). apply elem_of_app. by left.
    Qed.

    Lemma runs_ok run_length n : forall r rf l evs s table l' s',
      reachable C rng x0 evs s -> eval_runs C rng E x0 score shuffled a run_length n r rf l s = (Ok (table, l'), s') ->
      Permutation l l' /\ length table = n /\
      (exists ext, reachable C rng x0 (evs ++ ext) s' /\ fits_of l ext /\ (0 < n -> history (evs ++ ext) = take (run_length + 2) l')) /\
      forall k row, table !! k = Some row -> exists lk,
        Permutation l lk /\ (rf = false -> r = 0 -> k = 0 -> lk = l) /\
        length row = Nat.min (run_length + 2) (length l) /\ tested_first evs lk row.
    Proof using Hask Hshuf.
      induction n as [|n IH]; intros r rf l evs s table l' s' Hr Eq; cbn [eval_runs] in Eq.
      { injection Eq as <- <- <-. split; [done|]. split; [done|]. split; [|intros k row Hk; by rewrite lookup_nil in Hk].
        exists []. rewrite app_nil_r. split; [done|]. split; [apply fits_nil|lia]. }
      destruct (clear_runs s) as (s1 & E1). rewrite (mbind_ok C _ _ _ _ _ E1) in Eq. cbv zeta in Eq.
      set (lr := if rf || (0 <? r)%nat then shuffled r l else l) in Eq.
      assert (Hp : Permutation l lr). { unfold lr. destruct (rf || (0 <? r)%nat); [apply Hshuf|done]. }
      pose proof (clear_reach _ _ _ Hr E1) as Hr1.
      destruct (eval_row C rng E score a (take (run_length + 2) lr) s1) as [[row|e] s2] eqn:E2; [|by rewrite (mbind_err C _ _ _ _ _ E2) in Eq].
      rewrite (mbind_ok C _ _ _ _ _ E2) in Eq.
      destruct (row_ok _ _ _ _ _ Hr1 E2) as (L1 & (ext2 & Hr2 & L2 & L2') & L3).
      assert (Eh : history (evs ++ [EClear]) = ([] : list I)) by (by rewrite history_snoc). rewrite Eh in L2, L3. cbn [app] in L2, L3.
      destruct (eval_runs C rng E x0 score shuffled a run_length n (S r) rf lr s2) as [[[tb le]|e] s3] eqn:E3;
        [|by rewrite (mbind_err C _ _ _ _ _ E3) in Eq].
      rewrite (mbind_ok C _ _ _ _ _ E3) in Eq. injection Eq as <- <- <-.
      destruct (IH _ _ _ _ _ _ _ _ Hr2 E3) as (K1 & K2 & K3 & K4). cbn [fst snd].
      pose proof (take_fits _ _ _ L2') as L2s.
      split; [by etrans|]. split; [simpl; by rewrite K2|]. split.
      { destruct n as [|n].
        - cbn [eval_runs] in E3. injection E3 as <- <- <-. exists ([EClear] ++ ext2). rewrite app_assoc.
          split; [done|]. split; [by apply (fits_of_perm lr)|done].
        - destruct K3 as (ext & G1 & G0 & G2). exists ([EClear] ++ ext2 ++ ext). rewrite <- !app_assoc in G1, G2.
          split; [exact G1|]. split; [|intros _; apply G2; lia].
          rewrite app_assoc. apply (fits_of_perm lr); [done|]. by apply fits_of_app. }
      intros [|k] row' Hk; simpl in Hk.
      - injection Hk as <-. exists lr. split; [done|]. split.
        { intros -> -> _. done. }
        split. { rewrite L1, take_length. by rewrite (Permutation_length Hp). }
        intros k y Hy. destruct (L3 k y Hy) as (i & ev & u1 & u2 & M1 & M2 & M3 & M4 & M5).
        assert (Hkl : k < run_length + 2). { apply lookup_lt_Some in Hy. rewrite L1, take_length in Hy. lia. }
        exists i, ([EClear] ++ ev), u1, u2. rewrite lookup_take in M1 by lia. rewrite take_take, Nat.min_l in M3 by lia.
        rewrite app_assoc. split; [done|]. split; [done|]. split; [by eapply take_fits|]. done.
      - destruct (K4 k row' Hk) as (lk & P1 & P2 & P3 & P4). exists lk. split; [by etrans|]. split; [done|].
        split. { rewrite P3. by rewrite (Permutation_length Hp). }
        intros m y Hy. destruct (P4 m y Hy) as (i & ev & u1 & u2 & M1 & M2 & M3 & M4 & M5).
        exists i, ([EClear] ++ ext2 ++ ev), u1, u2. rewrite <- !app_assoc in M2, M4.
        split; [done|]. split; [exact M2|]. split; [|by split].
        rewrite app_assoc. apply fits_of_app; [|done]. by apply (fits_of_perm lr).
    Qed.

    (** Every score is computed on a tree trained with exactly the instances
        that come before in a permutation of the instances. *)
    Theorem C55_tests_before_training evs s l run_length runs rf table l' s' :
      reachable C rng x0 evs s ->
      incremental_evaluation C rng E x0 score shuffled l a run_length runs rf s = (Ok (table, l'), s') ->
      Permutation l l' /\ length table = runs /\
      (exists ext, reachable C rng x0 (evs ++ ext) s' /\ fits_of l ext /\
         (0 < runs -> history (evs ++ ext) = take (run_length + 2) l')) /\
      forall k row, table !! k = Some row -> exists lk,
        Permutation l lk /\ (rf = false -> k = 0 -> lk = l) /\ tested_first evs lk row.
    Proof using Hask Hshuf.
      intros Hr Eq. destruct (runs_ok _ _ _ _ _ _ _ _ _ _ Hr Eq) as (K1 & K2 & K3 & K4).
      split; [done|]. split; [done|]. split; [done|]. intros k row Hk.
      destruct (K4 k row Hk) as (lk & P1 & P2 & P3 & P4). exists lk. split; [done|]. split; [|done]. intros Hf. by apply P2.
    Qed.

    (** ** C56: the number of columns *)
    Theorem C56_row_length evs s l run_length runs rf table l' s' row :
      reachable C rng x0 evs s ->
      incremental_evaluation C rng E x0 score shuffled l a run_length runs rf s = (Ok (table, l'), s') ->
      row ∈ table -> length row = Nat.min (run_length + 2) (length l).
    Proof using Hask Hshuf.
      intros Hr Eq Hrow. destruct (runs_ok _ _ _ _ _ _ _ _ _ _ Hr Eq) as (_ & _ & _ & K4).
      apply elem_of_list_lookup in Hrow as (k & Hk). by destruct (K4 k row Hk) as (lk & _ & _ & H & _).
    Qed.

    (** ** When it returns (C79, C84): if [P]-instances can be fitted and
        [Q]-instances scored by a tree of [Q]-instances. *)
    Context (P Q : I -> Prop) (W : F -> Prop).
    Hypothesis HQP : forall i, Q i -> P i.
    Hypothesis Hfit : forall evs s i, reachable C rng x0 evs s -> all_inst P evs -> P i -> exists j, fst (cobweb C rng i s) = Ok j.
    Hypothesis Hsc : forall evs s i, reachable C rng x0 evs s -> all_inst P evs -> Forall Q (history evs) -> Q i ->
      exists y s', score i a (ne_get E i a) s = (Ok y, s') /\ W y.

    Lemma row_total l : forall evs s, reachable C rng x0 evs s -> all_inst P evs -> Forall Q (history evs) -> Forall Q l ->
      exists row s' ext, eval_row C rng E score a l s = (Ok row, s') /\ Forall W row /\ reachable C rng x0 (evs ++ ext) s' /\ all_inst P (evs ++ ext).
    Proof using Hask HQP Hfit Hsc.
      induction l as [|i l IH]; intros evs s Hr Hg Hh Hl; simpl.
      { exists [], s, []. rewrite app_nil_r. split; [done|]. split; [by apply Forall_nil_2|done]. }
      apply Forall_cons in Hl as [Hi Hl]. destruct (Hsc evs s i Hr Hg Hh Hi) as (y & s1 & E1 & Wy).
      rewrite (mbind_ok C _ _ _ _ _ E1).
      assert (Hr1 : reachable C rng x0 (evs ++ [EOther]) s1). { eapply asked; [done|]. eapply Hask; [exact Hr|exact E1]. }
      assert (Hg1 : all_inst P (evs ++ [EOther])). { apply Forall_app. split; [done|]. by apply Forall_singleton. }
      destruct (Hfit _ s1 i Hr1 Hg1 (HQP i Hi)) as (j & Hj). destruct (cobweb C rng i s1) as [r2 s2] eqn:E2. simpl in Hj. subst r2.
      rewrite (mbind_ok C _ _ _ _ _ E2).
      assert (Hr2 : reachable C rng x0 ((evs ++ [EOther]) ++ [EFit i (Ok j)]) s2).
      { destruct Hr1 as (ctr & rpos & Hr1). exists ctr, rpos. eapply run_snoc; [exact Hr1|]. by constructor. }
      assert (Hg2 : all_inst P ((evs ++ [EOther]) ++ [EFit i (Ok j)])).
      { apply Forall_app. split; [done|]. apply Forall_singleton. intros i' ->. by apply HQP. }
      assert (Hh2 : Forall Q (history ((evs ++ [EOther]) ++ [EFit i (Ok j)]))).
      { rewrite !history_snoc. simpl. apply Forall_app. split; [done|]. by apply Forall_singleton. }
      destruct (IH _ _ Hr2 Hg2 Hh2 Hl) as (row & s3 & ext & E3 & Wr & Hr3 & Hg3). rewrite (mbind_ok C _ _ _ _ _ E3).
      exists (y :: row), s3, ([EOther; EFit i (Ok j)] ++ ext). split; [done|]. split; [by apply Forall_cons_2|]. rewrite <- !app_assoc in Hr3, Hg3. done.
    Qed.

    Lemma evaluation_total evs s l run_length runs rf :
      reachable C rng x0 evs s -> all_inst P evs -> Forall Q l ->
      exists table l' s', incremental_evaluation C rng E x0 score shuffled l a run_length runs rf s = (Ok (table, l'), s') /\ Forall (Forall W) table.
    Proof using Hask Hshuf HQP Hfit Hsc.
      unfold incremental_evaluation. generalize 0 as r. revert evs s l.
      induction runs as [|n IH]; intros evs s l r Hr Hg Hl; cbn [eval_runs]; [eexists [], l, s; split; [done|by apply Forall_nil_2]|].
      destruct (clear_runs s) as (s1 & E1). rewrite (mbind_ok C _ _ _ _ _ E1). cbv zeta.
      set (lr := if rf || (0 <? r)%nat then shuffled r l else l).
      assert (Hp : Permutation l lr). { unfold lr. destruct (rf || (0 <? r)%nat); [apply Hshuf|done]. }
      assert (Hlr : Forall Q lr) by (by rewrite <- Hp).
      pose proof (clear_reach _ _ _ Hr E1) as Hr1.
      assert (Hg1 : all_inst P (evs ++ [EClear])). { apply Forall_app. split; [done|]. by apply Forall_singleton. }
      destruct (row_total (take (run_length + 2) lr) _ _ Hr1 Hg1) as (row & s2 & ext & E2 & Wr & Hr2 & Hg2);
        [by rewrite history_snoc; apply Forall_nil_2|by apply Forall_take|].
      rewrite (mbind_ok C _ _ _ _ _ E2).
      destruct (IH _ _ lr (S r) Hr2 Hg2 Hlr) as (tb & l' & s3 & E3 & Wt). rewrite (mbind_ok C _ _ _ _ _ E3). simpl. eexists _, _, _. split; [done|]. by apply Forall_cons_2.
    Qed.

    (** If the first score raises, so does the evaluation. *)
    Lemma first_score_raises e l run_length runs rf s :
      (forall i s1, i ∈ l -> mclear C x0 s = (Ok tt, s1) -> fst (score i a (ne_get E i a) s1) = Err e) -> 0 < runs -> l <> [] ->
      fst (incremental_evaluation C rng E x0 score shuffled l a run_length runs rf s) = Err e.
    Proof using Hshuf.
      intros He Hn Hl. destruct runs as [|n]; [lia|]. unfold incremental_evaluation. cbn [eval_runs]. destruct (clear_runs s) as (s1 & E1).
      rewrite (mbind_ok C _ _ _ _ _ E1). cbv zeta.
      set (lr := if rf || (0 <? 0)%nat then shuffled 0 l else l).
      assert (Hp : Permutation l lr). { unfold lr. destruct (rf || (0 <? 0)%nat); [apply Hshuf|done]. }
      destruct lr as [|i lr]; [by apply Permutation_nil_r in Hp|].
      replace (run_length + 2) with (S (S run_length)) by lia. cbn [take eval_row].
      specialize (He i s1 ltac:(rewrite Hp; left) E1).
      unfold mbind. destruct (score i a (ne_get E i a) s1) as [r s2]. simpl in He. by subst r.
    Qed.
  End Runs.
End Props.

Print Assumptions C55_tests_before_training.
Print Assumptions C56_row_length.
