(** * Random choice and simple statistics (utils.py), over exact arithmetic
    (C39, C40).

    [rng] is the stream of random() values, [a] says how many have been used;
    the next one is [rng (am_rpos a)]. *)
From Coq Require Import Reals Lra.
From stdpp Require Import base decidable tactics strings list list_numbers.
From Verif Require Import Base Num TreeModel TreeScore SortFacts RSum Utils.
Local Open Scope R_scope.

Lemma fold_Rplus l : forall x, fold_left Rplus l x = x + Rsum (fun w => w) l.
Proof. induction l as [|w l IH]; intros x; simpl; [lra|]. rewrite IH. lra. Qed.

Section Sampling.
  Context {X : Type} (rng : nat -> R).

  (** Total weight, and the total weight of the options before option [k]. *)
  Definition total (l : list (X * R)) : R := Rsum snd l.
  Definition before (l : list (X * R)) (k : nat) : R := Rsum snd (take k l).
  Definition nonneg (l : list (X * R)) : Prop := Forall (fun p => 0 <= snd p) l.

  Lemma total_nonneg l : nonneg l -> 0 <= total l.
  Proof. unfold total. induction 1 as [|p l Hp Hl IH]; simpl in *; lra. Qed.

  Lemma wc_total (l : list (X * R)) : nsum_list (N:=ROps) (map snd l) = total l.
  Proof.
    unfold nsum_list, total. change (nadd ROps) with Rplus. rewrite fold_Rplus, Rsum_map.
    change (0 + Rsum snd l = Rsum snd l). lra.
  Qed.

  Lemma wc_unfold l a : fst (weighted_choice (N:=ROps) rng l a) =
    wc_loop (N:=ROps) (total l * rng (am_rpos a)) 0 l.
  Proof.
    unfold weighted_choice, uniform, random_, abind, aret, alift. simpl.
    rewrite wc_total. simpl. f_equal. change (nofnat ROps 0) with 0. simpl. lra.
  Qed.

  Lemma wc_loop_chosen (l : list (X * R)) c : forall r u,
    u <= r -> wc_loop (N:=ROps) r u l = Ok c ->
    exists k w, l !! k = Some (c, w) /\ 0 < w /\ u + before l k <= r < u + before l k + w.
  Proof.
    induction l as [|[c' w] l IH]; intros r u Hu E; [done|]. simpl in E.
    destruct (Rltb w 0) eqn:Ew; [done|]. destruct (Rltb r (u + w)) eqn:Er.
    - injection E as ->. exists 0%nat, w. apply Rltb_true in Er. unfold before. simpl.
      split; [done|]. lra.
    - apply Rltb_false in Er. destruct (IH _ _ Er E) as (k & w' & Hk & Hw & Hb).
      exists (S k), w'. split; [done|]. split; [done|]. unfold before in *. simpl. lra.
  Qed.

  Lemma wc_loop_interval (l : list (X * R)) : nonneg l -> forall k c w r u,
    l !! k = Some (c, w) -> u + before l k <= r < u + before l k + w ->
    wc_loop (N:=ROps) r u l = Ok c.
  Proof.
    unfold before. induction 1 as [|[c' w'] l Hp Hl IH]; intros k c w r u Hk Hr; [done|]. simpl in *.
    destruct (Rltb w' 0) eqn:Ew; [apply Rltb_true in Ew; lra|]. destruct k as [|k]; simpl in *.
    - injection Hk as -> ->. destruct (Rltb r (u + w)) eqn:Er; [done|]. apply Rltb_false in Er. lra.
    - assert (Hb : 0 <= Rsum snd (take k l)).
      { apply total_nonneg. by apply Forall_take. }
      destruct (Rltb r (u + w')) eqn:Er; [apply Rltb_true in Er; lra|].
      apply (IH k c w); [done|]. lra.
  Qed.

  Lemma wc_loop_err (l : list (X * R)) e : forall r u,
    wc_loop (N:=ROps) r u l = Err e ->
    e = ValueError /\ ((exists p, p ∈ l /\ snd p < 0) \/ (nonneg l /\ (l = [] \/ u + total l <= r))).
  Proof.
    unfold total. induction l as [|[c' w] l IH]; intros r u E; simpl in E.
    - injection E as <-. split; [done|]. right. split; [constructor|]. by left.
    - destruct (Rltb w 0) eqn:Ew.
      + injection E as <-. apply Rltb_true in Ew. split; [done|]. left. exists (c', w). split; [left|done].
      + apply Rltb_false in Ew. destruct (Rltb r (u + w)) eqn:Er; [done|]. apply Rltb_false in Er.
        destruct (IH _ _ E) as [-> [(p & Hp & Hn)|[Hn Hr]]]; split; try done.
        * left. exists p. split; [by right|done].
        * right. split; [by constructor|]. right. simpl. destruct Hr as [->|Hr]; simpl; lra.
  Qed.

  (** ** C39 *)
  (** Option [k] is chosen when total*random() falls into its interval, whose
      length is its weight; *)
  Theorem C39_interval (l : list (X * R)) a k c w :
    nonneg l -> l !! k = Some (c, w) ->
    before l k <= total l * rng (am_rpos a) < before l k + w ->
    fst (weighted_choice (N:=ROps) rng l a) = Ok c.
  Proof. intros Hl Hk Hr. rewrite wc_unfold. apply (wc_loop_interval l Hl k c w); [done|lra]. Qed.

  (** and only then.  So an option of weight 0 is never chosen. *)
  Theorem C39_chosen (l : list (X * R)) a c :
    nonneg l -> 0 <= rng (am_rpos a) < 1 ->
    fst (weighted_choice (N:=ROps) rng l a) = Ok c ->
    exists k w, l !! k = Some (c, w) /\ 0 < w /\
      before l k <= total l * rng (am_rpos a) < before l k + w.
  Proof.
    intros Hl Hr E. rewrite wc_unfold in E.
    edestruct (wc_loop_chosen l c) as (k & w & Hk & Hw & Hb); [|exact E|].
    - apply Rmult_le_pos; [by apply total_nonneg|lra].
    - exists k, w. split; [done|]. split; [done|]. lra.
  Qed.

  (** The intervals tile [0, total). *)
  Theorem C39_intervals_tile l : before l 0 = 0 /\ before l (length l) = total l /\
    forall k c w, l !! k = Some (c, w) -> before l (S k) = before l k + w.
  Proof.
    unfold before, total. split; [done|]. split; [by rewrite take_ge|].
    intros k c w Hk. rewrite (take_S_r l k (c, w)) by done. rewrite Rsum_app. simpl. lra.
  Qed.

  Theorem C39_raises (l : list (X * R)) a e :
    0 <= rng (am_rpos a) < 1 -> fst (weighted_choice (N:=ROps) rng l a) = Err e ->
    e = ValueError /\ (l = [] \/ (exists p, p ∈ l /\ snd p < 0) \/ total l = 0).
  Proof.
    intros Hr E. rewrite wc_unfold in E. destruct (wc_loop_err _ _ _ _ E) as [-> [H|[Hn [->|Hd]]]].
    - split; [done|]. auto.
    - split; [done|]. auto.
    - split; [done|]. right. right. pose proof (total_nonneg l Hn) as H0.
      destruct (Req_dec (total l) 0) as [|Hne]; [done|]. exfalso.
      assert (total l * rng (am_rpos a) < total l * 1) by (apply Rmult_lt_compat_l; lra). lra.
  Qed.

  (** No random number is consumed beyond the one used; the tree counter is
      untouched. *)
  Theorem C39_one_draw (l : list (X * R)) a : snd (weighted_choice (N:=ROps) rng l a) = Amb (am_ctr a) (S (am_rpos a)).
  Proof. done. Qed.
End Sampling.

Section Likely.
  Context {X : Type} (vcmp : X -> X -> option bool).
  Notation lt := (mkey_lt (N:=ROps) vcmp).
  Notation mkey := (mkey (N:=ROps) (X:=X)).

  (** [k] is at least as good as [k']. *)
  Definition mge (k k' : mkey) : Prop :=
    fst (fst k') <= fst (fst k) /\ (fst (fst k') = fst (fst k) -> snd (fst k') <= snd (fst k)).

  Lemma mge_trans a b c : mge a b -> mge b c -> mge a c.
  Proof. unfold mge. intros [H1 H2] [H3 H4]. split; [lra|]. intros E. assert (fst (fst c) = fst (fst b)) by lra.
    assert (fst (fst b) = fst (fst a)) by lra. specialize (H2 H0). specialize (H4 H). lra. Qed.
  Lemma mlt_true a b : lt a b = true -> mge b a.
  Proof.
    destruct a as [[p r] v], b as [[p' r'] v']. unfold mkey_lt, mge. simpl.
    unfold Reqb, Rltb. repeat destruct Req_EM_T; repeat destruct Rlt_dec; intros; try done; subst; lra.
  Qed.
  Lemma mlt_false a b : lt a b = false -> mge a b.
  Proof.
    destruct a as [[p r] v], b as [[p' r'] v']. unfold mkey_lt, mge. simpl.
    unfold Reqb, Rltb. repeat destruct Req_EM_T; repeat destruct Rlt_dec; intros; try done; subst; lra.
  Qed.

  Lemma sort_head l h r : sort_desc lt l = h :: r -> h ∈ l /\ forall x, x ∈ l -> mge h x.
  Proof.
    revert h r. induction l as [|x l IH]; intros h r E; [done|]. simpl in E.
    destruct (sort_desc lt l) as [|h' r'] eqn:Es.
    - assert (l = []) as -> by (apply Permutation_nil; pose proof (sort_desc_perm lt l) as Hp; by rewrite Es in Hp).
      simpl in E. injection E as -> <-. split; [left|]. intros y Hy.
      apply elem_of_list_singleton in Hy as ->. split; intros; lra.
    - destruct (IH h' r' eq_refl) as [Hin Hge]. simpl in E. destruct (lt x h') eqn:El; injection E as -> <-.
      + split; [by right|]. intros y Hy. apply elem_of_cons in Hy as [->|Hy]; [by apply mlt_true|by apply Hge].
      + split; [left|]. intros y Hy. apply elem_of_cons in Hy as [->|Hy].
        * split; intros; lra.
        * eapply mge_trans; [by apply mlt_false|by apply Hge].
  Qed.

  Context (rng : nat -> R).

  Lemma draws_unfold (l : list (X * R)) : forall a,
    amapM (fun p => abind (random_ (N:=ROps) rng) (fun r => aret (snd p, r, fst p))) l a =
    (Ok (zip_with (fun p k => (snd p, rng (am_rpos a + k)%nat, fst p)) l (seq 0 (length l))),
     Amb (am_ctr a) (am_rpos a + length l)).
  Proof.
    induction l as [|p l IH]; intros a; simpl.
    - unfold aret. rewrite Nat.add_0_r. by destruct a.
    - unfold abind, random_, aret at 1. simpl. rewrite IH. simpl. unfold aret. f_equal.
      + do 2 f_equal; [by rewrite Nat.add_0_r|]. rewrite <- seq_shift.
        rewrite zip_with_fmap_r. generalize (seq 0 (length l)). clear.
        induction l as [|q l IH]; intros [|k ks]; simpl; try done. rewrite IH.
        by rewrite Nat.add_succ_r.
      + by rewrite Nat.add_succ_r.
  Qed.

  Definition mkeys (l : list (X * R)) (a : amb) : list mkey :=
    zip_with (fun p k => (snd p, rng (am_rpos a + k)%nat, fst p)) l (seq 0 (length l)).

  Lemma mkeys_lookup (l : list (X * R)) a k : mkeys l a !! k =
    (fun p : X * R => (snd p, rng (am_rpos a + k)%nat, fst p)) <$> (l !! k).
  Proof.
    unfold mkeys. rewrite lookup_zip_with. destruct (l !! k) as [p|] eqn:E; simpl; [|done].
    assert (Hs : seq 0 (length l) !! k = Some k); [|by rewrite Hs].
    apply lookup_seq. split; [done|]. by eapply lookup_lt_Some.
  Qed.

  Lemma mkeys_at (l : list (X * R)) a k v w : l !! k = Some (v, w) ->
    mkeys l a !! k = Some (w, rng (am_rpos a + k)%nat, v).
  Proof. intros Hl. rewrite mkeys_lookup. rewrite Hl. done. Qed.

  Lemma ml_cons (l : list (X * R)) a : l <> [] ->
    most_likely_choice (N:=ROps) rng vcmp l a =
      (if existsb (fun p => nltb ROps (snd p) (nofnat ROps 0)) l then araise ValueError
       else abind (amapM (fun p => abind (random_ (N:=ROps) rng) (fun r => aret (snd p, r, fst p))) l)
         (fun ks => if mclash (N:=ROps) vcmp ks then araise TypeError
           else match sort_desc lt ks with
                | [] => araise IndexError | (_, _, v) :: _ => aret v end)) a.
  Proof. by destruct l. Qed.

  Lemma ml_unfold (l : list (X * R)) a : l <> [] -> nonneg l ->
    fst (most_likely_choice (N:=ROps) rng vcmp l a) =
      if mclash (N:=ROps) vcmp (mkeys l a) then Err TypeError
      else match sort_desc lt (mkeys l a) with
           | [] => Err IndexError | (_, _, v) :: _ => Ok v end.
  Proof.
    intros Hne Hn. rewrite ml_cons by done.
    destruct (existsb (fun p => nltb ROps (snd p) (nofnat ROps 0)) l) eqn:Ee.
    { apply existsb_exists in Ee as (p & Hp & Hlt). apply elem_of_list_In in Hp.
      unfold nonneg in Hn. rewrite Forall_forall in Hn. specialize (Hn p Hp).
      change (Rltb (snd p) 0 = true) in Hlt. apply Rltb_true in Hlt. exfalso. exact (Rlt_not_le _ _ Hlt Hn). }
    unfold abind at 1. rewrite draws_unfold. fold (mkeys l a).
    destruct (mclash _ _); [done|]. destruct (sort_desc _ _) as [|[[q r] v] rest]; done.
  Qed.

  Lemma mclash_spec (ks : list mkey) : mclash (N:=ROps) vcmp ks = true ->
    exists j k p r v v', j <> k /\ ks !! j = Some (p, r, v) /\ ks !! k = Some (p, r, v') /\
      vcmp v v' = None.
  Proof.
    induction ks as [|x ks IH]; simpl; [done|]. intros [H|H]%orb_prop.
    - apply existsb_exists in H as (y & Hy & Hc). apply elem_of_list_In, elem_of_list_lookup in Hy as (k & Hk).
      destruct x as [[p r] v], y as [[p' r'] v']. simpl in Hc.
      apply andb_prop in Hc as [Hc Hv]. apply andb_prop in Hc as [Hp Hr].
      apply Reqb_true in Hp, Hr. subst. exists 0%nat, (S k), p', r', v, v'.
      split; [done|]. split; [done|]. split; [done|]. by destruct (vcmp v v').
    - destruct (IH H) as (j & k & p & r & v & v' & Hne & Hj & Hk & Hv).
      exists (S j), (S k), p, r, v, v'. split; [lia|]. done.
  Qed.

  (** ** C40 *)
  Theorem C40_maximal (l : list (X * R)) a v :
    fst (most_likely_choice (N:=ROps) rng vcmp l a) = Ok v ->
    nonneg l /\ exists k w, l !! k = Some (v, w) /\
      forall k' v' w', l !! k' = Some (v', w') ->
        w' <= w /\ (w' = w -> rng (am_rpos a + k')%nat <= rng (am_rpos a + k)%nat).
  Proof.
    intros E. assert (Hne : l <> []) by (by intros ->).
    assert (Hn : nonneg l).
    { destruct (existsb (fun p => nltb ROps (snd p) (nofnat ROps 0)) l) eqn:Ee.
      - exfalso.  rewrite ml_cons in E by done. by rewrite Ee in E.
      - unfold nonneg. apply Forall_forall. intros p Hp.
        destruct (Rlt_dec (snd p) 0) as [Hlt|]; [|lra]. exfalso.
        assert (Ht : existsb (fun p => nltb ROps (snd p) (nofnat ROps 0)) l = true); [|by rewrite Ht in Ee].
        apply existsb_exists. exists p. split; [by apply elem_of_list_In|]. by apply Rltb_true. }
    split; [done|]. rewrite ml_unfold in E by done. destruct (mclash _ _); [done|].
    destruct (sort_desc lt (mkeys l a)) as [|[[q r] v'] rest] eqn:Es; [done|]. injection E as ->.
    apply sort_head in Es as [Hin Hge]. apply elem_of_list_lookup in Hin as (k & Hk).
    pose proof Hk as Hk'. rewrite mkeys_lookup in Hk'. destruct (l !! k) as [[v0 w0]|] eqn:Elk; [|done].
    simpl in Hk'. injection Hk' as -> <- ->. exists k, q. split; [done|].
    intros k' v' w' Hl. assert (Hkey : (w', rng (am_rpos a + k')%nat, v') ∈ mkeys l a).
    { apply elem_of_list_lookup. exists k'. exact (mkeys_at l a k' v' w' Hl). }
    destruct (Hge _ Hkey) as [H1 H2]. simpl in *. split; [done|]. intros Heq. by apply H2.
  Qed.

  Theorem C40_raises (l : list (X * R)) a e :
    fst (most_likely_choice (N:=ROps) rng vcmp l a) = Err e ->
    (e = ValueError /\ (l = [] \/ exists p, p ∈ l /\ snd p < 0)) \/
    (e = TypeError /\ exists j k, j <> k /\ rng j = rng k).
  Proof.
    intros E. assert (Hl : l = [] \/ l <> []) by (destruct l; [by left|by right]).
    destruct Hl as [->|Hne].
    { left. simpl in E. injection E as <-. auto. }
    destruct (existsb (fun p => nltb ROps (snd p) (nofnat ROps 0)) l) eqn:Ee.
    - left.  rewrite ml_cons in E by done. rewrite Ee in E. injection E as <-.
      split; [done|]. right. apply existsb_exists in Ee as (p & Hp & Hlt).
      exists p. split; [by apply elem_of_list_In|]. by apply Rltb_true.
    - right. assert (Hn : nonneg l).
      { apply Forall_forall. intros p Hp. destruct (Rlt_dec (snd p) 0) as [Hlt|]; [|lra]. exfalso.
        assert (Ht : existsb (fun p => nltb ROps (snd p) (nofnat ROps 0)) l = true); [|by rewrite Ht in Ee].
        apply existsb_exists. exists p. split; [by apply elem_of_list_In|]. by apply Rltb_true. }
      rewrite ml_unfold in E by done. destruct (mclash _ _) eqn:Ec.
      + injection E as <-. split; [done|]. apply mclash_spec in Ec as (j & k & p & r & v & v' & Hjk & Hj & Hk & _).
        rewrite mkeys_lookup in Hj, Hk. destruct (l !! j) as [[? ?]|]; [|done]. destruct (l !! k) as [[? ?]|]; [|done].
        simpl in *. exists (am_rpos a + j)%nat, (am_rpos a + k)%nat. split; [lia|]. congruence.
      + destruct (sort_desc lt (mkeys l a)) as [|[[q r] v'] rest] eqn:Es; [|done]. exfalso.
        pose proof (sort_desc_perm lt (mkeys l a)) as Hp. rewrite Es in Hp. apply Permutation_nil in Hp.
        destruct l as [|p l]; [done|]. done.
  Qed.

  Theorem C40_rejects (l : list (X * R)) a : l = [] \/ (exists p, p ∈ l /\ snd p < 0) ->
    fst (most_likely_choice (N:=ROps) rng vcmp l a) = Err ValueError.
  Proof.
    intros [->|(p & Hp & Hlt)]; [done|]. unfold most_likely_choice. destruct l as [|q l]; [done|].
    assert (Ht : existsb (fun p => nltb ROps (snd p) (nofnat ROps 0)) (q :: l) = true).
    { apply existsb_exists. exists p. split; [by apply elem_of_list_In|]. by apply Rltb_true. }
    by rewrite Ht.
  Qed.
End Likely.

(** Without coinciding draws the call succeeds on every proper input. *)
Theorem C40_returns {X} vcmp (rng : nat -> R) (l : list (X * R)) a :
  l <> [] -> nonneg l -> (forall j k, j <> k -> rng j <> rng k) ->
  exists v, fst (most_likely_choice (N:=ROps) rng vcmp l a) = Ok v.
Proof.
  intros Hne Hn Hd. destruct (fst (most_likely_choice (N:=ROps) rng vcmp l a)) as [v|e] eqn:E; [eauto|]. exfalso.
  apply C40_raises in E as [(-> & [->|(p & Hp & Hlt)])|(-> & j & k & Hjk & Hr)]; [done| |].
  - unfold nonneg in Hn. rewrite Forall_forall in Hn. specialize (Hn p Hp). lra.
  - by apply (Hd j k).
Qed.

(** Every option of maximal weight can be returned. *)
Theorem C40_any_tied {X} vcmp (l : list (X * R)) a k v w :
  nonneg l -> l !! k = Some (v, w) -> (forall k' v' w', l !! k' = Some (v', w') -> w' <= w) ->
  exists rng : nat -> R, (forall n, 0 <= rng n < 1) /\ (forall i j, i <> j -> rng i <> rng j) /\
    fst (most_likely_choice (N:=ROps) rng vcmp l a) = Ok v.
Proof.
  intros Hn Hk Hmax.
  set (rng := fun n => if decide (n = am_rpos a + k)%nat then 3/4 else 1 / (INR n + 2)).
  assert (Hp : forall n, 0 <= INR n) by (intros; apply pos_INR).
  assert (Hfrac : forall n, 0 < 1 / (INR n + 2) <= 1/2).
  { intros n. specialize (Hp n). split; [apply Rdiv_lt_0_compat; lra|].
    apply Rmult_le_reg_r with (INR n + 2); [lra|]. unfold Rdiv at 1.
    rewrite Rmult_assoc, Rinv_l by lra. lra. }
  assert (Hd : forall i j, i <> j -> rng i <> rng j).
  { intros i j Hij. unfold rng. destruct (decide (i = _)), (decide (j = _)); subst; try done.
    - specialize (Hfrac j). lra.
    - specialize (Hfrac i). lra.
    - intros E. apply Hij. apply INR_eq. specialize (Hp i) as Hi. specialize (Hp j) as Hj.
      apply (f_equal Rinv) in E. unfold Rdiv in E. rewrite !Rmult_1_l, !Rinv_inv in E. lra. }
  exists rng. split; [|split; [done|]].
  - intros n. unfold rng. destruct (decide _); [lra|]. specialize (Hfrac n). lra.
  - destruct (C40_returns vcmp rng l a) as (v' & E); [by destruct l|done|done|].
    rewrite E. destruct (C40_maximal vcmp rng l a v' E) as (_ & k' & w' & Hk' & Hbest).
    destruct (Hbest k v w Hk) as [Hle Hr]. pose proof (Hmax k' v' w' Hk') as Hle'.
    assert (Hw : w = w') by lra. specialize (Hr Hw).
    destruct (decide (k' = k)) as [->|Hne]; [by rewrite Hk in Hk'; injection Hk' as ->|]. exfalso.
    unfold rng in Hr. rewrite (decide_True (P:=(am_rpos a + k = am_rpos a + k)%nat)) in Hr by done.
    rewrite decide_False in Hr by lia. specialize (Hfrac (am_rpos a + k')%nat). lra.
Qed.

(** A list of options as in the docstring. *)
Lemma ex_options : nonneg [("a", 1/4); ("b", 0); ("c", 1/2)]%string /\
  fst (weighted_choice (N:=ROps) (fun _ => 1/2) [("a", 1/4); ("b", 0); ("c", 1/2)]%string (Amb 0 0)) = Ok "c"%string.
Proof.
  assert (Hn : nonneg [("a", 1/4); ("b", 0); ("c", 1/2)]%string).
  { apply Forall_cons_2; [simpl; lra|]. apply Forall_cons_2; [simpl; lra|].
    apply Forall_cons_2; [simpl; lra|]. apply Forall_nil_2. }
  split; [done|]. apply (C39_interval _ _ _ 2%nat "c"%string (1/2) Hn); [done|].
  unfold before, total. simpl. lra.
Qed.

Print Assumptions C39_chosen.
Print Assumptions C40_maximal.
Print Assumptions C40_any_tied.
