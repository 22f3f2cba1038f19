(** C105: the random numbers only break ties.

    cobweb.py draws random() for every entry of the two lists it sorts: the
    children in two_best_children (cobweb.py:540-574) and the operations in
    get_best_operation (cobweb.py:447-538).  If at every concept a call passes
    through no two children have the same score and count, and no two
    operations the same category utility, the outcome of the call is the same
    for every stream of random numbers: the result, the tree, its tables, the
    identifiers given to new concepts and the number of draws used.  Nothing
    is assumed about the arithmetic, so this holds of doubles. *)
From Coq Require Import List.
From stdpp Require Import base list gmap relations.
From Verif Require Import Base Num TreeModel TreeScore TreeTotal Nominal NominalFacts SpecTree PropsTotal.

(** ** What a tie is *)
Section Ties.
  Context {N : NumOps} (C : NodeClass N) (rng : nat -> num N).
  Notation S' := (nc_sum C).
  Notation I := (nc_inst C).

  (** No two children with the same number of instances have the same score
      for [i].  The score is the one two_best_children computes (C12 says what
      it means in terms of category utility). *)
  Definition apart_children (x : nc_ctx C) (kids : list (nat * S')) (i : I) : Prop :=
    ForallOrdPairs (fun c d => forall u v,
      relative_cu_for_insert C x (snd c) i = Ok u ->
      relative_cu_for_insert C x (snd d) i = Ok v ->
      nc_count C (snd c) = nc_count C (snd d) -> neqb N u v = false) kids.

  (** The operations open at a concept with table [s] and children [kids], and
      the category utility each would give.  Merging needs a third child,
      splitting a best child with children (cobweb.py:486-505). *)
  Inductive worth (x : nc_ctx C) (s : S') (kids : list (nat * S')) (i : I)
      (b1 : nat * S') (b2 : option (nat * S')) (b1kids : list (nat * S')) (cu : num N)
    : op -> num N -> Prop :=
  | w_best : worth x s kids i b1 b2 b1kids cu OpBest cu
  | w_new u : cu_for_new_child C x s (map snd kids) i = Ok u ->
      worth x s kids i b1 b2 b1kids cu OpNew u
  | w_merge c2 u : b2 = Some c2 -> (2 < length kids)%nat ->
      cu_for_merge C x s kids b1 c2 i = Ok u ->
      worth x s kids i b1 b2 b1kids cu OpMerge u
  | w_split u : (0 < length b1kids)%nat ->
      cu_for_split C x s kids (fst b1) b1kids = Ok u ->
      worth x s kids i b1 b2 b1kids cu OpSplit u.

  Definition apart_ops x s kids i b1 b2 b1kids cu : Prop :=
    forall o o' u u', o <> o' -> worth x s kids i b1 b2 b1kids cu o u ->
      worth x s kids i b1 b2 b1kids cu o' u' -> neqb N u u' = false.

  (** One turn of the loop of cobweb() (cobweb.py:152-202): from a concept and
      a state to the concept and the state of the next turn. *)
  Inductive turn (i : I) : nat * st C -> nat * st C -> Prop :=
  | turn_best cur s cu b1 b2 s1 u s2 s3 :
      mtwo_best C rng cur i s = (Ok (cu, b1, b2), s1) ->
      mbest_op C rng cur i b1 b2 cu s1 = (Ok (u, OpBest), s2) ->
      mincrement C cur i s2 = (Ok tt, s3) -> turn i (cur, s) (b1, s3)
  | turn_merge cur s cu b1 b2 s1 u s2 s3 m s4 :
      mtwo_best C rng cur i s = (Ok (cu, b1, Some b2), s1) ->
      mbest_op C rng cur i b1 (Some b2) cu s1 = (Ok (u, OpMerge), s2) ->
      mincrement C cur i s2 = (Ok tt, s3) ->
      mmerge C cur b1 b2 s3 = (Ok m, s4) -> turn i (cur, s) (m, s4)
  | turn_split cur s cu b1 b2 s1 u s2 s3 :
      mtwo_best C rng cur i s = (Ok (cu, b1, b2), s1) ->
      mbest_op C rng cur i b1 b2 cu s1 = (Ok (u, OpSplit), s2) ->
      msplit C cur b1 s2 = (Ok tt, s3) -> turn i (cur, s) (cur, s3).

  (** One turn of the loop of _cobweb_categorize (cobweb.py:204-217). *)
  Inductive down (i : I) : nat * st C -> nat * st C -> Prop :=
  | down_best cur s cu b1 b2 s1 :
      mtwo_best C rng cur i s = (Ok (cu, b1, b2), s1) -> down i (cur, s) (b1, s1).

  (** The tables of concepts. *)
  Definition with_tables (s : st C) (l : list nat) (kids : list (nat * S')) : Prop :=
    Forall2 (fun id c => fst c = id /\ exists n, st_heap s !! id = Some n /\ nd_sum n = snd c) l kids.

  (** No tie among the children. *)
  Definition clear_best (i : I) (p : nat * st C) : Prop :=
    forall n kids, st_heap (snd p) !! fst p = Some n ->
      with_tables (snd p) (nd_children n) kids ->
      apart_children (st_ctx (snd p)) kids i.
  (** No tie among the operations. *)
  Definition clear_op (i : I) (p : nat * st C) : Prop :=
    forall n kids cu b1 b2 s1 n1 b1kids o2,
      st_heap (snd p) !! fst p = Some n -> with_tables (snd p) (nd_children n) kids ->
      mtwo_best C rng (fst p) i (snd p) = (Ok (cu, b1, b2), s1) ->
      st_heap (snd p) !! b1 = Some n1 -> with_tables (snd p) (nd_children n1) b1kids ->
      match b2, o2 with
      | None, None => True
      | Some id, Some c => fst c = id /\ exists n2, st_heap (snd p) !! id = Some n2 /\ nd_sum n2 = snd c
      | _, _ => False
      end ->
      apart_ops (st_ctx (snd p)) (nd_sum n) kids i (b1, nd_sum n1) o2 b1kids cu.

  Definition untied_from (i : I) (p : nat * st C) : Prop :=
    forall q, rtc (turn i) p q -> clear_best i q /\ clear_op i q.
  Definition untied_down (i : I) (p : nat * st C) : Prop :=
    forall q, rtc (down i) p q -> clear_best i q.

  (** The state when the loop starts: Cobweb3Tree has already taken the
      instance into its scales. *)
  Definition started (i : I) (s : st C) : st C :=
    St (st_heap s) (st_root s) (st_amb s) (nc_pre C (st_ctx s) i).

  Definition untied_call (c : call C) (s : st C) : Prop :=
    match c with
    | CFit i => untied_from i (st_root s, started i s)
    | CCat i => untied_down i (st_root s, s)
    | COther _ _ | CClear => True
    end.
  Fixpoint untied_calls (x0 : nc_ctx C) (cs : list (call C)) (s : st C) : Prop :=
    match cs with
    | [] => True
    | c :: cs => untied_call c s /\ untied_calls x0 cs (snd (exec1 C rng x0 c s))
    end.
End Ties.

(** ** Sorting *)
Section Sort.
  Context {X : Type} (lt : X -> X -> bool) (R : X -> X -> Prop).
  Notation fixed a b := (forall a' b', R a a' -> R b b' -> lt a b = lt a' b').

  Lemma insert_rel x x' l : forall l', R x x' -> Forall2 R l l' ->
    Forall (fun y => fixed x y) l ->
    Forall2 R (insert_desc lt x l) (insert_desc lt x' l').
  Proof.
    induction l as [|y l IH]; intros l' Hx Hl Hf; inversion Hl as [|? y' ? l2 Hy Hl2]; subst; simpl.
    - by repeat constructor.
    - apply Forall_cons in Hf as [Hxy Hf]. rewrite <- (Hxy x' y' Hx Hy).
      destruct (lt x y); repeat (constructor; [done|]); [by apply IH|done].
  Qed.

  Lemma sort_rel l : forall l', Forall2 R l l' -> ForallOrdPairs (fun a b => fixed a b) l ->
    Forall2 R (sort_desc lt l) (sort_desc lt l').
  Proof.
    induction l as [|x l IH]; intros l' Hl Hp; inversion Hl as [|? y' ? l2 Hy Hl2]; subst; simpl;
      [constructor|].
    inversion Hp as [|? ? Hf Hp']; subst. apply insert_rel; [done|by apply IH|].
    apply Forall_forall. intros z Hz. rewrite (sort_desc_perm lt l) in Hz.
    apply elem_of_list_In in Hz. intros a' b' Ha Hb.
    pose proof (proj1 (List.Forall_forall _ _) Hf _ Hz) as Hz'. by apply Hz'.
  Qed.
End Sort.

Section Indep.
  Context {N : NumOps} (C : NodeClass N) (rng rng' : nat -> num N).
  Notation S' := (nc_sum C).
  Notation I := (nc_inst C).

  Definition ck_sim (a b : ckey (N:=N)) : Prop :=
    let '(u, c, _, j) := a in let '(u', c', _, j') := b in u = u' /\ c = c' /\ j = j'.
  Definition ok_sim (a b : okey (N:=N)) : Prop :=
    let '(u, _, o) := a in let '(u', _, o') := b in u = u' /\ o = o'.

  Notation score rng x i := (fun c : nat * S' =>
    abind (atemps 1) (fun _ =>
    abind (alift (relative_cu_for_insert C x (snd c) i)) (fun u =>
    abind (arandom rng) (fun r =>
    aret (u, nc_count C (snd c), r, fst c))))).

  Definition scored x i (c : nat * S') (k : ckey (N:=N)) : Prop :=
    let '(u, n, _, _) := k in relative_cu_for_insert C x (snd c) i = Ok u /\ n = nc_count C (snd c).

  Lemma scores_sim x i (kids : list (nat * S')) : forall a,
    match amapM (score rng x i) kids a, amapM (score rng' x i) kids a with
    | (Ok l, a1), (Ok l', a2) => a1 = a2 /\ Forall2 ck_sim l l' /\ Forall2 (scored x i) kids l
    | (Err e, a1), (Err e', a2) => e = e' /\ a1 = a2
    | _, _ => False
    end.
  Proof.
    set (f := score rng x i). set (g := score rng' x i).
    induction kids as [|c kids IH]; intros a; [by repeat constructor|].
    cbn [amapM]. unfold abind, aret.
    assert (Ef : f c a = match relative_cu_for_insert C x (snd c) i with
      | Ok u => (Ok (u, nc_count C (snd c), rng (am_rpos a), fst c), Amb (am_ctr a + 1) (S (am_rpos a)))
      | Err e => (Err e, Amb (am_ctr a + 1) (am_rpos a)) end).
    { unfold f, abind, alift, arandom, aret, atemps. simpl.
      by destruct (relative_cu_for_insert C x (snd c) i). }
    assert (Eg : g c a = match relative_cu_for_insert C x (snd c) i with
      | Ok u => (Ok (u, nc_count C (snd c), rng' (am_rpos a), fst c), Amb (am_ctr a + 1) (S (am_rpos a)))
      | Err e => (Err e, Amb (am_ctr a + 1) (am_rpos a)) end).
    { unfold g, abind, alift, arandom, aret, atemps. simpl.
      by destruct (relative_cu_for_insert C x (snd c) i). }
    rewrite Ef, Eg. clear Ef Eg.
    destruct (relative_cu_for_insert C x (snd c) i) as [u|e] eqn:E; [|done].
    specialize (IH (Amb (am_ctr a + 1) (S (am_rpos a)))).
    destruct (amapM f kids _) as [[l|e] a1], (amapM g kids _) as [[l'|e'] a2]; try done.
    destruct IH as (-> & H1 & H2). split; [done|]. split; constructor; try done.
  Qed.

  Lemma scored_apart x i kids l :
    Forall2 (scored x i) kids l -> apart_children C x kids i ->
    ForallOrdPairs (fun a b => let '(u, c, _, _) := a in let '(v, d, _, _) := b in
      c = d -> neqb N u v = false) l.
  Proof.
    induction 1 as [|c k kids l Hk Hl IH]; intros Hp; [constructor|].
    inversion Hp as [|? ? Hf Hp']; subst. constructor; [|by apply IH].
    clear IH Hp Hp'. induction Hl as [|d k' kids l Hk' Hl IH]; [constructor|].
    inversion Hf as [|? ? Hd Hf']; subst. constructor; [|by apply IH].
    destruct k as [[[u n] r] j], k' as [[[v n'] r'] j']. destruct Hk as [Hu ->], Hk' as [Hv ->].
    intros En. by apply Hd.
  Qed.

  Lemma no_tie_in (l : list (ckey (N:=N))) :
    ForallOrdPairs (fun a b => let '(u, c, _, _) := a in let '(v, d, _, _) := b in
      c = d -> neqb N u v = false) l -> has_tie l = false.
  Proof.
    induction 1 as [|k l Hf Hp IH]; [done|]. cbn [has_tie]. rewrite IH, orb_false_r.
    clear IH Hp. induction Hf as [|k' l Hk Hf IH]; [done|]. cbn [existsb]. rewrite IH, orb_false_r.
    destruct k as [[[u n] r] j], k' as [[[v n'] r'] j']. unfold ckey_tied.
    destruct (n =? n')%nat eqn:E; [|by rewrite andb_false_r].
    apply Nat.eqb_eq in E. by rewrite (Hk E).
  Qed.

  Lemma apart_sim l l' : Forall2 ck_sim l l' ->
    ForallOrdPairs (fun a b => let '(u, c, _, _) := a in let '(v, d, _, _) := b in
      c = d -> neqb N u v = false) l ->
    ForallOrdPairs (fun a b => let '(u, c, _, _) := a in let '(v, d, _, _) := b in
      c = d -> neqb N u v = false) l'.
  Proof.
    induction 1 as [|k k2 l l2 Hk Hl IH]; intros Hp; [constructor|].
    inversion Hp as [|? ? Hf Hp']; subst. constructor; [|by apply IH].
    clear IH Hp Hp'. induction Hl as [|d d2 l l2 Hd Hl IH]; [constructor|].
    inversion Hf as [|? ? Hkd Hf']; subst. constructor; [|by apply IH].
    destruct k as [[[? ?] ?] ?], k2 as [[[? ?] ?] ?], d as [[[? ?] ?] ?], d2 as [[[? ?] ?] ?].
    destruct Hk as (-> & -> & ->), Hd as (-> & -> & ->). done.
  Qed.

  Lemma run_bind {X Y} (m : A X) (k : X -> A Y) a :
    abind m k a = match m a with (Ok v, a') => k v a' | (Err e, a') => (Err e, a') end.
  Proof. done. Qed.
  Ltac step2 := match goal with |- abind ?m ?k ?a = abind ?m' ?k' ?a' =>
    rewrite (run_bind m k a), (run_bind m' k' a') end.

  Lemma two_best_indep x s kids i a : apart_children C x kids i ->
    two_best_children C rng x s kids i a = two_best_children C rng' x s kids i a.
  Proof.
    intros Hap. unfold two_best_children. destruct kids as [|c0 ks]; [done|].
    set (kids := c0 :: ks) in *.
    pose proof (scores_sim x i kids a) as Hs.
    step2.
    destruct (amapM (score rng x i) kids a) as [[l|e] a1],
      (amapM (score rng' x i) kids a) as [[l'|e'] a2]; try done;
      [|by destruct Hs as [-> ->]].
    destruct Hs as (-> & Hl & Hsc).
    pose proof (scored_apart x i kids l Hsc Hap) as Hp.
    rewrite (no_tie_in l Hp), (no_tie_in l' (apart_sim l l' Hl Hp)).
    step2. unfold aret. step2. unfold atemps. step2. unfold alift.
    destruct (compute_relative_CU_const C x s (map snd kids) i) as [cst|e]; [|done].
    assert (Hsort : Forall2 ck_sim (sort_desc ckey_lt l) (sort_desc ckey_lt l')).
    { apply sort_rel; [done|]. clear -Hp. induction Hp as [|k l Hf Hp IH]; [constructor|].
      constructor; [|done]. eapply List.Forall_impl; [|exact Hf].
      intros k' Hk a' b' Ha Hb. destruct k as [[[u c] r] j], k' as [[[v d] q] j'],
        a' as [[[? ?] ?] ?], b' as [[[? ?] ?] ?].
      destruct Ha as (<- & <- & <-), Hb as (<- & <- & <-). unfold ckey_lt.
      destruct (neqb N u v) eqn:E; [|done]. destruct (c =? d)%nat eqn:Ec; [|done].
      apply Nat.eqb_eq in Ec. by specialize (Hk Ec). }
    destruct Hsort as [|k k' t t' Hk Ht]; [done|].
    destruct k as [[[u c] r] j], k' as [[[v d] q] j']. destruct Hk as (-> & -> & ->).
    assert (Er : match t with [] => None | (_, _, _, b2) :: _ => Some b2 end =
                 match t' with [] => None | (_, _, _, b2) :: _ => Some b2 end).
    { destruct Ht as [|[[[? ?] ?] ?] [[[? ?] ?] ?] ? ? Hk Ht]; [done|]. by destruct Hk as (_ & _ & ->). }
    by rewrite Er.
  Qed.

  Lemma best_op_indep x s kids i b1 b2 b1kids cu a :
    apart_ops C x s kids i b1 b2 b1kids cu ->
    get_best_operation C rng x s kids i b1 b2 b1kids cu all_ops a =
    get_best_operation C rng' x s kids i b1 b2 b1kids cu all_ops a.
  Proof.
    intros Hap.
    assert (Hsort : forall l l', Forall2 ok_sim l l' ->
      Forall (fun k => worth C x s kids i b1 b2 b1kids cu (snd k) (fst (fst k))) l ->
      NoDup (map snd l) -> Forall2 ok_sim (sort_desc okey_lt l) (sort_desc okey_lt l')).
    { intros l l' Hl Hw Hnd. apply sort_rel; [done|]. clear Hl.
      induction l as [|k l IH]; [constructor|]. apply Forall_cons in Hw as [Hk Hw].
      simpl in Hnd. apply NoDup_cons in Hnd as [Hni Hnd]. constructor; [|by apply IH].
      apply List.Forall_forall. intros k' Hk' a' c' Ha Hc.
      assert (Hw' : worth C x s kids i b1 b2 b1kids cu (snd k') (fst (fst k'))).
      { rewrite Forall_forall in Hw. apply Hw. by apply elem_of_list_In. }
      assert (Hne : snd k <> snd k').
      { intros E. apply Hni. rewrite E. apply elem_of_list_In, in_map. done. }
      pose proof (Hap _ _ _ _ Hne Hk Hw') as Heq.
      destruct k as [[u r] o], k' as [[v q] o'], a' as [[? ?] ?], c' as [[? ?] ?].
      destruct Ha as [<- <-], Hc as [<- <-]. simpl in Heq. unfold okey_lt. by rewrite Heq. }
    assert (Hend : forall l l' a', Forall2 ok_sim l l' ->
      Forall (fun k => worth C x s kids i b1 b2 b1kids cu (snd k) (fst (fst k))) l ->
      NoDup (map snd l) ->
      match sort_desc okey_lt l with
      | [] => araise IndexError
      | (u, _, o) :: _ => aret (u, o)
      end a' =
      match sort_desc okey_lt l' with
      | [] => araise IndexError
      | (u, _, o) :: _ => aret (u, o)
      end a').
    { intros l l' a' Hl Hw Hnd. specialize (Hsort l l' Hl Hw Hnd).
      destruct Hsort as [|[[? ?] ?] [[? ?] ?] ? ? Hk Ht]; [done|]. by destruct Hk as [-> ->]. }
    assert (Hpiece : forall o (m m' : A (list (okey (N:=N)))),
      (forall a, (exists e a1, m a = (Err e, a1) /\ m' a = (Err e, a1)) \/
                 (exists a1, m a = (Ok [], a1) /\ m' a = (Ok [], a1)) \/
                 (exists u r r' a1, m a = (Ok [(u, r, o)], a1) /\ m' a = (Ok [(u, r', o)], a1) /\
                    worth C x s kids i b1 b2 b1kids cu o u)) ->
      forall (k k' : list (okey (N:=N)) -> A (num N * op)) a,
      (forall l l' a, Forall2 ok_sim l l' ->
         Forall (fun k => worth C x s kids i b1 b2 b1kids cu (snd k) (fst (fst k))) l ->
         map snd l = [] \/ map snd l = [o] -> k l a = k' l' a) ->
      abind m k a = abind m' k' a).
    { intros o m m' Hm k k' a0 Hk. unfold abind.
      destruct (Hm a0) as [(e & a1 & -> & ->)|[(a1 & -> & ->)|(u & r & r' & a1 & -> & -> & Hw)]].
      - done.
      - apply Hk; [constructor|constructor|by left].
      - apply Hk; [by repeat constructor|by repeat constructor|by right]. }
    unfold get_best_operation.
    apply (Hpiece OpBest).
    { intros a0. rewrite decide_True by (unfold all_ops; set_solver). right. right.
      exists cu, (rng (am_rpos a0)), (rng' (am_rpos a0)). eexists. split; [done|]. split; [done|constructor]. }
    intros l1 l1' a1 H1 W1 D1.
    apply (Hpiece OpNew).
    { intros a0. rewrite decide_True by (unfold all_ops; set_solver).
      unfold abind, atemps, alift.
      destruct (cu_for_new_child C x s (map snd kids) i) as [u|e] eqn:E; [|left; by eauto].
      right. right. eexists u, _, _, _. split; [done|]. split; [done|]. by constructor. }
    intros l2 l2' a2 H2 W2 D2.
    apply (Hpiece OpMerge).
    { intros a0. destruct b2 as [c2|]; [|right; left; by eexists].
      destruct (decide (OpMerge ∈ all_ops /\ (2 < length kids)%nat)) as [[_ Hlen]|_];
        [|right; left; by eexists].
      unfold abind, atemps, alift.
      destruct (cu_for_merge C x s kids b1 c2 i) as [u|e] eqn:E; [|left; by eauto].
      right. right. eexists u, _, _, _. split; [done|]. split; [done|]. by eapply w_merge. }
    intros l3 l3' a3 H3 W3 D3.
    apply (Hpiece OpSplit).
    { intros a0.
      destruct (decide (OpSplit ∈ all_ops /\ (0 < length b1kids)%nat)) as [[_ Hlen]|_];
        [|right; left; by eexists].
      unfold abind, atemps, alift.
      destruct (cu_for_split C x s kids (fst b1) b1kids) as [u|e] eqn:E; [|left; by eauto].
      right. right. eexists u, _, _, _. split; [done|]. split; [done|]. by apply w_split. }
    intros l4 l4' a4 H4 W4 D4.
    apply Hend.
    - by repeat apply Forall2_app.
    - by repeat apply Forall_app_2.
    - rewrite !map_app.
      destruct D1 as [->| ->], D2 as [->| ->], D3 as [->| ->], D4 as [->| ->]; simpl;
        repeat (constructor; [set_solver|]); constructor.
  Qed.

  (** ** The heap program *)
  Lemma run_mbind {X Y} (m : M C X) (k : X -> M C Y) s :
    mbind C m k s = match m s with (Ok v, s') => k v s' | (Err e, s') => (Err e, s') end.
  Proof. done. Qed.
  Ltac mstep2 := match goal with |- mbind _ ?m ?k ?a = mbind _ ?m' ?k' ?a' =>
    rewrite (run_mbind m k a), (run_mbind m' k' a') end.

  Lemma mtables_spec (s : st C) l : forall kids s',
    mtables C l s = (Ok kids, s') -> s' = s /\ with_tables C s l kids.
  Proof.
    induction l as [|c l IH]; intros kids s'; [intros [= <- <-]; split; [done|constructor]|].
    cbn [mtables]. unfold mbind, mget.
    destruct (st_heap s !! c) as [n|] eqn:E; [|done].
    destruct (mtables C l s) as [[r|e] s1] eqn:Em; [|done]. unfold mret. intros [= <- <-].
    destruct (IH r s1 eq_refl) as [-> Hr]. split; [done|]. constructor; [|done]. eauto.
  Qed.

  Lemma mtables_state (s : st C) l : snd (mtables C l s) = s.
  Proof.
    induction l as [|c l IH]; [done|]. cbn [mtables]. unfold mbind, mget.
    destruct (st_heap s !! c) as [n|]; [|done].
    destruct (mtables C l s) as [[r|e] s1]; done.
  Qed.

  Lemma mtwo_best_indep cur i s : clear_best C i (cur, s) ->
    mtwo_best C rng cur i s = mtwo_best C rng' cur i s.
  Proof.
    intros Hc. unfold mtwo_best, mbind, mget.
    destruct (st_heap s !! cur) as [n|] eqn:En; [|done].
    destruct (mtables C (nd_children n) s) as [[kids|e] s1] eqn:Em; [|done].
    apply mtables_spec in Em as [-> Hk]. unfold mamb.
    by rewrite (two_best_indep _ _ _ _ _ (Hc n kids En Hk)).
  Qed.

  Lemma mtwo_best_heap cur i s r s1 : mtwo_best C rng cur i s = (r, s1) ->
    st_heap s1 = st_heap s /\ st_ctx s1 = st_ctx s.
  Proof.
    unfold mtwo_best, mbind, mget.
    destruct (st_heap s !! cur) as [n|] eqn:En; [|by intros [= _ <-]].
    destruct (mtables C (nd_children n) s) as [[kids|e] s2] eqn:Em;
      (assert (s2 = s) as -> by (by rewrite <- (mtables_state s (nd_children n)), Em));
      [|by intros [= _ <-]].
    unfold mamb. destruct (two_best_children _ _ _ _ _ _ _) as [r' a]. by intros [= _ <-].
  Qed.

  Lemma with_tables_heap (s s' : st C) l kids : st_heap s' = st_heap s ->
    with_tables C s' l kids -> with_tables C s l kids.
  Proof. unfold with_tables. by intros ->. Qed.

  Lemma mbest_op_indep cur i s cu b1 b2 s1 : clear_op C rng i (cur, s) ->
    mtwo_best C rng cur i s = (Ok (cu, b1, b2), s1) ->
    mbest_op C rng cur i b1 b2 cu s1 = mbest_op C rng' cur i b1 b2 cu s1.
  Proof.
    intros Hc Htb. destruct (mtwo_best_heap _ _ _ _ _ Htb) as [Hh Hx].
    unfold mbest_op, mbind, mget.
    destruct (st_heap s1 !! cur) as [n|] eqn:En; [|done].
    destruct (mtables C (nd_children n) s1) as [[kids|e] s2] eqn:Em; [|done].
    apply mtables_spec in Em as [-> Hk].
    destruct (st_heap s1 !! b1) as [n1|] eqn:En1; [|done].
    destruct (mtables C (nd_children n1) s1) as [[bk|e] s2] eqn:Em1; [|done].
    apply mtables_spec in Em1 as [-> Hbk].
    rewrite Hh in En, En1. apply (with_tables_heap s s1) in Hk, Hbk; [|done|done].
    destruct b2 as [id2|]; unfold mret.
    - destruct (st_heap s1 !! id2) as [n2|] eqn:En2; [|done]. rewrite Hh in En2. unfold mamb. rewrite Hx.
      rewrite best_op_indep; [done|].
      apply (Hc n kids cu b1 (Some id2) s1 n1 bk (Some (id2, nd_sum n2))); try done.
      split; [done|]. by exists n2.
    - unfold mamb. rewrite Hx. rewrite best_op_indep; [done|].
      by apply (Hc n kids cu b1 None s1 n1 bk None).
  Qed.

  Lemma mcobweb_indep fuel : forall cur i s, untied_from C rng i (cur, s) ->
    mcobweb C rng fuel cur i s = mcobweb C rng' fuel cur i s.
  Proof.
    induction fuel as [|fuel IH]; intros cur i s Hu; [done|]. cbn [mcobweb].
    destruct (Hu (cur, s)) as [Hcb Hco]; [done|].
    mstep2. unfold mget at 1 2.
    destruct (st_heap s !! cur) as [n|] eqn:En; [|done].
    destruct (nd_children n) as [|c0 ks] eqn:Ek; [done|].
    mstep2. rewrite <- (mtwo_best_indep cur i s Hcb).
    destruct (mtwo_best C rng cur i s) as [[[[cu b1] b2]|e] s1] eqn:Etb; [|done].
    mstep2. rewrite <- (mbest_op_indep cur i s cu b1 b2 s1 Hco Etb).
    destruct (mbest_op C rng cur i b1 b2 cu s1) as [[[u o]|e] s2] eqn:Eop; [|done].
    cbn [snd]. destruct o.
    - mstep2. destruct (mincrement C cur i s2) as [[[]|e] s3] eqn:E3; [|done].
      apply IH. intros q Hq. apply Hu. eapply rtc_l; [|exact Hq]. by eapply turn_best.
    - done.
    - destruct b2 as [b2|]; [|done].
      mstep2. destruct (mincrement C cur i s2) as [[[]|e] s3] eqn:E3; [|done].
      mstep2. destruct (mmerge C cur b1 b2 s3) as [[m|e] s4] eqn:E4; [|done].
      apply IH. intros q Hq. apply Hu. eapply rtc_l; [|exact Hq]. by eapply turn_merge.
    - mstep2. destruct (msplit C cur b1 s2) as [[[]|e] s3] eqn:E3; [|done].
      apply IH. intros q Hq. apply Hu. eapply rtc_l; [|exact Hq]. by eapply turn_split.
  Qed.

  Lemma mcategorize_indep fuel : forall cur i s, untied_down C rng i (cur, s) ->
    mcategorize C rng fuel cur i s = mcategorize C rng' fuel cur i s.
  Proof.
    induction fuel as [|fuel IH]; intros cur i s Hu; [done|]. cbn [mcategorize].
    assert (Hcb : clear_best C i (cur, s)) by (by apply Hu).
    mstep2. unfold mget at 1 2.
    destruct (st_heap s !! cur) as [n|] eqn:En; [|done].
    destruct (nd_children n) as [|c0 ks] eqn:Ek; [done|].
    mstep2. rewrite <- (mtwo_best_indep cur i s Hcb).
    destruct (mtwo_best C rng cur i s) as [[[[cu b1] b2]|e] s1] eqn:Etb; [|done].
    apply IH. intros q Hq. apply Hu. eapply rtc_l; [|exact Hq]. by eapply down_best.
  Qed.

  Lemma exec1_indep x0 c s : untied_call C rng c s ->
    exec1 C rng x0 c s = exec1 C rng' x0 c s.
  Proof.
    destruct c as [i|i|dc dr|]; intros Hu; [| |done|done].
    - exact (mcobweb_indep _ _ _ _ Hu).
    - exact (mcategorize_indep _ _ _ _ Hu).
  Qed.

  (** C105.  [exec] gives the results of the calls and the final state: the
      heap with every concept and table, the root, the counter of identifiers
      and the number of draws used so far. *)
  Theorem C105_draws_only_break_ties x0 cs : forall s,
    untied_calls C rng x0 cs s ->
    exec C rng' x0 cs s = exec C rng x0 cs s.
  Proof.
    induction cs as [|c cs IH]; intros s; [done|]. cbn [untied_calls exec].
    intros [H1 H2]. rewrite <- (exec1_indep x0 c s H1).
    destruct (exec1 C rng x0 c s) as [r s1]. cbn [snd] in H2. by rewrite (IH s1 H2).
  Qed.

  (** Having no tie is itself a matter of the instances, not of the draws. *)
  Theorem C105_ties_do_not_depend_on_draws x0 cs : forall s,
    untied_calls C rng x0 cs s -> untied_calls C rng' x0 cs s.
  Proof.
    induction cs as [|c cs IH]; intros s; [done|]. cbn [untied_calls].
    intros [H1 H2]. rewrite <- (exec1_indep x0 c s H1). split; [|by apply IH].
    clear -H1. destruct c as [i|i|dc dr|]; [| |done|done]; cbn [untied_call] in *.
    - intros q Hq.
      assert (Hq' : rtc (turn C rng i) (st_root s, started C i s) q).
      { assert (Hgen : forall p q, rtc (turn C rng' i) p q -> untied_from C rng i p ->
          rtc (turn C rng i) p q); [|by apply Hgen].
        clear. intros p q Hq. induction Hq as [p|p p' q Hp Hq IH]; intros Hu; [done|].
        assert (Hp' : turn C rng i p p').
        { destruct (Hu p) as [Hcb Hco]; [done|].
          destruct Hp as [cur s cu b1 b2 s1 u s2 s3 Ha Hb Hc
                         |cur s cu b1 b2 s1 u s2 s3 m s4 Ha Hb Hc Hd
                         |cur s cu b1 b2 s1 u s2 s3 Ha Hb Hc];
            rewrite <- (mtwo_best_indep cur i s Hcb) in Ha;
            rewrite <- (mbest_op_indep cur i s cu b1 _ s1 Hco Ha) in Hb.
          - by eapply turn_best.
          - by eapply turn_merge.
          - by eapply turn_split. }
        eapply rtc_l; [exact Hp'|]. apply IH. intros r Hr. apply Hu. by eapply rtc_l. }
      destruct (H1 q Hq') as [Hcb Hco]. split; [done|].
      destruct q as [cur s']. intros n kids cu b1 b2 s1 n1 bk o2 E1 E2 E3.
      cbn [fst snd] in *. rewrite <- (mtwo_best_indep cur i s' Hcb) in E3. by eapply Hco.
    - intros q Hq.
      assert (Hq' : rtc (down C rng i) (st_root s, s) q).
      { assert (Hgen : forall p q, rtc (down C rng' i) p q -> untied_down C rng i p ->
          rtc (down C rng i) p q); [|by apply Hgen].
        clear. intros p q Hq. induction Hq as [p|p p' q Hp Hq IH]; intros Hu; [done|].
        assert (Hp' : down C rng i p p').
        { assert (Hcb : clear_best C i p) by (by apply Hu).
          destruct Hp as [cur s cu b1 b2 s1 Ha].
          rewrite <- (mtwo_best_indep cur i s Hcb) in Ha. by eapply down_best. }
        eapply rtc_l; [exact Hp'|]. apply IH. intros r Hr. apply Hu. by eapply rtc_l. }
      by apply H1.
  Qed.
End Indep.

(** ** Without ties no call raises, even if two draws coincide (compare C20) *)
Section NoRaise.
  Context {N : NumOps}.
  Notation C := (CobwebClass N).

  Theorem C105_no_tie_no_exception (rng rng0 : nat -> num N) (cs : list (call C)) ctr rpos :
    counting N -> distinct_draws rng0 ->
    Forall (fun c : call C => match c with CFit i | CCat i => has_visible i | _ => True end) cs ->
    untied_calls C rng tt cs (fresh C ctr rpos tt) ->
    Forall (fun r => exists j, r = Ok j) (fst (exec C rng tt cs (fresh C ctr rpos tt))).
  Proof.
    intros HN Hd Hg Hu.
    rewrite <- (C105_draws_only_break_ties C rng rng0 tt cs _ Hu).
    pose proof (exec_reachable C rng0 tt cs ctr rpos) as Hr.
    destruct (C20_fitting_never_raises rng0 HN Hd _ _ Hr) as [He _].
    - clear -Hg. generalize (fst (exec C rng0 tt cs (fresh C ctr rpos tt))) as rs.
      induction Hg as [|c cs Hc Hg IH]; intros rs; [constructor|].
      destruct rs as [|r rs]; [constructor|]. cbn [zip_with]. constructor; [|apply IH].
      intros i. destruct c; simpl; try done; by intros ->.
    - clear -He. revert He. generalize (fresh C ctr rpos tt) as s.
      induction cs as [|c cs IH]; intros s He; [apply Forall_nil_2|]. cbn [exec] in *.
      destruct (exec1 C rng0 tt c s) as [r s1] eqn:E1. specialize (IH s1).
      destruct (exec C rng0 tt cs s1) as [rs s2]. cbn [fst zip_with] in *.
      apply Forall_cons in He as [Hc He]. apply Forall_cons_2; [|by apply IH].
      destruct c; cbn [event_of no_exn exec1] in *.
      + destruct r; [eauto|done].
      + destruct r; [eauto|done].
      + injection E1 as <- _. eauto.
      + injection E1 as <- _. eauto.
  Qed.
End NoRaise.

(** ** Deciding whether a run has ties *)
Section Check.
  Context {N : NumOps} (C : NodeClass N) (rng : nat -> num N).
  Notation S' := (nc_sum C).
  Notation I := (nc_inst C).

  Fixpoint apart_b (x : nc_ctx C) (kids : list (nat * S')) (i : I) : bool :=
    match kids with
    | [] => true
    | c :: l =>
      forallb (fun d =>
        match relative_cu_for_insert C x (snd c) i, relative_cu_for_insert C x (snd d) i with
        | Ok u, Ok v => negb ((nc_count C (snd c) =? nc_count C (snd d))%nat && neqb N u v)
        | _, _ => true
        end) l && apart_b x l i
    end.
  Lemma apart_b_ok x kids i : apart_b x kids i = true -> apart_children C x kids i.
  Proof.
    induction kids as [|c l IH]; cbn [apart_b]; [constructor|].
    intros [H1 H2]%andb_prop. constructor; [|by apply IH]. apply List.Forall_forall.
    intros d Hd u v Hu Hv Hn. rewrite forallb_forall in H1. specialize (H1 d Hd).
    rewrite Hu, Hv, Hn, Nat.eqb_refl in H1. by destruct (neqb N u v).
  Qed.

  Definition worth_l x s kids i b1 (b2 : option (nat * S')) b1kids cu : list (op * num N) :=
    (OpBest, cu) ::
    match cu_for_new_child C x s (map snd kids) i with Ok u => [(OpNew, u)] | _ => [] end ++
    match b2 with
    | Some c2 => match cu_for_merge C x s kids b1 c2 i with Ok u => [(OpMerge, u)] | _ => [] end
    | None => [] end ++
    match cu_for_split C x s kids (fst b1) b1kids with Ok u => [(OpSplit, u)] | _ => [] end.
  Definition apart_ops_b x s kids i b1 b2 b1kids cu : bool :=
    let l := List.filter (fun p => match fst p with
      | OpMerge => (2 <? length kids)%nat | OpSplit => (0 <? length b1kids)%nat | _ => true end)
      (worth_l x s kids i b1 b2 b1kids cu) in
    forallb (fun p => forallb (fun q =>
      bool_decide (fst p = fst q) || negb (neqb N (snd p) (snd q))) l) l.
  Lemma worth_in x s kids i b1 b2 b1kids cu o u :
    worth C x s kids i b1 b2 b1kids cu o u ->
    In (o, u) (List.filter (fun p => match fst p with
      | OpMerge => (2 <? length kids)%nat | OpSplit => (0 <? length b1kids)%nat | _ => true end)
      (worth_l x s kids i b1 b2 b1kids cu)).
  Proof.
    intros Hw. apply filter_In. unfold worth_l. destruct Hw as [|u E|c2 u E1 E2 E3|u E1 E2]; cbn [fst].
    - split; [by left|done].
    - split; [|done]. right. rewrite E. apply in_or_app. left. by left.
    - split; [|by apply Nat.ltb_lt]. right. apply in_or_app. right. apply in_or_app. left.
      subst b2. rewrite E3. by left.
    - split; [|by apply Nat.ltb_lt]. right. apply in_or_app. right. apply in_or_app. right.
      rewrite E2. by left.
  Qed.
  Lemma apart_ops_b_ok x s kids i b1 b2 b1kids cu :
    apart_ops_b x s kids i b1 b2 b1kids cu = true -> apart_ops C x s kids i b1 b2 b1kids cu.
  Proof.
    intros H o o' u u' Hne Hw%worth_in Hw'%worth_in. unfold apart_ops_b in H.
    rewrite forallb_forall in H. specialize (H _ Hw). rewrite forallb_forall in H. specialize (H _ Hw').
    cbn [fst snd] in H. rewrite bool_decide_false in H by done. by destruct (neqb N u u').
  Qed.

  Definition clear_best_b (i : I) (cur : nat) (s : st C) : bool :=
    match st_heap s !! cur with
    | None => true
    | Some n => match mtables C (nd_children n) s with
                | (Ok kids, _) => apart_b (st_ctx s) kids i | _ => true end
    end.
  Definition clear_op_b (i : I) (cur : nat) (s : st C) cu b1 (b2 : option nat) : bool :=
    match st_heap s !! cur, st_heap s !! b1 with
    | Some n, Some n1 =>
      match mtables C (nd_children n) s, mtables C (nd_children n1) s with
      | (Ok kids, _), (Ok bk, _) =>
        match b2 with
        | None => apart_ops_b (st_ctx s) (nd_sum n) kids i (b1, nd_sum n1) None bk cu
        | Some id => match st_heap s !! id with
                     | None => true
                     | Some n2 => apart_ops_b (st_ctx s) (nd_sum n) kids i (b1, nd_sum n1)
                                    (Some (id, nd_sum n2)) bk cu
                     end
        end
      | _, _ => true
      end
    | _, _ => true
    end.

  Fixpoint untied_b (fuel : nat) (i : I) (cur : nat) (s : st C) : bool :=
    match fuel with
    | O => false
    | S fuel =>
      clear_best_b i cur s &&
      match mtwo_best C rng cur i s with
      | (Err _, _) => true
      | (Ok (cu, b1, b2), s1) =>
        clear_op_b i cur s cu b1 b2 &&
        match mbest_op C rng cur i b1 b2 cu s1 with
        | (Err _, _) | (Ok (_, OpNew), _) => true
        | (Ok (_, OpBest), s2) =>
          match mincrement C cur i s2 with (Ok tt, s3) => untied_b fuel i b1 s3 | _ => true end
        | (Ok (_, OpMerge), s2) =>
          match b2, mincrement C cur i s2 with
          | Some b2, (Ok tt, s3) =>
            match mmerge C cur b1 b2 s3 with (Ok m, s4) => untied_b fuel i m s4 | _ => true end
          | _, _ => true
          end
        | (Ok (_, OpSplit), s2) =>
          match msplit C cur b1 s2 with (Ok tt, s3) => untied_b fuel i cur s3 | _ => true end
        end
      end
    end.

  Lemma with_tables_get (s : st C) l kids : with_tables C s l kids -> mtables C l s = (Ok kids, s).
  Proof.
    induction 1 as [|id c l kids (Hid & n & Hn & Hs) Hl IH]; [done|]. cbn [mtables].
    unfold mbind, mget. rewrite Hn, IH, Hs. unfold mret. destruct c. simpl in *. by subst.
  Qed.

  Lemma clear_best_b_ok i cur s : clear_best_b i cur s = true -> clear_best C i (cur, s).
  Proof.
    unfold clear_best_b. intros H n kids Hn Hk%with_tables_get. cbn [fst snd] in *.
    rewrite Hn, Hk in H. by apply apart_b_ok.
  Qed.

  Lemma untied_b_ok i fuel : forall cur s,
    untied_b fuel i cur s = true -> untied_from C rng i (cur, s).
  Proof.
    induction fuel as [|fuel IH]; intros cur s; [done|]. cbn [untied_b].
    intros [H1 H2]%andb_prop q Hq.
    apply rtc_inv in Hq as [<-|(p' & Hp & Hq)].
    - split; [by apply clear_best_b_ok|].
      intros n kids cu b1 b2 s1 n1 bk o2 Hn Hk Htb Hn1 Hbk Ho2. cbn [fst snd] in *.
      rewrite Htb in H2. apply andb_prop in H2 as [H2 _]. unfold clear_op_b in H2.
      rewrite Hn, Hn1, (with_tables_get _ _ _ Hk), (with_tables_get _ _ _ Hbk) in H2.
      destruct b2 as [id|], o2 as [[id' t]|]; try done.
      + destruct Ho2 as [Hid (n2 & Hn2 & Hs2)]. cbn [fst snd] in *. subst id'. rewrite Hn2 in H2. subst t.
        by apply apart_ops_b_ok.
      + by apply apart_ops_b_ok.
    - inversion Hp as [? ? cu b1 b2 s1 u s2 s3 Ha Hb Hc
                     |? ? cu b1 b2 s1 u s2 s3 m s4 Ha Hb Hc Hd
                     |? ? cu b1 b2 s1 u s2 s3 Ha Hb Hc]; subst;
        rewrite Ha in H2; apply andb_prop in H2 as [_ H2]; rewrite Hb, Hc in H2.
      + exact (IH _ _ H2 q Hq).
      + rewrite Hd in H2. exact (IH _ _ H2 q Hq).
      + exact (IH _ _ H2 q Hq).
  Qed.

  Fixpoint untied_down_b (fuel : nat) (i : I) (cur : nat) (s : st C) : bool :=
    match fuel with
    | O => false
    | S fuel =>
      clear_best_b i cur s &&
      match mtwo_best C rng cur i s with
      | (Err _, _) => true
      | (Ok (_, b1, _), s1) => untied_down_b fuel i b1 s1
      end
    end.
  Lemma untied_down_b_ok i fuel : forall cur s,
    untied_down_b fuel i cur s = true -> untied_down C rng i (cur, s).
  Proof.
    induction fuel as [|fuel IH]; intros cur s; [done|]. cbn [untied_down_b].
    intros [H1 H2]%andb_prop q Hq.
    apply rtc_inv in Hq as [<-|(p' & Hp & Hq)]; [by apply clear_best_b_ok|].
    inversion Hp as [? ? cu b1 b2 s1 Ha]; subst. rewrite Ha in H2. exact (IH _ _ H2 q Hq).
  Qed.

  Fixpoint untied_calls_b (fuel : nat) (x0 : nc_ctx C) (cs : list (call C)) (s : st C) : bool :=
    match cs with
    | [] => true
    | c :: cs =>
      match c with
      | CFit i => untied_b fuel i (st_root s) (started C i s)
      | CCat i => untied_down_b fuel i (st_root s) s
      | _ => true
      end && untied_calls_b fuel x0 cs (snd (exec1 C rng x0 c s))
    end.
  Lemma untied_calls_b_ok fuel x0 cs : forall s,
    untied_calls_b fuel x0 cs s = true -> untied_calls C rng x0 cs s.
  Proof.
    induction cs as [|c cs IH]; intros s; [done|]. cbn [untied_calls_b untied_calls].
    intros [H1 H2]%andb_prop. split; [|by apply IH].
    destruct c; try done; [by eapply untied_b_ok|by eapply untied_down_b_ok].
  Qed.
End Check.

Print Assumptions C105_draws_only_break_ties.
Print Assumptions C105_ties_do_not_depend_on_draws.
Print Assumptions C105_no_tie_no_exception.
