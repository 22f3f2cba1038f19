(** * Facts about the scoring functions that hold for every number system. *)
From stdpp Require Import base decidable list gmap strings.
From Verif Require Import Base Num TreeModel TreeFun.

Section SortFacts.
  Context {X : Type} (lt : X -> X -> bool).
  Lemma insert_desc_perm x l : Permutation (insert_desc lt x l) (x :: l).
  Proof.
    induction l as [|y l IH]; simpl; [done|].
    destruct (lt x y); [|done].
    rewrite IH. apply Permutation_swap.
  Qed.
  Lemma sort_desc_perm l : Permutation (sort_desc lt l) l.
  Proof.
    induction l as [|x l IH]; simpl; [done|].
    rewrite insert_desc_perm. by constructor.
  Qed.
End SortFacts.

Section Facts.
  Context {N : NumOps} (C : NodeClass N) (rng : nat -> num N).
  Notation S' := (nc_sum C).
  Notation I := (nc_inst C).

  Definition ckey_id (k : ckey (N:=N)) : nat := snd k.

  (** The scoring loop returns one key per child, in order, and only moves
      the ambient counters forward. *)
  Lemma score_loop x (kids : list (nat * S')) (i : I) a l a' :
    amapM (fun c =>
             abind (atemps 1) (fun _ =>
             abind (alift (relative_cu_for_insert C x (snd c) i)) (fun u =>
             abind (arandom rng) (fun r =>
             aret (u, nc_count C (snd c), r, fst c))))) kids a = (Ok l, a') ->
    map ckey_id l = map fst kids.
  Proof.
    revert a l a'. induction kids as [|c kids IH]; intros a l a'; simpl.
    - unfold aret. intros [= <- <-]. done.
    - unfold abind, atemps, alift, arandom, aret at 1. simpl.
      destruct (relative_cu_for_insert C x (snd c) i) as [u|e]; simpl; [|congruence].
      match goal with |- context [amapM ?f kids ?b] =>
        destruct (amapM f kids b) as [[l0|e0] a0] eqn:E end; [|congruence].
      intros [= <- <-]. simpl. f_equal. eapply IH. done.
  Qed.

  Lemma two_best_spec x s (kids : list (nat * S')) i a cu b1 b2 a' :
    two_best_children C rng x s kids i a = (Ok (cu, b1, b2), a') ->
    b1 ∈ map fst kids /\
    match b2 with
    | Some b2 => b2 ∈ map fst kids /\ (NoDup (map fst kids) -> b1 <> b2)
    | None => length kids = 1
    end.
  Proof.
    unfold two_best_children. destruct kids as [|c0 kids0]; [done|].
    set (kids := c0 :: kids0).
    unfold abind at 1.
    match goal with |- context [amapM ?f kids a] =>
      destruct (amapM f kids a) as [[l|e] a0] eqn:E end; [|done].
    unfold abind, alift, araise, aret, atemps.
    destruct (has_tie l); [done|]. simpl.
    destruct (compute_relative_CU_const C x s _ i) as [const|]; [|done].
    destruct (sort_desc ckey_lt l) as [|[[[rel c1] r1] b1'] rest] eqn:Es; [done|].
    destruct (pydiv N rel _) as [q|]; [|done].
    destruct (pydiv N q _) as [q'|]; [|done].
    intros Heq. apply score_loop in E.
    pose proof (sort_desc_perm ckey_lt l) as Hp. rewrite Es in Hp.
    apply (Permutation_map ckey_id) in Hp. rewrite E in Hp.
    change (map ckey_id ((rel, c1, r1, b1') :: rest)) with (b1' :: map ckey_id rest) in Hp. injection Heq as <- <- <- <-.
    change (c0.1 :: map fst kids0) with (map fst kids).
    split.
    { rewrite <- Hp. left. }
    destruct rest as [|[[[u2 c2] r2] b2'] rest].
    - apply Permutation_length in Hp. simpl in Hp. rewrite map_length in Hp.
      subst kids. simpl in *. lia.
    - split.
      + rewrite <- Hp. right. left.
      + intros Hnd. rewrite <- Hp in Hnd. apply NoDup_cons in Hnd as [Hni _].
        simpl in Hni. rewrite not_elem_of_cons in Hni. tauto.
  Qed.

  Definition ale (a a' : amb) : Prop := am_ctr a <= am_ctr a' /\ am_rpos a <= am_rpos a'.
  Global Instance ale_refl : Reflexive ale.
  Proof. intros a. unfold ale. lia. Qed.
  Global Instance ale_trans : Transitive ale.
  Proof. intros a b c. unfold ale. lia. Qed.

  Lemma abind_mono {X Y} (m : A X) (f : X -> A Y) a :
    (forall a, ale a (snd (m a))) -> (forall v a, ale a (snd (f v a))) ->
    ale a (snd (abind m f a)).
  Proof.
    intros Hm Hf. unfold abind. specialize (Hm a).
    destruct (m a) as [[v|e] a1]; simpl in *; [|done].
    etrans; [done|]. apply Hf.
  Qed.

  Definition amono {X} (m : A X) : Prop := forall a, ale a (snd (m a)).
  Lemma amono_ret {X} (v : X) : amono (aret v).
  Proof. intros a. done. Qed.
  Lemma amono_raise {X} e : amono (@araise X e).
  Proof. intros a. done. Qed.
  Lemma amono_lift {X} (r : res X) : amono (alift r).
  Proof. intros a. done. Qed.
  Lemma amono_temps n : amono (atemps n).
  Proof. intros a. unfold ale. simpl. lia. Qed.
  Lemma amono_random : amono (arandom rng).
  Proof. intros a. unfold ale. simpl. lia. Qed.
  Lemma amono_bind {X Y} (m : A X) (f : X -> A Y) :
    amono m -> (forall v, amono (f v)) -> amono (abind m f).
  Proof. intros Hm Hf a. apply abind_mono; [done|]. intros v. apply Hf. Qed.
  Lemma amono_mapM {X Y} (f : X -> A Y) l :
    (forall v, amono (f v)) -> amono (amapM f l).
  Proof.
    intros Hf. induction l; simpl; [apply amono_ret|].
    apply amono_bind; [done|]. intros. apply amono_bind; [done|].
    intros. apply amono_ret.
  Qed.
  Hint Resolve amono_ret amono_raise amono_lift amono_temps amono_random : amono.

  Ltac amono := repeat first
    [ progress (auto with amono)
    | apply amono_bind; [|intros]
    | apply amono_mapM; intros
    | match goal with |- amono (match ?e with _ => _ end) => destruct e end
    | match goal with |- amono (if ?e then _ else _) => destruct e end ].

  Lemma two_best_mono x s kids i : amono (two_best_children C rng x s kids i).
  Proof. unfold two_best_children. amono. Qed.

  Lemma best_op_mono x s kids i b1 b2 bk cu ops :
    amono (get_best_operation C rng x s kids i b1 b2 bk cu ops).
  Proof. unfold get_best_operation. amono. Qed.

  (** What get_best_operation can return. *)
  Lemma best_op_applicable x s kids i b1 b2 bk cu ops a u o a' :
    get_best_operation C rng x s kids i b1 b2 bk cu ops a = (Ok (u, o), a') ->
    o ∈ ops /\
    (o = OpMerge -> 2 < length kids /\ b2 <> None) /\
    (o = OpSplit -> bk <> []).
  Proof.
    unfold get_best_operation, abind at 1.
    match goal with |- context [(if decide (OpBest ∈ ops) then ?m else ?n) a] =>
      destruct ((if decide (OpBest ∈ ops) then m else n) a) as [[o1|e] a1] eqn:E1 end;
      [|done].
    unfold abind at 1.
    match goal with |- context [(if decide (OpNew ∈ ops) then ?m else ?n) a1] =>
      destruct ((if decide (OpNew ∈ ops) then m else n) a1) as [[o2|e] a2] eqn:E2 end;
      [|done].
    unfold abind at 1.
    match goal with |- context [match b2 with Some b => @?f b | None => ?n end a2] =>
      destruct (match b2 with Some b => f b | None => n end a2) as [[o3|e] a3] eqn:E3 end;
      [|done].
    unfold abind at 1.
    match goal with |- context [(if decide (OpSplit ∈ ops /\ _) then ?m else ?n) a3] =>
      destruct ((if decide (OpSplit ∈ ops /\ (0 < length bk)%nat) then m else n) a3)
        as [[o4|e] a4] eqn:E4 end; [|done].
    assert (H1 : forall u r o, (u, r, o) ∈ o1 -> o = OpBest /\ OpBest ∈ ops).
    { revert E1. destruct (decide (OpBest ∈ ops)); unfold abind, arandom, aret; simpl; intros HH; inversion HH; subst; clear HH;
        intros ? ? ? Hin; [|inversion Hin].
      apply elem_of_list_singleton in Hin. by injection Hin. }
    assert (H2 : forall u r o, (u, r, o) ∈ o2 -> o = OpNew /\ OpNew ∈ ops).
    { revert E2. destruct (decide (OpNew ∈ ops)); unfold abind, arandom, aret, atemps, alift; simpl.
      - destruct (cu_for_new_child C x s (map snd kids) i); [|done].
        intros HH; inversion HH; subst; clear HH; intros ? ? ? Hin.
        apply elem_of_list_singleton in Hin. by injection Hin.
      - intros HH; inversion HH; subst; clear HH; intros ? ? ? Hin; inversion Hin. }
    assert (H3 : forall u r o, (u, r, o) ∈ o3 ->
              o = OpMerge /\ OpMerge ∈ ops /\ 2 < length kids /\ b2 <> None).
    { revert E3. destruct b2 as [b2|]; [destruct (decide (OpMerge ∈ ops ∧ 2 < length kids))|];
        unfold abind, arandom, aret, atemps, alift; simpl.
      - destruct (cu_for_merge C x s kids b1 b2 i); [|done].
        intros HH; inversion HH; subst; clear HH; intros ? ? ? Hin.
        apply elem_of_list_singleton in Hin. injection Hin; intros; subst. naive_solver.
      - intros HH; inversion HH; subst; clear HH; intros ? ? ? Hin; inversion Hin.
      - intros HH; inversion HH; subst; clear HH; intros ? ? ? Hin; inversion Hin. }
    assert (H4 : forall u r o, (u, r, o) ∈ o4 ->
              o = OpSplit /\ OpSplit ∈ ops /\ bk <> []).
    { revert E4. destruct (decide (OpSplit ∈ ops ∧ 0 < length bk)) as [Hd|Hd]; unfold abind, arandom, aret, atemps, alift; simpl.
      - destruct (cu_for_split C x s kids (fst b1) bk); [|done].
        intros HH; inversion HH; subst; clear HH; intros ? ? ? Hin.
        apply elem_of_list_singleton in Hin. injection Hin; intros; subst.
        split; [done|]. split; [tauto|]. intros ->. simpl in *. lia.
      - intros HH; inversion HH; subst; clear HH; intros ? ? ? Hin; inversion Hin. }
    destruct (sort_desc okey_lt (o1 ++ o2 ++ o3 ++ o4)) as [|[[u' r'] o'] rest] eqn:Es;
      unfold aret, araise; [done|].
    intros [= <- <- <-].
    assert (Hin : (u', r', o') ∈ o1 ++ o2 ++ o3 ++ o4).
    { rewrite <- (sort_desc_perm okey_lt), Es. left. }
    rewrite !elem_of_app in Hin.
    destruct Hin as [Hin|[Hin|[Hin|Hin]]].
    - apply H1 in Hin as [-> ?]. naive_solver.
    - apply H2 in Hin as [-> ?]. naive_solver.
    - apply H3 in Hin as (-> & ? & ? & ?). naive_solver.
    - apply H4 in Hin as (-> & ? & ?). naive_solver.
  Qed.
End Facts.
