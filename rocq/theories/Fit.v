(** * fit, for every class of trees.

    CobwebTree.fit (cobweb.py:86-113) is inherited by Cobweb3Tree, TrestleTree
    and DummyTree and only calls [self.ifit], so it is modelled over any ifit. *)
From stdpp Require Import base decidable tactics list.
From Verif Require Import Base.

Section Fit.
  (** A tree object [T], its instances [I] and what its ifit does; the number is
      that of the call, for classes whose ifit asks an oracle. *)
  Context {T I : Type} (ifit1 : nat -> I -> T -> res nat * T).

  (** [for i in instances: self.ifit(i)] (111-112) *)
  Fixpoint each (n : nat) (l : list I) (s : T) : res unit * T :=
    match l with
    | [] => (Ok tt, s)
    | i :: l => match ifit1 n i s with
                | (Ok _, s1) => each (S n) l s1
                | (Err e, s1) => (Err e, s1)
                end
    end.

  (** [for x in range(iterations)] (108-113); [perms k] is what the [k]-th call of
      shuffle does to the copied list.  What shuffle does to the random
      generator is not modelled: the numbers drawn afterwards are arbitrary
      anyway. *)
  Fixpoint passes (perms : nat -> list I -> list I) (first : bool) (x iters n : nat) (l : list I) (s : T) : res unit * T :=
    match iters with
    | O => (Ok tt, s)
    | S iters =>
      let l := if first && bool_decide (x = 0) then perms 0 l else l in
      match each n l s with
      | (Ok _, s1) => passes perms first (S x) iters (n + length l) (perms (S x) l) s1
      | (Err e, s1) => (Err e, s1)
      end
    end.
  (** fit, cobweb.py:86-113.  Line 106 copies the list. *)
  Definition fit_any (perms : nat -> list I -> list I) (iterations : nat) (randomize_first : bool) (l : list I) (s : T) :=
    passes perms randomize_first 0 iterations 0 l s.

  (** ** Specification *)
  (** The instances are given to ifit one after the other; what each call
      returned, and the tree in the end. *)
  Inductive calls : nat -> list I -> T -> list (res nat) -> T -> Prop :=
  | calls_nil n s : calls n [] s [] s
  | calls_cons n i l s r s1 rs s2 :
      ifit1 n i s = (r, s1) -> calls (S n) l s1 rs s2 -> calls n (i :: l) s (r :: rs) s2.
  Definition returned (r : res nat) : Prop := exists j, r = Ok j.
  (** All calls returned, or the first one that raised was the last one. *)
  Definition outcome (n : nat) (l : list I) (s : T) (r : res unit) (s' : T) : Prop :=
    match r with
    | Ok _ => exists rs, calls n l s rs s' /\ Forall returned rs
    | Err e => exists l1 i l2 rs, l = l1 ++ i :: l2 /\ calls n (l1 ++ [i]) s (rs ++ [Err e]) s' /\ Forall returned rs
    end.

  (** ** Facts *)
  Lemma calls_app n l1 l2 s rs1 rs2 s1 s2 :
    calls n l1 s rs1 s1 -> calls (n + length l1) l2 s1 rs2 s2 -> calls n (l1 ++ l2) s (rs1 ++ rs2) s2.
  Proof.
    intros H. revert l2 rs2 s2. induction H as [n s|n i l s r s1 rs s2 E H IH]; intros l2 rs2 s3 H2; simpl in *.
    - by rewrite Nat.add_0_r in H2.
    - eapply calls_cons; [exact E|]. apply IH. by rewrite <- Nat.add_succ_r.
  Qed.

  Lemma each_outcome n l s r s' : each n l s = (r, s') -> outcome n l s r s'.
  Proof.
    revert n s. induction l as [|i l IH]; intros n s; simpl.
    - intros [= <- <-]. exists []. split; [constructor|done].
    - destruct (ifit1 n i s) as [[j|e] s1] eqn:E.
      + intros H. specialize (IH _ _ H). destruct r as [u|e].
        * destruct IH as (rs & Hc & Hr). exists (Ok j :: rs). split; [by eapply calls_cons|]. apply Forall_cons_2; [by exists j|done].
        * destruct IH as (l1 & i1 & l2 & rs & -> & Hc & Hr). exists (i :: l1), i1, l2, (Ok j :: rs). split; [done|].
          split; [by eapply calls_cons|]. apply Forall_cons_2; [by exists j|done].
      + intros [= <- <-]. exists [], i, l, []. split; [done|]. split; [|done]. eapply calls_cons; [exact E|constructor].
  Qed.

  Lemma outcome_app n l1 l2 s s1 u r s2 :
    outcome n l1 s (Ok u) s1 -> outcome (n + length l1) l2 s1 r s2 -> outcome n (l1 ++ l2) s r s2.
  Proof.
    intros (rs1 & Hc1 & Hr1). destruct r as [v|e].
    - intros (rs2 & Hc2 & Hr2). exists (rs1 ++ rs2). split; [by eapply calls_app|]. by apply Forall_app.
    - intros (l3 & i & l4 & rs2 & -> & Hc2 & Hr2). exists (l1 ++ l3), i, l4, (rs1 ++ rs2).
      rewrite <- !app_assoc. split; [done|]. split; [by eapply calls_app|]. by apply Forall_app.
  Qed.

  Lemma outcome_err n l1 l2 s e s1 : outcome n l1 s (Err e) s1 -> outcome n (l1 ++ l2) s (Err e) s1.
  Proof.
    intros (l3 & i & l4 & rs & -> & Hc & Hr). exists l3, i, (l4 ++ l2), rs. rewrite <- app_assoc. done.
  Qed.

  Lemma passes_outcome perms first x iters n l s r s' : (forall k l, Permutation (perms k l) l) ->
    passes perms first x iters n l s = (r, s') ->
    exists order, Permutation order (concat (repeat l iters)) /\
      (first && bool_decide (x = 0) = false -> 0 < iters -> take (length l) order = l) /\ outcome n order s r s'.
  Proof.
    intros Hp. revert x n l s. induction iters as [|iters IH]; intros x n l s; cbn [passes].
    { intros [= <- <-]. exists []. split; [done|]. split; [lia|]. exists []. split; [constructor|done]. }
    set (l1 := if first && bool_decide (x = 0) then perms 0 l else l).
    assert (Hl1 : Permutation l1 l) by (unfold l1; destruct (first && _); [apply Hp|done]).
    assert (Ht : forall rest, first && bool_decide (x = 0) = false -> take (length l) (l1 ++ rest) = l).
    { intros rest Hf. unfold l1. rewrite Hf. apply take_app. }
    cbv zeta. fold l1. destruct (each n l1 s) as [[u|e] s1] eqn:E; apply each_outcome in E.
    - intros H. destruct (IH _ _ _ _ H) as (order & HP & _ & Ho). exists (l1 ++ order). split; [|split].
      + simpl. apply Permutation_app; [done|]. rewrite HP.
        assert (Hg : forall m (la lb : list I), Permutation la lb -> Permutation (concat (repeat la m)) (concat (repeat lb m))).
        { clear. intros m la lb H. induction m; simpl; [done|]. by apply Permutation_app. }
        apply Hg. by rewrite Hp.
      + intros Hf _. by apply Ht.
      + by eapply outcome_app.
    - intros [= <- <-]. exists (l1 ++ concat (repeat l iters)). split; [simpl; by apply Permutation_app|].
      split; [intros Hf _; by apply Ht|]. by apply outcome_err.
  Qed.

  (** ** C24: fit is a sequence of calls of ifit, with every instance
      [iterations] times, up to the first that raises; without
      [randomize_first] it begins with the list as it was given. *)
  Theorem C24_fit_is_calls perms iterations first l s r s' : (forall k l, Permutation (perms k l) l) ->
    fit_any perms iterations first l s = (r, s') ->
    exists order, Permutation order (concat (repeat l iterations)) /\
      (first = false -> 0 < iterations -> take (length l) order = l) /\ outcome 0 order s r s'.
  Proof.
    intros Hp H. destruct (passes_outcome _ _ _ _ _ _ _ _ _ Hp H) as (order & H1 & H2 & H3).
    exists order. split; [done|]. split; [|done]. intros ->. by apply H2.
  Qed.

  (** Nothing but the calls matters: no iterations, or an empty list, leave the
      tree alone. *)
  Theorem C24_fit_nothing perms iterations first l s : (forall k l, Permutation (perms k l) l) ->
    iterations = 0 \/ l = [] -> fit_any perms iterations first l s = (Ok tt, s).
  Proof.
    intros Hp H. destruct (fit_any perms iterations first l s) as [r s'] eqn:E.
    destruct (C24_fit_is_calls _ _ _ _ _ _ _ Hp E) as (order & HP & _ & Ho).
    assert (Hn : order = []).
    { apply Permutation_nil. symmetry. rewrite HP. destruct H as [-> | ->]; [done|]. clear. induction iterations; done. }
    subst order. destruct r as [[]|e].
    - destruct Ho as (rs & Hc & _). by inversion Hc.
    - destruct Ho as (l1 & i & l2 & rs & Heq & _). by destruct l1.
  Qed.
End Fit.
