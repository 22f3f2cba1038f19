(** * Descending sorts have a maximal head. *)
From Coq Require Import Reals Lra Sorting.Sorted.
From stdpp Require Import base decidable tactics list.
From Coq Require Import String.
From Verif Require Import Base Num TreeModel TreeScore.

(** The names of the operations (cobweb.py:448), compared as strings. *)
Definition op_name (o : op) : string :=
  match o with OpBest => "best" | OpNew => "new" | OpMerge => "merge" | OpSplit => "split" end.
Definition name_le (o o' : op) : Prop := String.leb (op_name o) (op_name o') = true.
Lemma rank_name o o' : (op_rank o <= op_rank o')%nat -> name_le o o'.
Proof. destruct o, o'; simpl; intros H; first [exact eq_refl|exfalso; lia]. Qed.

Section Head.
  Context {X : Type} (lt : X -> X -> bool).
  Hypothesis Htrans : forall a b c, lt a b = false -> lt b c = false -> lt a c = false.
  Hypothesis Htotal : forall a b, lt a b = true -> lt b a = false.

  Definition desc_sorted : list X -> Prop := StronglySorted (fun a b => lt a b = false).

  Lemma insert_desc_sorted x l : desc_sorted l -> desc_sorted (insert_desc lt x l).
  Proof.
    induction l as [|y l IH]; intros Hs; simpl; [by repeat constructor|].
    inversion Hs as [|? ? Hl Hy]; subst. destruct (lt x y) eqn:E.
    - constructor; [by apply IH|]. rewrite insert_desc_perm. constructor; [by apply Htotal|done].
    - constructor; [done|]. constructor; [done|].
      apply Forall_forall. intros z Hz. rewrite Forall_forall in Hy. eapply Htrans; [exact E|by apply Hy].
  Qed.

  Lemma sort_desc_sorted l : desc_sorted (sort_desc lt l).
  Proof. induction l as [|x l IH]; simpl; [constructor|]. by apply insert_desc_sorted. Qed.

  Lemma sort_desc_head l h r : sort_desc lt l = h :: r ->
    h ∈ l /\ forall x, x ∈ l -> x = h \/ lt h x = false.
  Proof.
    intros E. pose proof (sort_desc_sorted l) as Hs. pose proof (sort_desc_perm lt l) as Hp.
    rewrite E in *. split; [rewrite <- Hp; apply elem_of_list_here|].
    intros x Hx. rewrite <- Hp in Hx. apply elem_of_cons in Hx as [->|Hx]; [by left|right].
    inversion Hs as [|? ? _ Hf]; subst. rewrite Forall_forall in Hf. exact (Hf x Hx).
  Qed.
End Head.

Section Keys.
  Local Open Scope R_scope.

  Lemma okey_trans (a b c : okey (N:=ROps)) :
    okey_lt a b = false -> okey_lt b c = false -> okey_lt a c = false.
  Proof.
    destruct a as [[u r] o], b as [[u' r'] o'], c as [[u'' r''] o'']. unfold okey_lt. simpl.
    unfold Reqb, Rltb.
    repeat destruct Req_EM_T; repeat destruct Rlt_dec; subst; try done; try lra;
      rewrite ?Nat.ltb_ge; lia.
  Qed.
  Lemma okey_total (a b : okey (N:=ROps)) : okey_lt a b = true -> okey_lt b a = false.
  Proof.
    destruct a as [[u r] o], b as [[u' r'] o']. unfold okey_lt. simpl. unfold Reqb, Rltb.
    repeat destruct Req_EM_T; repeat destruct Rlt_dec; subst; try done; try lra;
      rewrite ?Nat.ltb_lt, ?Nat.ltb_ge; lia.
  Qed.
  Lemma okey_ge (a b : okey (N:=ROps)) : okey_lt a b = false ->
    fst (fst b) <= fst (fst a) /\ (fst (fst b) = fst (fst a) -> snd (fst b) <= snd (fst a) /\
      (snd (fst b) = snd (fst a) -> name_le (snd b) (snd a))).
  Proof.
    destruct a as [[u r] o], b as [[u' r'] o']. unfold okey_lt. simpl. unfold Reqb, Rltb.
    repeat destruct Req_EM_T; repeat destruct Rlt_dec; subst; try done; intros H; try lra.
    split; [lra|]. intros _. split; [lra|]. intros _. apply rank_name. by apply Nat.ltb_ge in H.
  Qed.

  Lemma ckey_trans (a b c : ckey (N:=ROps)) :
    ckey_lt a b = false -> ckey_lt b c = false -> ckey_lt a c = false.
  Proof.
    destruct a as [[[u n] r] o], b as [[[u' n'] r'] o'], c as [[[u'' n''] r''] o''].
    unfold ckey_lt. simpl. unfold Reqb, Rltb.
    repeat destruct Req_EM_T; repeat destruct Rlt_dec; subst; try done; try lra;
    destruct (Nat.eqb_spec n n'), (Nat.eqb_spec n' n''), (Nat.eqb_spec n n''); subst;
      rewrite ?Nat.ltb_lt, ?Nat.ltb_ge; try done; try lia; lra.
  Qed.
  Lemma ckey_total (a b : ckey (N:=ROps)) : ckey_lt a b = true -> ckey_lt b a = false.
  Proof.
    destruct a as [[[u n] r] o], b as [[[u' n'] r'] o'].
    unfold ckey_lt. simpl. unfold Reqb, Rltb.
    repeat destruct Req_EM_T; repeat destruct Rlt_dec; subst; try done; try lra;
    destruct (Nat.eqb_spec n n'), (Nat.eqb_spec n' n); subst;
      rewrite ?Nat.ltb_lt, ?Nat.ltb_ge; try done; try lia; lra.
  Qed.
  Lemma ckey_ge (a b : ckey (N:=ROps)) : ckey_lt a b = false ->
    let '(u, c, r, _) := a in let '(u', c', r', _) := b in
    u' <= u /\ (u' = u -> (c' <= c)%nat) /\ (u' = u -> c' = c -> r' <= r).
  Proof.
    destruct a as [[[u n] r] o], b as [[[u' n'] r'] o'].
    unfold ckey_lt. simpl. unfold Reqb, Rltb.
    repeat destruct Req_EM_T; repeat destruct Rlt_dec; subst; try done;
    destruct (Nat.eqb_spec n n'); subst; rewrite ?Nat.ltb_lt, ?Nat.ltb_ge; intros H;
      repeat split; intros; try done; try lia; lra.
  Qed.
End Keys.
