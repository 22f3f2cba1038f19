(** * Facts about all tables of a tree that fitting keeps, even when it is cut
    short by an exception. *)
From stdpp Require Import base decidable list gmap strings.
From Verif Require Import Base Num TreeModel TreeFun TreeScore TreeRefine TreeSorts SpecTree TreeState.
Set Default Proof Using "Type".

Section Keep.
  Context {N : NumOps} (C : NodeClass N) (rng : nat -> num N).
  Notation tree := (tree C).

  (** Tables stay in [P] whether or not the table operations raise. *)
  Record kept (P : nc_sum C -> Prop) (i : nc_inst C) : Prop := {
    kp_empty : P (nc_empty C);
    kp_inc : forall s, P s -> P (fst (nc_inc C s i));
    kp_add : forall s1 s2, P s1 -> P s2 -> P (fst (nc_add C s1 s2));
  }.

  Lemma kfind_in i (l : list tree) k : kfind i l = Some k -> k ∈ l.
  Proof.
    induction l as [|k0 l IH]; simpl; [done|]. case_decide; [intros [= ->]; left|]. intros H1. right. auto.
  Qed.
  Lemma kremove_sub (Q : tree -> Prop) i (l : list tree) : Forall Q l -> Forall Q (kremove i l).
  Proof. induction 1; simpl; [constructor|]. case_decide; [done|]. by constructor. Qed.
  Lemma kreplace_sub (Q : tree -> Prop) i t (l : list tree) : Q t -> Forall Q l -> Forall Q (kreplace i t l).
  Proof. intros Ht. induction 1; simpl; [constructor|]. case_decide; by constructor. Qed.
  Lemma kupdate_sub (Q : tree -> Prop) b i t (l : list tree) : Q t -> Forall Q l -> Forall Q (kupdate b i t l).
  Proof.
    intros Ht Hl. unfold kupdate. destruct b; [|by apply kreplace_sub].
    apply Forall_app. split; [by apply kremove_sub|]. by apply Forall_singleton.
  Qed.

  Section P.
    Context (P : nc_sum C -> Prop) (i : nc_inst C) (HP : kept P i).

    Lemma fnew_child_keep mv id s kids a : P s -> Forall (tall C P) kids ->
      tall C P (fo_tree (fnew_child C mv id s kids i a)).
    Proof using HP.
      intros Hs Hk. unfold fnew_child. pose proof (kp_inc _ _ HP _ (kp_empty _ _ HP)) as H2.
      destruct (nc_inc C (nc_empty C) i) as [s2 [e|]]; simpl in *; [by constructor|].
      constructor; [done|]. apply Forall_app. split; [done|]. repeat constructor; done.
    Qed.

    Lemma fcob_keep fuel : forall x t a, tall C P t -> tall C P (fo_tree (fcob C rng fuel x t i a)).
    Proof using HP.
      induction fuel as [|fuel IH]; intros x t a Ht; [done|].
      destruct t as [id s kids]. pose proof Ht as [Hs Hk]%tall_inv. cbn [fcob].
      pose proof (kp_inc _ _ HP s Hs) as Hs'.
      destruct kids as [|k0 ks0].
      { destruct (nc_exact C s i) as [ex|e]; [|done]. destruct (_ || _).
        - destruct (nc_inc C s i) as [s' e']; simpl in *. by constructor.
        - unfold ffringe. pose proof (kp_add _ _ HP _ s (kp_empty _ _ HP) Hs) as H0.
          destruct (nc_add C (nc_empty C) s) as [s0 [e|]]; [done|]. simpl in H0.
          pose proof (kp_inc _ _ HP s0 H0) as H1. destruct (nc_inc C s0 i) as [s1 [e|]]; simpl in H1.
          + simpl. constructor; [done|]. repeat constructor; done.
          + apply fnew_child_keep; [done|]. repeat constructor; done. }
      set (kids := k0 :: ks0) in *.
      destruct (two_best_children _ _ _ _ _ _ _) as [[[[cu b1] b2]|e] a1]; [|done].
      destruct (kfind b1 kids) as [k1|] eqn:E1; [|done].
      assert (Hk1 : tall C P k1) by (rewrite Forall_forall in Hk; apply Hk; by eapply kfind_in).
      assert (Ho : forall o2, o2 = match b2 with
                      | None => Some None
                      | Some b2 => match kfind b2 kids with None => None | Some k2 => Some (Some k2) end
                      end -> match o2 with Some (Some k2) => tall C P k2 | _ => True end).
      { intros o2 ->. destruct b2 as [b|]; [|done]. destruct (kfind b kids) as [k2|] eqn:E2; [|done].
        rewrite Forall_forall in Hk. apply Hk. by eapply kfind_in. }
      cbv zeta. specialize (Ho _ eq_refl).
      destruct (match b2 with None => Some None | Some _ => _ end) as [ok2|]; [|done].
      destruct (get_best_operation _ _ _ _ _ _ _ _ _ _ _ _) as [[[u o]|e] a2]; [|done].
      destruct o.
      - destruct (nc_inc C s i) as [s' [e|]]; simpl in Hs' |- *; constructor; try done.
        apply kupdate_sub; [by apply IH|done].
      - destruct (nc_inc C s i) as [s' [e|]]; simpl in Hs'.
        + by constructor.
        + by apply fnew_child_keep.
      - destruct ok2 as [k2|]; [|done]. destruct (nc_inc C s i) as [s' [e|]]; simpl in Hs'.
        + by constructor.
        + assert (Hp1 : P (tsum k1)) by (destruct k1; by apply tall_inv in Hk1 as [? _]).
          assert (Hp2 : P (tsum k2)) by (destruct k2; by apply tall_inv in Ho as [? _]).
          unfold fmerged. pose proof (kp_add _ _ HP _ (tsum k1) (kp_empty _ _ HP) Hp1) as H0.
          destruct (nc_add C (nc_empty C) (tsum k1)) as [s0 [e|]]; simpl in H0; [by constructor|].
          pose proof (kp_add _ _ HP s0 (tsum k2) H0 Hp2) as H1.
          destruct (nc_add C s0 (tsum k2)) as [sm [e|]]; simpl in H1; [by constructor|].
          cbn [fo_tree]. constructor; [done|]. apply kupdate_sub.
          * apply IH. constructor; [done|]. repeat constructor; done.
          * apply Forall_app. split; [by apply kremove_sub, kremove_sub|]. apply Forall_singleton.
            constructor; [done|]. repeat constructor; done.
      - apply IH. constructor; [done|]. apply Forall_app. split; [by apply kremove_sub|].
        destruct k1. by apply tall_inv in Hk1 as [_ ?].
    Qed.

    Lemma cobweb_keep s t r s' : state_ok C s t -> tall C P t -> cobweb C rng i s = (r, s') ->
      exists t', state_ok C s' t' /\ tall C P t'.
    Proof using HP.
      intros Hok Ht E. destruct (cobweb_runs C rng s t i Hok) as (s2 & E2 & Hok2 & _).
      rewrite E in E2. injection E2 as -> ->. eexists. split; [exact Hok2|]. by apply fcob_keep.
    Qed.
  End P.

  Lemma tall_mono (P Q : nc_sum C -> Prop) t : (forall s, P s -> Q s) -> tall C P t -> tall C Q t.
  Proof.
    intros H. induction t as [id s kids IH] using (tree_ind' C). intros [Hs Hk]%tall_inv. constructor; [auto|].
    induction IH; constructor; inversion Hk; subst; auto.
  Qed.
End Keep.
