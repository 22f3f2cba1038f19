(** * What ifit and categorize do with an instance they accept (C19, C62). *)
From stdpp Require Import base decidable tactics gmap strings list.
From Verif Require Import Base Num TreeModel TreeFun TreeScore TreeRefine TreeSorts TreeInv SpecTree TreeState
  TreeGen Nominal NominalFacts NominalTree PropsTree CV Cobweb3 C3Facts PropsC3.

(** The keys and values that cobweb.py:49-64 lets through. *)
Definition key_accepted (a : attr) : Prop :=
  match a with AStr x => x <> ""%string | ATup l => l <> [] | ANum _ => False end.

Lemma key_accepted_ok a : key_accepted a -> attr_ok a = true.
Proof. destruct a as [x|l|z]; simpl; [|by destruct l|done]. by destruct x. Qed.

Section Raw.
  Context {N : NumOps} (rng : nat -> num N).

  (** ** CobwebTree *)
  Section Nominal.
    Notation C := (CobwebClass N).
    Definition accepted (i : raw) : Prop :=
      dwf i /\ forall a v, (a, v) ∈ i -> key_accepted a /\ exists w, v = PVal w.

    Lemma accepted_sanity i : accepted i -> exists j, sanity i = Ok j /\ good j /\
      (forall a w, (a, w) ∈ j <-> (a, PVal w) ∈ i).
    Proof.
      intros [Hwf Hi].
      assert (Hs : exists j, sanity i = Ok j).
      { clear Hwf. induction i as [|[a v] i IH]; [by exists []|].
        destruct (Hi a v) as [Ha (w & ->)]; [left|]. destruct IH as (j & Ej); [intros b u Hb; apply Hi; by right|].
        exists ((a, w) :: j). simpl. by rewrite (key_accepted_ok _ Ha), Ej. }
      destruct Hs as (j & Ej). exists j. split; [done|]. destruct (sanity_ok _ _ Ej) as [-> Hk]. split.
      - split; [|done]. unfold dwf, dkeys in *. rewrite map_map in Hwf. exact Hwf.
      - intros a w. rewrite elem_of_list_fmap. split.
        + intros H. by exists (a, w).
        + intros ([b u] & [= -> ->] & H). done.
    Qed.

    (** An accepted instance is fitted as the pairs it consists of: the call is
        a fitting event of the history with just these pairs, and categorize is
        a categorizing event. *)
    Theorem C19_accepted_calls evs s (i : raw) r s' r2 s2 : reachable C rng tt evs s -> accepted i ->
      ifit rng i s = (r, s') -> categorize rng i s = (r2, s2) ->
      exists j, good j /\ (forall a w, (a, w) ∈ j <-> (a, PVal w) ∈ i) /\
        reachable C rng tt (evs ++ [EFit (C:=C) j r]) s' /\ reachable C rng tt (evs ++ [ECat (C:=C) j r2]) s2.
    Proof.
      intros (c & p & Hr) Hi E1 E2. destruct (accepted_sanity i Hi) as (j & Ej & Hg & Hj).
      unfold ifit in E1. unfold categorize in E2. rewrite Ej in E1, E2.
      exists j. split; [done|]. split; [done|]. split; exists c, p; (eapply run_snoc; [exact Hr|]).
      - by apply step_fit.
      - by apply step_cat.
    Qed.

    (** So ifit adds one instance, with these values, to the root; categorize
        changes neither the tree nor a table. *)
    Theorem C19_accepted_effect evs s (i : raw) k s' r2 s2 :
      reachable C rng tt evs s -> all_inst (C:=C) good evs -> all_ok evs -> accepted i ->
      ifit rng i s = (Ok k, s') -> categorize rng i s = (r2, s2) ->
      (exists tb tb', table_of s (st_root s) tb /\ table_of s' (st_root s') tb' /\
        ns_count tb' = S (ns_count tb) /\
        (forall a w, (a, PVal w) ∈ i -> entry tb' a w = S (entry tb a w)) /\
        (forall a w, (a, PVal w) ∉ i -> entry tb' a w = entry tb a w)) /\
      st_heap s2 = st_heap s /\ st_root s2 = st_root s.
    Proof.
      intros Hr Hg Hao Hi E1 E2. destruct (C19_accepted_calls evs s i _ _ _ _ Hr Hi E1 E2) as (j & Hgj & Hj & Hr1 & Hr2).
      split.
      - destruct (C01_root_is_histogram rng evs s Hr Hg Hao) as (tb & Ht & Hc & He).
        destruct (C01_root_is_histogram rng _ s' Hr1) as (tb' & Ht' & Hc' & He').
        { apply Forall_app. split; [done|]. apply Forall_singleton. intros q ->. done. }
        { apply Forall_app. split; [done|]. by apply Forall_singleton. }
        assert (Hh : history (evs ++ [EFit (C:=C) j (Ok k)]) = history evs ++ [j]) by (rewrite history_snoc; reflexivity).
        rewrite Hh in Hc', He'. exists tb, tb'. split; [done|]. split; [done|].
        split; [rewrite Hc', Hc, app_length; simpl; lia|].
        assert (Ho : forall a w, entry tb' a w = entry tb a w + occ [j] a w) by (intros a w; rewrite He', He; apply occ_app).
        split; intros a w Hw; rewrite Ho.
        + enough (occ [j] a w = 1) by lia. apply Hj in Hw. simpl. rewrite decide_True; [done|]. by apply In_dget; [apply Hgj|].
        + enough (occ [j] a w = 0) by lia. simpl. rewrite decide_False; [done|]. intros H. apply Hw, Hj. by apply dget_In.
      - destruct (accepted_sanity i Hi) as (j' & Ej' & _). unfold categorize in E2. rewrite Ej' in E2.
        destruct (reachable_read_only C rng tt evs s j' _ _ Hr E2) as (H1 & H2 & _). done.
    Qed.
  End Nominal.

  (** ** Cobweb3Tree *)
  Section Numeric.
    Context (sc : option (num N)) (inner : bool).
    Notation C := (Cobweb3Class N).
    Notation x0 := (new_ctx sc inner).
    Definition accepted3 (i : raw3 N) : Prop :=
      dwf i /\ forall a v, (a, v) ∈ i -> key_accepted a /\ exists w, v = PVal3 w.

    Lemma accepted3_sanity i : accepted3 i -> exists j, sanity3 i = Ok j /\ dwf j /\ Forall (fun a => attr_ok a = true) (dkeys j) /\
      (forall a w, (a, w) ∈ j <-> (a, PVal3 w) ∈ i).
    Proof.
      intros [Hwf Hi].
      assert (Hs : exists j, sanity3 i = Ok j).
      { clear Hwf. induction i as [|[a v] i IH]; [by exists []|].
        destruct (Hi a v) as [Ha (w & ->)]; [left|]. destruct IH as (j & Ej); [intros b u Hb; apply Hi; by right|].
        exists ((a, w) :: j). simpl. by rewrite (key_accepted_ok _ Ha), Ej. }
      destruct Hs as (j & Ej). exists j. split; [done|]. destruct (sanity3_ok _ _ Ej) as [-> Hk]. split; [|split; [done|]].
      - unfold dwf, dkeys in *. rewrite map_map in Hwf. exact Hwf.
      - intros a w. rewrite elem_of_list_fmap. split.
        + intros H. by exists (a, w).
        + intros ([b u] & [= -> ->] & H). done.
    Qed.

    Theorem C62_accepted_calls evs s (i : raw3 N) r s' r2 s2 : reachable C rng x0 evs s -> accepted3 i ->
      ifit3 rng i s = (r, s') -> categorize3 rng i s = (r2, s2) ->
      exists j, dwf j /\ Forall (fun a => attr_ok a = true) (dkeys j) /\ (forall a w, (a, w) ∈ j <-> (a, PVal3 w) ∈ i) /\
        reachable C rng x0 (evs ++ [EFit (C:=C) j r]) s' /\ reachable C rng x0 (evs ++ [ECat (C:=C) j r2]) s2.
    Proof.
      intros (c & p & Hr) Hi E1 E2. destruct (accepted3_sanity i Hi) as (j & Ej & Hg & Hk & Hj).
      unfold ifit3 in E1. unfold categorize3 in E2. rewrite Ej in E1, E2.
      exists j. split; [done|]. split; [done|]. split; [done|]. split; exists c, p; (eapply run_snoc; [exact Hr|]).
      - by apply step_fit.
      - by apply step_cat.
    Qed.

    (** Unless a value is the reserved string (C36), ifit adds one instance to the
        root: one more occurrence of each of its
        nominal values, one more number under each attribute that has one;
        categorize changes neither the tree nor the scales. *)
    Theorem C62_accepted_effect evs s (i : raw3 N) k s' r2 s2 :
      reachable C rng x0 evs s -> all_inst (C:=C) good3 evs -> all_ok evs -> accepted3 i -> (forall a, (a, PVal3 (VNom cv_key)) ∉ i) ->
      ifit3 rng i s = (Ok k, s') -> categorize3 rng i s = (r2, s2) ->
      (exists tb tb', table_of s (st_root s) tb /\ table_of s' (st_root s') tb' /\
        n3_count tb' = S (n3_count tb) /\
        (forall a w, (a, PVal3 (VNom w)) ∈ i -> count_of tb' a w = S (count_of tb a w)) /\
        (forall a w, (a, PVal3 (VNom w)) ∉ i -> count_of tb' a w = count_of tb a w) /\
        (forall a y, (a, PVal3 (VNum y)) ∈ i -> exists c', numeric_of tb' a = Some c' /\
          cv_num c' = S (match numeric_of tb a with Some c => cv_num c | None => 0 end))) /\
      st_heap s2 = st_heap s /\ st_root s2 = st_root s /\ st_ctx s2 = st_ctx s.
    Proof.
      intros Hr Hg Hao Hi Hkey E1 E2. destruct (C62_accepted_calls evs s i _ _ _ _ Hr Hi E1 E2) as (j & Hwj & Hk & Hj & Hr1 & Hr2).
      assert (Hgj : good3 j).
      { split; [done|]. split; [done|]. intros a E. apply dget_In in E. apply (Hkey a). by apply Hj. }
      split.
      - destruct (C31_counts_any_arithmetic rng sc inner evs s Hr Hg Hao) as (tb & Ht & Hc & He & Hn).
        destruct (C31_counts_any_arithmetic rng sc inner _ s' Hr1) as (tb' & Ht' & Hc' & He' & Hn').
        { apply Forall_app. split; [done|]. apply Forall_singleton. intros q ->. done. }
        { apply Forall_app. split; [done|]. by apply Forall_singleton. }
        assert (Hh : history (evs ++ [EFit (C:=C) j (Ok k)]) = history evs ++ [j]) by (rewrite history_snoc; reflexivity).
        rewrite Hh in Hc', He', Hn'. exists tb, tb'. split; [done|]. split; [done|].
        split; [rewrite Hc', Hc, app_length; simpl; lia|].
        assert (Ho : forall a w, count_of tb' a w = count_of tb a w + occ3 [j] a w) by (intros a w; rewrite He', He; apply occ3_app).
        split; [|split].
        + intros a w Hw. rewrite Ho. apply Hj in Hw. apply In_dget in Hw; [|apply Hgj]. simpl. rewrite Hw, decide_True by done. lia.
        + intros a w Hw. rewrite Ho. enough (occ3 [j] a w = 0) by lia. simpl.
          destruct (dget a j) as [[u|y]|] eqn:Ej; [|done|done]. rewrite decide_False; [done|]. intros ->.
          apply Hw, Hj. by apply dget_In.
        + intros a y Hy. apply Hj in Hy. apply In_dget in Hy; [|apply Hgj].
          specialize (Hn a). specialize (Hn' a).
          assert (Hna : nums (history evs ++ [j]) a = nums (history evs) a ++ [y]).
          { etransitivity; [apply nums_app|]. simpl. by rewrite Hy. }
          rewrite Hna in Hn'.
          destruct (nums (history evs) a) as [|z zs]; simpl in Hn'.
          * rewrite Hn. destruct Hn' as (c' & E & Hc1). by exists c'.
          * destruct Hn as (c & -> & Hc1), Hn' as (c' & E & Hc2). exists c'. split; [done|].
            rewrite Hc1, Hc2. simpl. rewrite app_length. simpl. lia.
      - destruct (accepted3_sanity i Hi) as (j' & Ej' & _). unfold categorize3 in E2. rewrite Ej' in E2.
        destruct (reachable_read_only C rng x0 evs s j' _ _ Hr E2) as (H1 & H2 & H3 & _). done.
    Qed.
  End Numeric.
End Raw.
