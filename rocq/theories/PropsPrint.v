(** * C96: pretty_print shows every concept once, and can be read back. *)
From stdpp Require Import base decidable list gmap strings pretty.
From Coq Require Import Ascii.
From Verif Require Import Base Num TreeModel TreeFun TreeScore TreeRefine TreeSorts TreeInv
  SpecTree TreeState Nominal CV Cobweb3 Print.
Set Default Proof Using "Type".
Local Open Scope string_scope.
Local Arguments String.append !_ _ / : simpl nomatch.

(** ** Specification *)

(** The concepts under [id], [id] first and then its children from left to
    right, each with its distance from the top plus [d]. *)
Inductive outline {N : NumOps} {C : NodeClass N} (s : st C) : nat -> nat -> list (nat * nat) -> Prop :=
| outline_node d id kids ls : children_of s id kids ->
    Forall2 (outline s (S d)) kids ls -> outline s d id ((d, id) :: List.concat ls).

(** One line of text *)
Definition is_line {N : NumOps} {C : NodeClass N} (label : nc_sum C -> string) (s : st C) (e : nat * nat) (ln : string) : Prop :=
  exists tb, table_of s (snd e) tb /\ ln = tabs (fst e) +:+ "|-" +:+ label tb +:+ newline.

(** The two subtrees have the same shape, with tables related by [R]. *)
Inductive matches {N : NumOps} {C : NodeClass N} (R : nc_sum C -> nc_sum C -> Prop) (s1 s2 : st C) : nat -> nat -> Prop :=
| matches_node id1 id2 tb1 tb2 l1 l2 :
    table_of s1 id1 tb1 -> table_of s2 id2 tb2 -> R tb1 tb2 ->
    children_of s1 id1 l1 -> children_of s2 id2 l2 ->
    Forall2 (matches R s1 s2) l1 l2 -> matches R s1 s2 id1 id2.

(** No line break in the text. *)
Definition one_line (x : string) : Prop := ~ exists a b, x = a +:+ newline +:+ b.

(** ** Strings *)

Lemma sapp_assoc (a b c : string) : (a +:+ b) +:+ c = a +:+ (b +:+ c).
Proof. induction a as [|x a IH]; [done|]. simpl. by rewrite IH. Qed.
Lemma sapp_nil (a : string) : a +:+ "" = a.
Proof. induction a as [|x a IH]; [done|]. simpl. by rewrite IH. Qed.

(** Every character is in [P]. *)
Fixpoint every (P : ascii -> Prop) (x : string) : Prop :=
  match x with "" => True | String c x => P c /\ every P x end.

Lemma every_app P a b : every P (a +:+ b) <-> every P a /\ every P b.
Proof. induction a as [|c a IH]; simpl; [naive_solver|]. change (every P (String.append a b)) with (every P (a +:+ b)). rewrite IH. naive_solver. Qed.

Lemma one_line_every x : one_line x <-> every (fun c => c <> newline_char) x.
Proof.
  unfold one_line. split.
  - induction x as [|c x IH]; intros H; [done|]. split.
    + intros ->. apply H. by exists "", x.
    + apply IH. intros (a & b & ->). apply H. by exists (String c a), b.
  - intros H (a & b & ->). apply every_app in H as [_ H]. by destruct H as [H _].
Qed.

Lemma cut (P : ascii -> Prop) a b c d x y : every P a -> every P b -> ~ P c -> ~ P d ->
  a +:+ String c x = b +:+ String d y -> a = b /\ c = d /\ x = y.
Proof.
  revert b. induction a as [|e a IH]; intros [|f b] Ha Hb Hc Hd E; simpl in *.
  - by injection E as -> ->.
  - injection E as -> _. by destruct Hb.
  - injection E as -> _. by destruct Ha.
  - injection E as -> E. destruct (IH b) as (-> & -> & ->); [by destruct Ha|by destruct Hb|done..].
Qed.

Lemma tabs_app_inj k x y : tabs k +:+ x = tabs k +:+ y -> x = y.
Proof. induction k as [|k IH]; [done|]. simpl. intros E. injection E as E. by apply IH. Qed.

(** What may follow a block printed at depth [d] *)
Definition shallow (d : nat) (r : string) : Prop :=
  r = "" \/ exists k y, k <= d /\ r = tabs k +:+ String "|" y.

Lemma shallow_deep d r z : shallow d r -> r <> tabs (S d) +:+ String "|" z.
Proof.
  intros [->|(k & y & Hk & ->)]; [done|]. revert k Hk. induction d as [|d IH]; intros [|k] Hk; try done; [lia|].
  simpl. intros E. injection E as E. eapply (IH k); [lia|done].
Qed.

Section Out.
  Context {N : NumOps} (C : NodeClass N) (label : nc_sum C -> string).
  Notation tree := (tree C).
  Notation st := (st C).

  Definition line (d : nat) (sm : nc_sum C) : string := tabs d +:+ "|-" +:+ label sm +:+ newline.
  Fixpoint joined (l : list string) : string := match l with [] => "" | x :: l => x +:+ joined l end.
  Fixpoint text (d : nat) (t : tree) : string :=
    match t with T id sm kids => line d sm +:+ joined (map (text (S d)) kids) end.
  Fixpoint pre (d : nat) (t : tree) : list (nat * nat) :=
    match t with T id sm kids => (d, id) :: List.concat (map (pre (S d)) kids) end.

  Lemma mpretty_sub (s : st) t u : state_ok C s t -> sub C u t ->
    forall d fuel, tsize u <= fuel -> mpretty C label fuel d (tid u) s = (Ok (text d u), s).
  Proof.
    intros Hok. induction u as [id sm kids IH] using (tree_ind' C). intros Hu d [|fuel] Hf.
    { simpl in Hf. lia. }
    destruct (rep_sub _ _ _ _ _ (so_rep _ _ _ Hok) Hu) as (q & Hq & _).
    inversion Hq as [? ? ? ? Hl HF]; subst. cbn [mpretty tid].
    rewrite (mbind_ok C _ _ _ _ _ (mget_ok C _ s _ Hl)). cbn [nd_children nd_sum].
    match goal with |- mbind C (?f _) _ _ = _ => set (go := f) end.
    assert (Hgo : forall ks, (forall k, k ∈ ks -> k ∈ kids) -> go (map tid ks) s = (Ok (joined (map (text (S d)) ks)), s)).
    { induction ks as [|k ks IHk]; intros Hks; [done|].
      change (go (map tid (k :: ks))) with
        (mbind C (mpretty C label fuel (S d) (tid k)) (fun x => mbind C (go (map tid ks)) (fun y => mret C (x +:+ y)))).
      assert (Hk : k ∈ kids) by (apply Hks; left).
      rewrite Forall_forall in IH.
      assert (Ek : mpretty C label fuel (S d) (tid k) s = (Ok (text (S d) k), s)).
      { apply IH; [done| |].
        - eapply sub_trans; [|exact Hu]. eapply sub_kid; [done|apply sub_refl].
        - pose proof (kid_size C k id sm kids Hk). lia. }
      rewrite (mbind_ok C _ _ _ _ _ Ek). erewrite mbind_ok; [|apply IHk; intros; apply Hks; by right]. done. }
    erewrite mbind_ok; [|apply Hgo; auto]. done.
  Qed.

  Lemma pretty_print_ok (s : st) t u d : state_ok C s t -> sub C u t ->
    pretty_print C label d (tid u) s = (Ok (text d u), s).
  Proof.
    intros Hok Hu. unfold pretty_print, mheap_size. unfold mbind at 1.
    eapply mpretty_sub; [done|done|].
    pose proof (tsize_heap C _ _ _ (so_rep _ _ _ Hok) (so_nodup _ _ _ Hok)). pose proof (sub_size C _ _ Hu). lia.
  Qed.

  Lemma pre_outline (s : st) t u : state_ok C s t -> sub C u t -> forall d, outline s d (tid u) (pre d u).
  Proof.
    intros Hok. induction u as [id sm kids IH] using (tree_ind' C). intros Hu d. cbn [pre tid].
    destruct (sub_children _ _ _ _ Hok Hu) as (nd & Hn & Hc). cbn [tkids tid] in Hn, Hc.
    apply outline_node with (kids := map tid kids); [by exists nd|].
    rewrite Forall_forall in IH.
    assert (G : forall ks, (forall k, k ∈ ks -> k ∈ kids) -> Forall2 (outline s (S d)) (map tid ks) (map (pre (S d)) ks)).
    { induction ks as [|k ks IHk]; intros Hks; simpl; constructor.
      - apply IH; [apply Hks; left|]. eapply sub_trans; [|exact Hu]. eapply sub_kid; [apply Hks; left|apply sub_refl].
      - apply IHk. intros; apply Hks; by right. }
    by apply G.
  Qed.

  Lemma joined_app l l' : joined (l ++ l') = joined l +:+ joined l'.
  Proof. induction l as [|x l IH]; [done|]. simpl. by rewrite IH, sapp_assoc. Qed.

  Lemma pre_lines (s : st) t u : state_ok C s t -> sub C u t -> forall d,
    exists lns, Forall2 (is_line label s) (pre d u) lns /\ text d u = joined lns.
  Proof.
    intros Hok. induction u as [id sm kids IH] using (tree_ind' C). intros Hu d. cbn [pre text].
    rewrite Forall_forall in IH.
    assert (G : forall ks, (forall k, k ∈ ks -> k ∈ kids) -> exists lns,
       Forall2 (is_line label s) (List.concat (map (pre (S d)) ks)) lns /\ joined (map (text (S d)) ks) = joined lns).
    { induction ks as [|k ks IHk]; intros Hks; [exists []; split; [constructor|done]|].
      destruct (IHk) as (l2 & F2 & E2); [intros; apply Hks; by right|].
      assert (Hk : k ∈ kids) by (apply Hks; left).
      destruct (IH k Hk) with (d := S d) as (l1 & F1 & E1).
      { eapply sub_trans; [|exact Hu]. eapply sub_kid; [apply Hks; left|apply sub_refl]. }
      exists (l1 ++ l2)%list. split; [by apply Forall2_app|]. simpl. by rewrite E1, E2, joined_app. }
    destruct (G kids) as (lns & F & E); [done|].
    exists (line d sm :: lns). split; [|by rewrite E].
    constructor; [|done]. exists sm. split; [|done]. exact (sub_table C s t _ Hok Hu).
  Qed.

  Lemma pre_ids u d : map snd (pre d u) = ids u.
  Proof.
    revert d. induction u as [id sm kids IH] using (tree_ind' C). intros d. simpl. f_equal.
    induction IH as [|k ks Hk HF IHk]; [done|]. simpl. rewrite map_app, Hk. f_equal. exact IHk.
  Qed.

  (** *** Reading *)
  Inductive alikeT (R : nc_sum C -> nc_sum C -> Prop) : tree -> tree -> Prop :=
  | alike_node i1 i2 sm1 sm2 k1 k2 : R sm1 sm2 -> Forall2 (alikeT R) k1 k2 -> alikeT R (T i1 sm1 k1) (T i2 sm2 k2).

  Lemma text_head d u : exists y, text d u = tabs d +:+ String "|" y.
  Proof. destruct u as [id sm kids]. simpl. unfold line. rewrite !sapp_assoc. eexists. f_equal. Qed.

  Lemma text_read (t1 t2 : tree) : (forall v, sub C v t1 -> one_line (label (tsum v))) -> (forall v, sub C v t2 -> one_line (label (tsum v))) ->
    forall d r1 r2, shallow d r1 -> shallow d r2 -> text d t1 +:+ r1 = text d t2 +:+ r2 ->
      alikeT (fun a b => label a = label b) t1 t2 /\ r1 = r2.
  Proof.
    revert t2. induction t1 as [i1 sm1 k1 IH] using (tree_ind' C). intros [i2 sm2 k2] H1 H2 d r1 r2 S1 S2 E.
    cbn [text] in E. unfold line in E. rewrite !sapp_assoc in E. apply tabs_app_inj in E.
    change ("|-" +:+ ?x) with (String "|" (String "-" x)) in E. injection E as E.
    change (newline +:+ ?x) with (String newline_char x) in E.
    apply (cut (fun c => c <> newline_char)) in E as (El & _ & E);
      [|apply one_line_every; apply (H1 (T i1 sm1 k1)), sub_refl|apply one_line_every; apply (H2 (T i2 sm2 k2)), sub_refl|by intros H; apply H..].
    assert (G : forall ks1 ks2, (forall k, k ∈ ks1 -> k ∈ k1) -> (forall k, k ∈ ks2 -> k ∈ k2) ->
       joined (map (text (S d)) ks1) +:+ r1 = joined (map (text (S d)) ks2) +:+ r2 ->
       Forall2 (alikeT (fun a b => label a = label b)) ks1 ks2 /\ r1 = r2).
    { rewrite Forall_forall in IH.
      assert (Hrest : forall ks r, shallow d r -> shallow (S d) (joined (map (text (S d)) ks) +:+ r)).
      { intros [|k ks] r Hr; simpl.
        - destruct Hr as [->|(j & y & Hj & ->)]; [by left|right]. exists j, y. split; [lia|done].
        - right. destruct (text_head (S d) k) as (y & ->). rewrite !sapp_assoc. exists (S d). eexists. split; [done|]. f_equal. }
      induction ks1 as [|a ks1 IHk]; intros [|b ks2] Hs1 Hs2 Ek.
      - split; [constructor|done].
      - exfalso. simpl in Ek. destruct (text_head (S d) b) as (y & Ey). rewrite Ey in Ek. rewrite !sapp_assoc in Ek.
        by apply (shallow_deep d r1) in Ek.
      - exfalso. simpl in Ek. destruct (text_head (S d) a) as (y & Ey). rewrite Ey in Ek. rewrite !sapp_assoc in Ek.
        symmetry in Ek. by apply (shallow_deep d r2) in Ek.
      - simpl in Ek. rewrite !sapp_assoc in Ek.
        apply IH in Ek as [Ha Ek].
        + apply IHk in Ek as [Hk ->]; [|intros; apply Hs1; by right|intros; apply Hs2; by right].
          split; [by constructor|done].
        + apply Hs1; left.
        + intros v Hv. apply H1. eapply sub_kid; [apply Hs1; left|done].
        + intros v Hv. apply H2. eapply sub_kid; [apply Hs2; left|done].
        + by apply Hrest.
        + by apply Hrest. }
    destruct (G k1 k2) as [HF ->]; [done..|]. split; [by constructor|done].
  Qed.

  Lemma alike_matches R (s1 s2 : st) t1 t2 u1 u2 : state_ok C s1 t1 -> state_ok C s2 t2 -> sub C u1 t1 -> sub C u2 t2 ->
    alikeT R u1 u2 -> matches R s1 s2 (tid u1) (tid u2).
  Proof.
    intros O1 O2. revert u2. induction u1 as [i1 sm1 k1 IH] using (tree_ind' C). intros u2 S1 S2 HA.
    inversion HA as [? i2 ? sm2 ? k2 HR HF]; subst.
    destruct (sub_children _ _ _ _ O1 S1) as (n1 & Hn1 & Hc1). destruct (sub_children _ _ _ _ O2 S2) as (n2 & Hn2 & Hc2).
    cbn [tid tkids] in *.
    apply (matches_node R s1 s2 i1 i2 sm1 sm2 (map tid k1) (map tid k2)); [exact (sub_table C _ _ _ O1 S1)|exact (sub_table C _ _ _ O2 S2)|done|by exists n1|by exists n2|].
    rewrite Forall_forall in IH.
    assert (G : forall ks1 ks2, Forall2 (alikeT R) ks1 ks2 -> (forall k, k ∈ ks1 -> k ∈ k1) -> (forall k, k ∈ ks2 -> k ∈ k2) ->
       Forall2 (matches R s1 s2) (map tid ks1) (map tid ks2)).
    { induction 1 as [|a b ks1 ks2 Hab HF' IHk]; intros Hs1 Hs2; simpl; constructor.
      - apply IH; [apply Hs1; left| | |done].
        + eapply sub_trans; [|exact S1]. eapply sub_kid; [apply Hs1; left|apply sub_refl].
        + eapply sub_trans; [|exact S2]. eapply sub_kid; [apply Hs2; left|apply sub_refl].
      - apply IHk; intros; [apply Hs1|apply Hs2]; by right. }
    by apply G.
  Qed.
End Out.

Section Theorems.
  Context {N : NumOps} (C : NodeClass N) (rng : nat -> num N) (x0 : nc_ctx C).
  Context (label : nc_sum C -> string).

  (** After any history, str(tree) succeeds, changes nothing, and has one line
      per concept, each once, a concept before its children and these from
      left to right, indented by its depth. *)
  Theorem C96_printed evs s : reachable C rng x0 evs s ->
    exists out lns, outline s 0 (st_root s) out /\ Forall2 (is_line label s) out lns /\
      pretty_print C label 0 (st_root s) s = (Ok (String.concat "" lns), s) /\
      NoDup (map snd out) /\ forall id, id ∈ map snd out <-> in_tree s id.
  Proof.
    intros Hr. destruct (reachable_ok C rng x0 evs s Hr) as (t & Hok).
    destruct (pre_lines C label s t t Hok ltac:(apply sub_refl) 0) as (lns & HF & E).
    exists (pre C 0 t), lns. rewrite (so_root _ _ _ Hok).
    split; [by apply (pre_outline C s t t Hok), sub_refl|]. split; [done|].
    split; [rewrite (pretty_print_ok C label s t t 0 Hok ltac:(apply sub_refl)), E; do 2 f_equal|].
    { clear. induction lns as [|x [|y l] IH]; [done|by simpl; rewrite sapp_nil|].
      change (joined (x :: y :: l)) with (x +:+ joined (y :: l)). rewrite IH. done. }
    rewrite pre_ids. split; [exact (so_nodup _ _ _ Hok)|].
    intros id. by rewrite (in_tree_ids C s t id Hok).
  Qed.

  (** If no label contains a line break, two trees that print alike have the
      same shape and labels. *)
  Theorem C96_read_back rng1 rng2 x1 x2 evs1 s1 evs2 s2 x : reachable C rng1 x1 evs1 s1 -> reachable C rng2 x2 evs2 s2 ->
    (forall id tb, in_tree s1 id -> table_of s1 id tb -> one_line (label tb)) ->
    (forall id tb, in_tree s2 id -> table_of s2 id tb -> one_line (label tb)) ->
    pretty_print C label 0 (st_root s1) s1 = (Ok x, s1) -> pretty_print C label 0 (st_root s2) s2 = (Ok x, s2) ->
    matches (fun a b => label a = label b) s1 s2 (st_root s1) (st_root s2).
  Proof.
    intros R1 R2 L1 L2 E1 E2.
    destruct (reachable_ok C rng1 x1 _ _ R1) as (t1 & O1). destruct (reachable_ok C rng2 x2 _ _ R2) as (t2 & O2).
    rewrite (so_root _ _ _ O1) in E1 |- *. rewrite (so_root _ _ _ O2) in E2 |- *.
    rewrite (pretty_print_ok C label s1 t1 t1 0 O1 ltac:(apply sub_refl)) in E1.
    rewrite (pretty_print_ok C label s2 t2 t2 0 O2 ltac:(apply sub_refl)) in E2.
    eapply alike_matches; [done|done|apply sub_refl|apply sub_refl|].
    apply (text_read C label t1 t2) with (d := 0) (r1 := "") (r2 := "").
    - intros v Hv. eapply (L1 (tid v)); [apply (in_tree_sub C s1 t1 _ O1); by exists v|by eapply sub_table].
    - intros v Hv. eapply (L2 (tid v)); [apply (in_tree_sub C s2 t2 _ O2); by exists v|by eapply sub_table].
    - by left.
    - by left.
    - congruence.
  Qed.
End Theorems.
