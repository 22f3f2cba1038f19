(** * C88: the random moves of the mapping problem (structure_mapper.py:391-416). *)
From Coq Require Import Reals Lra Lia.
From stdpp Require Import base decidable list strings.
From Coq Require Import Ascii String ZArith.
From Verif Require Import Base Num PyVal Preproc StructMap StructFacts PropsStruct.
Set Default Proof Using "Type".
Open Scope string_scope.
Open Scope list_scope.

Section Random.
  Context (N : NumOps).
  (** [random.choice(l)]; [k] is what the generator draws. *)
  Definition choice {A} (l : list A) (k : nat) : res A :=
    match l !! (k mod List.length l)%nat with Some x => Ok x | None => Err IndexError end.
  (** Lines 400-402: [ks] are the draws, one for each round of the loop; if
      they are used up the loop is still running. *)
  Fixpoint first_object (ks : list nat) (s : smstate) : res attr :=
    match ks with
    | [] => Err OutOfFuel
    | k :: ks =>
        let? o1 := choice (dkeys (fst s)) k in
        if bool_decide (img (fst s) o1 = o1) && bool_decide (snd s = []) then first_object ks s
        else Ok o1
    end.
  (** [possible_flips] (404-406) *)
  Definition flips (o1 : attr) (m : list (attr * attr)) : list attr :=
    List.filter (fun v => bool_decide (v <> o1) && negb (bool_decide (img m o1 = o1) || bool_decide (img m v = v))) (dkeys m).
  (** [random_successor] (391-416); [u] is [random()], [k] the draw of the
      second [choice]. *)
  Definition random_successor (ks : list nat) (u : num N) (k : nat) (s : smstate) : res smstate :=
    let? o1 := first_object ks s in
    let f := flips o1 (fst s) in
    let? q := pydiv N (nofnat N (List.length f)) (nofnat N (List.length f + List.length (snd s))) in
    if nltb N u q || neqb N u q then
      let? o2 := choice f k in Ok (swap_two o1 o2 s)
    else
      let? o2 := choice (snd s) k in Ok (swap_unnamed o1 o2 s).

  Lemma choice_in {A} (l : list A) k x : choice l k = Ok x -> x ∈ l.
  Proof.
    unfold choice. destruct (l !! _) as [y|] eqn:E; [|done]. intros [= <-]. by apply elem_of_list_lookup_2 in E.
  Qed.
  Lemma choice_ok {A} (l : list A) k : l <> [] -> exists x, choice l k = Ok x.
  Proof.
    intros Hl. unfold choice. destruct (lookup_lt_is_Some_2 l (k mod List.length l)%nat) as [x E].
    - apply Nat.mod_upper_bound. by destruct l.
    - exists x. by rewrite E.
  Qed.
  Lemma first_in ks s o : first_object ks s = Ok o ->
    o ∈ dkeys (fst s) /\ (img (fst s) o <> o \/ snd s <> []).
  Proof.
    induction ks as [|k ks IH]; [done|]. simpl. destruct (choice _ k) as [x|] eqn:E; [|done]. cbn [rbind].
    destruct (bool_decide _ && bool_decide _) eqn:Eb; [done|]. intros [= ->]. split; [by apply choice_in in E|].
    apply andb_false_iff in Eb as [Eb|Eb]; apply bool_decide_eq_false in Eb; [by left|by right].
  Qed.

  Lemma dset_swap {V} (a b : attr) (x y : V) d : a <> b -> a ∈ dkeys d -> b ∈ dkeys d ->
    dset a x (dset b y d) = dset b y (dset a x d).
  Proof.
    intros Hab. induction d as [|[k w] d IH]; intros Ha Hb; [inversion Ha|]. simpl.
    destruct (decide (b = k)) as [->|Hbk]; destruct (decide (a = k)) as [->|Hak]; try done; simpl.
    - rewrite decide_False by done. by rewrite decide_True.
    - rewrite decide_True by done. by rewrite decide_False.
    - rewrite !decide_False by done. f_equal.
      apply elem_of_cons in Ha as [Ha|Ha]; [done|]. apply elem_of_cons in Hb as [Hb|Hb]; [done|]. by apply IH.
  Qed.
  Lemma swap_two_comm o1 o2 s : o1 <> o2 -> o1 ∈ dkeys (fst s) -> o2 ∈ dkeys (fst s) ->
    swap_two o1 o2 s = swap_two o2 o1 s.
  Proof. intros Hne H1 H2. unfold swap_two. f_equal. by apply dset_swap. Qed.
  Lemma pairs_complete (l : list attr) x y : x ∈ l -> y ∈ l -> x <> y -> (x, y) ∈ pairs l \/ (y, x) ∈ pairs l.
  Proof.
    induction l as [|z l IH]; intros Hx Hy Hne; [inversion Hx|]. simpl.
    apply elem_of_cons in Hx as [->|Hx]; apply elem_of_cons in Hy as [->|Hy].
    - done.
    - left. apply elem_of_app. left. by apply elem_of_list_fmap_1.
    - right. apply elem_of_app. left. by apply elem_of_list_fmap_1.
    - destruct (IH Hx Hy Hne) as [H|H]; [left|right]; apply elem_of_app; by right.
  Qed.

  (** What it returns is one of the successors. *)
  Theorem C88_random_is_successor ks u k s s' : random_successor ks u k s = Ok s' -> s' ∈ successors s.
  Proof.
    unfold random_successor. destruct (first_object ks s) as [o1|] eqn:E1; [|done]. cbn [rbind].
    apply first_in in E1 as [H1 _].
    destruct (pydiv _ _ _) as [q|]; [|done]. cbn [rbind]. destruct (_ || _).
    - destruct (choice _ k) as [o2|] eqn:E2; [|done]. cbn [rbind]. intros [= <-].
      apply choice_in in E2. unfold flips in E2. apply elem_of_list_In, filter_In in E2 as [H2 Hb].
      apply elem_of_list_In in H2. apply andb_true_iff in Hb as [Hne Hm].
      apply bool_decide_eq_true in Hne. apply negb_true_iff, orb_false_iff in Hm as [Hm1 Hm2].
      unfold successors. apply elem_of_app. left. apply elem_of_list_In, in_flat_map.
      destruct (pairs_complete _ o1 o2 H1 H2 ltac:(done)) as [Hp|Hp].
      + exists (o1, o2). split; [by apply elem_of_list_In|]. cbn [fst snd]. rewrite Hm1. simpl.
        rewrite bool_decide_false by done. simpl. by left.
      + exists (o2, o1). split; [by apply elem_of_list_In|]. cbn [fst snd]. rewrite Hm2. simpl.
        rewrite bool_decide_false by done. simpl. left. by apply swap_two_comm.
    - destruct (choice _ k) as [o2|] eqn:E2; [|done]. cbn [rbind]. intros [= <-].
      apply choice_in in E2. unfold successors. apply elem_of_app. right. apply elem_of_list_In, in_flat_map.
      exists o1. split; [by apply elem_of_list_In|]. apply in_map_iff. exists o2. split; [done|]. by apply elem_of_list_In.
  Qed.

  (** Hence it keeps the invariant of the search. *)
  Corollary C88_random_keeps_inv cn dom ks u k s s' : (forall x, x ∈ dom -> x ∉ cn) ->
    sm_inv cn dom s -> random_successor ks u k s = Ok s' -> sm_inv cn dom s'.
  Proof. intros Hd H E. apply C88_random_is_successor in E. by eapply (successors_inv dom cn Hd dom). Qed.

  (** Where every component keeps its name and no component of the base is
      left the loop never ends, whatever is drawn. *)
  Theorem C88_never_returns ks u k (s : smstate) : dkeys (fst s) <> [] ->
    (forall o, o ∈ dkeys (fst s) -> img (fst s) o = o) -> snd s = [] ->
    random_successor ks u k s = Err OutOfFuel.
  Proof.
    intros Hk Hall Hs. unfold random_successor.
    assert (first_object ks s = Err OutOfFuel) as ->; [|done].
    induction ks as [|n ks IH]; [done|]. cbn [first_object].
    destruct (choice_ok (dkeys (fst s)) n Hk) as [o E]. rewrite E. cbn [rbind].
    apply choice_in in E. rewrite !bool_decide_true by auto. exact IH.
  Qed.
  (** Such a state belongs to the search: the base has no components. *)
  Theorem C88_returns_refuted : exists s : smstate,
    sm_inv [] [AStr "?o"] s /\ forall ks u k, random_successor ks u k s = Err OutOfFuel.
  Proof.
    assert (Hs : forall o c x y : attr, dget o [(x, y)] = Some c -> o = x /\ c = y).
    { intros o c x y H. simpl in H. destruct (decide (o = x)); [|done]. by injection H as <-. }
    exists ([(AStr "?o", AStr "?o")], []). split.
    - split; simpl fst; simpl snd.
      + apply NoDup_singleton.
      + done.
      + intros o c H. apply Hs in H as [-> ->]. by left.
      + intros o o' c H H'. apply Hs in H as [-> _]. by apply Hs in H' as [-> _].
      + intros c. split; [by intros ?%elem_of_nil|]. by intros [?%elem_of_nil _].
    - intros ks u k. apply C88_never_returns; [done| |done]. by intros o ->%elem_of_list_singleton.
  Qed.
End Random.

(** Over the reals: with a component of the base left it returns whatever is
    drawn, unless [random()] is zero; *)
Theorem C88_returns_unmapped k0 ks (u : num ROps) k s : (0 < u < 1)%R -> dkeys (fst s) <> [] -> snd s <> [] ->
  exists s', random_successor ROps (k0 :: ks) u k s = Ok s'.
Proof.
  intros Hu Hk Hs. unfold random_successor. cbn [first_object].
  destruct (choice_ok (dkeys (fst s)) k0 Hk) as [o1 ->]. cbn [rbind].
  rewrite (bool_decide_false (snd s = [])) by done. rewrite andb_false_r. cbn [rbind].
  set (f := flips o1 (fst s)). set (n := List.length (snd s)).
  assert (Hn : (0 < n)%nat) by (unfold n; destruct (snd s); [done|simpl; lia]).
  unfold pydiv. change (nofnat ROps) with INR. change (neqb ROps) with Reqb.
  assert (Hpos : (0 < INR (List.length f + n))%R) by (apply lt_0_INR; lia).
  assert (Reqb (INR (List.length f + n)) (INR 0) = false) as Hne.
  { apply Reqb_false. simpl. intros E. rewrite E in Hpos. lra. }
  rewrite Hne. cbn [rbind]. change (ndiv ROps) with Rdiv. change (nltb ROps) with Rltb.
  destruct (Rltb u _ || Reqb u _) eqn:Eb.
  - destruct (choice_ok f k) as [o2 ->]; [|by eexists]. intros Hf. rewrite Hf in Eb. simpl in Eb.
    assert (Hz : (0 / INR n = 0)%R) by (unfold Rdiv; lra).
    apply orb_true_iff in Eb as [Eb|Eb].
    + apply Rltb_true in Eb. rewrite Hz in Eb. lra.
    + apply Reqb_true in Eb. rewrite Hz in Eb. lra.
  - destruct (choice_ok (snd s) k Hs) as [o2 ->]. by eexists.
Qed.
(** without one, if two components are mapped and one of them is drawn. *)
Theorem C88_returns_mapped ks (u : num ROps) k s o1 o2 : (0 <= u < 1)%R -> snd s = [] ->
  first_object ks s = Ok o1 -> o2 ∈ dkeys (fst s) -> o2 <> o1 -> img (fst s) o2 <> o2 ->
  exists s', random_successor ROps ks u k s = Ok s'.
Proof.
  intros Hu Hs E1 H2 Hne Hm2. unfold random_successor. rewrite E1. cbn [rbind].
  destruct (first_in _ _ _ E1) as [H1 [Hm1|]]; [|done].
  set (f := flips o1 (fst s)).
  assert (Hin : o2 ∈ f).
  { unfold f, flips. apply elem_of_list_In, filter_In. split; [by apply elem_of_list_In|].
    rewrite bool_decide_true by done. rewrite !bool_decide_false by done. done. }
  assert (Hn : (0 < List.length f)%nat) by (destruct f; [inversion Hin|simpl; lia]).
  rewrite Hs. cbn [List.length]. rewrite Nat.add_0_r.
  assert (Hpos : (0 < INR (List.length f))%R) by (by apply lt_0_INR).
  unfold pydiv. change (nofnat ROps) with INR. change (neqb ROps) with Reqb.
  assert (Reqb (INR (List.length f)) (INR 0) = false) as ->.
  { apply Reqb_false. simpl. intros E. rewrite E in Hpos. lra. }
  cbn [rbind]. change (ndiv ROps) with Rdiv. change (nltb ROps) with Rltb.
  assert (Rltb u (INR (List.length f) / INR (List.length f)) = true) as ->.
  { apply Rltb_true. unfold Rdiv. rewrite Rinv_r by lra. lra. }
  simpl orb. cbv iota. destruct (choice_ok f k) as [x ->]; [|by eexists].
  intros Hf. rewrite Hf in Hn. simpl in Hn. lia.
Qed.
(** with only one mapped it divides by zero; a draw of zero can raise, too. *)
Theorem C88_raises_refuted : exists s s' : smstate,
  sm_inv [AStr "?a"] [AStr "?o"] s /\ (forall k u, random_successor ROps [0%nat] u k s = Err ZeroDivisionError) /\
  sm_inv [AStr "?a"] [AStr "?o"] s' /\ (forall k, random_successor ROps [0%nat] 0%R k s' = Err IndexError).
Proof.
  assert (Hs : forall o c x y : attr, dget o [(x, y)] = Some c -> o = x /\ c = y).
  { intros o c x y H. simpl in H. destruct (decide (o = x)); [|done]. by injection H as <-. }
  exists ([(AStr "?o", AStr "?a")], []), ([(AStr "?o", AStr "?o")], [AStr "?a"]). split; [|split; [|split]].
  - split; simpl fst; simpl snd.
    + apply NoDup_singleton.
    + done.
    + intros o c H. apply Hs in H as [-> ->]. right. left.
    + intros o o' c H H'. apply Hs in H as [-> _]. by apply Hs in H' as [-> _].
    + intros c. split; [by intros ?%elem_of_nil|]. intros [->%elem_of_list_singleton H].
      exfalso. by apply (H (AStr "?o")).
  - intros k u. unfold random_successor.
  assert (first_object [0%nat] ([(AStr "?o", AStr "?a")], []) = Ok (AStr "?o")) as -> by (vm_compute; reflexivity). cbn [rbind fst snd]. cbv zeta.
  assert (flips (AStr "?o") [(AStr "?o", AStr "?a")] = []) as Hf by (vm_compute; reflexivity). rewrite Hf.
  cbn [List.length Nat.add]. unfold pydiv. change (neqb ROps) with Reqb.
    change (nofnat ROps) with INR. assert (Reqb (INR 0) (INR 0) = true) as ->; [by apply Reqb_true|done].
  - split; simpl fst; simpl snd.
    + apply NoDup_singleton.
    + done.
    + intros o c H. apply Hs in H as [-> ->]. by left.
    + intros o o' c H H'. apply Hs in H as [-> _]. by apply Hs in H' as [-> _].
    + intros c. rewrite elem_of_list_singleton. split.
      * intros ->. split; [done|]. intros o H. apply Hs in H as [_ H]. done.
      * by intros [-> _].
  - intros k. unfold random_successor.
  assert (first_object [0%nat] ([(AStr "?o", AStr "?o")], [AStr "?a"]) = Ok (AStr "?o")) as -> by (vm_compute; reflexivity). cbn [rbind fst snd]. cbv zeta.
  assert (flips (AStr "?o") [(AStr "?o", AStr "?o")] = []) as Hf by (vm_compute; reflexivity). rewrite Hf.
  cbn [List.length Nat.add]. unfold pydiv. change (neqb ROps) with Reqb.
    change (nofnat ROps) with INR. assert (Reqb (INR 1) (INR 0) = false) as ->.
    { apply Reqb_false. simpl. lra. }
    cbn [rbind]. change (ndiv ROps) with Rdiv.
    assert (Reqb 0 (INR 0 / INR 1) = true) as ->; [|by rewrite orb_true_r].
    apply Reqb_true. simpl. lra.
Qed.

(** Two mapped components: their names are exchanged. *)
Lemma ex_C88 : random_successor ROps [1%nat] (1 / 2)%R 0
    ([(AStr "?o1", AStr "?a"); (AStr "?o2", AStr "?b")], []) =
  Ok ([(AStr "?o1", AStr "?b"); (AStr "?o2", AStr "?a")], []).
Proof.
  unfold random_successor.
  assert (first_object [1%nat] ([(AStr "?o1", AStr "?a"); (AStr "?o2", AStr "?b")], []) = Ok (AStr "?o2")) as -> by (vm_compute; reflexivity). cbn [rbind fst snd]. cbv zeta.
  assert (flips (AStr "?o2") [(AStr "?o1", AStr "?a"); (AStr "?o2", AStr "?b")] = [AStr "?o1"]) as Hf by (vm_compute; reflexivity). rewrite Hf.
  cbn [List.length Nat.add]. unfold pydiv. change (neqb ROps) with Reqb. change (nofnat ROps) with INR.
  assert (Reqb (INR 1) (INR 0) = false) as ->. { apply Reqb_false. simpl. lra. }
  cbn [rbind]. change (ndiv ROps) with Rdiv. change (nltb ROps) with Rltb.
  assert (Rltb (1 / 2) (INR 1 / INR 1) = true) as ->; [|done]. apply Rltb_true. simpl. lra.
Qed.

Print Assumptions C88_random_is_successor.
Print Assumptions C88_returns_mapped.
