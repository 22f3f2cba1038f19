(** * Properties of Pipeline, SubComponentProcessor and the one-way
    preprocessors: C45, C47, C60, C61. *)
From stdpp Require Import base decidable list gmap strings pretty sets.
From Coq Require Import Ascii String ZArith.
From Verif Require Import Nominal Base PyVal Preproc PreFlat PreTuple PreStd Preproc2 PreSub.
Open Scope string_scope.
Open Scope list_scope.

(** ** C45: pipelines *)
Section Pipe.
  Context {I S : Type} (cls : nat -> pproc I S).
  (** When two instances count as the same (for Python dictionaries: [==]). *)
  Context (R : I -> I -> Prop).

  (** The undo of [p] inverts its transform on the instance [i]: after
      transforming [i], whatever state [p] was in, undoing anything that counts
      as the result gives [i] back. *)
  Definition undone (p : pproc I S) (i : I) : Prop :=
    forall s c j s' c', pp_tr p i s c = (Ok j, s', c') ->
    forall j', R j' j -> exists i', pp_un p j' s' = Ok i' /\ R i' i.

  Lemma pipe_tr_keeps os : forall i h c r h' c', pipe_tr cls os i h c = (r, h', c') ->
    forall o, o ∉ os -> h' !! o = h !! o.
  Proof.
    induction os as [|p os IH]; intros i h c r h' c' E o Ho; simpl in E.
    - by injection E as _ <- _.
    - apply not_elem_of_cons in Ho as [Hp Ho]. destruct (h !! p) as [s|]; [|by injection E as _ <- _].
      destruct (pp_tr (cls p) i s c) as [[[j|e] s'] c1] eqn:Ep.
      + rewrite (IH _ _ _ _ _ _ E o Ho). by rewrite lookup_insert_ne.
      + injection E as _ <- _. by rewrite lookup_insert_ne.
  Qed.

  (** A pipeline of distinct preprocessor objects is undone if each stage is
      undone on what the stages before it hand over. *)
  Theorem C45_pipeline (os : list nat) i h c j h' c' : NoDup os ->
    (forall pre o post k h1 c1, os = pre ++ o :: post -> pipe_tr cls pre i h c = (Ok k, h1, c1) ->
       undone (cls o) k) ->
    pipe_tr cls os i h c = (Ok j, h', c') ->
    forall j', R j' j -> exists i', pipe_un cls os j' h' = Ok i' /\ R i' i.
  Proof.
    revert i h c. induction os as [|o os IH]; intros i h c Hnd Hst E j' Hj.
    - injection E as <- _ _. by exists j'.
    - apply NoDup_cons in Hnd as [Ho Hnd]. cbn [pipe_tr] in E.
      destruct (h !! o) as [s|] eqn:Es; [|done].
      destruct (pp_tr (cls o) i s c) as [[[k|e] s1] c1] eqn:Ep; [|done].
      destruct (IH k (<[o := s1]> h) c1 Hnd) with (j' := j') as (k' & Ek & Hk); [|done|done|].
      { intros pre o' post k0 h1 c0 -> Epre. apply (Hst (o :: pre) o' post k0 h1 c0); [done|].
        cbn [pipe_tr]. by rewrite Es, Ep. }
      assert (Hs : h' !! o = Some s1).
      { rewrite (pipe_tr_keeps _ _ _ _ _ _ _ E o Ho). by rewrite lookup_insert. }
      destruct (Hst [] o os i h c eq_refl eq_refl s c k s1 c1 Ep k' Hk) as (i' & Ei & Hi).
      exists i'. split; [|done]. unfold pipe_un in *. cbn [rev].
      rewrite rfold_app, Ek. simpl. unfold pipe_un1. by rewrite Hs, Ei.
  Qed.
End Pipe.

(** A one-way preprocessor's undo returns a copy of what it is given. *)
Theorem C45_one_way : forall (V : Type) (d : list (attr * V)), dwf d -> oneway_undo d = d.
Proof. intros V d Hd. unfold oneway_undo. by rewrite (dupd_app d []). Qed.

(** A NameStandardizer is such a stage, for the instances of C42. *)
Lemma std_undone {X} pystr setord (d : inst X) :
  (forall l x, x ∈ setord l <-> x ∈ l) -> std_ok (PD d) -> undo_ok (PD d) ->
  undone ieq (std_proc pystr setord) d.
Proof.
  intros Hso H1 H2 s c j s' c' E j' Hj. simpl in E.
  destruct (ns_round_trip_eq pystr setord Hso c d H1 H2) as (d' & rev & c0 & E' & H).
  rewrite E' in E. injection E as <- <- <-. simpl. eexists. split; [done|]. by apply H.
Qed.

(** With the same object twice, undoing fails although the undo of each stage
    inverts its transform: the second transform overwrites the object's
    reverse mapping. *)
Theorem C45_repeated_stage_refuted :
  exists (d j i' : inst nat) h',
    let cls := fun _ : nat => std_proc (X:=nat) (fun _ => "") (fun l => l) in
    pipe_tr cls [0; 0] d {[ 0 := None ]} 0 = (Ok j, h', 2) /\
    (forall pre o post k h1 c1, [0; 0] = pre ++ o :: post ->
       pipe_tr cls pre d {[ 0 := None ]} 0 = (Ok k, h1, c1) -> undone ieq (cls o) k) /\
    pipe_un cls [0; 0] j h' = Ok i' /\ ~ ieq i' d.
Proof.
  set (d := [(AStr "?x", PD [(AStr "a", PX 1)])] : inst nat).
  assert (Hgen : forall v, is_var v = true ->
    undone ieq (std_proc (X:=nat) (fun _ => "") (fun l => l)) [(AStr v, PD [(AStr "a", PX 1)])]).
  { intros v Hv. apply std_undone; [done| |].
    - constructor; [repeat constructor; set_solver|by repeat constructor|].
      repeat constructor; simpl; set_solver.
    - repeat constructor; simpl; try done. }
  exists d. eexists _, _, _. split; [vm_compute; reflexivity|]. split.
  { intros pre o post k h1 c1 Eos Epre.
    destruct pre as [|p0 pre]; simpl in Eos; injection Eos as <- Eos.
    - injection Epre as <- _ _. by apply (Hgen "?x").
    - destruct pre as [|p1 pre].
      + simpl in Eos. injection Eos as <- _. vm_compute in Epre. injection Epre as <- _ _.
        by apply (Hgen "?o1").
      + simpl in Eos. injection Eos as _ Eos. by destruct pre. }
  split; [vm_compute; reflexivity|].
  intros H. inversion H as [| | |? l ? HF HP]; subst.
  inversion HF as [|? b ? l' [E _] HF']; subst. inversion HF'; subst.
  apply Permutation_length_1 in HP. subst. discriminate E.
Qed.

(** The hypotheses are met: two NameStandardizer objects in a row. *)
Lemma ex_C45 : exists (d j : inst nat) h',
  let cls := fun _ : nat => std_proc (X:=nat) (fun _ => "") (fun l => l) in
  pipe_tr cls [0; 1] d {[ 0 := None; 1 := None ]} 0 = (Ok j, h', 2) /\
  (forall pre o post k h1 c1, [0; 1] = pre ++ o :: post ->
       pipe_tr cls pre d {[ 0 := None; 1 := None ]} 0 = (Ok k, h1, c1) -> undone ieq (cls o) k) /\
  pipe_un cls [0; 1] j h' = Ok d.
Proof.
  assert (Hgen : forall v, is_var v = true ->
    undone ieq (std_proc (X:=nat) (fun _ => "") (fun l => l)) [(AStr v, PD [(AStr "a", PX 1)])]).
  { intros v Hv. apply std_undone; [done| |].
    - constructor; [repeat constructor; set_solver|by repeat constructor|].
      repeat constructor; simpl; set_solver.
    - repeat constructor; simpl; try done. }
  exists [(AStr "?x", PD [(AStr "a", PX 1)])]. eexists _, _. split; [vm_compute; reflexivity|].
  split; [|vm_compute; reflexivity].
  intros pre o post k h1 c1 Eos Epre.
  destruct pre as [|p0 pre]; simpl in Eos; injection Eos as <- Eos.
  - injection Epre as <- _ _. by apply (Hgen "?x").
  - destruct pre as [|p1 pre].
    + simpl in Eos. injection Eos as <- _. vm_compute in Epre. injection Epre as <- _ _.
      by apply (Hgen "?o1").
    + simpl in Eos. injection Eos as _ Eos. by destruct pre.
Qed.

(** ** C47: the SubComponentProcessor *)

(** [occ addr a] (PreSub.v): in the flattened attribute [a] every variable
    stands where its one address [addr v] says, and what is around it is
    again a variable.  Then components move to the top level, only
    has-component relations are added, and undoing gives exactly the
    instance. *)
Theorem C47_sub_components : forall (V : Type) (vtrue : V) (addr : string -> option attr)
    (d : list (attr * V)), dwf d ->
  Forall (fun e => occ addr (fst e) /\ is_has_comp (fst e) = None) d ->
  exists d', sub_transform vtrue d = Ok d' /\
    List.filter (fun e => match is_has_comp (fst e) with Some _ => false | None => true end) d' =
      map (fun e => (extract_attr (fst e), snd e)) d /\
    exists n, forall fuel, n <= fuel -> sub_undo fuel d' = Ok d.
Proof.
  intros V vtrue addr d Hd HF. destruct (sub_round_trip addr vtrue d Hd HF) as (d' & E & H1 & _ & H2).
  exists d'. split; [done|]. split; [done|]. by exists (maxsize d).
Qed.

Definition sub_inst : list (attr * nat) :=
  [ (ATup [AStr "b"; ATup [AStr "?z"; ATup [AStr "?y"; AStr "?x"]]], 2);
    (ATup [AStr "a"; AStr "?x"], 1);
    (ATup [AStr "on"; ATup [AStr "?y"; AStr "?x"]; AStr "?x"], 5) ].
Definition sub_addr (v : string) : option attr :=
  if decide (v = "?z") then Some (ATup [AStr "?y"; AStr "?x"])
  else if decide (v = "?y") then Some (AStr "?x") else None.
Lemma ex_C47 : dwf sub_inst /\
  Forall (fun e => occ sub_addr (fst e) /\ is_has_comp (fst e) = None) sub_inst.
Proof.
  assert (Hb : forall s, s <> "??" -> base_ok (AStr s)) by (intros s Hs; by exists s).
  assert (Hx : occ sub_addr (AStr "?x")) by (by constructor).
  assert (Hy : occ sub_addr (ATup [AStr "?y"; AStr "?x"])).
  { apply occ_var; try done. by apply Hb. }
  assert (Hby : base_ok (ATup [AStr "?y"; AStr "?x"])) by (by exists "?x").
  split; [repeat constructor; set_solver|].
  assert (Hon : occ sub_addr (AStr "on")) by (by constructor).
  apply Forall_cons; split; [split; [|done]|]; [|apply Forall_cons; split; [split; [|done]|]; [|apply Forall_cons; split; [split; [|done]|constructor]]].
  - apply occ_const; [done| |].
    + by exists "?x".
    + apply occ_var; done.
  - apply occ_const; [done|by apply Hb|done].
  - apply occ_rel; [done|]. repeat constructor; done.
Qed.
Lemma ex_C47_run : sub_transform 0 sub_inst = Ok
  [ (has_comp (AStr "?y") (AStr "?z"), 0);
    (has_comp (AStr "?x") (AStr "?y"), 0);
    (ATup [AStr "b"; AStr "?z"], 2);
    (ATup [AStr "a"; AStr "?x"], 1);
    (ATup [AStr "on"; AStr "?y"; AStr "?x"], 5) ].
Proof. reflexivity. Qed.

(** A component inside a constant: the constant is lost. *)
Theorem C47_constant_parent_refuted : exists (d d' d'' : list (attr * nat)),
  dwf d /\ sub_transform 0 d = Ok d' /\ (forall fuel, 2 <= fuel -> sub_undo fuel d' = Ok d'') /\ d'' <> d.
Proof.
  exists [(ATup [AStr "a"; ATup [AStr "?y"; AStr "box"]], 1)], [(ATup [AStr "a"; AStr "?y"], 1)], [(ATup [AStr "a"; AStr "?y"], 1)].
  split; [repeat constructor; set_solver|]. split; [reflexivity|]. split; [|discriminate].
  intros fuel Hf. destruct fuel as [|[|fuel]]; [lia|lia|]. reflexivity.
Qed.

(** A relation that mentions a nested variable by its bare name comes back
    with the path. *)
Theorem C47_bare_mention_refuted : exists (d d' d'' : list (attr * nat)),
  dwf d /\ sub_transform 0 d = Ok d' /\ (forall fuel, 4 <= fuel -> sub_undo fuel d' = Ok d'') /\ d'' <> d.
Proof.
  exists [(ATup [AStr "a"; ATup [AStr "?y"; AStr "?x"]], 1); (ATup [AStr "on"; AStr "?y"; AStr "?x"], 2)],
    [(has_comp (AStr "?x") (AStr "?y"), 0); (ATup [AStr "a"; AStr "?y"], 1); (ATup [AStr "on"; AStr "?y"; AStr "?x"], 2)],
    [(ATup [AStr "a"; ATup [AStr "?y"; AStr "?x"]], 1); (ATup [AStr "on"; ATup [AStr "?y"; AStr "?x"]; AStr "?x"], 2)].
  split; [repeat constructor; set_solver|]. split; [reflexivity|]. split; [|discriminate].
  intros fuel Hf. destruct fuel as [|[|[|[|fuel]]]]; [lia|lia|lia|lia|]. reflexivity.
Qed.

(** A has-component relation of the user's own is dropped. *)
Theorem C47_own_relation_refuted : exists (d d' d'' : list (attr * nat)),
  dwf d /\ sub_transform 0 d = Ok d' /\ (forall fuel, sub_undo fuel d' = Ok d'') /\ d'' <> d.
Proof.
  exists [(has_comp (AStr "?x") (AStr "?y"), 7)], [(has_comp (AStr "?x") (AStr "?y"), 7)], [].
  split; [repeat constructor; set_solver|]. split; [reflexivity|]. split; [done|discriminate].
Qed.

(** Two objects that contain each other: undoing never ends. *)
Theorem C47_cycle_refuted : exists (d d' : list (attr * nat)),
  dwf d /\ sub_transform 0 d = Ok d' /\ forall fuel, sub_undo fuel d' = Err OutOfFuel.
Proof.
  exists [(ATup [AStr "a"; ATup [AStr "?y"; AStr "?x"]], 1); (ATup [AStr "b"; ATup [AStr "?x"; AStr "?y"]], 2)].
  eexists. split; [repeat constructor; set_solver|]. split; [vm_compute; reflexivity|].
  set (m := [(AStr "?y", AStr "?x"); (AStr "?x", AStr "?y")]).
  assert (H : forall n, rename_embedding n m (AStr "?y") = Err OutOfFuel /\
                        rename_embedding n m (AStr "?x") = Err OutOfFuel).
  { induction n as [|n [IH1 IH2]]; [done|]. split; cbn [rename_embedding].
    - change (dget (AStr "?y") m) with (Some (AStr "?x")). cbv iota. by rewrite IH2.
    - change (dget (AStr "?x") m) with (Some (AStr "?y")). cbv iota. by rewrite IH1. }
  intros fuel. unfold sub_undo. change (so_mapping _) with m.
  assert (H' : rename_embedding fuel m (ATup [AStr "a"; AStr "?y"]) = Err OutOfFuel).
  { destruct fuel as [|fuel]; [done|]. destruct (H fuel) as [H1 _]. cbn [rename_embedding].
    change (dget (ATup [AStr "a"; AStr "?y"]) m) with (@None attr). cbv iota. by rewrite H1. }
  unfold mapkM. cbn [List.filter fst is_has_comp].
  rewrite !decide_True by done. cbv iota. cbn [rfold fst snd]. by rewrite H'.
Qed.

(** ** C60: NumericToNominal, NominalToNumeric, Sanitizer *)
Section OneWayProps.
  Context {X : Type} (isnum : X -> bool) (xstr : X -> string).
  Context (sfloat : string -> option X) (xfloat : X -> option X) (fzero : X).

  (** The attribute [a] has the value [v] in the instance or in a component
      of it, at any depth. *)
  Inductive within : inst X -> attr -> pv X -> Prop :=
    | within_here d a v : (a, v) ∈ d -> within d a v
    | within_below d b e a v : (b, PD e) ∈ d -> within e a v -> within d a v.

  Lemma map_keep_wf (g : attr * pv X -> pv X) (d : inst X) : dwf d ->
    dupd [] (map (fun e => (fst e, g e)) d) = map (fun e => (fst e, g e)) d.
  Proof.
    intros Hd. rewrite dupd_app; [done|]. simpl. unfold dwf, dkeys in *. by rewrite map_map.
  Qed.

  Lemma nn_map t d : dwf d -> nn_transform isnum xstr t d =
    map (fun e => (fst e, nn_val isnum xstr t (targeted t (fst e)) (snd e))) d.
  Proof. intros Hd. unfold nn_transform. by apply (map_keep_wf (fun e => nn_val isnum xstr t (targeted t (fst e)) (snd e))). Qed.
  Lemma nn_dict t b d : nn_val isnum xstr t b (PD d) = PD (nn_transform isnum xstr t d).
  Proof. done. Qed.

  Lemma nn_spec t d : pwf (PD d) ->
    (forall a v, within (nn_transform isnum xstr t d) a v -> exists w, within d a w /\ v = nn_val isnum xstr t (targeted t a) w) /\
    (forall a w, within d a w -> within (nn_transform isnum xstr t d) a (nn_val isnum xstr t (targeted t a) w)).
  Proof.
    remember (PD d) as v eqn:Ev. intros Hw. revert d Ev.
    induction v as [s|x|l IH|d0 IH] using pv_ind'; intros d [= ->].
    inversion Hw as [| | |? Hd HF]; subst. rewrite (nn_map t d Hd). split.
    - intros a v Hin. inversion Hin as [? ? ? H|? b e ? ? H H']; subst.
      + apply elem_of_list_fmap in H as ([k w] & [= -> ->] & H). exists w. split; [by apply within_here|done].
      + apply elem_of_list_fmap in H as ([k w] & [= -> E] & H). simpl in E.
        destruct w as [s|x|l|e0]; try done.
        { simpl in E. by destruct (targeted t k && isnum x). }
        rewrite nn_dict in E. injection E as ->.
        rewrite Forall_forall in IH, HF. destruct (IH _ H (HF _ H) e0 eq_refl) as [IH1 _].
        destruct (IH1 a v H') as (w & Hw' & ->). exists w. split; [by eapply within_below|done].
    - intros a w Hin. inversion Hin as [? ? ? H|? b e ? ? H H']; subst.
      + apply within_here, elem_of_list_fmap. by exists (a, w).
      + rewrite Forall_forall in IH, HF. destruct (IH _ H (HF _ H) e eq_refl) as [_ IH2].
        eapply within_below; [|by apply IH2]. apply elem_of_list_fmap. exists (b, PD e). by rewrite <- nn_dict with (b := targeted t b).
  Qed.

  (** After NumericToNominal no targeted attribute holds a number, at any
      depth. *)
  Theorem C60_no_number_left t d a x : pwf (PD d) ->
    within (nn_transform isnum xstr t d) a (PX x) -> targeted t a = true -> isnum x = false.
  Proof.
    intros Hw Hin Ht. destruct (nn_spec t d Hw) as [H _]. destruct (H a _ Hin) as (w & _ & E).
    rewrite Ht in E. destruct w as [s|y|l|e]; try done. simpl in E.
    destruct (isnum y) eqn:Ey; [done|]. by injection E as ->.
  Qed.
  (** A number it finds becomes its string; every other value stays; nothing
      is added. *)
  Theorem C60_nominal_values t d a v : pwf (PD d) -> (forall e, v <> PD e) ->
    within (nn_transform isnum xstr t d) a v <->
    (within d a v /\ (forall x, v = PX x -> targeted t a = true -> isnum x = false)) \/
    (exists x, within d a (PX x) /\ targeted t a = true /\ isnum x = true /\ v = PStr (xstr x)).
  Proof.
    intros Hw Hv. destruct (nn_spec t d Hw) as [H1 H2]. split.
    - intros Hin. destruct (H1 a v Hin) as (w & Hin' & ->). destruct w as [s|y|l|e].
      + left. split; [done|]. done.
      + simpl in *. destruct (targeted t a) eqn:Et; simpl in *; [|left; by split].
        destruct (isnum y) eqn:Ey; [right; by exists y|]. left. split; [done|]. by intros x [= ->] _.
      + left. by split.
      + by destruct (Hv (nn_transform isnum xstr t e)).
    - intros [[Hin Hn]|(x & Hin & Ht & Hx & ->)].
      + apply H2 in Hin. destruct v as [s|y|l|e]; try done; [|by destruct (Hv e)].
        simpl in Hin. destruct (targeted t a) eqn:Et; [|done]. specialize (Hn y eq_refl eq_refl).
        by rewrite Hn in Hin.
      + apply H2 in Hin. simpl in Hin. by rewrite Ht, Hx in Hin.
  Qed.
  (** The attributes of the instance stay, in order. *)
  Theorem C60_nominal_keys t d : dwf d -> dkeys (nn_transform isnum xstr t d) = dkeys d.
  Proof. intros Hd. rewrite nn_map by done. unfold dkeys. by rewrite map_map. Qed.

  (** NominalToNumeric on flat instances whose targeted values are strings or
      convertible: with on_fail 'drop' or 'zero' it never raises; each targeted
      value becomes float(value), the rest stays. *)
  Definition convertible (v : pv X) : Prop :=
    match v with PStr _ => True | PX x => xfloat x <> None | _ => False end.
  Definition as_number (f : on_fail) (v : pv X) : option (pv X) :=
    match v with
    | PStr s => match sfloat s with Some x => Some (PX x) | None => match f with FZero => Some (PX fzero) | _ => None end end
    | PX x => option_map PX (xfloat x)
    | _ => None
    end.
  Theorem C60_numeric t f d : dwf d -> f <> FBreak ->
    (forall a v, (a, v) ∈ d -> (targeted t a = true -> convertible v) /\ (forall e, v <> PD e)) ->
    exists d', num_transform sfloat xfloat fzero t f d = Ok d' /\
      forall a, dget a d' = match dget a d with
                            | None => None
                            | Some v => if targeted t a then as_number f v else Some v
                            end.
  Proof.
    intros Hd Hf HF. unfold num_transform.
    assert (Hgen : forall d0 acc, (forall a v, (a, v) ∈ d0 -> (targeted t a = true -> convertible v) /\ (forall e, v <> PD e)) ->
      dwf d0 -> (forall a, a ∈ dkeys d0 -> a ∉ dkeys acc) ->
      exists d', rfold (fun acc e => rbind (num_entry sfloat xfloat fzero t f (fst e) (snd e)) (fun r =>
          Ok (match r with Some w => dset (fst e) w acc | None => acc end))) acc d0 = Ok d' /\
        forall a, dget a d' = match dget a d0 with
                              | None => dget a acc
                              | Some v => if targeted t a then as_number f v else Some v
                              end).
    { clear d Hd HF. induction d0 as [|[a v] d0 IH]; intros acc HF Hw Hfr.
      - by exists acc.
      - apply dwf_cons in Hw as [Hn Hw]. destruct (HF a v ltac:(left)) as [Hc Hpd].
        assert (He : num_entry sfloat xfloat fzero t f a v = Ok (if targeted t a then as_number f v else Some v)).
        { destruct v as [s|x|l|e]; simpl; [| | |by destruct (Hpd e)]; destruct (targeted t a) eqn:Et; try done.
          - unfold num_val. simpl. destruct (sfloat s); [done|]. by destruct f.
          - unfold num_val. simpl. specialize (Hc eq_refl). simpl in Hc. by destruct (xfloat x).
          - by destruct (Hc eq_refl). }
        cbn [rfold fst snd]. rewrite He. cbn [rbind].
        destruct (IH (match (if targeted t a then as_number f v else Some v) with Some w => dset a w acc | None => acc end))
          as (d' & E & Hg).
        + intros b w Hb. apply HF. by right.
        + done.
        + intros b Hb Hin. assert (Hba : b <> a) by (by intros ->).
          apply (Hfr b); [by right|].
          destruct (if targeted t a then as_number f v else Some v); [|done].
          apply elem_of_dkeys_dset in Hin as [?|?]; done.
        + exists d'. split; [done|]. intros b. rewrite Hg. simpl. case_decide as Hb.
          * subst b. apply dget_None in Hn. rewrite Hn.
            assert (Hacc : dget a acc = None) by (apply dget_None, Hfr; left).
            destruct (if targeted t a then as_number f v else Some v); [by rewrite dget_dset_eq|done].
          * destruct (dget b d0); [done|].
            destruct (if targeted t a then as_number f v else Some v); [by rewrite dget_dset_ne|done]. }
    destruct (Hgen d [] HF Hd) as (d' & E & Hg); [by intros a _ ?%elem_of_nil|].
    exists d'. split; [exact E|done].
  Qed.
  (** A component among the targets raises, whatever on_fail says. *)
  Theorem C60_numeric_component_refuted f : exists d : inst X,
    pwf (PD d) /\ num_transform sfloat xfloat fzero None f d = Err TypeError.
  Proof.
    exists [(AStr "a", PD [])]. split; [|done]. constructor; [repeat constructor; set_solver|].
    repeat constructor.
  Qed.

  (** The sanity check of CobwebTree on such instances: [xval] is the value
      the tree sees for a scalar, [None] for Python's None. *)
  Context (xval : X -> option nom).
  Definition tree_value (v : pv X) : pval :=
    match v with
    | PStr s => PVal (NStr s)
    | PX x => match xval x with Some n => PVal n | None => PNone end
    | PL _ | PD _ => PUnhashable
    end.
  Definition as_raw (d : inst X) : raw := map (fun e => (fst e, tree_value (snd e))) d.
  Context (numstr : Z -> string) (cobstr : pv X -> string) (lower : string -> string).
  Hypothesis numstr_nonempty : forall z, numstr z <> "".

  Lemma sanity_ok (i : raw) : Forall (fun e => attr_ok (fst e) = true /\ exists v, snd e = PVal v) i -> exists j, sanity i = Ok j.
  Proof.
    induction i as [|[a v] i IH]; intros HF; [by exists []|]. apply Forall_cons in HF as [[Ha (w & Hv)] HF].
    destruct (IH HF) as (j & E). simpl in *. subst v. rewrite Ha, E. by eexists.
  Qed.

  (** Sanitizer('cobweb') makes every instance acceptable whose attributes are
      not empty and that has no None among its values. *)
  Theorem C60_sanitizer (d : inst X) :
    (forall a v, (a, v) ∈ d -> a <> AStr "" /\ a <> ATup []) ->
    (forall a x, (a, PX x) ∈ d -> xval x <> None) ->
    exists j, sanity (as_raw (san_cobweb numstr cobstr d)) = Ok j.
  Proof.
    intros Ha Hv. apply sanity_ok. unfold as_raw. apply Forall_map.
    assert (Hgen : forall (d0 acc : inst X),
      (forall e, e ∈ d0 -> e ∈ d) -> Forall (fun e => attr_ok (fst e) = true /\ exists v, tree_value (snd e) = PVal v) acc ->
      Forall (fun e => attr_ok (fst e) = true /\ exists v, tree_value (snd e) = PVal v)
        (dupd acc (map (fun e => (san_key numstr (fst e), san_flat cobstr (snd e))) d0))).
    { induction d0 as [|[a v] d0 IH]; intros acc Hs Hacc; [done|]. simpl. apply IH.
      { intros e He. apply Hs. by right. }
      assert (Hin : (a, v) ∈ d) by (apply Hs; left).
      assert (Hok : attr_ok (san_key numstr a) = true).
      { destruct (Ha a v Hin) as [H1 H2]. destruct a as [s|l|z]; simpl.
        - by destruct s.
        - by destruct l.
        - specialize (numstr_nonempty z). by destruct (numstr z). }
      assert (Hval : exists w, tree_value (san_flat cobstr v) = PVal w).
      { destruct v as [s|x|l|e]; simpl; try by eexists. specialize (Hv a x Hin). destruct (xval x); [by eexists|done]. }
      clear -Hacc Hok Hval. induction acc as [|[b w] acc IH]; simpl; [by repeat constructor|].
      apply Forall_cons in Hacc as [Hb Hacc]. case_decide as E; constructor; auto; by subst. }
    by apply (Hgen d []).
  Qed.
  (** None stays None, and is rejected. *)
  Theorem C60_sanitizer_none_refuted x : xval x = None -> exists d : inst X,
    pwf (PD d) /\ sanity (as_raw (san_cobweb numstr cobstr d)) = Err ValueError.
  Proof using Type.
    clear numstr_nonempty. intros Hx. exists [(AStr "a", PX x)]. split.
    - constructor; [repeat constructor; set_solver|]. repeat constructor.
    - simpl. by rewrite Hx.
  Qed.
  (** The spec is compared case-insensitively when checked and exactly when
      used: 'TRESTLE' is accepted and treated as 'cobweb', so components are
      turned into strings. *)
  Theorem C60_sanitizer_case_refuted : lower "TRESTLE" = "trestle" -> exists d d' : inst X,
    pwf (PD d) /\ san_trestle numstr cobstr d = d /\ sanitizer numstr cobstr lower "TRESTLE" d = Ok d' /\
    exists s, d' = [(AStr "?x", PStr s)] /\ d = [(AStr "?x", PD [])].
  Proof using Type.
    clear numstr_nonempty. intros Hl. exists [(AStr "?x", PD [])]. eexists. split; [|split; [|split]].
    - constructor; [repeat constructor; set_solver|]. by repeat constructor.
    - done.
    - unfold sanitizer. rewrite Hl. reflexivity.
    - by eexists.
  Qed.

  (** ** C61: ObjectVariablizer *)
  Lemma ren_elem_nil (a : attr) : ren_elem [] a = a.
  Proof using Type.
    induction a as [s|l IH|z] using attr_ind'; try done. simpl. f_equal.
    induction IH as [|x l Hx Hl IHl]; [done|]. simpl. by rewrite Hx, IHl.
  Qed.
  Lemma rename_relation_nil (a : attr) : rename_relation [] a = a.
  Proof using Type.
    destruct a as [s|l|z]; try done. simpl. f_equal. induction l as [|x l IH]; [done|]. simpl. by rewrite ren_elem_nil, IH.
  Qed.

  (** Relations are handed through unchanged, at every object... *)
  Theorem C61_relations_unchanged t (d d' : inst X) l : dwf d ->
    ov_transform t d = Ok d' -> dget (ATup l) d' = dget (ATup l) d.
  Proof using Type.
    intros Hd E. unfold ov_transform in E.
    destruct (rfold (fun (acc : inst X * inst X) (e : attr * pv X) => ov_entry t (fst e) (snd e) (ov_val t (snd e)) acc) ([], []) d)
      as [[new rels]|e] eqn:Ef; [|done]. simpl in E. injection E as <-.
    assert (Hgen : forall d0 new0 rels0 new1 rels1, dwf d0 -> dwf rels0 ->
      (forall a, a ∈ dkeys d0 -> a ∉ dkeys rels0) ->
      rfold (fun (acc : inst X * inst X) (e : attr * pv X) => ov_entry t (fst e) (snd e) (ov_val t (snd e)) acc) (new0, rels0) d0 = Ok (new1, rels1) ->
      dwf rels1 /\ (dget (ATup l) new0 = None -> dget (ATup l) new1 = None) /\
      dget (ATup l) rels1 = match dget (ATup l) rels0 with Some v => Some v | None => dget (ATup l) d0 end).
    { clear. induction d0 as [|[a v] d0 IH]; intros new0 rels0 new1 rels1 Hd Hr Hf E.
      - injection E as <- <-. split; [done|]. split; [done|]. by destruct (dget (ATup l) rels0).
      - apply dwf_cons in Hd as [Hn Hd]. cbn [rfold fst snd] in E.
        destruct (ov_entry t a v (ov_val t v) (new0, rels0)) as [[n1 r1]|e] eqn:Ee; [|done]. simpl in E.
        assert (Hcase : (r1 = rels0 /\ (exists k w, n1 = dset k w new0 /\ forall l, k <> ATup l) /\ (forall l, a <> ATup l)) \/
                        (n1 = new0 /\ r1 = rels0 ++ [(a, v)] /\ exists l, a = ATup l)).
        { destruct a as [s|la|z]; simpl in Ee.
          - left. split; [|split; [|done]].
            + destruct v as [?|?|?|?]; try (by injection Ee as _ <-). destruct (targeted t (AStr s)); [|by injection Ee as _ <-].
              destruct s as [|c s]; [done|]. destruct (ov_val t (PD d)); [|done]. by injection Ee as _ <-.
            + destruct v as [?|?|?|e0]; try (injection Ee as <- _; by eexists _, _).
              destruct (targeted t (AStr s)); [|injection Ee as <- _; by eexists _, _].
              destruct s as [|c s]; [done|]. destruct (ov_val t (PD e0)); [|done]. injection Ee as <- _. by eexists _, _.
          - right. injection Ee as <- <-. split; [done|]. split; [done|]. by eexists.
          - left. split; [|split; [|done]].
            + destruct v as [?|?|?|?]; try (by injection Ee as _ <-). destruct (targeted t (ANum z)); [done|by injection Ee as _ <-].
            + destruct v as [?|?|?|?]; try (injection Ee as <- _; by eexists _, _).
              destruct (targeted t (ANum z)); [done|injection Ee as <- _; by eexists _, _]. }
        destruct Hcase as [(-> & (k & w & -> & Hk) & Ha)|(-> & -> & (la & ->))].
        + destruct (IH (dset k w new0) rels0 new1 rels1 Hd Hr) as (H1 & H2 & H3); [|exact E|].
          { intros b Hb. apply Hf. by right. }
          split; [done|]. split.
          * intros H0. apply H2. rewrite dget_dset_ne; [done|]. intros E0. by apply (Hk l).
          * rewrite H3. simpl. rewrite decide_False; [done|]. intros E0. by apply (Ha l).
        + destruct (IH new0 (rels0 ++ [(ATup la, v)]) new1 rels1 Hd) as (H1 & H2 & H3); [| |exact E|].
          * rewrite <- dset_fresh by (apply Hf; left). by apply dset_wf.
          * intros b Hb Hin. rewrite dkeys_app in Hin. apply elem_of_app in Hin as [Hin|Hin].
            -- by apply (Hf b); [right|].
            -- simpl in Hin. apply elem_of_list_singleton in Hin as ->. done.
          * split; [done|]. split; [done|]. rewrite H3, dget_app. simpl.
            destruct (dget (ATup l) rels0) as [v0|]; [done|]. by case_decide. }
    destruct (Hgen d [] [] new rels Hd) as (H1 & H2 & H3).
    { apply dwf_nil. } { by intros a _ ?%elem_of_nil. } { exact Ef. }
    unfold ov_finish. simpl.
    assert (Efold : fold_left (fun acc e => dset (rename_relation [] (fst e)) (snd e) acc) rels new = dupd new rels).
    { unfold dupd. clear. revert new. induction rels as [|[k v] rels IH]; intros new; [done|]. simpl.
      by rewrite rename_relation_nil, IH. }
    rewrite Efold, dget_dupd by done. rewrite H3. simpl. rewrite (H2 eq_refl). by destruct (dget (ATup l) d).
  Qed.
End OneWayProps.

(** ... so a relation about an object that has been renamed still mentions
    the old name, which no longer exists. *)
Theorem C61_stale_relation_refuted : exists (d d' : inst nat) l,
  pwf (PD d) /\ ov_transform None d = Ok d' /\
  dget (AStr "box") d <> None /\ dget (ATup l) d' <> None /\ AStr "box" ∈ l /\
  dget (AStr "box") d' = None /\ dget (AStr "?box") d' = dget (AStr "box") d.
Proof.
  exists [(AStr "box", PD [(AStr "a", PX 1)]); (ATup [AStr "on"; AStr "box"; AStr "table"], PX 0)].
  eexists _, [AStr "on"; AStr "box"; AStr "table"].
  split. { constructor; [repeat constructor; set_solver|]. repeat constructor; simpl; set_solver. }
  split; [reflexivity|]. repeat split; try done. set_solver.
Qed.
(** An object and its variable form collide: one of them is lost. *)
Theorem C61_collision_refuted : exists (d d' : inst nat),
  pwf (PD d) /\ ov_transform None d = Ok d' /\ Datatypes.length d = 2 /\ Datatypes.length d' = 1.
Proof.
  exists [(AStr "x", PD [(AStr "a", PX 1)]); (AStr "?x", PD [(AStr "b", PX 2)])].
  eexists. split. { constructor; [repeat constructor; set_solver|]. repeat constructor; simpl; set_solver. }
  split; [reflexivity|done].
Qed.

(** The hypotheses are met: a nested instance with numbers and strings. *)
Definition nn_inst : inst nat :=
  [ (AStr "size", PX 3); (AStr "?x", PD [(AStr "size", PX 4); (AStr "name", PStr "n")]); (AStr "other", PX 5) ].
Lemma ex_C60 : pwf (PD nn_inst) /\
  nn_transform (fun _ => true) (fun n => pretty n) (Some [AStr "size"]) nn_inst =
  [ (AStr "size", PStr "3"); (AStr "?x", PD [(AStr "size", PStr "4"); (AStr "name", PStr "n")]); (AStr "other", PX 5) ].
Proof.
  split; [|vm_compute; reflexivity].
  constructor; [repeat constructor; set_solver|]. repeat constructor; simpl; set_solver.
Qed.
Lemma ex_C60_numeric : num_transform (fun s => if decide (s = "12") then Some 12 else None) Some 0
    (Some [AStr "a"; AStr "b"]) FDrop [(AStr "a", PStr "12"); (AStr "b", PStr "x"); (AStr "c", PStr "y")] =
  Ok [(AStr "a", PX 12); (AStr "c", PStr "y")].
Proof. reflexivity. Qed.

Print Assumptions C45_pipeline.
Print Assumptions C45_repeated_stage_refuted.
Print Assumptions C47_sub_components.
Print Assumptions C60_nominal_values.
Print Assumptions C60_numeric.
Print Assumptions C60_sanitizer.
Print Assumptions C61_relations_unchanged.
