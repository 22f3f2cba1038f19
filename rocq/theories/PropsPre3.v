(** * NominalToNumeric and Sanitizer('trestle') on nested instances: C60. *)
From stdpp Require Import base decidable list gmap strings pretty sets.
From Coq Require Import Ascii String ZArith.
From Verif Require Import Nominal Base PyVal Preproc PreFlat PreTuple PreStd Preproc2 PreSub PropsPre2.
Open Scope string_scope.
Open Scope list_scope.

Section Numeric.
  Context {X : Type} (sfloat : string -> option X) (xfloat : X -> option X) (fzero : X).
  Context (t : option (list attr)) (f : on_fail).

  (** The attribute [a] has the value [v] in the instance or in a component of
      it that is not itself a target, at any depth. *)
  Inductive reaches : inst X -> attr -> pv X -> Prop :=
    | reaches_here d a v : (a, v) ∈ d -> reaches d a v
    | reaches_below d b e a v : (b, PD e) ∈ d -> targeted t b = false -> reaches e a v -> reaches d a v.

  (** What a value that cannot be converted does: [float] raises TypeError on
      lists, components and the scalars it does not know, whatever [on_fail]
      says; it raises ValueError on strings that are no numbers, and that is
      passed on with 'break' only. *)
  Inductive complains : pv X -> exn -> Prop :=
    | complains_scalar x : xfloat x = None -> complains (PX x) TypeError
    | complains_list l : complains (PL l) TypeError
    | complains_dict d : complains (PD d) TypeError
    | complains_string s : sfloat s = None -> f = FBreak -> complains (PStr s) ValueError.

  Lemma num_val_spec (v : pv X) :
    match num_val sfloat xfloat fzero f v with
    | Ok r => (forall e, ~ complains v e) /\ option_map PX r = as_number sfloat xfloat fzero f v
    | Err e => complains v e
    end.
  Proof.
    unfold num_val, pyfloat_val. destruct v as [s|x|l|d]; simpl; try by constructor.
    - destruct (sfloat s) eqn:E; simpl.
      + split; [|done]. intros e He. inversion He; congruence.
      + destruct f eqn:Ef; simpl; [by constructor| |].
        * split; [|done]. intros e He. inversion He; congruence.
        * split; [|done]. intros e He. inversion He; congruence.
    - destruct (xfloat x) eqn:E; simpl; [|by constructor]. split; [|done].
      intros e He. inversion He; congruence.
  Qed.

  Notation entry := (num_entry sfloat xfloat fzero t f).
  Notation tr := (num_transform sfloat xfloat fzero t f).
  Notation step := (fun acc e => rbind (entry (fst e) (snd e)) (fun r =>
          Ok (match r with Some w => dset (fst e) w acc | None => acc end))).

  Lemma entry_targeted a v : targeted t a = true ->
    entry a v = rbind (num_val sfloat xfloat fzero f v) (fun r => Ok (option_map PX r)).
  Proof. intros E. destruct v; simpl; by rewrite E. Qed.
  Lemma entry_dict a d : targeted t a = false ->
    entry a (PD d) = rbind (tr d) (fun d' => Ok (Some (PD d'))).
  Proof.
    intros E. simpl. rewrite E. unfold num_transform. f_equal. generalize (@nil (attr * pv X)).
    induction d as [|[b w] d IH]; intros acc; [done|]. simpl. destruct (entry b w); [|done]. simpl. apply IH.
  Qed.

  Lemma run_spec (d0 : inst X) : forall acc, dwf d0 -> (forall a, a ∈ dkeys d0 -> a ∉ dkeys acc) ->
    match rfold step acc d0 with
    | Ok d' => (forall a v, (a, v) ∈ d0 -> exists r, entry a v = Ok r) /\
        forall a w, (a, w) ∈ d' <-> (a, w) ∈ acc \/ exists v, (a, v) ∈ d0 /\ entry a v = Ok (Some w)
    | Err e => exists a v, (a, v) ∈ d0 /\ entry a v = Err e
    end.
  Proof.
    induction d0 as [|[b v] d0 IH]; intros acc Hw Hfr.
    - simpl. split; [by intros a v ?%elem_of_nil|]. intros a w. split; [auto|].
      intros [?|(v & H & _)]; [done|by apply elem_of_nil in H].
    - apply dwf_cons in Hw as [Hn Hw]. cbn [rfold fst snd].
      destruct (entry b v) as [r|e] eqn:Ee; cbn [rbind]; [|exists b, v; split; [left|done]].
      assert (Hb : b ∉ dkeys acc) by (apply Hfr; left).
      specialize (IH (match r with Some w => dset b w acc | None => acc end) Hw).
      destruct (rfold step _ d0) as [d'|e] eqn:Er.
      + destruct IH as [H1 H2].
        { intros a Ha Hin. assert (a <> b) by (by intros ->). apply (Hfr a); [by right|].
          destruct r; [|done]. by apply elem_of_dkeys_dset in Hin as [?|?]. }
        split.
        * intros a v' [[= -> ->]|Hin]%elem_of_cons; [by eexists|eauto].
        * intros a w. rewrite H2. destruct r as [w0|].
          -- rewrite dset_fresh by done. rewrite elem_of_app, elem_of_list_singleton. split.
             ++ intros [[?|[= -> ->]]|(v' & ? & ?)]; [by left| |].
                ** right. exists v. split; [left|done].
                ** right. exists v'. split; [by right|done].
             ++ intros [?|(v' & [[= -> ->]|?]%elem_of_cons & E)]; [by left; left| |].
                ** left. right. congruence.
                ** right. by exists v'.
          -- split.
             ++ intros [?|(v' & ? & ?)]; [by left|]. right. exists v'. split; [by right|done].
             ++ intros [?|(v' & [[= -> ->]|?]%elem_of_cons & E)]; [by left|congruence|].
                right. by exists v'.
      + destruct IH as (a & v' & Hin & E).
        { intros a Ha Hin. assert (a <> b) by (by intros ->). apply (Hfr a); [by right|].
          destruct r; [|done]. by apply elem_of_dkeys_dset in Hin as [?|?]. }
        exists a, v'. split; [by right|done].
  Qed.

  (** NominalToNumeric on any instance.  It succeeds only if no target, however
      deep, complains; then each target holds [float] of its value, or is gone
      (or 0.0) if that is no number and [on_fail] says so, and everything else
      is as it was.  Otherwise it raises what some target complains of. *)
  Theorem C60_numeric_deep (d : inst X) : pwf (PD d) ->
    match tr d with
    | Ok d' =>
        (forall a v, reaches d a v -> targeted t a = true -> forall e, ~ complains v e) /\
        (forall a w, (forall e, w <> PD e) ->
          reaches d' a w <->
          exists v, reaches d a v /\ (if targeted t a then as_number sfloat xfloat fzero f v = Some w else v = w))
    | Err e => exists a v, reaches d a v /\ targeted t a = true /\ complains v e
    end.
  Proof.
    remember (PD d) as v0 eqn:Ev. intros Hw. revert d Ev.
    induction v0 as [s|x|l IH|d0 IH] using pv_ind'; intros d [= ->].
    inversion Hw as [| | |? Hd HF]; subst. rewrite Forall_forall in IH, HF.
    pose proof (run_spec d [] Hd ltac:(by intros a _ ?%elem_of_nil)) as HR.
    unfold num_transform at 1. destruct (rfold step [] d) as [d'|e].
    - destruct HR as [H1 H2]. split.
      + intros a v Hr Ht e Hc. inversion Hr as [? ? ? Hin|? b c ? ? Hin Hb Hr']; subst.
        * destruct (H1 a v Hin) as [r E]. rewrite entry_targeted in E by done.
          pose proof (num_val_spec v) as Hv. destruct (num_val sfloat xfloat fzero f v); [|done].
          by destruct Hv as [Hv _]; apply (Hv e).
        * destruct (H1 b _ Hin) as [r E]. rewrite entry_dict in E by done.
          specialize (IH _ Hin (HF _ Hin) c eq_refl). destruct (tr c) as [c'|]; [|done].
          destruct IH as [IH _]. by apply (IH a v Hr' Ht e).
      + intros a w Hpd. split.
        * intros Hr. inversion Hr as [? ? ? Hin|? b c ? ? Hin Hb Hr']; subst.
          -- apply H2 in Hin as [?%elem_of_nil|(v & Hin & E)]; [done|]. exists v. split; [by apply reaches_here|].
             destruct (targeted t a) eqn:Ht.
             ++ rewrite entry_targeted in E by done. pose proof (num_val_spec v) as Hv.
                destruct (num_val sfloat xfloat fzero f v) as [r|]; [|done]. destruct Hv as [_ Hv].
                injection E as E. by rewrite E in Hv.
             ++ destruct v as [s|x|l|c]; try (simpl in E; rewrite Ht in E; by injection E as ->).
                rewrite entry_dict in E by done. destruct (tr c) as [c'|]; [|done]. injection E as <-. by destruct (Hpd c').
          -- apply H2 in Hin as [?%elem_of_nil|(v & Hin & E)]; [done|].
             destruct v as [s|x|l|c0]; try (simpl in E; rewrite Hb in E; by injection E).
             rewrite entry_dict in E by done. specialize (IH _ Hin (HF _ Hin) c0 eq_refl).
             destruct (tr c0) as [c1|]; [|done]. injection E as ->. destruct IH as [_ IH].
             apply (IH a w Hpd) in Hr' as (v & Hv & E). exists v. split; [|done]. by eapply reaches_below.
        * intros (v & Hr & E). inversion Hr as [? ? ? Hin|? b c ? ? Hin Hb Hr']; subst.
          -- apply reaches_here, H2. right. exists v. split; [done|]. destruct (H1 a v Hin) as [r Er].
             rewrite Er. f_equal. destruct (targeted t a) eqn:Ht.
             ++ rewrite entry_targeted in Er by done. pose proof (num_val_spec v) as Hv.
                destruct (num_val sfloat xfloat fzero f v) as [r'|]; [|done]. destruct Hv as [_ Hv].
                simpl in Er. injection Er as <-. congruence.
             ++ subst v. destruct w as [s|x|l|c]; try (simpl in Er; rewrite Ht in Er; by injection Er as <-).
                by destruct (Hpd c).
          -- destruct (H1 b _ Hin) as [r Er]. rewrite entry_dict in Er by done.
             specialize (IH _ Hin (HF _ Hin) c eq_refl). destruct (tr c) as [c'|] eqn:Ec; [|done].
             destruct IH as [_ IH]. apply reaches_below with b c'; [|done|].
             ++ apply H2. right. exists (PD c). split; [done|]. by rewrite entry_dict, Ec.
             ++ apply IH; [done|]. by exists v.
    - destruct HR as (a & v & Hin & E). destruct (targeted t a) eqn:Ht.
      + rewrite entry_targeted in E by done. pose proof (num_val_spec v) as Hv.
        destruct (num_val sfloat xfloat fzero f v); [done|]. injection E as ->.
        exists a, v. split; [by apply reaches_here|done].
      + destruct v as [s|x|l|c]; try (simpl in E; rewrite Ht in E; done).
        rewrite entry_dict in E by done. specialize (IH _ Hin (HF _ Hin) c eq_refl).
        destruct (tr c) as [c'|]; [done|]. injection E as ->. destruct IH as (b & v & Hr & Hb & Hc).
        exists b, v. split; [by eapply reaches_below|done].
  Qed.
  (** The components that are not targets stay components, in place. *)
  Theorem C60_numeric_components (d d' : inst X) a : pwf (PD d) -> tr d = Ok d' -> targeted t a = false ->
    forall c', (a, PD c') ∈ d' <-> exists c, (a, PD c) ∈ d /\ tr c = Ok c'.
  Proof.
    intros Hw E Ht c'. inversion Hw as [| | |? Hd HF]; subst.
    pose proof (run_spec d [] Hd ltac:(by intros b _ ?%elem_of_nil)) as HR.
    unfold num_transform in E. rewrite E in HR. destruct HR as [_ H2]. rewrite H2. split.
    - intros [?%elem_of_nil|(v & Hin & Ev)]; [done|].
      destruct v as [s|x|l|c]; try (simpl in Ev; rewrite Ht in Ev; by injection Ev).
      exists c. split; [done|]. rewrite entry_dict in Ev by done. destruct (tr c); [|done]. by injection Ev as ->.
    - intros (c & Hin & Ec). right. exists (PD c). split; [done|]. by rewrite entry_dict, Ec.
  Qed.
End Numeric.

Section Sanitize.
  Context {X : Type} (numstr : Z -> string) (cobstr : pv X -> string).

  (** [b] is the attribute [a] with every part that is neither a string nor a
      tuple written out. *)
  Inductive spelled : attr -> attr -> Prop :=
    | spelled_str s : spelled (AStr s) (AStr s)
    | spelled_num z : spelled (ANum z) (AStr (numstr z))
    | spelled_tup l l' : Forall2 spelled l l' -> spelled (ATup l) (ATup l').
  (** Strings and tuples all the way down. *)
  Inductive readable : attr -> Prop :=
    | readable_str s : readable (AStr s)
    | readable_tup l : Forall readable l -> readable (ATup l).
  (** No two attributes of the instance, or of a component of it, are spelled
      alike. *)
  Inductive unclashing : inst X -> Prop :=
    | unclashing_intro d :
        (forall a b c, a ∈ dkeys d -> b ∈ dkeys d -> spelled a c -> spelled b c -> a = b) ->
        (forall a e, (a, PD e) ∈ d -> unclashing e) -> unclashing d.
  (** How TRESTLE is to see a value that is no component. *)
  Definition hashed (v : pv X) : pv X := match v with PL l => PStr (cobstr (PL l)) | _ => v end.

  Notation sa := (sanitize_attr numstr).
  Notation san := (san_trestle numstr cobstr).

  Lemma spelled_sa (a : attr) : spelled a (sa a).
  Proof.
    induction a as [s|l IH|z] using attr_ind'; simpl; try constructor.
    induction IH; simpl; by constructor.
  Qed.
  Lemma spelled_fun (a : attr) : forall b, spelled a b -> b = sa a.
  Proof.
    induction a as [s|l IH|z] using attr_ind'; intros b Hb; inversion Hb as [| |? l' HF]; subst; try done.
    simpl. f_equal. clear Hb. induction HF as [|x y l l' Hx HF IHF]; [done|].
    apply Forall_cons in IH as [H1 H2]. simpl. f_equal; [by apply H1|by apply IHF].
  Qed.
  Lemma readable_sa (a : attr) : readable (sa a).
  Proof.
    induction a as [s|l IH|z] using attr_ind'; simpl; constructor. by apply Forall_fmap, (Forall_impl _ _ _ IH).
  Qed.
  Lemma sa_readable (a : attr) : readable a -> sa a = a.
  Proof.
    induction a as [s|l IH|z] using attr_ind'; intros Hr; [done| |by inversion Hr].
    inversion Hr as [|? HF]; subst. simpl. f_equal. clear Hr. induction HF as [|x l Hx HF IHF]; [done|].
    apply Forall_cons in IH as [H1 H2]. simpl. f_equal; [by apply H1|by apply IHF].
  Qed.

  Lemma dupd_sub {V} (l : list (attr * V)) : forall acc e, e ∈ dupd acc l -> e ∈ acc \/ e ∈ l.
  Proof.
    induction l as [|[b w] l IH]; intros acc e Hin; [by left|]. simpl in Hin.
    apply IH in Hin as [Hin|Hin]; [|right; by right].
    revert Hin. clear IH. induction acc as [|[c u] acc IHa]; simpl.
    - intros ->%elem_of_list_singleton. right. left.
    - case_decide.
      + subst c. intros [->|Hin]%elem_of_cons; [right; left|left; by right].
      + intros [->|Hin]%elem_of_cons; [left; left|]. destruct (IHa Hin); [left; by right|by right].
  Qed.

  (** After Sanitizer('trestle') every attribute is a string or a tuple of
      strings and such tuples, no value is a list, and nothing is made up. *)
  Theorem C60_sanitized (d : inst X) a v : within (san d) a v ->
    readable a /\ (forall l, v <> PL l) /\
    ((forall e, v <> PD e) -> exists b w, within d b w /\ spelled b a /\ (forall e, w <> PD e) /\ v = hashed w).
  Proof.
    remember (PD d) as v0 eqn:Ev. revert d Ev.
    induction v0 as [s|x|l IH|d0 IH] using pv_ind'; intros d [= ->]. rewrite Forall_forall in IH. intros Hin.
    inversion Hin as [? ? ? H|? b e ? ? H H']; subst.
    - apply dupd_sub in H as [?%elem_of_nil|H]; [done|].
      apply elem_of_list_fmap in H as ([b w] & [= -> ->] & H). simpl. split; [apply readable_sa|]. split.
      + destruct w; done.
      + intros Hpd. exists b, w. split; [by apply within_here|]. split; [apply spelled_sa|]. destruct w as [s|x|l|c]; try done.
        by destruct (Hpd (san c)).
    - apply dupd_sub in H as [?%elem_of_nil|H]; [done|].
      apply elem_of_list_fmap in H as ([k w] & [= -> E] & H). simpl in E.
      destruct w as [s|x|l|e0]; try done. injection E as ->.
      destruct (IH _ H e0 eq_refl H') as (H1 & H2 & H3). split; [done|]. split; [done|].
      intros Hpd. destruct (H3 Hpd) as (b' & w & Hw & Hs). exists b', w. split; [by eapply within_below|done].
  Qed.

  Lemma san_map (d : inst X) : dwf d ->
    (forall a b c, a ∈ dkeys d -> b ∈ dkeys d -> spelled a c -> spelled b c -> a = b) ->
    san d = map (fun e => (sa (fst e), san_val numstr cobstr (snd e))) d.
  Proof.
    intros Hd Hi. unfold san_trestle. rewrite dupd_app; [done|]. simpl. unfold dwf, dkeys in *. rewrite map_map. simpl.
    assert (Hinj : forall a b, a ∈ map fst d -> b ∈ map fst d -> sa a = sa b -> a = b).
    { intros a b Ha Hb E. apply (Hi a b (sa a)); try done; [apply spelled_sa|rewrite E; apply spelled_sa]. }
    clear Hi. induction d as [|[k v] d IH]; [constructor|]. simpl in *. apply NoDup_cons in Hd as [Hn Hd]. constructor.
    - intros (e & E & He)%elem_of_list_fmap. apply Hn. apply elem_of_list_fmap. exists e. split; [|done].
      apply Hinj; [left|right; by apply elem_of_list_fmap_1|done].
    - apply IH; [done|]. intros a b Ha Hb. apply Hinj; by right.
  Qed.

  (** ... and if no two attributes are spelled alike nothing is lost. *)
  Theorem C60_sanitized_all (d : inst X) b w : pwf (PD d) -> unclashing d ->
    within d b w -> (forall e, w <> PD e) -> forall a, spelled b a -> within (san d) a (hashed w).
  Proof.
    intros Hw Hu Hin Hpd a ->%spelled_fun. induction Hin as [d b w Hin|d k e b w Hin Hin' IH].
    - inversion Hw as [| | |? Hd HF]; subst. inversion Hu as [? Hi Hc]; subst. apply within_here.
      rewrite san_map by done. apply elem_of_list_fmap. exists (b, w). split; [|done]. simpl.
      f_equal. destruct w as [s|x|l|e]; try done. by destruct (Hpd e).
    - inversion Hw as [| | |? Hd HF]; subst. inversion Hu as [? Hi Hc]; subst.
      rewrite Forall_forall in HF. specialize (IH (HF _ Hin) (Hc _ _ Hin) Hpd).
      apply within_below with (sa k) (san e); [|done].
      rewrite (san_map d) by done. apply elem_of_list_fmap. by exists (k, PD e).
  Qed.

  (** An instance that is already fine is left alone. *)
  Theorem C60_sanitized_same (d : inst X) : pwf (PD d) ->
    (forall a v, within d a v -> readable a /\ forall l, v <> PL l) -> san d = d.
  Proof.
    remember (PD d) as v0 eqn:Ev. intros Hw. revert d Ev.
    induction v0 as [s|x|l IH|d0 IH] using pv_ind'; intros d [= ->] Hr.
    inversion Hw as [| | |? Hd HF]; subst. rewrite Forall_forall in IH, HF.
    rewrite san_map; [|done|].
    - rewrite <- (map_id d) at 2. apply map_ext_in. intros [a v] Hin%elem_of_list_In. simpl.
      destruct (Hr a v (within_here d a v Hin)) as [Ha Hv]. rewrite sa_readable by done. f_equal.
      destruct v as [s|x|l|e]; try done; [by destruct (Hv l)|].
      change (PD (san e) = PD e). f_equal. apply (IH _ Hin (HF _ Hin) e eq_refl).
      intros b w Hb. apply Hr. by eapply within_below.
    - intros a b c Ha Hb Hsa Hsb.
      apply elem_of_list_fmap in Ha as ([a' v] & -> & Ha). apply elem_of_list_fmap in Hb as ([b' v'] & -> & Hb).
      simpl in *. apply spelled_fun in Hsa as ->. apply spelled_fun in Hsb.
      rewrite !sa_readable in Hsb; [done| |]; eapply Hr; by apply within_here.
  Qed.

  Lemma san_pwf (d : inst X) : pwf (PD (san d)).
  Proof.
    change (pwf (san_val numstr cobstr (PD d))). generalize (PD d). intros v.
    induction v as [s|x|l IH|d0 IH] using pv_ind'; try by constructor.
    simpl. constructor; [by apply dupd_wf; constructor|]. rewrite Forall_forall in *.
    intros e He. apply dupd_sub in He as [?%elem_of_nil|He]; [done|].
    apply elem_of_list_fmap in He as (e0 & -> & He). by apply IH.
  Qed.
  (** So sanitizing twice is the same as sanitizing once. *)
  Theorem C60_sanitized_twice (d : inst X) : san (san d) = san d.
  Proof.
    apply C60_sanitized_same; [apply san_pwf|]. intros a v H. destruct (C60_sanitized d a v H) as (H1 & H2 & _). done.
  Qed.
End Sanitize.

(** The cases, on a nested instance. *)
Definition nx_float (s : string) : option nat := if decide (s = "12") then Some 12 else None.
Definition nx_inst (v : pv nat) : inst nat :=
  [ (AStr "size", PStr "12"); (AStr "?x", PD [(AStr "size", v); (AStr "name", PStr "12")]); (AStr "other", PX 5) ].
Lemma ex_C60_numeric_deep :
  pwf (PD (nx_inst (PStr "12"))) /\
  num_transform nx_float Some 0 (Some [AStr "size"]) FBreak (nx_inst (PStr "12")) =
    Ok [ (AStr "size", PX 12); (AStr "?x", PD [(AStr "size", PX 12); (AStr "name", PStr "12")]); (AStr "other", PX 5) ] /\
  num_transform nx_float Some 0 (Some [AStr "size"]) FBreak (nx_inst (PStr "x")) = Err ValueError /\
  num_transform nx_float Some 0 (Some [AStr "size"]) FDrop (nx_inst (PStr "x")) =
    Ok [ (AStr "size", PX 12); (AStr "?x", PD [(AStr "name", PStr "12")]); (AStr "other", PX 5) ] /\
  num_transform nx_float Some 0 (Some [AStr "size"]) FZero (nx_inst (PStr "x")) =
    Ok [ (AStr "size", PX 12); (AStr "?x", PD [(AStr "size", PX 0); (AStr "name", PStr "12")]); (AStr "other", PX 5) ] /\
  num_transform nx_float Some 0 (Some [AStr "size"]) FZero (nx_inst (PL [])) = Err TypeError /\
  num_transform nx_float (fun _ => None) 0 (Some [AStr "size"]) FZero (nx_inst (PX 4)) = Err TypeError.
Proof.
  split; [|repeat split; vm_compute; reflexivity].
  constructor; [repeat constructor; set_solver|]. repeat constructor; simpl; set_solver.
Qed.
Definition sx_inst : inst nat :=
  [ (ANum 1, PStr "v2"); (ATup [AStr "r1"; ANum 2; ATup [ANum 3]], PX 4);
    (AStr "a3", PD [(ANum 3, PStr "v6"); (AStr "aa3", PL [PX 1])]) ].
Definition sx_num (z : Z) : string := pretty z.
Lemma ex_C60_sanitized :
  pwf (PD sx_inst) /\ unclashing sx_num sx_inst /\
  san_trestle sx_num (fun _ => "[1]") sx_inst =
  [ (AStr "1", PStr "v2"); (ATup [AStr "r1"; AStr "2"; ATup [AStr "3"]], PX 4);
    (AStr "a3", PD [(AStr "3", PStr "v6"); (AStr "aa3", PStr "[1]")]) ].
Proof.
  split; [|split; [|vm_compute; reflexivity]].
  - constructor; [repeat constructor; set_solver|]. repeat constructor; simpl; set_solver.
  - assert (Hk : forall (d : inst nat), NoDup (map (sanitize_attr sx_num) (dkeys d)) ->
      forall a b c, a ∈ dkeys d -> b ∈ dkeys d -> spelled sx_num a c -> spelled sx_num b c -> a = b).
    { intros d. generalize (dkeys d). intros l Hn a b c Ha Hb ->%spelled_fun E%spelled_fun.
      apply elem_of_list_lookup in Ha as [i Ha], Hb as [j Hb].
      assert (i = j) as ->; [|congruence].
      apply (NoDup_lookup _ i j (sanitize_attr sx_num a) Hn).
      - rewrite list_lookup_fmap, Ha. done.
      - rewrite list_lookup_fmap, Hb. by rewrite E. }
    constructor; [apply Hk; by vm_compute; repeat constructor; set_solver|].
    intros a e H. unfold sx_inst in H. rewrite !elem_of_cons, elem_of_nil in H.
    destruct H as [H|[H|[H|[]]]]; inversion H; subst.
    constructor; [apply Hk; by vm_compute; repeat constructor; set_solver|].
    intros a e Ha. rewrite !elem_of_cons, elem_of_nil in Ha. by destruct Ha as [Ha|[Ha|[]]].
Qed.

Print Assumptions C60_numeric_deep.
Print Assumptions C60_numeric_components.
Print Assumptions C60_sanitized.
Print Assumptions C60_sanitized_all.
Print Assumptions C60_sanitized_same.
