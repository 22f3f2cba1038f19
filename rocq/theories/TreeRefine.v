(** * The heap program computes the functional algorithm. *)
From stdpp Require Import base decidable list gmap strings.
From Verif Require Import Base Num TreeModel TreeFun TreeScore.

Section Refine.
  Context {N : NumOps} (C : NodeClass N) (rng : nat -> num N).
  Notation S' := (nc_sum C).
  Notation I := (nc_inst C).
  Notation heap := (gmap nat (node C)).
  Notation tree := (tree C).

  (** The heap [h] contains the tree [t], whose root has parent [p]. *)
  Inductive rep (h : heap) : option nat -> tree -> Prop :=
  | rep_intro p i s kids :
      h !! i = Some (Node s p (map tid kids)) ->
      Forall (rep h (Some i)) kids ->
      rep h p (T i s kids).

  (** ** ids *)
  Lemma ids_T i s (kids : list tree) : ids (T i s kids) = i :: concat (map ids kids).
  Proof. done. Qed.

  Lemma elem_of_ids_kids j (kids : list tree) :
    j ∈ concat (map ids kids) <-> exists k, k ∈ kids /\ j ∈ ids k.
  Proof.
    rewrite elem_of_list_In, in_concat. split.
    - intros (l & Hl & Hj). apply in_map_iff in Hl as (k & <- & Hk).
      exists k. rewrite !elem_of_list_In. done.
    - intros (k & Hk & Hj). exists (ids k). rewrite in_map_iff, <- !elem_of_list_In.
      split; [|done]. exists k. rewrite <- elem_of_list_In. done.
  Qed.

  Lemma tid_in_ids (t : tree) : tid t ∈ ids t.
  Proof. destruct t. left. Qed.

  Lemma ids_kid i s (kids : list tree) k j :
    k ∈ kids -> j ∈ ids k -> j ∈ ids (T i s kids).
  Proof. intros. right. apply elem_of_ids_kids. eauto. Qed.

  Lemma concat_ids_app (l1 l2 : list tree) :
    concat (map ids (l1 ++ l2)) = concat (map ids l1) ++ concat (map ids l2).
  Proof. by rewrite map_app, concat_app. Qed.

  Lemma concat_ids_perm (l1 l2 : list tree) :
    Permutation l1 l2 -> Permutation (concat (map ids l1)) (concat (map ids l2)).
  Proof.
    induction 1; simpl; [done|by f_equiv| |by etrans].
    rewrite !(assoc_L (++)). f_equiv. apply Permutation_app_comm.
  Qed.

  Lemma NoDup_kids i s (kids : list tree) :
    NoDup (ids (T i s kids)) <-> i ∉ concat (map ids kids) /\ NoDup (concat (map ids kids)).
  Proof. rewrite ids_T. apply NoDup_cons. Qed.

  Lemma NoDup_kid (l1 l2 : list tree) k :
    NoDup (concat (map ids (l1 ++ k :: l2))) ->
    NoDup (ids k) /\
    (forall j, j ∈ ids k -> j ∉ concat (map ids l1) /\ j ∉ concat (map ids l2)) /\
    NoDup (concat (map ids (l1 ++ l2))).
  Proof.
    intros Hnd.
    assert (Hp : Permutation (concat (map ids (l1 ++ k :: l2)))
                   (ids k ++ concat (map ids (l1 ++ l2)))).
    { change (ids k ++ concat (map ids (l1 ++ l2)))
        with (concat (map ids (k :: l1 ++ l2))).
      apply concat_ids_perm. symmetry. apply Permutation_middle. }
    rewrite Hp in Hnd. apply NoDup_app in Hnd as (H1 & H2 & H3).
    split; [done|]. split; [|done].
    intros j Hj. specialize (H2 j Hj). rewrite concat_ids_app, not_elem_of_app in H2.
    done.
  Qed.

  Lemma tids_in_concat (l : list tree) j : j ∈ map tid l -> j ∈ concat (map ids l).
  Proof.
    intros Hj. apply elem_of_list_In, in_map_iff in Hj as (k & <- & Hk).
    apply elem_of_ids_kids. exists k. rewrite elem_of_list_In. split; [done|].
    apply tid_in_ids.
  Qed.

  Lemma NoDup_tids (l : list tree) : NoDup (concat (map ids l)) -> NoDup (map tid l).
  Proof.
    induction l as [|k l IH]; simpl; intros Hnd; [apply NoDup_nil_2|].
    apply NoDup_app in Hnd as (H1 & H2 & H3). apply NoDup_cons. split; [|auto].
    intros Hin. apply tids_in_concat in Hin. eapply H2; [|done]. apply tid_in_ids.
  Qed.

  Lemma tables_ids (l : list tree) : map fst (tables l) = map tid l.
  Proof. unfold tables. rewrite map_map. done. Qed.

  (** ** Finding a child *)
  Lemma kfind_split b (kids : list tree) k :
    kfind b kids = Some k ->
    exists l1 l2, kids = l1 ++ k :: l2 /\ tid k = b /\ b ∉ map tid l1 /\
      kremove b kids = l1 ++ l2 /\ (forall t, kreplace b t kids = l1 ++ t :: l2).
  Proof.
    induction kids as [|k0 kids IH]; simpl; [done|].
    case_decide as Hd.
    - intros [= ->]. exists [], kids. simpl. repeat split; auto.
      intros H. inversion H.
    - intros H. destruct (IH H) as (l1 & l2 & -> & Ht & Hn & Hr & Hp).
      exists (k0 :: l1), l2. simpl. rewrite not_elem_of_cons.
      repeat split; auto; [by f_equal|]. intros t. by rewrite Hp.
  Qed.

  Lemma kfind_in b (kids : list tree) :
    b ∈ map tid kids -> exists k, kfind b kids = Some k.
  Proof.
    induction kids as [|k0 kids IH]; simpl; [intros H; inversion H|].
    rewrite elem_of_cons. case_decide; [eauto|]. intros [->|Hin]; [done|auto].
  Qed.

  Lemma kfind_app_notin b (l1 l2 : list tree) :
    b ∉ map tid l1 -> kfind b (l1 ++ l2) = kfind b l2.
  Proof.
    induction l1 as [|k l1 IH]; simpl; [done|].
    rewrite not_elem_of_cons. intros [Hne Hni]. rewrite decide_False by done. auto.
  Qed.

  Lemma kfind_None_notin b (l : list tree) : kfind b l = None -> b ∉ map tid l.
  Proof.
    intros Hf Hin. apply kfind_in in Hin as [k Hk]. congruence.
  Qed.

  Lemma remove1_tids (l1 l2 : list tree) k :
    tid k ∉ map tid l1 ->
    remove1 (tid k) (map tid (l1 ++ k :: l2)) = map tid (l1 ++ l2).
  Proof.
    induction l1 as [|k0 l1 IH]; simpl; intros Hni.
    - by rewrite decide_True.
    - rewrite not_elem_of_cons in Hni. destruct Hni as [Hne Hni].
      rewrite decide_False by done. f_equal. auto.
  Qed.

  (** ** rep *)
  Lemma rep_inv h p i s kids :
    rep h p (T i s kids) ->
    h !! i = Some (Node s p (map tid kids)) /\ Forall (rep h (Some i)) kids.
  Proof. inversion 1; subst. done. Qed.

  Lemma rep_frame h h' t : forall p,
    rep h p t -> (forall j, j ∈ ids t -> h' !! j = h !! j) -> rep h' p t.
  Proof.
    induction t as [i s kids IH] using (tree_ind' C). intros p Hr Hf.
    apply rep_inv in Hr as [Hi Hk]. constructor.
    - rewrite Hf; [done|]. left.
    - rewrite Forall_forall in *. intros k Hin. apply IH; [done|auto|].
      intros j Hj. apply Hf. by eapply ids_kid.
  Qed.

  Lemma rep_frame_kids h h' p (l : list tree) :
    Forall (rep h p) l -> (forall j, j ∈ concat (map ids l) -> h' !! j = h !! j) ->
    Forall (rep h' p) l.
  Proof.
    rewrite !Forall_forall. intros Hr Hf k Hk. eapply rep_frame; [by apply Hr|].
    intros j Hj. apply Hf. apply elem_of_ids_kids. eauto.
  Qed.

  Lemma rep_lookup h p t :
    rep h p t -> h !! tid t = Some (Node (tsum t) p (map tid (tkids t))).
  Proof. destruct t. intros [? _]%rep_inv. done. Qed.

  (** Change the parent link of the root of [t]. *)
  Lemma rep_reparent h h' p q t :
    rep h p t -> NoDup (ids t) ->
    h' !! tid t = Some (Node (tsum t) q (map tid (tkids t))) ->
    (forall j, j ∈ ids t -> j <> tid t -> h' !! j = h !! j) -> rep h' q t.
  Proof.
    destruct t as [i s kids]. intros [Hi Hk]%rep_inv Hnd Hi' Hf. simpl in *.
    apply NoDup_cons in Hnd as [Hni _].
    constructor; [done|]. eapply rep_frame_kids; [done|].
    intros j Hj. apply Hf; [by right|]. intros ->. done.
  Qed.

  (** ** Running monadic code *)
  Lemma mbind_ok {X Y} (m : M C X) (f : X -> M C Y) s v s' :
    m s = (Ok v, s') -> mbind C m f s = f v s'.
  Proof. unfold mbind. by intros ->. Qed.
  Lemma mbind_err {X Y} (m : M C X) (f : X -> M C Y) s e s' :
    m s = (Err e, s') -> mbind C m f s = (Err e, s').
  Proof. unfold mbind. by intros ->. Qed.
  Lemma mget_ok i s n : st_heap s !! i = Some n -> mget C i s = (Ok n, s).
  Proof. unfold mget. by intros ->. Qed.

  Lemma mtables_spec h p (l : list tree) s :
    st_heap s = h -> Forall (rep h p) l ->
    mtables C (map tid l) s = (Ok (tables l), s).
  Proof.
    intros Hs. induction l as [|k l IH]; intros Hr; simpl; [done|].
    apply Forall_cons in Hr as [Hk Hl].
    erewrite mbind_ok; [|apply mget_ok; rewrite Hs; by apply rep_lookup].
    erewrite mbind_ok; [|by apply IH]. done.
  Qed.

  Lemma mincrement_spec i inst s n :
    st_heap s !! i = Some n ->
    mincrement C i inst s =
      (match snd (nc_inc C (nd_sum n) inst) with None => Ok tt | Some e => Err e end,
       St (<[i := with_sum C (fst (nc_inc C (nd_sum n) inst)) n]> (st_heap s))
          (st_root s) (st_amb s) (st_ctx s)).
  Proof.
    intros Hi. unfold mincrement. erewrite mbind_ok; [|by apply mget_ok].
    destruct (nc_inc C (nd_sum n) inst) as [s' e]. simpl.
    erewrite mbind_ok; [|done]. destruct e; done.
  Qed.

  Lemma mupdate_from_spec i o s n no :
    st_heap s !! i = Some n -> st_heap s !! o = Some no ->
    mupdate_from C i o s =
      (match snd (nc_add C (nd_sum n) (nd_sum no)) with None => Ok tt | Some e => Err e end,
       St (<[i := with_sum C (fst (nc_add C (nd_sum n) (nd_sum no))) n]> (st_heap s))
          (st_root s) (st_amb s) (st_ctx s)).
  Proof.
    intros Hi Ho. unfold mupdate_from. erewrite mbind_ok; [|by apply mget_ok].
    erewrite mbind_ok; [|by apply mget_ok].
    destruct (nc_add C (nd_sum n) (nd_sum no)) as [s' e]. simpl.
    erewrite mbind_ok; [|done]. destruct e; done.
  Qed.

  (** Lookups in updated heaps. *)
  Ltac hlook := repeat first
    [ rewrite lookup_insert
    | rewrite lookup_insert_ne by (lia || congruence) ].

  (** ** create_new_child *)
  Lemma mcreate_new_child_refines s (h : heap) r a x id sm p (kids : list tree) i moved :
    s = St h r a x ->
    rep h p (T id sm kids) -> NoDup (ids (T id sm kids)) ->
    (forall j, j ∈ ids (T id sm kids) -> j <= am_ctr a) ->
    let o := fnew_child C moved id sm kids i a in
    exists h',
      mcreate_new_child C id i s = (fo_res o, St h' r (fo_amb o) x) /\
      rep h' p (fo_tree o) /\
      tid (fo_tree o) = id /\ fo_moved o = moved /\
      (forall j, j <> id -> j <= am_ctr a -> h' !! j = h !! j).
  Proof.
    intros -> Hr Hnd Hb o. subst o. unfold fnew_child, anext. simpl.
    set (new := S (am_ctr a)).
    pose proof (rep_inv _ _ _ _ _ Hr) as [Hid Hkids].
    assert (Hidb : id <= am_ctr a) by (apply Hb; left).
    unfold mcreate_new_child. erewrite mbind_ok by done.
    erewrite mbind_ok by done. simpl.
    destruct (nc_inc C (nc_empty C) i) as [s2 e2] eqn:Einc. fold new.
    destruct e2 as [e|].
    - eexists. split.
      { eapply mbind_err. rewrite (mincrement_spec _ _ _ (Node (nc_empty C) (Some id) []));
          simpl; [|apply lookup_insert]. rewrite Einc. simpl. done. }
      simpl. split; [|split; [done|split; [done|]]].
      + eapply rep_frame; [done|]. intros j Hj. specialize (Hb j Hj). hlook. done.
      + intros j _ Hj. hlook. done.
    - eexists. split.
      { erewrite mbind_ok.
        2:{ rewrite (mincrement_spec _ _ _ (Node (nc_empty C) (Some id) []));
              simpl; [|apply lookup_insert]. rewrite Einc. simpl. done. }
        erewrite mbind_ok.
        2:{ apply mget_ok. simpl. hlook. exact Hid. }
        erewrite mbind_ok by done. simpl. unfold mret. done. }
      simpl. split; [|split; [done|split; [done|]]].
      + constructor.
        * hlook. unfold with_children. simpl. by rewrite map_app.
        * apply Forall_app. split.
          -- eapply rep_frame_kids; [done|]. intros j Hj.
             assert (j <= am_ctr a) by (apply Hb; right; done).
             assert (j <> id).
             { intros ->. apply NoDup_kids in Hnd as [Hnd _]. done. }
             hlook. done.
          -- apply Forall_singleton. constructor; [|constructor].
             hlook. done.
      + intros j Hne Hj. hlook. done.
  Qed.

  (** ** Fringe split *)
  (** What the loop promises about the heap outside of the subtree it was
      called on: nothing changes, except that a fringe split at its root
      re-registers the replacement with the parent [p]. *)
  Definition frame (h h' : heap) (t : tree) (p : option nat) (ctr : nat)
      (moved : bool) (t' : tree) : Prop :=
    (forall j, j ∉ ids t -> j <= ctr -> (moved = true -> p <> Some j) -> h' !! j = h !! j) /\
    (moved = false -> tid t' = tid t) /\
    (moved = true -> forall q, p = Some q -> exists n, h !! q = Some n /\
       h' !! q = Some (with_children C (remove1 (tid t) (nd_children n) ++ [tid t']) n)).

  Definition pok (s : st C) (p : option nat) (t : tree) : Prop :=
    match p with
    | None => st_root s = tid t
    | Some q => q ∉ ids t /\ q <= am_ctr (st_amb s) /\ exists n, st_heap s !! q = Some n
    end.
  Definition newroot (s : st C) (p : option nat) (t' : tree) : nat :=
    match p with None => tid t' | Some _ => st_root s end.

  Lemma mfringe_refines (h : heap) r a x id sm p i :
    let s := St h r a x in
    let t := T id sm [] in
    rep h p t -> (forall j, j ∈ ids t -> j <= am_ctr a) -> pok s p t ->
    let o := ffringe C id sm i a in
    exists h',
      mfringe_split C id i s = (fo_res o, St h' (newroot s p (fo_tree o)) (fo_amb o) x) /\
      rep h' p (fo_tree o) /\
      frame h h' t p (am_ctr a) (fo_moved o) (fo_tree o).
  Proof.
    intros s t Hr Hb Hp o. subst o s t. unfold ffringe, anext. simpl.
    set (new := S (am_ctr a)).
    pose proof (rep_inv _ _ _ _ _ Hr) as [Hid _].
    assert (Hidb : id <= am_ctr a) by (apply Hb; left).
    unfold mfringe_split. erewrite mbind_ok by done.
    erewrite mbind_ok by (apply mget_ok; done). simpl.
    erewrite mbind_ok by done. simpl. fold new.
    destruct (nc_add C (nc_empty C) sm) as [s0 [e|]] eqn:Eadd.
    { eexists. split.
      { eapply mbind_err. erewrite mupdate_from_spec.
        2:{ simpl. apply lookup_insert. }
        2:{ simpl. hlook. exact Hid. }
        simpl. rewrite Eadd. simpl. f_equal. destruct p; simpl; [done|].
        simpl in Hp. by rewrite Hp. }
      simpl. split; [|split; [|done]].
      - eapply rep_frame; [done|]. intros j Hj. specialize (Hb j Hj). hlook. done.
      - intros j _ Hj _. hlook. done. }
    erewrite mbind_ok.
    2:{ erewrite mupdate_from_spec.
        2:{ simpl. apply lookup_insert. }
        2:{ simpl. hlook. exact Hid. }
        simpl. rewrite Eadd. simpl. done. }
    erewrite mbind_ok by done. simpl.
    erewrite mbind_ok.
    2:{ apply mget_ok. simpl. hlook. done. }
    erewrite mbind_ok by done. simpl.
    match goal with |- exists h', mbind C _ _ (St ?hh _ _ _) = _ /\ _ => set (h1 := hh) end.
    assert (Hlink : exists h2,
      match p with
      | Some p0 => mbind C (mget C p0) (fun np =>
          mput C p0 (with_children C (remove1 id (nd_children np) ++ [new]) np))
      | None => mset_root C new
      end (St h1 r (Amb new (am_rpos a)) x) =
        (Ok tt, St h2 (match p with None => new | Some _ => r end) (Amb new (am_rpos a)) x) /\
      h2 !! new = Some (Node s0 p [id]) /\
      h2 !! id = Some (Node sm (Some new) []) /\
      (forall j, j <> id -> j <= am_ctr a -> p <> Some j -> h2 !! j = h !! j) /\
      (forall q, p = Some q -> exists n, h !! q = Some n /\
         h2 !! q = Some (with_children C (remove1 id (nd_children n) ++ [new]) n))).
    { destruct p as [q|]; simpl in Hp.
      - destruct Hp as (Hq & Hqb & n & Hn).
        assert (q <> id). { intros ->. apply Hq. left. }
        eexists. split.
        { erewrite mbind_ok.
          2:{ apply mget_ok. simpl. unfold h1. hlook. exact Hn. }
          done. }
        unfold h1. simpl. hlook. split; [done|]. split; [done|]. split.
        + intros j Hj Hjb Hpj. assert (j <> q) by congruence. hlook. done.
        + intros q' [= <-]. exists n. hlook. done.
      - eexists. split; [done|]. unfold h1. simpl. hlook.
        split; [done|]. split; [done|]. split; [|done].
        intros j Hj Hjb _. hlook. done. }
    destruct Hlink as (h2 & Hrun & Hnew & Hid2 & Hfr & Hpar).
    erewrite mbind_ok by exact Hrun. clear Hrun.
    destruct (nc_inc C s0 i) as [s1 [e|]] eqn:Einc.
    { eexists. split.
      { eapply mbind_err. erewrite mincrement_spec by exact Hnew. simpl.
        rewrite Einc. simpl. destruct p; done. }
      assert (Hr1 : rep (<[new:=with_sum C s1 (Node s0 p [id])]> h2) p (T new s1 [T id sm []])).
      { constructor; [by hlook|]. apply Forall_singleton. constructor; [|constructor].
        hlook. done. }
      split; [done|]. split; [|split; [done|]].
      - intros j Hj Hjb Hpj. hlook. apply Hfr; [|done|auto].
        intros ->. apply Hj. left.
      - intros _ q Hq. destruct (Hpar q Hq) as (n & Hn & Hn').
        exists n. split; [done|]. subst p. destruct Hp as (_ & Hqb & _). simpl in Hqb.
        hlook. done. }
    erewrite mbind_ok.
    2:{ erewrite mincrement_spec by exact Hnew. simpl. rewrite Einc. simpl. done. }
    simpl.
    set (h3 := <[new:=with_sum C s1 (Node s0 p [id])]> h2).
    assert (Hr3 : rep h3 p (T new s1 [T id sm []])).
    { unfold h3. constructor; [by hlook|]. apply Forall_singleton.
      constructor; [|constructor]. hlook. done. }
    destruct (mcreate_new_child_refines _ h3
                (match p with None => new | Some _ => r end) (Amb new (am_rpos a)) x
                new s1 p [T id sm []] i true eq_refl Hr3) as (h4 & Hrun & Hr4 & Ht & Hm & Hf).
    { simpl. apply NoDup_cons. split; [|apply NoDup_singleton].
      rewrite elem_of_list_singleton. lia. }
    { simpl. intros j. rewrite !elem_of_cons. intros [->|[->|Hj]]; [lia|lia|inversion Hj]. }
    exists h4. split.
    { rewrite Hrun. f_equal. f_equal. destruct p; [done|]. simpl. by rewrite Ht. }
    split; [done|]. rewrite Hm. split; [|split; [done|]].
    - intros j Hj Hjb Hpj. simpl in Hf. rewrite Hf by lia.
      unfold h3. hlook. apply Hfr; [|done|auto]. intros ->. apply Hj. left.
    - intros _ q Hq. destruct (Hpar q Hq) as (n & Hn & Hn').
      exists n. split; [done|]. subst p. destruct Hp as (_ & Hqb & _). simpl in Hqb, Hf.
      rewrite Hf by lia. unfold h3. hlook. rewrite Ht. done.
  Qed.

  (** ** Updating one child *)
  Lemma kupdate_perm moved b (kids : list tree) k t' :
    kfind b kids = Some k ->
    Permutation (kupdate moved b t' kids) (t' :: kremove b kids).
  Proof.
    intros (l1 & l2 & -> & Ht & Hn & Hr & Hp)%kfind_split.
    unfold kupdate. rewrite Hr, Hp. destruct moved.
    - by rewrite <- Permutation_cons_append.
    - by rewrite <- Permutation_middle.
  Qed.

  Lemma kremove_perm b (kids : list tree) k :
    kfind b kids = Some k -> Permutation kids (k :: kremove b kids).
  Proof.
    intros (l1 & l2 & -> & Ht & Hn & Hr & Hp)%kfind_split.
    rewrite Hr. by rewrite <- Permutation_middle.
  Qed.

  Lemma rep_kupdate h1 h2 p id s (kids : list tree) b k1 ctr moved t' :
    rep h1 p (T id s kids) -> NoDup (ids (T id s kids)) ->
    (forall j, j ∈ ids (T id s kids) -> j <= ctr) ->
    kfind b kids = Some k1 ->
    rep h2 (Some id) t' ->
    frame h1 h2 k1 (Some id) ctr moved t' ->
    rep h2 p (T id s (kupdate moved b t' kids)) /\
    (forall j, j ∉ ids (T id s kids) -> j <= ctr -> h2 !! j = h1 !! j).
  Proof.
    intros Hr Hnd Hb Hk Hr2 (Hf1 & Hf2 & Hf3).
    pose proof (kremove_perm _ _ _ Hk) as Hperm.
    apply kfind_split in Hk as (l1 & l2 & -> & Ht & Hn & Hrm & Hrp).
    apply rep_inv in Hr as [Hid Hkids].
    apply NoDup_kids in Hnd as [Hni Hnd].
    apply NoDup_kid in Hnd as (Hndk & Hdis & Hnd').
    rewrite concat_ids_app, not_elem_of_app in Hni. simpl in Hni.
    rewrite not_elem_of_app in Hni. destruct Hni as (Hni1 & Hnik & Hni2).
    assert (Hidb : id <= ctr) by (apply Hb; left).
    assert (Hbk : forall k, k ∈ l1 ++ k1 :: l2 -> forall j, j ∈ ids k -> j <= ctr).
    { intros k Hk j Hj. apply Hb. by eapply ids_kid. }
    split.
    - assert (Hk' : forall k, k ∈ l1 ++ l2 -> rep h2 (Some id) k).
      { intros k Hk. rewrite Forall_forall in Hkids.
        assert (Hkin : k ∈ l1 ++ k1 :: l2).
        { rewrite elem_of_app, elem_of_cons. apply elem_of_app in Hk. tauto. }
        eapply rep_frame; [by apply Hkids|]. intros j Hj.
        apply Hf1; [|by eapply Hbk|].
        - intros Hj'. destruct (Hdis j Hj') as [Hd1 Hd2].
          rewrite elem_of_app in Hk.
          destruct Hk; [apply Hd1|apply Hd2]; apply elem_of_ids_kids; eauto.
        - intros _ [= ->]. rewrite elem_of_app in Hk.
          destruct Hk; [apply Hni1|apply Hni2]; apply elem_of_ids_kids; eauto. }
      constructor.
      + unfold kupdate. rewrite Hrm, Hrp. destruct moved.
        * destruct (Hf3 eq_refl id eq_refl) as (n & Hn1 & Hn2).
          rewrite Hid in Hn1. injection Hn1 as <-. rewrite Hn2.
          unfold with_children. simpl. f_equal. f_equal.
          rewrite remove1_tids by (by rewrite Ht).
          by rewrite (map_app _ (l1 ++ l2)).
        * rewrite Hf1; [|done|done|done]. rewrite Hid. f_equal. f_equal.
          rewrite !map_app. simpl. by rewrite Hf2.
      + apply Forall_forall. intros k Hk.
        unfold kupdate in Hk. rewrite Hrm, Hrp in Hk. destruct moved.
        * apply elem_of_app in Hk as [Hk|Hk]; [by apply Hk'|].
          apply elem_of_list_singleton in Hk as ->. done.
        * apply elem_of_app in Hk as [Hk|Hk]; [apply Hk', elem_of_app; by left|].
          apply elem_of_cons in Hk as [->|Hk]; [done|].
          apply Hk', elem_of_app. by right.
    - intros j Hj Hjb. apply Hf1; [|done|].
      + intros Hj'. apply Hj. eapply ids_kid; [|done]. apply elem_of_app. right. left.
      + intros _ [= ->]. apply Hj. left.
  Qed.

  (** ** Merge *)
  Lemma mmerge_refines (h : heap) r a x p id sm (kids : list tree) b1 b2 k1 k2 :
    rep h p (T id sm kids) -> NoDup (ids (T id sm kids)) ->
    (forall j, j ∈ ids (T id sm kids) -> j <= am_ctr a) ->
    kfind b1 kids = Some k1 -> kfind b2 kids = Some k2 -> b1 <> b2 ->
    let m := S (am_ctr a) in
    exists h',
      mmerge C id b1 b2 (St h r a x) =
        (match fmerged C k1 k2 with inl _ => Ok m | inr e => Err e end,
         St h' r (anext a) x) /\
      (forall j, j ∉ ids (T id sm kids) -> j <= am_ctr a -> h' !! j = h !! j) /\
      rep h' p (T id sm (match fmerged C k1 k2 with
                         | inl sn => kremove b2 (kremove b1 kids) ++ [T m sn [k1; k2]]
                         | inr _ => kids
                         end)).
  Proof.
    intros Hr Hnd Hb Hk1 Hk2 Hne m.
    assert (Hk2' : kfind b2 (kremove b1 kids) = Some k2).
    { pose proof (kfind_split _ _ _ Hk1) as (l1 & l2 & -> & Ht & Hn & Hrm & _).
      rewrite Hrm. clear -Hk2 Hne Ht. induction l1 as [|k0 l1 IH]; simpl in *.
      - rewrite decide_False in Hk2 by congruence. done.
      - destruct (decide (b2 = tid k0)); [done|auto]. }
    pose proof (kremove_perm _ _ _ Hk1) as Hp1.
    pose proof (kremove_perm _ _ _ Hk2') as Hp2.
    pose proof (kfind_split _ _ _ Hk1) as (l1 & l2 & E1 & Ht1 & Hn1 & Hrm1 & _).
    pose proof (kfind_split _ _ _ Hk2') as (m1 & m2 & E2 & Ht2 & Hn2 & Hrm2 & _).
    set (rest := kremove b2 (kremove b1 kids)) in *.
    assert (Hperm : Permutation kids (k1 :: k2 :: rest)) by (by rewrite Hp1, Hp2).
    pose proof (rep_inv _ _ _ _ _ Hr) as [Hid Hkids].
    pose proof (proj1 (NoDup_kids _ _ _) Hnd) as [Hni Hnd'].
    assert (Hconc : Permutation (concat (map ids kids))
                      (ids k1 ++ ids k2 ++ concat (map ids rest))).
    { by rewrite (concat_ids_perm _ _ Hperm). }
    rewrite Hconc in Hni, Hnd'.
    rewrite !not_elem_of_app in Hni. destruct Hni as (Hni1 & Hni2 & Hni3).
    apply NoDup_app in Hnd' as (Hnd1 & Hd1 & Hnd').
    apply NoDup_app in Hnd' as (Hnd2 & Hd2 & Hnd3).
    assert (Hbc : forall j, j ∈ ids k1 ++ ids k2 ++ concat (map ids rest) -> j <= am_ctr a).
    { intros j Hj. apply Hb. right. by rewrite Hconc. }
    rewrite Hperm in Hkids. apply Forall_cons in Hkids as [Hr1 Hkids].
    apply Forall_cons in Hkids as [Hr2 Hrest].
    assert (Hidb : id <= am_ctr a) by (apply Hb; left).
    assert (Hb1b : b1 <= am_ctr a).
    { apply Hbc. apply elem_of_app. left. rewrite <- Ht1. apply tid_in_ids. }
    assert (Hb2b : b2 <= am_ctr a).
    { apply Hbc. apply elem_of_app. right. apply elem_of_app. left.
      rewrite <- Ht2. apply tid_in_ids. }
    assert (Hb1id : b1 <> id).
    { intros ->. apply Hni1. rewrite <- Ht1. apply tid_in_ids. }
    assert (Hb2id : b2 <> id).
    { intros ->. apply Hni2. rewrite <- Ht2. apply tid_in_ids. }
    pose proof (rep_lookup _ _ _ Hr1) as Hl1. rewrite Ht1 in Hl1.
    pose proof (rep_lookup _ _ _ Hr2) as Hl2. rewrite Ht2 in Hl2.
    unfold mmerge. erewrite mbind_ok by done. erewrite mbind_ok by done. simpl. fold m.
    unfold fmerged.
    destruct (nc_add C (nc_empty C) (tsum k1)) as [s0 [e|]] eqn:Ea1.
    { eexists. split.
      { eapply mbind_err. erewrite mupdate_from_spec.
        2:{ simpl. apply lookup_insert. }
        2:{ simpl. rewrite lookup_insert_ne by lia. exact Hl1. }
        simpl. rewrite Ea1. simpl. done. }
      split.
      - intros j _ Hj. hlook. done.
      - eapply rep_frame; [done|]. intros j Hj. specialize (Hb j Hj). hlook. done. }
    erewrite mbind_ok.
    2:{ erewrite mupdate_from_spec.
        2:{ simpl. apply lookup_insert. }
        2:{ simpl. rewrite lookup_insert_ne by lia. exact Hl1. }
        simpl. rewrite Ea1. simpl. done. }
    destruct (nc_add C s0 (tsum k2)) as [s1 [e|]] eqn:Ea2.
    { eexists. split.
      { eapply mbind_err. erewrite mupdate_from_spec.
        2:{ simpl. apply lookup_insert. }
        2:{ simpl. hlook. exact Hl2. }
        simpl. rewrite Ea2. simpl. done. }
      split.
      - intros j _ Hj. hlook. done.
      - eapply rep_frame; [done|]. intros j Hj. specialize (Hb j Hj). hlook. done. }
    erewrite mbind_ok.
    2:{ erewrite mupdate_from_spec.
        2:{ simpl. apply lookup_insert. }
        2:{ simpl. hlook. exact Hl2. }
        simpl. rewrite Ea2. simpl. done. }
    erewrite mbind_ok by (apply mget_ok; simpl; hlook; exact Hl1).
    erewrite mbind_ok by done. simpl.
    erewrite mbind_ok by (apply mget_ok; simpl; hlook; exact Hl2).
    erewrite mbind_ok by done. simpl.
    erewrite mbind_ok by (apply mget_ok; simpl; hlook; done).
    erewrite mbind_ok by done. simpl.
    erewrite mbind_ok by (apply mget_ok; simpl; hlook; exact Hid).
    erewrite mbind_ok by done. simpl.
    eexists. split; [done|]. split.
    { intros j Hj Hjb.
      assert (j <> id). { intros ->. apply Hj. left. }
      assert (j <> b1).
      { intros ->. apply Hj. right. rewrite Hconc, elem_of_app. left.
        rewrite <- Ht1. apply tid_in_ids. }
      assert (j <> b2).
      { intros ->. apply Hj. right. rewrite Hconc, !elem_of_app. right. left.
        rewrite <- Ht2. apply tid_in_ids. }
      hlook. done. }
    assert (Htids : remove1 b2 (remove1 b1 (map tid kids)) = map tid rest).
    { subst rest. rewrite Hrm2. rewrite E1 at 1. rewrite <- Ht1.
      rewrite remove1_tids by (by rewrite Ht1). rewrite <- Hrm1, E2, <- Ht2.
      rewrite remove1_tids by (by rewrite Ht2). done. }
    constructor.
    - hlook. unfold with_children. simpl. f_equal. f_equal.
      rewrite Htids, map_app. done.
    - apply Forall_app. split.
      + eapply rep_frame_kids; [exact Hrest|]. intros j Hj.
        assert (j <= am_ctr a). { apply Hbc. rewrite !elem_of_app. auto. }
        assert (j <> id) by congruence.
        assert (j <> b1).
        { intros ->. apply (Hd1 b1); [rewrite <- Ht1; apply tid_in_ids|].
          apply elem_of_app. by right. }
        assert (j <> b2).
        { intros ->. apply (Hd2 b2); [rewrite <- Ht2; apply tid_in_ids|done]. }
        hlook. done.
      + apply Forall_singleton. constructor.
        { hlook. unfold with_children, with_sum. simpl. by rewrite Ht1, Ht2. }
        apply Forall_cons. split; [|apply Forall_singleton].
        * eapply rep_reparent; [exact Hr1|done| |].
          -- rewrite Ht1. hlook. done.
          -- rewrite Ht1. intros j Hj Hjne.
             assert (j <= am_ctr a). { apply Hbc. rewrite !elem_of_app. auto. }
             assert (j <> id) by congruence.
             assert (j <> b2).
             { intros ->. apply (Hd1 b2); [done|]. apply elem_of_app. left.
               rewrite <- Ht2. apply tid_in_ids. }
             hlook. done.
        * eapply rep_reparent; [exact Hr2|done| |].
          -- rewrite Ht2. hlook. done.
          -- rewrite Ht2. intros j Hj Hjne.
             assert (j <= am_ctr a). { apply Hbc. rewrite !elem_of_app. auto. }
             assert (j <> id) by congruence.
             assert (j <> b1).
             { intros ->. apply (Hd1 b1); [rewrite <- Ht1; apply tid_in_ids|].
               apply elem_of_app. by left. }
             hlook. done.
  Qed.

  (** ** Split *)
  Lemma mreparent_refines q p (l : list tree) : forall (h : heap) r a x,
    Forall (rep h q) l -> NoDup (concat (map ids l)) ->
    exists h',
      mreparent C p (map tid l) (St h r a x) = (Ok tt, St h' r a x) /\
      Forall (rep h' (Some p)) l /\
      (forall j, j ∉ concat (map ids l) -> h' !! j = h !! j).
  Proof.
    induction l as [|k l IH]; intros h r a x Hr Hnd.
    - exists h. done.
    - apply Forall_cons in Hr as [Hk Hl]. simpl in Hnd.
      apply NoDup_app in Hnd as (Hn1 & Hd & Hn2).
      pose proof (rep_lookup _ _ _ Hk) as Hlk.
      simpl. erewrite mbind_ok by (apply mget_ok; exact Hlk).
      erewrite mbind_ok by done. simpl.
      match goal with |- context [St ?hh r a x] => set (h1 := hh) end.
      destruct (IH h1 r a x) as (h' & Hrun & Hrl & Hfr).
      { eapply rep_frame_kids; [exact Hl|]. intros j Hj.
        unfold h1. rewrite lookup_insert_ne; [done|].
        intros <-. eapply Hd; [|done]. apply tid_in_ids. }
      { done. }
      exists h'. split; [done|]. split.
      + apply Forall_cons. split; [|done].
        eapply rep_reparent; [exact Hk|done| |].
        * rewrite Hfr; [unfold h1; hlook; done|]. intros Hin.
          eapply Hd; [apply tid_in_ids|done].
        * intros j Hj Hne. rewrite Hfr; [unfold h1; hlook; done|].
          intros Hin. by eapply Hd.
      + intros j. rewrite not_elem_of_app. intros [Hj1 Hj2].
        rewrite Hfr by done. unfold h1. rewrite lookup_insert_ne; [done|].
        intros <-. apply Hj1, tid_in_ids.
  Qed.

  Lemma msplit_refines (h : heap) r a x p id sm (kids : list tree) b1 k1 :
    rep h p (T id sm kids) -> NoDup (ids (T id sm kids)) ->
    kfind b1 kids = Some k1 ->
    exists h',
      msplit C id b1 (St h r a x) = (Ok tt, St h' r a x) /\
      (forall j, j ∉ ids (T id sm kids) -> h' !! j = h !! j) /\
      rep h' p (T id sm (kremove b1 kids ++ tkids k1)).
  Proof.
    intros Hr Hnd Hk1.
    pose proof (kremove_perm _ _ _ Hk1) as Hp1.
    pose proof (kfind_split _ _ _ Hk1) as (l1 & l2 & E1 & Ht1 & Hn1 & Hrm1 & _).
    pose proof (rep_inv _ _ _ _ _ Hr) as [Hid Hkids].
    pose proof (proj1 (NoDup_kids _ _ _) Hnd) as [Hni Hnd'].
    set (rest := kremove b1 kids) in *.
    assert (Hconc : Permutation (concat (map ids kids)) (ids k1 ++ concat (map ids rest))).
    { by rewrite (concat_ids_perm _ _ Hp1). }
    rewrite Hconc in Hni, Hnd'.
    rewrite !not_elem_of_app in Hni. destruct Hni as (Hni1 & Hni3).
    apply NoDup_app in Hnd' as (Hnd1 & Hd1 & Hnd3).
    rewrite Hp1 in Hkids. apply Forall_cons in Hkids as [Hr1 Hrest].
    destruct k1 as [i1 s1 ks1]. simpl in Ht1. subst i1. simpl tkids.
    apply rep_inv in Hr1 as [Hl1 Hks1].
    apply NoDup_kids in Hnd1 as [Hni1' Hnd1].
    assert (Hb1id : b1 <> id). { intros ->. apply Hni1. left. }
    assert (Hidks : id ∉ concat (map ids ks1)).
    { intros Hin. apply Hni1. by right. }
    unfold msplit. erewrite mbind_ok by (apply mget_ok; exact Hid).
    erewrite mbind_ok by done. simpl.
    erewrite mbind_ok by (apply mget_ok; simpl; hlook; exact Hl1). simpl.
    match goal with |- context [St ?hh r a x] => set (h1 := hh) end.
    destruct (mreparent_refines (Some b1) id ks1 h1 r a x) as (h2 & Hrun & Hr2 & Hf2).
    { eapply rep_frame_kids; [exact Hks1|]. intros j Hj. unfold h1.
      rewrite lookup_insert_ne; [done|]. congruence. }
    { done. }
    erewrite mbind_ok by exact Hrun.
    assert (Hid2 : h2 !! id = h1 !! id) by (by apply Hf2).
    unfold h1 in Hid2. rewrite lookup_insert in Hid2.
    erewrite mbind_ok by (apply mget_ok; exact Hid2).
    simpl. eexists. split; [done|]. split.
    - intros j Hj.
      assert (j <> id). { intros ->. apply Hj. left. }
      hlook. rewrite Hf2. { unfold h1. hlook. done. }
      intros Hin. apply Hj. right. rewrite Hconc, elem_of_app. left. by right.
    - constructor.
      + hlook. unfold with_children. simpl. f_equal. f_equal.
        rewrite map_app. f_equal. rewrite Hrm1, E1.
        rewrite <- (remove1_tids l1 l2 (T b1 s1 ks1)) by done. done.
      + apply Forall_app. split.
        * eapply rep_frame_kids; [exact Hrest|]. intros j Hj.
          assert (j <> id) by congruence. hlook. rewrite Hf2.
          { unfold h1. hlook. done. }
          intros Hin. eapply (Hd1 j); [by right|done].
        * eapply rep_frame_kids; [exact Hr2|]. intros j Hj.
          assert (j <> id) by congruence. hlook. done.
  Qed.

  (** ** Ids of the resulting tree *)
  Definition ids_ok (t : tree) (a : amb) (o : fout C) : Prop :=
    NoDup (ids (fo_tree o)) /\
    (forall j, j ∈ ids (fo_tree o) ->
       j ∈ ids t \/ (am_ctr a < j /\ j <= am_ctr (fo_amb o))) /\
    am_ctr a <= am_ctr (fo_amb o) /\
    (if fo_moved o then am_ctr a < tid (fo_tree o) else tid (fo_tree o) = tid t).

  Lemma ids_ok_same t a a' r s :
    NoDup (ids t) -> am_ctr a <= am_ctr a' ->
    ids_ok t a (FOut (T (tid t) s (tkids t)) false r a').
  Proof. destruct t. intros Hnd Ha. repeat split; simpl; auto. Qed.

  Lemma fnew_child_ids moved id s (kids : list tree) i a :
    NoDup (ids (T id s kids)) ->
    (forall j, j ∈ ids (T id s kids) -> j <= am_ctr a) ->
    let o := fnew_child C moved id s kids i a in
    NoDup (ids (fo_tree o)) /\
    (forall j, j ∈ ids (fo_tree o) ->
       j ∈ ids (T id s kids) \/ (am_ctr a < j /\ j <= am_ctr (fo_amb o))) /\
    am_ctr a <= am_ctr (fo_amb o) /\ tid (fo_tree o) = id /\ fo_moved o = moved.
  Proof.
    intros Hnd Hb. unfold fnew_child. simpl.
    destruct (nc_inc C (nc_empty C) i) as [s2 [e|]]; simpl.
    { split; [done|]. split; [auto|]. split; [lia|done]. }
    rewrite concat_ids_app. simpl.
    assert (Hfresh : S (am_ctr a) ∉ ids (T id s kids)).
    { intros Hin. specialize (Hb _ Hin). lia. }
    split; [|split; [|split; [lia|done]]].
    - change (NoDup (ids (T id s kids) ++ [S (am_ctr a)])).
      apply NoDup_app. split; [done|]. split; [|apply NoDup_singleton].
      intros j Hj ->%elem_of_list_singleton. done.
    - intros j Hj. change (j ∈ ids (T id s kids) ++ [S (am_ctr a)]) in Hj.
      apply elem_of_app in Hj as [Hj|Hj]; [by left|].
      apply elem_of_list_singleton in Hj as ->. right. lia.
  Qed.

  Lemma kupdate_ids moved b id s s' (kids : list tree) k1 a a2 r o :
    NoDup (ids (T id s kids)) ->
    (forall j, j ∈ ids (T id s kids) -> j <= am_ctr a) ->
    am_ctr a <= am_ctr a2 ->
    kfind b kids = Some k1 -> ids_ok k1 a2 o -> moved = fo_moved o ->
    ids_ok (T id s kids) a
      (FOut (T id s' (kupdate moved b (fo_tree o) kids)) false r (fo_amb o)).
  Proof.
    intros Hnd Hb Ha Hk (Ho1 & Ho2 & Ho3 & Ho4) ->.
    pose proof (kremove_perm _ _ _ Hk) as Hp.
    pose proof (kupdate_perm (fo_moved o) _ _ _ (fo_tree o) Hk) as Hq.
    apply concat_ids_perm in Hp, Hq. simpl in Hp, Hq.
    pose proof (proj1 (NoDup_kids _ _ _) Hnd) as [Hni Hnd'].
    rewrite Hp in Hni, Hnd'.
    rewrite not_elem_of_app in Hni. destruct Hni as [Hni1 Hni2].
    apply NoDup_app in Hnd' as (Hn1 & Hd & Hn2).
    assert (Hb' : forall j, j ∈ ids k1 ++ concat (map ids (kremove b kids)) -> j <= am_ctr a).
    { intros j Hj. apply Hb. right. by rewrite Hp. }
    assert (Hidb : id <= am_ctr a) by (apply Hb; left).
    unfold ids_ok. simpl. split; [|split; [|split; [lia|done]]].
    - apply NoDup_cons. rewrite Hq. split.
      + rewrite not_elem_of_app. split; [|done]. intros Hin.
        destruct (Ho2 _ Hin) as [?|[? ?]]; [done|lia].
      + apply NoDup_app. split; [done|]. split; [|done].
        intros j Hj Hj'. destruct (Ho2 _ Hj) as [?|[? ?]]; [by eapply Hd|].
        assert (j <= am_ctr a); [|lia]. apply Hb'. apply elem_of_app. by right.
    - intros j Hj. rewrite Hq in Hj. rewrite Hp.
      apply elem_of_cons in Hj as [->|Hj]; [left; left|].
      apply elem_of_app in Hj as [Hj|Hj].
      + destruct (Ho2 _ Hj) as [?|[? ?]]; [|right; lia].
        left. right. apply elem_of_app. by left.
      + left. right. apply elem_of_app. by right.
  Qed.

  Lemma merge_ids id s sm (kids : list tree) b1 b2 k1 k2 ctr :
    NoDup (ids (T id s kids)) ->
    (forall j, j ∈ ids (T id s kids) -> j <= ctr) ->
    kfind b1 kids = Some k1 -> kfind b2 kids = Some k2 -> b1 <> b2 ->
    let kids' := kremove b2 (kremove b1 kids) ++ [T (S ctr) sm [k1; k2]] in
    kfind b2 (kremove b1 kids) = Some k2 /\
    Permutation (concat (map ids kids')) (S ctr :: concat (map ids kids)) /\
    kfind (S ctr) kids' = Some (T (S ctr) sm [k1; k2]).
  Proof.
    intros Hnd Hb Hk1 Hk2 Hne kids'.
    assert (Hk2' : kfind b2 (kremove b1 kids) = Some k2).
    { pose proof (kfind_split _ _ _ Hk1) as (l1 & l2 & -> & Ht & Hn & Hrm & _).
      rewrite Hrm. clear -Hk2 Hne Ht. induction l1 as [|k0 l1 IH]; simpl in *.
      - rewrite decide_False in Hk2 by congruence. done.
      - destruct (decide (b2 = tid k0)); [done|auto]. }
    pose proof (kremove_perm _ _ _ Hk1) as Hp1.
    pose proof (kremove_perm _ _ _ Hk2') as Hp2.
    split; [done|]. split.
    - unfold kids'. rewrite (concat_ids_perm kids (k1 :: k2 :: kremove b2 (kremove b1 kids))).
      2:{ by rewrite Hp1 at 1; rewrite Hp2 at 1. }
      rewrite concat_ids_app. simpl. rewrite !app_nil_r.
      rewrite (Permutation_app_comm (concat _)). simpl.
      by rewrite <- (assoc_L (++)).
    - unfold kids'. rewrite kfind_app_notin; [simpl; by rewrite decide_True|].
      intros Hin. apply tids_in_concat in Hin.
      assert (S ctr <= ctr); [|lia]. apply Hb. right.
      rewrite (concat_ids_perm _ _ Hp1). simpl. apply elem_of_app. right.
      rewrite (concat_ids_perm _ _ Hp2). simpl. apply elem_of_app. by right.
  Qed.

  (** The result of the best-child search, when it succeeds, names children. *)
  Lemma two_best_kids x s (kids : list tree) i a cu b1 b2 a1 :
    NoDup (map tid kids) ->
    two_best_children C rng x s (tables kids) i a = (Ok (cu, b1, b2), a1) ->
    am_ctr a <= am_ctr a1 /\
    exists k1, kfind b1 kids = Some k1 /\
    match b2 with
    | None => length kids = 1
    | Some b2 => b1 <> b2 /\ exists k2, kfind b2 kids = Some k2
    end.
  Proof.
    intros Hnd H. pose proof (two_best_mono C rng x s (tables kids) i a) as Hm.
    rewrite H in Hm. destruct Hm as [Hm _]. split; [done|].
    apply two_best_spec in H. rewrite tables_ids in H. destruct H as [H1 H2].
    apply kfind_in in H1 as [k1 Hk1]. exists k1. split; [done|].
    destruct b2 as [b2|].
    - destruct H2 as [H2 H3]. split; [auto|]. by apply kfind_in.
    - unfold tables in H2. by rewrite map_length in H2.
  Qed.

  Lemma fcob_ids fuel : forall x (t : tree) i a,
    NoDup (ids t) -> (forall j, j ∈ ids t -> j <= am_ctr a) ->
    ids_ok t a (fcob C rng fuel x t i a).
  Proof.
    induction fuel as [|fuel IH]; intros x t i a Hnd Hb.
    { destruct t. by apply (ids_ok_same (T id s kids)). }
    destruct t as [id s kids]. cbn [fcob].
    destruct kids as [|k0 ks0].
    - destruct (nc_exact C s i) as [ex|e].
      2:{ by apply (ids_ok_same (T id s [])). }
      destruct (ex || (nc_count C s =? 0)%nat).
      { destruct (nc_inc C s i) as [s' e]. by apply (ids_ok_same (T id s [])). }
      unfold ffringe.
      destruct (nc_add C (nc_empty C) s) as [s0 [e|]].
      { apply (ids_ok_same (T id s [])); simpl; [done|lia]. }
      assert (Hidb : id <= am_ctr a) by (apply Hb; left).
      assert (Hnd2 : NoDup [S (am_ctr a); id]).
      { apply NoDup_cons. split; [|apply NoDup_singleton].
        rewrite elem_of_list_singleton. lia. }
      assert (Hb2 : forall j, j ∈ [S (am_ctr a); id] -> j <= S (am_ctr a)).
      { intros j. rewrite !elem_of_cons. intros [->|[->|Hj]]; [lia|lia|inversion Hj]. }
      destruct (nc_inc C s0 i) as [s1 [e|]].
      { unfold ids_ok. simpl. split; [done|]. split; [|lia].
        intros j Hj. rewrite elem_of_cons in Hj. destruct Hj as [->|Hj]; [right; lia|by left]. }
      destruct (fnew_child_ids true (S (am_ctr a)) s1 [T id s []] i (anext a))
        as (H1 & H2 & H3 & H4 & H5); [done|done|].
      unfold ids_ok. simpl in *. rewrite H5.
      split; [done|]. split; [|split; [lia|rewrite H4; lia]].
      intros j Hj. destruct (H2 _ Hj) as [Hj'|Hj']; [|right; lia].
      rewrite elem_of_cons in Hj'. destruct Hj' as [->|Hj']; [right; lia|by left].
    - set (kids := k0 :: ks0) in *.
      destruct (two_best_children C rng x s (tables kids) i a) as [[[[cu b1] b2]|e] a1] eqn:E2.
      2:{ apply (ids_ok_same (T id s kids)); [done|].
          pose proof (two_best_mono C rng x s (tables kids) i a) as Hm.
          rewrite E2 in Hm. apply Hm. }
      pose proof (proj1 (NoDup_kids _ _ _) Hnd) as [_ Hndk].
      destruct (two_best_kids _ _ _ _ _ _ _ _ _ (NoDup_tids _ Hndk) E2)
        as (Ha1 & k1 & Hk1 & Hb2).
      rewrite Hk1.
      set (o2 := match b2 with
                 | Some b0 => match kfind b0 kids with Some k2 => Some (Some k2) | None => None end
                 | None => Some None end).
      assert (Ho2 : exists ok2, o2 = Some ok2 /\
        match ok2 with
        | None => True
        | Some k2 => exists b0, b2 = Some b0 /\ kfind b0 kids = Some k2 /\ tid k2 = b0 /\ b1 <> b0
        end).
      { unfold o2. destruct b2 as [b0|]; [|by exists None].
        destruct Hb2 as [Hne [k2 Hk2]]. rewrite Hk2. exists (Some k2). split; [done|].
        exists b0. split; [done|]. split; [done|].
        apply kfind_split in Hk2 as (? & ? & ? & ? & ?). done. }
      destruct Ho2 as (ok2 & -> & Hok2).
      match goal with |- context [get_best_operation ?c ?r ?x ?s ?k ?i ?p ?q ?bk ?cu ?l ?a] =>
        pose proof (best_op_mono c r x s k i p q bk cu l a) as Hm;
        destruct (get_best_operation c r x s k i p q bk cu l a) as [[[u o]|e] a2] eqn:E3 end.
      2:{ apply (ids_ok_same (T id s kids)); [done|]. destruct Hm as [Hm _]. simpl in Hm. lia. }
      destruct Hm as [Ha2 _]. simpl in Ha2.
      assert (Hb' : forall j, j ∈ ids (T id s kids) -> j <= am_ctr a2).
      { intros j Hj. specialize (Hb j Hj). lia. }
      destruct o.
      + destruct (nc_inc C s i) as [s' [e|]].
        { apply (ids_ok_same (T id s kids)); [done|]. lia. }
        eapply kupdate_ids; [done|done| |done| |done]; [|apply IH].
        * lia.
        * apply kfind_split in Hk1 as (l1 & l2 & E & _).
          rewrite E in Hndk. by apply NoDup_kid in Hndk as [? _].
        * intros j Hj. apply Hb'. eapply ids_kid; [|done].
          apply kfind_split in Hk1 as (l1 & l2 & E & _). rewrite E.
          apply elem_of_app. right. left.
      + destruct (nc_inc C s i) as [s' [e|]].
        { apply (ids_ok_same (T id s kids)); [done|]. lia. }
        destruct (fnew_child_ids false id s' kids i a2)
          as (H1 & H2 & H3 & H4 & H5); [done|done|].
        unfold ids_ok. rewrite H5. split; [done|]. split; [|split; [lia|done]].
        intros j Hj. destruct (H2 _ Hj) as [Hj'|Hj']; [left; exact Hj'|right; lia].
      + destruct ok2 as [k2|].
        2:{ apply (ids_ok_same (T id s kids)); [done|]. lia. }
        destruct Hok2 as (b0 & -> & Hk2 & Ht2 & Hne).
        destruct (nc_inc C s i) as [s' [e|]].
        { apply (ids_ok_same (T id s kids)); [done|]. lia. }
        destruct (fmerged C k1 k2) as [sm|e].
        2:{ apply (ids_ok_same (T id s kids)); [done|]. simpl. lia. }
        simpl am_ctr. rewrite Ht2.
        destruct (merge_ids id s sm kids b1 b0 k1 k2 (am_ctr a2) Hnd Hb' Hk1 Hk2 Hne)
          as (Hk2' & Hperm & Hkm).
        set (kids' := kremove b0 (kremove b1 kids) ++ [T (S (am_ctr a2)) sm [k1; k2]]) in *.
        assert (Hnd' : NoDup (ids (T id s' kids'))).
        { apply NoDup_kids. rewrite Hperm. apply NoDup_kids in Hnd as [Hn1 Hn2].
          assert (Hidb : id <= am_ctr a2) by (apply Hb'; left).
          split; [apply not_elem_of_cons; split; [lia|done]|].
          apply NoDup_cons. split; [|done]. intros Hin.
          assert (S (am_ctr a2) <= am_ctr a2); [|lia]. apply Hb'. by right. }
        assert (Hbm : forall j, j ∈ ids (T id s' kids') -> j <= am_ctr (anext a2)).
        { intros j Hj. apply elem_of_cons in Hj as [->|Hj].
          - assert (id <= am_ctr a2) by (apply Hb'; left). simpl. lia.
          - rewrite Hperm in Hj. apply elem_of_cons in Hj as [->|Hj]; [done|].
            assert (j <= am_ctr a2) by (apply Hb'; by right). simpl. lia. }
        pose proof (kfind_split _ _ _ Hkm) as (l1 & l2 & E & _).
        assert (Hrec : ids_ok (T id s' kids') (anext a2)
          (FOut (T id s' (kupdate (fo_moved (fcob C rng fuel x (T (S (am_ctr a2)) sm [k1; k2]) i (anext a2)))
             (S (am_ctr a2)) (fo_tree (fcob C rng fuel x (T (S (am_ctr a2)) sm [k1; k2]) i (anext a2))) kids')) false
             (fo_res (fcob C rng fuel x (T (S (am_ctr a2)) sm [k1; k2]) i (anext a2)))
             (fo_amb (fcob C rng fuel x (T (S (am_ctr a2)) sm [k1; k2]) i (anext a2))))).
        { eapply kupdate_ids; [done|done| |done| |done]; [done|apply IH].
          * apply NoDup_kids in Hnd' as [_ Hnd'].
            rewrite E in Hnd'. by apply NoDup_kid in Hnd' as [? _].
          * intros j Hj. apply Hbm. eapply ids_kid; [|done].
            rewrite E. apply elem_of_app. right. left. }
        destruct Hrec as (R1 & R2 & R3 & R4). unfold ids_ok. simpl fo_moved.
        split; [exact R1|]. split; [|split; [simpl in *; lia|done]].
        intros j Hj. destruct (R2 j Hj) as [Hj'|Hj']; [|simpl in *; right; lia].
        apply elem_of_cons in Hj' as [->|Hj']; [left; left|].
        rewrite Hperm in Hj'. apply elem_of_cons in Hj' as [->|Hj']; [|left; by right].
        right. simpl in *. lia.
      + assert (Hsub : forall j, j ∈ concat (map ids (kremove b1 kids ++ tkids k1)) ->
                  j ∈ concat (map ids kids)).
        { intros j. rewrite (concat_ids_perm _ _ (kremove_perm _ _ _ Hk1)).
          rewrite concat_ids_app. destruct k1 as [i1 s1 ks1]. simpl.
          rewrite !elem_of_cons, !elem_of_app. tauto. }
        destruct (IH x (T id s (kremove b1 kids ++ tkids k1)) i a2) as (H1 & H2 & H3 & H4).
        * apply NoDup_kids in Hnd as [Hn1 Hn2]. apply NoDup_kids. split.
          { intros Hin. by apply Hn1, Hsub. }
          rewrite (concat_ids_perm _ _ (kremove_perm _ _ _ Hk1)) in Hn2.
          rewrite concat_ids_app. clearbody kids. destruct k1 as [i1 s1 ks1]. simpl in *.
          apply NoDup_cons in Hn2 as [_ Hn2].
          by rewrite (Permutation_app_comm (concat (map ids (kremove b1 kids)))).
        * intros j Hj. apply Hb'. apply elem_of_cons in Hj as [->|Hj]; [left|].
          right. by apply Hsub.
        * unfold ids_ok. split; [done|]. split; [|split; [lia|]].
          -- intros j Hj. destruct (H2 j Hj) as [Hj'|Hj']; [|right; lia]. left.
             apply elem_of_cons in Hj' as [->|Hj']; [left|]. right. by apply Hsub.
          -- destruct (fo_moved _); [lia|done].
  Qed.

  (** ** The search steps on the heap *)
  Lemma mtwo_best_spec (h : heap) r a x p id s (kids : list tree) i :
    rep h p (T id s kids) ->
    mtwo_best C rng id i (St h r a x) =
      (fst (two_best_children C rng x s (tables kids) i a),
       St h r (snd (two_best_children C rng x s (tables kids) i a)) x).
  Proof.
    intros [Hid Hk]%rep_inv. unfold mtwo_best.
    erewrite mbind_ok by (apply mget_ok; exact Hid). simpl.
    erewrite mbind_ok by (eapply mtables_spec; [done|exact Hk]).
    unfold mamb. simpl. destruct (two_best_children _ _ _ _ _ _ _). done.
  Qed.

  Lemma mbest_op_spec (h : heap) r a x p id s (kids : list tree) i b1 k1 (ok2 : option tree) cu :
    rep h p (T id s kids) -> kfind b1 kids = Some k1 ->
    match ok2 with None => True | Some k2 => kfind (tid k2) kids = Some k2 end ->
    let m := get_best_operation C rng x s (tables kids) i (b1, tsum k1)
               (match ok2 with None => None | Some k2 => Some (tid k2, tsum k2) end)
               (tables (tkids k1)) cu all_ops a in
    mbest_op C rng id i b1 (match ok2 with None => None | Some k2 => Some (tid k2) end)
      cu (St h r a x) = (fst m, St h r (snd m) x).
  Proof.
    intros [Hid Hk]%rep_inv Hk1 Hk2 m. unfold mbest_op.
    erewrite mbind_ok by (apply mget_ok; exact Hid). simpl.
    erewrite mbind_ok by (eapply mtables_spec; [done|exact Hk]).
    assert (Hin : forall b k, kfind b kids = Some k -> tid k = b /\ rep h (Some id) k).
    { intros b k (l1 & l2 & -> & Ht & _)%kfind_split. split; [done|].
      rewrite Forall_forall in Hk. apply Hk. apply elem_of_app. right. left. }
    destruct (Hin _ _ Hk1) as [Ht1 Hr1]. destruct k1 as [i1 s1 ks1]. simpl in Ht1. subst i1.
    apply rep_inv in Hr1 as [Hid1 Hks1].
    erewrite mbind_ok by (apply mget_ok; exact Hid1). simpl.
    erewrite mbind_ok by (eapply mtables_spec; [done|exact Hks1]).
    destruct ok2 as [k2|].
    - destruct (Hin _ _ Hk2) as [_ Hr2].
      erewrite mbind_ok.
      2:{ erewrite mbind_ok by (apply mget_ok; by apply rep_lookup). unfold mret. done. }
      unfold mamb. simpl. unfold m. simpl. destruct (get_best_operation _ _ _ _ _ _ _ _ _ _ _ _). done.
    - erewrite mbind_ok by done.
      unfold mamb. simpl. unfold m. simpl. destruct (get_best_operation _ _ _ _ _ _ _ _ _ _ _ _). done.
  Qed.

  (** What it means for the heap run to agree with the tree run [o]. *)
  Definition agrees (fuel : nat) (h : heap) r a x p (t : tree) i (o : fout C) : Prop :=
    exists h',
      mcobweb C rng fuel (tid t) i (St h r a x) =
        (fo_res o, St h' (newroot (St h r a x) p (fo_tree o)) (fo_amb o) x) /\
      rep h' p (fo_tree o) /\
      frame h h' t p (am_ctr a) (fo_moved o) (fo_tree o).

  (** Stopping early: only the table of the root may have changed. *)
  Lemma stop_root (h h' : heap) r a x p id s s' (kids : list tree) :
    pok (St h r a x) p (T id s kids) ->
    rep h' p (T id s' kids) ->
    (forall j, j ∉ ids (T id s kids) -> j <= am_ctr a -> h' !! j = h !! j) ->
    newroot (St h r a x) p (T id s' kids) = r /\
    frame h h' (T id s kids) p (am_ctr a) false (T id s' kids).
  Proof.
    intros Hp Hr Hf. split.
    - destruct p; [done|]. simpl in *. done.
    - split; [|split; [done|done]]. intros j Hj Hjb _. auto.
  Qed.

  Lemma rep_set_sum h p id s s' (kids : list tree) :
    rep h p (T id s kids) -> NoDup (ids (T id s kids)) ->
    rep (<[id := with_sum C s' (Node s p (map tid kids))]> h) p (T id s' kids).
  Proof.
    intros [Hid Hk]%rep_inv [Hni _]%NoDup_kids. constructor; [by hlook|].
    eapply rep_frame_kids; [done|]. intros j Hj. assert (j <> id) by congruence.
    by hlook.
  Qed.

  Theorem mcobweb_refines fuel : forall (h : heap) r a x p (t : tree) i,
    rep h p t -> NoDup (ids t) -> (forall j, j ∈ ids t -> j <= am_ctr a) ->
    pok (St h r a x) p t ->
    agrees fuel h r a x p t i (fcob C rng fuel x t i a).
  Proof.
    induction fuel as [|fuel IH]; intros h r a x p t i Hr Hnd Hb Hp.
    { destruct t as [id s kids].
      destruct (stop_root h h r a x p id s s kids) as [E F]; [done|done|done|].
      exists h. cbn [mcobweb fcob fo_res fo_tree fo_moved fo_amb]. rewrite E. done. }
    destruct t as [id s kids].
    pose proof (rep_inv _ _ _ _ _ Hr) as [Hid Hkids].
    assert (Hidb : id <= am_ctr a) by (apply Hb; left).
    unfold agrees. cbn [mcobweb fcob tid].
    erewrite mbind_ok by (apply mget_ok; exact Hid). cbn [nd_children nd_sum].
    destruct kids as [|k0 ks0].
    - cbn [map].
      destruct (nc_exact C s i) as [ex|e] eqn:Eex.
      2:{ exists h. destruct (stop_root h h r a x p id s s []) as [E F]; [done|done|done|].
          cbn [fo_res fo_tree fo_moved fo_amb]. rewrite E. split; [|done].
          erewrite mbind_err by done. done. }
      erewrite mbind_ok by done.
      destruct (ex || (nc_count C s =? 0)%nat).
      + destruct (nc_inc C s i) as [s' e] eqn:Einc.
        set (h' := <[id := with_sum C s' (Node s p (map (@tid N C) []))]> h).
        destruct (stop_root h h' r a x p id s s' []) as [E F]; [done| | |].
        { by apply rep_set_sum. }
        { intros j Hj _. unfold h'. rewrite lookup_insert_ne; [done|].
          intros <-. apply Hj. left. }
        exists h'. cbn [fo_res fo_tree fo_moved fo_amb]. rewrite E.
        split; [|split; [by apply rep_set_sum|done]].
        destruct e as [e|].
        * eapply mbind_err. erewrite mincrement_spec by exact Hid. simpl. rewrite Einc. done.
        * erewrite mbind_ok.
          2:{ erewrite mincrement_spec by exact Hid. simpl. rewrite Einc. simpl. done. }
          done.
      + by apply mfringe_refines.
    - set (kids := k0 :: ks0) in *.
      change (map tid kids) with (tid k0 :: map tid ks0). cbn iota.
      pose proof (mtwo_best_spec h r a x p id s kids i Hr) as Htb.
      pose proof (two_best_mono C rng x s (tables kids) i a) as Hm1.
      destruct (two_best_children C rng x s (tables kids) i a) as [[[[cu b1] b2]|e] a1] eqn:E2;
        simpl fst in Htb; simpl snd in Htb.
      2:{ erewrite mbind_err by exact Htb. exists h.
          destruct (stop_root h h r a x p id s s kids) as [E F]; [done|done|done|].
          cbn [fo_res fo_tree fo_moved fo_amb]. rewrite E. done. }
      erewrite mbind_ok by exact Htb. cbn beta iota. clear Htb Hm1.
      pose proof (proj1 (NoDup_kids _ _ _) Hnd) as [Hnik Hndk].
      destruct (two_best_kids _ _ _ _ _ _ _ _ _ (NoDup_tids _ Hndk) E2)
        as (Ha1 & k1 & Hk1 & Hb2).
      rewrite Hk1.
      set (o2 := match b2 with
                 | Some b0 => match kfind b0 kids with Some k2 => Some (Some k2) | None => None end
                 | None => Some None end).
      assert (Ho2 : exists ok2, o2 = Some ok2 /\
        b2 = (match ok2 with None => None | Some k2 => Some (tid k2) end) /\
        match ok2 with
        | None => True
        | Some k2 => kfind (tid k2) kids = Some k2 /\ b1 <> tid k2
        end).
      { unfold o2. destruct b2 as [b0|]; [|by exists None].
        destruct Hb2 as [Hne [k2 Hk2]]. rewrite Hk2. exists (Some k2). split; [done|].
        pose proof (kfind_split _ _ _ Hk2) as (? & ? & ? & -> & ?). done. }
      destruct Ho2 as (ok2 & -> & -> & Hok2). clear Hb2.
      pose proof (mbest_op_spec h r a1 x p id s kids i b1 k1 ok2 cu Hr Hk1) as Hbo.
      cbv zeta in Hbo.
      match goal with |- context [get_best_operation ?c ?r ?x ?s ?k ?i ?p ?q ?bk ?cu ?l ?a] =>
        pose proof (best_op_mono c r x s k i p q bk cu l a) as Hm;
        destruct (get_best_operation c r x s k i p q bk cu l a) as [[[u o]|e] a2] eqn:E3 end;
        simpl fst in Hbo; simpl snd in Hbo.
      2:{ erewrite mbind_err by (apply Hbo; destruct ok2; tauto). exists h.
          destruct (stop_root h h r a x p id s s kids) as [E F]; [done|done|done|].
          cbn [fo_res fo_tree fo_moved fo_amb]. rewrite E. done. }
      erewrite mbind_ok by (apply Hbo; destruct ok2; tauto). cbn [snd]. clear Hbo.
      destruct Hm as [Ha2 _]. simpl in Ha2.
      assert (Hb' : forall j, j ∈ ids (T id s kids) -> j <= am_ctr a2).
      { intros j Hj. specialize (Hb j Hj). lia. }
      assert (Hk1in : k1 ∈ kids).
      { apply kfind_split in Hk1 as (l1 & l2 & E & _). rewrite E.
        apply elem_of_app. right. left. }
      assert (Ht1 : tid k1 = b1) by (by apply kfind_split in Hk1 as (? & ? & ? & ? & _)).
      assert (Hk1nd : NoDup (ids k1)).
      { apply kfind_split in Hk1 as (l1 & l2 & E & _).
        rewrite E in Hndk. by apply NoDup_kid in Hndk as [? _]. }
      (* the table of the current node after increment_counts *)
      pose proof (fun s' => rep_set_sum h p id s s' kids Hr Hnd) as Hset.
      assert (Hsetf : forall s' j, j ∉ ids (T id s kids) ->
        <[id := with_sum C s' (Node s p (map tid kids))]> h !! j = h !! j).
      { intros s' j Hj. rewrite lookup_insert_ne; [done|]. intros <-. apply Hj. left. }
      assert (Hinc : mincrement C id i (St h r a2 x) =
        (match snd (nc_inc C s i) with None => Ok tt | Some e => Err e end,
         St (<[id := with_sum C (fst (nc_inc C s i)) (Node s p (map tid kids))]> h) r a2 x)).
      { erewrite mincrement_spec by exact Hid. done. }
      destruct (nc_inc C s i) as [s' ei] eqn:Einc. simpl fst in Hinc. simpl snd in Hinc.
      set (h1 := <[id := with_sum C s' (Node s p (map tid kids))]> h) in *.
      assert (Hstop : forall e a', exists h',
        (@Err nat e, St h1 r a' x) =
          (Err e, St h' (newroot (St h r a x) p (T id s' kids)) a' x) /\
        rep h' p (T id s' kids) /\
        frame h h' (T id s kids) p (am_ctr a) false (T id s' kids)).
      { intros e a'. destruct (stop_root h h1 r a x p id s s' kids) as [E F];
          [done|apply Hset|intros; by apply Hsetf|]. exists h1. rewrite E. split; [done|]. split; [apply Hset|done]. }
      assert (Hpr : forall kids', newroot (St h r a x) p (T id s' kids') = r).
      { intros. destruct p; [done|]. simpl in *. done. }
      destruct o.
      + (* best *)
        destruct ei as [e|].
        { erewrite mbind_err by exact Hinc. apply Hstop. }
        erewrite mbind_ok by exact Hinc.
        destruct (IH h1 r a2 x (Some id) k1 i) as (h2 & Hrun & Hr2 & Hfr).
        { specialize (Hset s'). apply rep_inv in Hset as [_ Hset].
          rewrite Forall_forall in Hset. by apply Hset. }
        { done. }
        { intros j Hj. apply Hb'. by eapply ids_kid. }
        { simpl. split; [|split].
          - intros Hin. apply Hnik. apply elem_of_ids_kids. eauto.
          - lia.
          - eexists. unfold h1. hlook. done. }
        rewrite Ht1 in Hrun.
        destruct (rep_kupdate h1 h2 p id s' kids b1 k1 (am_ctr a2) _ _
                    (Hset s') Hnd Hb' Hk1 Hr2 Hfr) as [Hr3 Hfr3].
        exists h2. cbn [fo_res fo_tree fo_moved fo_amb]. rewrite Hpr.
        split; [|split].
        * rewrite Hrun. simpl. done.
        * done.
        * split; [|done]. intros j Hj Hjb _.
          rewrite Hfr3; [|done|lia]. by apply Hsetf.
      + (* new *)
        destruct ei as [e|].
        { erewrite mbind_err by exact Hinc. apply Hstop. }
        erewrite mbind_ok by exact Hinc.
        destruct (mcreate_new_child_refines _ h1 r a2 x id s' p kids i false eq_refl
                    (Hset s') Hnd Hb') as (h2 & Hrun & Hr2 & Ht & Hmv & Hfr).
        exists h2. rewrite Hrun, Hmv. split; [|split; [done|split; [|done]]].
        * f_equal. f_equal. destruct (fo_tree _) as [id' s'' ks'']. simpl in Ht. subst.
          destruct p; [done|]. simpl in *. done.
        * intros j Hj Hjb _. rewrite Hfr; [by apply Hsetf| |lia].
          intros ->. apply Hj. left.
      + (* merge *)
        destruct ok2 as [k2|].
        2:{ exists h. destruct (stop_root h h r a x p id s s kids) as [E F]; [done|done|done|].
            cbn [fo_res fo_tree fo_moved fo_amb]. rewrite E. done. }
        destruct ei as [e|].
        { erewrite mbind_err by exact Hinc. apply Hstop. }
        erewrite mbind_ok by exact Hinc.
        destruct Hok2 as [Hk2 Hne].
        destruct (mmerge_refines h1 r a2 x p id s' kids b1 (tid k2) k1 k2
                    (Hset s') Hnd Hb' Hk1 Hk2 Hne) as (h2 & Hrun & Hfr2 & Hr2).
        destruct (fmerged C k1 k2) as [sm|e].
        2:{ erewrite mbind_err by exact Hrun.
            destruct (stop_root h h2 r a x p id s s' kids) as [E F]; [done|done| |].
            { intros j Hj Hjb. rewrite Hfr2; [by apply Hsetf|done|lia]. }
            exists h2. cbn [fo_res fo_tree fo_moved fo_amb]. rewrite E. done. }
        erewrite mbind_ok by exact Hrun.
        change (am_ctr (anext a2)) with (S (am_ctr a2)).
        destruct (merge_ids id s sm kids b1 (tid k2) k1 k2 (am_ctr a2) Hnd Hb' Hk1 Hk2 Hne)
          as (Hk2' & Hperm & Hkm).
        set (m := S (am_ctr a2)) in *. cbv zeta.
        set (kids' := kremove (tid k2) (kremove b1 kids) ++ [T m sm [k1; k2]]) in *.
        assert (Hnd' : NoDup (ids (T id s' kids'))).
        { apply NoDup_kids. rewrite Hperm.
          split; [apply not_elem_of_cons; split; [unfold m; lia|done]|].
          apply NoDup_cons. split; [|done]. intros Hin.
          assert (m <= am_ctr a2); [|unfold m in *; lia]. apply Hb'. by right. }
        assert (Hbm : forall j, j ∈ ids (T id s' kids') -> j <= m).
        { intros j Hj. apply elem_of_cons in Hj as [->|Hj].
          - unfold m. lia.
          - rewrite Hperm in Hj. apply elem_of_cons in Hj as [->|Hj]; [done|].
            assert (j <= am_ctr a2) by (apply Hb'; by right). unfold m. lia. }
        assert (Hkin : T m sm [k1; k2] ∈ kids').
        { unfold kids'. apply elem_of_app. right. left. }
        pose proof (rep_inv _ _ _ _ _ Hr2) as [Hid2 Hkids2].
        destruct (IH h2 r (anext a2) x (Some id) (T m sm [k1; k2]) i) as (h3 & Hrun3 & Hr3 & Hfr3).
        { rewrite Forall_forall in Hkids2. by apply Hkids2. }
        { pose proof (kfind_split _ _ _ Hkm) as (l1 & l2 & E & _).
          apply NoDup_kids in Hnd' as [_ Hnd'].
          rewrite E in Hnd'. by apply NoDup_kid in Hnd' as [? _]. }
        { intros j Hj. apply Hbm. by eapply ids_kid. }
        { simpl. split; [|split].
          - intros Hin. apply NoDup_kids in Hnd' as [Hnd' _]. apply Hnd'.
            apply elem_of_ids_kids. eauto.
          - lia.
          - eexists. exact Hid2. }
        cbn [tid] in Hrun3. rewrite Hrun3.
        destruct (rep_kupdate h2 h3 p id s' kids' m (T m sm [k1; k2]) m _ _
                    Hr2 Hnd' Hbm Hkm Hr3 Hfr3) as [Hr4 Hfr4].
        exists h3. cbn [fo_res fo_tree fo_moved fo_amb]. rewrite Hpr.
        split; [done|]. split; [done|]. split; [|done].
        intros j Hj Hjb _. rewrite Hfr4.
        * rewrite Hfr2; [by apply Hsetf|done|lia].
        * intros Hin. apply elem_of_cons in Hin as [->|Hin]; [apply Hj; left|].
          rewrite Hperm in Hin. apply elem_of_cons in Hin as [->|Hin]; [unfold m in *; lia|].
          apply Hj. by right.
        * unfold m. lia.
      + (* split *)
        destruct (msplit_refines h r a2 x p id s kids b1 k1 Hr Hnd Hk1)
          as (h2 & Hrun & Hfr2 & Hr2).
        erewrite mbind_ok by exact Hrun.
        assert (Hsub : forall j, j ∈ concat (map ids (kremove b1 kids ++ tkids k1)) ->
                  j ∈ concat (map ids kids)).
        { intros j. rewrite (concat_ids_perm _ _ (kremove_perm _ _ _ Hk1)).
          rewrite concat_ids_app. destruct k1 as [i1 s1 ks1]. simpl.
          rewrite !elem_of_cons, !elem_of_app. tauto. }
        destruct (IH h2 r a2 x p (T id s (kremove b1 kids ++ tkids k1)) i)
          as (h3 & Hrun3 & Hr3 & Hf1 & Hf2 & Hf3).
        * done.
        * apply NoDup_kids. split.
          { intros Hin. by apply Hnik, Hsub. }
          rewrite (concat_ids_perm _ _ (kremove_perm _ _ _ Hk1)) in Hndk.
          clearbody kids. rewrite concat_ids_app. destruct k1 as [i1 s1 ks1]. simpl in Hndk |- *.
          apply NoDup_cons in Hndk as [_ Hndk].
          by rewrite (Permutation_app_comm (concat (map ids (kremove b1 kids)))).
        * intros j Hj. apply Hb'. apply elem_of_cons in Hj as [->|Hj]; [left|].
          right. by apply Hsub.
        * destruct p as [q|]; [|done]. simpl in Hp |- *.
          destruct Hp as (Hq & Hqb & n & Hn). split; [|split; [lia|]].
          { rewrite not_elem_of_cons in *. destruct Hq as [Hq1 Hq2]. split; [done|].
            intros Hin. by apply Hq2, Hsub. }
          exists n. rewrite Hfr2; [done|]. exact Hq.
        * exists h3. split; [|split; [done|]].
          { cbn [tid] in Hrun3. rewrite Hrun3. f_equal. }
          assert (Hni' : forall j, j ∉ ids (T id s kids) ->
                    j ∉ ids (T id s (kremove b1 kids ++ tkids k1))).
          { intros j Hj Hin. apply Hj. apply elem_of_cons in Hin as [->|Hin]; [left|].
            right. by apply Hsub. }
          split; [|split].
          -- intros j Hj Hjb Hmv. rewrite Hf1; [by apply Hfr2|by apply Hni'|lia|done].
          -- done.
          -- intros Hmv q Hq. destruct (Hf3 Hmv q Hq) as (n & Hn & Hn').
             exists n. split; [|exact Hn']. rewrite <- Hn. symmetry. apply Hfr2.
             subst p. by destruct Hp as [? _].
  Qed.

  (** ** Categorisation *)
  Theorem mcategorize_refines fuel : forall (h : heap) r a x p (t : tree) i,
    rep h p t -> NoDup (ids t) ->
    mcategorize C rng fuel (tid t) i (St h r a x) =
      (fst (fcat C rng fuel x t i a), St h r (snd (fcat C rng fuel x t i a)) x).
  Proof.
    induction fuel as [|fuel IH]; intros h r a x p t i Hr Hnd; [done|].
    destruct t as [id s kids].
    pose proof (rep_inv _ _ _ _ _ Hr) as [Hid Hkids].
    cbn [mcategorize fcat tid].
    erewrite mbind_ok by (apply mget_ok; exact Hid). cbn [nd_children nd_sum].
    destruct kids as [|k0 ks0]; [done|].
    set (kids := k0 :: ks0) in *.
    change (map tid kids) with (tid k0 :: map tid ks0). cbn iota.
    pose proof (mtwo_best_spec h r a x p id s kids i Hr) as Htb.
    destruct (two_best_children C rng x s (tables kids) i a) as [[[[cu b1] b2]|e] a1] eqn:E2;
      simpl fst in Htb; simpl snd in Htb.
    2:{ erewrite mbind_err by exact Htb. done. }
    erewrite mbind_ok by exact Htb. cbn beta iota.
    pose proof (proj1 (NoDup_kids _ _ _) Hnd) as [Hnik Hndk].
    destruct (two_best_kids _ _ _ _ _ _ _ _ _ (NoDup_tids _ Hndk) E2)
      as (Ha1 & k1 & Hk1 & _).
    rewrite Hk1. apply kfind_split in Hk1 as (l1 & l2 & E & Ht & _).
    rewrite <- Ht. rewrite E in *. eapply IH.
    - rewrite Forall_forall in Hkids. apply Hkids. apply elem_of_app. right. left.
    - by apply NoDup_kid in Hndk as [? _].
  Qed.
End Refine.
