(** * ListsToRelations can be undone whatever order the relations come in. *)
From stdpp Require Import base decidable list strings pretty.
From Coq Require Import Ascii String ZArith Lia.
From Verif Require Import Base PyVal Preproc ListProc ListExt ListRel.
Set Default Proof Using "Type".
Open Scope string_scope.
Open Scope list_scope.

(** ** Chaining *)
Section Chain.
  Notation S' := (List.map AStr).

  Lemma lremove_perm {Y} `{EqDecision Y} (x : Y) l : x ∈ l ->
    exists l', lremove x l = Some l' /\ Permutation l (x :: l').
  Proof.
    induction l as [|y l IH]; intros Hx; [inversion Hx|]. simpl. destruct (decide (x = y)) as [->|Hne].
    - by exists l.
    - apply elem_of_cons in Hx as [|Hx]; [done|]. destruct (IH Hx) as (l' & -> & Hp).
      exists (y :: l'). split; [done|]. rewrite Hp. constructor.
  Qed.

  Lemma pairs_mid pre h t : pairs (pre ++ h :: t) = pairs (pre ++ [h]) ++ pairs (h :: t).
  Proof.
    induction pre as [|a pre IH]; [done|]. destruct pre as [|b pre].
    - change ([a] ++ h :: t) with (a :: h :: t). change ([a] ++ [h]) with [a; h]. done.
    - change (((a :: b :: pre) ++ h :: t)) with (a :: b :: (pre ++ h :: t)).
      change (((a :: b :: pre) ++ [h])) with (a :: b :: (pre ++ [h])).
      change (pairs (a :: b :: (pre ++ h :: t))) with ((AStr a, AStr b) :: pairs ((b :: pre) ++ h :: t)).
      change (pairs (a :: b :: (pre ++ [h]))) with ((AStr a, AStr b) :: pairs ((b :: pre) ++ [h])).
      rewrite IH. done.
  Qed.
  Lemma pairs_in l p : p ∈ pairs l -> exists pre a b post, l = pre ++ a :: b :: post /\ p = (AStr a, AStr b).
  Proof.
    induction l as [|a [|b l] IH]; intros Hp; [inversion Hp..|].
    change (p ∈ (AStr a, AStr b) :: pairs (b :: l)) in Hp. apply elem_of_cons in Hp as [->|Hp].
    - by exists [], a, b, l.
    - destruct (IH Hp) as (pre & x & y & post & E & ->). exists (a :: pre), x, y, post. by rewrite E.
  Qed.
  Lemma pairs_snoc l a b : pairs (l ++ [a; b]) = pairs (l ++ [a]) ++ [(AStr a, AStr b)].
  Proof. apply (pairs_mid l a [b]). Qed.

  (** Everything that is left is chained to the front, *)
  Lemma front_any pre : forall fuel h t lst post els ord b,
    NoDup (pre ++ (h :: t) ++ post) -> last (h :: t) = Some lst ->
    Permutation els (S' (pre ++ post)) ->
    Permutation ord (pairs (pre ++ [h]) ++ pairs (lst :: post)) ->
    (List.length pre <= fuel)%nat ->
    exists els' ord' b', chain_front fuel (CSt els ord (S' (h :: t))) b =
        Ok (CSt els' ord' (S' (pre ++ h :: t)), b') /\
      Permutation els' (S' post) /\ Permutation ord' (pairs (lst :: post)).
  Proof.
    induction pre as [|p pre IH] using rev_ind; intros fuel h t lst post els ord b Hnd Hl Hels Hord Hf.
    - exists els, ord, b. split; [|done]. destruct fuel as [|fuel]; [done|]. cbn [chain_front c_ord c_list c_els].
      destruct (find _ _) as [q|] eqn:E; [|done]. exfalso. apply find_some in E as [Hin Hq].
      apply bool_decide_eq_true in Hq. simpl in Hq. injection Hq as Hq.
      apply elem_of_list_In in Hin. rewrite Hord in Hin. simpl in Hin.
      apply (pairs_snd lst post) in Hin as (s & Hs & Es). rewrite Es in Hq. injection Hq as ->.
      simpl in Hnd. apply NoDup_cons in Hnd as [Hn _]. apply Hn. apply elem_of_app. by right.
    - rewrite app_length in Hf. simpl in Hf. destruct fuel as [|fuel]; [lia|].
      assert (Hin : (AStr p, AStr h) ∈ ord).
      { rewrite Hord. apply elem_of_app. left. rewrite <- app_assoc. simpl. rewrite pairs_snoc.
        apply elem_of_app. right. left. }
      cbn [chain_front c_ord c_list c_els].
      destruct (find _ _) as [q|] eqn:E.
      2:{ exfalso. apply elem_of_list_In in Hin. pose proof (find_none _ _ E _ Hin) as Hno.
          simpl in Hno. by rewrite bool_decide_true in Hno. }
      apply find_some in E as [Hqin Hq]. apply bool_decide_eq_true in Hq. simpl in Hq. injection Hq as Hq.
      assert (q = (AStr p, AStr h)) as ->.
      { apply elem_of_list_In in Hqin. rewrite Hord in Hqin. apply elem_of_app in Hqin as [Hqin|Hqin].
        - apply pairs_in in Hqin as (l1 & x & y & l2 & El & ->). simpl in Hq. injection Hq as ->.
          rewrite <- app_assoc in El. simpl in El.
          destruct (decide (l2 = [])) as [->|Hne].
          + assert (El' : (pre ++ [p]) ++ [h] = (l1 ++ [x]) ++ [h]) by (by rewrite <- !app_assoc).
            apply app_inj_tail in El' as [El' _]. by apply app_inj_tail in El' as [_ <-].
          + exfalso. destruct l2 as [|z l2 _] using rev_ind; [done|].
            assert (El' : (pre ++ [p]) ++ [h] = (l1 ++ x :: h :: l2) ++ [z]).
            { rewrite <- !app_assoc. simpl. done. }
            apply app_inj_tail in El' as [El' _].
            apply NoDup_app in Hnd as (_ & Hnd & _). apply (Hnd h); [|by left].
            rewrite El'. apply elem_of_app. right. right. left.
        - exfalso. apply (pairs_snd lst post) in Hqin as (s & Hs & Es). rewrite Es in Hq. injection Hq as ->.
          apply NoDup_app in Hnd as (_ & _ & Hnd). simpl in Hnd. apply NoDup_cons in Hnd as [Hn _].
          apply Hn. apply elem_of_app. by right. }
      cbn [fst snd]. unfold pop_el.
      destruct (lremove_perm (AStr p) els) as (els1 & -> & Hp1).
      { rewrite Hels. apply elem_of_list_fmap_1. apply elem_of_app. left. apply elem_of_app. right. left. }
      destruct (lremove_perm (AStr p, AStr h) ord Hin) as (ord1 & -> & Hp2).
      cbn [rbind default]. unfold Datatypes.id.
      change (AStr p :: S' (h :: t)) with (S' (p :: h :: t)).
      destruct (IH fuel p (h :: t) lst post els1 ord1 true) as (els' & ord' & b' & E & He & Ho).
      + by rewrite <- app_assoc in Hnd.
      + done.
      + apply (Permutation_cons_inv (a := AStr p)). rewrite <- Hp1, Hels.
        rewrite <- app_assoc. rewrite !map_app. simpl. symmetry. apply Permutation_middle.
      + apply (Permutation_cons_inv (a := (AStr p, AStr h))). rewrite <- Hp2, Hord.
        rewrite <- app_assoc. simpl. rewrite pairs_snoc. rewrite <- app_assoc. simpl. symmetry. apply Permutation_middle.
      + lia.
      + exists els', ord', b'. split; [|done]. rewrite <- app_assoc. exact E.
  Qed.

  (** or to the end. *)
  Lemma back_any post : forall fuel h t lst els ord b,
    NoDup ((h :: t) ++ post) -> last (h :: t) = Some lst ->
    Permutation els (S' post) -> Permutation ord (pairs (lst :: post)) ->
    (List.length post <= fuel)%nat ->
    exists b', chain_back fuel (CSt els ord (S' (h :: t))) b = Ok (CSt [] [] (S' ((h :: t) ++ post)), b').
  Proof.
    induction post as [|p post IH]; intros fuel h t lst els ord b Hnd Hl Hels Hord Hf.
    - apply Permutation_nil_r in Hels as ->. apply Permutation_nil_r in Hord as ->. exists b.
      rewrite app_nil_r. by destruct fuel.
    - destruct fuel as [|fuel]; [simpl in Hf; lia|]. simpl in Hf.
      change (pairs (lst :: p :: post)) with ((AStr lst, AStr p) :: pairs (p :: post)) in Hord.
      assert (Hlast : last (S' (h :: t)) = Some (AStr lst)) by (by rewrite fmap_last, Hl).
      assert (Hlin : lst ∈ h :: t) by (by apply last_Some_elem_of).
      assert (Hin : (AStr lst, AStr p) ∈ ord) by (rewrite Hord; left).
      cbn [chain_back c_ord c_list c_els]. destruct (find _ _) as [q|] eqn:E.
      2:{ exfalso. apply elem_of_list_In in Hin. pose proof (find_none _ _ E _ Hin) as Hno.
          rewrite Hlast in Hno. simpl in Hno. by rewrite bool_decide_true in Hno. }
      apply find_some in E as [Hqin Hq]. apply bool_decide_eq_true in Hq. rewrite Hlast in Hq. injection Hq as Hq.
      assert (q = (AStr lst, AStr p)) as ->.
      { apply elem_of_list_In in Hqin. rewrite Hord in Hqin. apply elem_of_cons in Hqin as [->|Hqin]; [done|].
        exfalso. apply pairs_in in Hqin as (l1 & x & y & l2 & El & ->). simpl in Hq. injection Hq as ->.
        apply NoDup_app in Hnd as (_ & Hnd & _). apply (Hnd lst Hlin). rewrite El. apply elem_of_app. right. left. }
      cbn [fst snd]. unfold pop_el.
      destruct (lremove_perm (AStr p) els) as (els1 & -> & Hp1).
      { rewrite Hels. left. }
      destruct (lremove_perm (AStr lst, AStr p) ord Hin) as (ord1 & -> & Hp2).
      cbn [rbind default]. unfold Datatypes.id.
      destruct (IH fuel h (t ++ [p]) p els1 ord1 true) as (b' & E).
      + change (h :: t ++ [p]) with ((h :: t) ++ [p]). by rewrite <- app_assoc.
      + change (h :: t ++ [p]) with ((h :: t) ++ [p]). apply last_snoc.
      + apply (Permutation_cons_inv (a := AStr p)). by rewrite <- Hp1, Hels.
      + apply (Permutation_cons_inv (a := (AStr lst, AStr p))). by rewrite <- Hp2, Hord.
      + lia.
      + exists b'. change (h :: t ++ [p]) with ((h :: t) ++ [p]) in E. rewrite <- app_assoc in E.
        etransitivity; [|exact E]. f_equal. f_equal. by rewrite map_app.
  Qed.

  Lemma pairs_len l : List.length (pairs l) = (List.length l - 1)%nat.
  Proof. destruct l as [|e l]; [done|]. rewrite pairs_length. simpl. lia. Qed.

  Lemma chain_any names x els ord : NoDup names -> (2 <= List.length names)%nat ->
    Permutation (x :: els) (S' names) -> Permutation ord (pairs names) ->
    chain_all (S (List.length els)) true (CSt els ord [x]) = Ok (CSt [] [] (S' names)).
  Proof.
    intros Hnd Hlen Hels Hord.
    assert (Hx : x ∈ S' names) by (rewrite <- Hels; left).
    apply elem_of_list_fmap in Hx as (h & -> & Hh).
    apply elem_of_list_split in Hh as (pre & post & ->).
    assert (Hels' : Permutation els (S' (pre ++ post))).
    { apply (Permutation_cons_inv (a := AStr h)). rewrite Hels, !map_app. simpl. symmetry. apply Permutation_middle. }
    cbn [chain_all c_els]. destruct els as [|e0 els0].
    { apply Permutation_nil_l in Hels'. apply (f_equal List.length) in Hels'. rewrite map_length, app_length in Hels'.
      rewrite app_length in Hlen. simpl in *. lia. }
    set (els := e0 :: els0) in *. cbn [c_ord].
    assert (Hlo : List.length ord = (List.length (pre ++ post))%nat).
    { rewrite Hord, pairs_len, !app_length. simpl. lia. }
    destruct (front_any pre (List.length ord) h [] h post els ord false) as (els1 & ord1 & b1 & E1 & He1 & Ho1).
    { done. } { done. } { done. } { by rewrite <- pairs_mid. } { rewrite Hlo, app_length. lia. }
    change (S' [h]) with [AStr h] in E1. rewrite E1. cbn [rbind fst snd c_ord].
    assert (exists h' t', pre ++ [h] = h' :: t') as (h' & t' & E').
    { destruct pre as [|a pre]; [by exists h, []|by exists a, (pre ++ [h])]. }
    destruct (back_any post (List.length ord1) h' t' h els1 ord1 b1) as (b2 & E2).
    { rewrite <- E', <- app_assoc. done. } { rewrite <- E'. apply last_snoc. } { done. } { done. }
    { rewrite Ho1, pairs_len. simpl. lia. }
    rewrite <- E' in E2. rewrite E2. rewrite <- app_assoc. cbn [rbind fst snd].
    change ([h] ++ post) with (h :: post).
    destruct b2; [|done]. by destruct (List.length els).
  Qed.
End Chain.

(** ** Dictionaries up to order *)
Section Dict.
  Context {V : Type}.
  Implicit Types (d : list (attr * V)).

  Lemma dset_perm a (u : V) d d' : dwf d -> Permutation d d' -> Permutation (dset a u d) (dset a u d').
  Proof.
    intros Hw Hp. destruct (decide (a ∈ dkeys d)) as [Ha|Ha].
    - assert (H1 : forall e, dwf e -> a ∈ dkeys e ->
        Permutation (dset a u e) ((a, u) :: List.filter (fun q => negb (bool_decide (fst q = a))) e)).
      { clear. induction e as [|[k w] e IH]; intros Hw Ha; [inversion Ha|].
        apply dwf_cons in Hw as [Hk Hw]. simpl. destruct (decide (k = a)) as [->|Hne].
        - rewrite decide_True by done. rewrite bool_decide_true by done. simpl. constructor.
          clear Ha IH Hw. induction e as [|[k w'] e IH]; [done|]. simpl.
          rewrite bool_decide_false by (intros ->; apply Hk; left). simpl. constructor. apply IH.
          intros Hin. apply Hk. by right.
        - rewrite decide_False by (intros ->; done). rewrite bool_decide_false by done. simpl.
          apply elem_of_cons in Ha as [->|Ha]; [done|]. rewrite (IH Hw Ha). constructor. }
      assert (Hw' : dwf d').
      { unfold dwf, dkeys in *. by rewrite <- (Permutation_map fst Hp). }
      assert (Ha' : a ∈ dkeys d').
      { unfold dkeys in *. by rewrite <- (Permutation_map fst Hp). }
      rewrite (H1 d), (H1 d') by done. constructor. clear -Hp.
      induction Hp as [|x l l' Hp IH|x y l|l1 l2 l3 H1 IH1 H2 IH2]; simpl.
      + done.
      + destruct (negb _); [by constructor|done].
      + destruct (negb _), (negb _); try done. constructor.
      + by rewrite IH1.
    - rewrite !dset_fresh; [by rewrite Hp| |done]. intros Ha'. apply Ha. unfold dkeys in *.
      by rewrite (Permutation_map fst Hp).
  Qed.

  (** Setting two attributes that are there can be done in any order. *)
  Lemma dset_comm a b (u w : V) d : a <> b -> a ∈ dkeys d -> b ∈ dkeys d ->
    dset a u (dset b w d) = dset b w (dset a u d).
  Proof.
    intros Hab. induction d as [|[k x] d IH]; intros Ha Hb; [inversion Ha|]. simpl.
    destruct (decide (b = k)) as [->|Hbk]; destruct (decide (a = k)) as [->|Hak]; try done; simpl.
    - rewrite decide_False by done. by rewrite decide_True.
    - rewrite decide_True by done. by rewrite decide_False.
    - rewrite !decide_False by done. f_equal.
      apply elem_of_cons in Ha as [Ha|Ha]; [done|]. apply elem_of_cons in Hb as [Hb|Hb]; [done|]. by apply IH.
  Qed.
End Dict.

(** ** Placing the lists in any order *)
Section Place.
  Context {X : Type}.
  Notation pv := (pv X).
  Notation inst := (inst X).
  Implicit Types (v w : pv) (d : inst) (p q : list attr).

  (** What [place] stores at the first attribute of the path. *)
  Definition inner (f : inst -> res inst) (o : option pv) : res pv :=
    match o with
    | None => Err KeyError
    | Some (PD s) => rbind (f s) (fun s' => Ok (PD s'))
    | Some _ => Err TypeError
    end.
  Lemma place_cons a p v d : p <> [] ->
    place (a :: p) v d = rbind (inner (place p v) (dget a d)) (fun u => Ok (dset a u d)).
  Proof.
    intros Hp. destruct p as [|b p]; [done|].
    change (place (a :: b :: p) v d) with
      (match dget a d with
       | None => Err KeyError
       | Some (PD s) => rbind (place (b :: p) v s) (fun s' => Ok (dset a (PD s') d))
       | Some _ => Err TypeError
       end).
    destruct (dget a d) as [[s|x|l|s]|]; try done. unfold inner. by destruct (place (b :: p) v s).
  Qed.

  (** There is something at the end of the path. *)
  Fixpoint hasp p d : Prop :=
    match p with
    | [] => False
    | a :: p => match p with [] => a ∈ dkeys d | _ => exists s, dget a d = Some (PD s) /\ hasp p s end
    end.
  Lemma hasp_cons a p d : p <> [] -> hasp (a :: p) d <-> exists s, dget a d = Some (PD s) /\ hasp p s.
  Proof. by destruct p. Qed.
  Lemma hasp_key a p d : hasp (a :: p) d -> a ∈ dkeys d.
  Proof. destruct p; [done|]. intros (s & Hs & _). by apply dget_Some_key in Hs. Qed.
  Lemma hasp_place p v d : hasp p d -> exists d1, place p v d = Ok d1.
  Proof.
    revert d. induction p as [|a p IH]; intros d Hp; [done|]. destruct (decide (p = [])) as [->|Hne].
    - by eexists.
    - apply hasp_cons in Hp as (s & Hs & Hp); [|done]. destruct (IH _ Hp) as (s' & E).
      exists (dset a (PD s') d). rewrite place_cons by done. rewrite Hs. simpl. by rewrite E.
  Qed.

  Definition apart p q : Prop := ~ p `prefix_of` q /\ ~ q `prefix_of` p.
  Lemma apart_cons a b p q : apart (a :: p) (b :: q) -> a <> b \/ (a = b /\ p <> [] /\ q <> [] /\ apart p q).
  Proof.
    intros [H1 H2]. destruct (decide (a = b)) as [->|]; [right|by left]. split; [done|]. split; [|split; [|split]].
    - intros ->. apply H1. apply prefix_cons, prefix_nil.
    - intros ->. apply H2. apply prefix_cons, prefix_nil.
    - intros H. apply H1. by apply prefix_cons.
    - intros H. apply H2. by apply prefix_cons.
  Qed.

  Lemma place_dset a p v d d1 : place (a :: p) v d = Ok d1 -> exists u, d1 = dset a u d.
  Proof.
    destruct (decide (p = [])) as [->|Hne].
    - intros [= <-]. by exists v.
    - rewrite place_cons by done. destruct (inner _ _) as [u|]; [|done]. intros [= <-]. by exists u.
  Qed.
  Lemma hasp_keep p q v d d1 : apart p q -> hasp q d -> place p v d = Ok d1 -> hasp q d1.
  Proof.
    revert q d d1. induction p as [|a p IH]; intros [|b q] d d1 Hap Hq E; [done..|].
    apply apart_cons in Hap as [Hab|(-> & Hp & Hq' & Hap)].
    - destruct (place_dset _ _ _ _ _ E) as [u ->]. destruct (decide (q = [])) as [->|Hne].
      + simpl in *. apply elem_of_list_fmap in Hq as ([k w] & -> & Hk).
        clear -Hk. induction d as [|[k2 w2] d IHd]; [inversion Hk|]. simpl. destruct (decide (a = k2)) as [->|].
        * apply elem_of_cons in Hk as [[= -> ->]|Hk]; [left|]. right.
          apply elem_of_list_fmap. by exists (k, w).
        * apply elem_of_cons in Hk as [[= -> ->]|Hk]; [left|]. right. by apply IHd.
      + apply hasp_cons; [done|]. apply hasp_cons in Hq as (s & Hs & Hq); [|done].
        exists s. split; [|done]. by rewrite dget_dset_ne.
    - apply hasp_cons; [done|]. apply hasp_cons in Hq as (s & Hs & Hq); [|done].
      rewrite place_cons in E by done. rewrite Hs in E. simpl in E.
      destruct (place p v s) as [s'|] eqn:E'; [|done]. injection E as <-.
      exists s'. split; [by rewrite dget_dset_eq|]. by apply (IH q s s').
  Qed.

  Lemma place_swap p q v w d : apart p q -> hasp p d -> hasp q d ->
    rbind (place p v d) (place q w) = rbind (place q w d) (place p v).
  Proof.
    revert q d. induction p as [|a p IH]; intros [|b q] d Hap Hp Hq; [done..|].
    pose proof (hasp_key _ _ _ Hp) as Ha. pose proof (hasp_key _ _ _ Hq) as Hb.
    apply apart_cons in Hap as [Hab|(-> & Hpn & Hqn & Hap)].
    - assert (HP : forall e, dget a e = dget a d -> a ∈ dkeys e -> exists u,
         place (a :: p) v e = Ok (dset a u e) /\ place (a :: p) v d = Ok (dset a u d)).
      { intros e He Hk. destruct (decide (p = [])) as [->|Hne]; [by exists v|].
        rewrite !place_cons by done. rewrite He. apply hasp_cons in Hp as (s & Hs & Hp); [|done].
        rewrite Hs. destruct (hasp_place p v s Hp) as (s' & Es). exists (PD s'). simpl. by rewrite Es. }
      assert (HQ : forall e, dget b e = dget b d -> b ∈ dkeys e -> exists u,
         place (b :: q) w e = Ok (dset b u e) /\ place (b :: q) w d = Ok (dset b u d)).
      { intros e He Hk. destruct (decide (q = [])) as [->|Hne]; [by exists w|].
        rewrite !place_cons by done. rewrite He. apply hasp_cons in Hq as (s & Hs & Hq); [|done].
        rewrite Hs. destruct (hasp_place q w s Hq) as (s' & Es). exists (PD s'). simpl. by rewrite Es. }
      destruct (HP d eq_refl Ha) as (u & E1 & _). destruct (HQ d eq_refl Hb) as (x & E2 & _).
      rewrite E1, E2. cbn [rbind].
      destruct (HP (dset b x d)) as (u' & E3 & E4).
      { by rewrite dget_dset_ne. } { rewrite dkeys_dset. case_decide; [done|]. apply elem_of_app. by left. }
      destruct (HQ (dset a u d)) as (x' & E5 & E6).
      { by rewrite dget_dset_ne. } { rewrite dkeys_dset. case_decide; [done|]. apply elem_of_app. by left. }
      rewrite E3, E5. f_equal.
      rewrite E1 in E4. rewrite E2 in E6.
      assert (Hu : u = u').
      { injection E4 as E4. apply (f_equal (dget a)) in E4. rewrite !dget_dset_eq in E4. by injection E4. }
      assert (Hx : x = x').
      { injection E6 as E6. apply (f_equal (dget b)) in E6. rewrite !dget_dset_eq in E6. by injection E6. }
      subst u' x'. symmetry. by apply dset_comm.
    - apply hasp_cons in Hp as (s & Hs & Hp); [|done]. apply hasp_cons in Hq as (s2 & Hs2 & Hq); [|done].
      rewrite Hs in Hs2. injection Hs2 as <-.
      rewrite !place_cons by done. rewrite Hs. cbn [inner]. specialize (IH q s Hap Hp Hq).
      destruct (hasp_place p v s Hp) as (s1 & E1). destruct (hasp_place q w s Hq) as (s2 & E2).
      rewrite E1, E2 in IH |- *. cbn [rbind] in IH |- *. rewrite !place_cons by done. rewrite !dget_dset_eq.
      cbn [inner]. rewrite IH. destruct (place p v s2) as [s3|]; [|done]. cbn [rbind]. by rewrite !dset_dset.
  Qed.

  Notation place_all := (@place_all X).
  Lemma place_all_perm ps ps' : Permutation ps ps' -> forall d,
    NoDup (map fst ps) -> (forall x y, x ∈ ps -> y ∈ ps -> fst x `prefix_of` fst y -> fst x = fst y) ->
    (forall x, x ∈ ps -> hasp (fst x) d) -> place_all ps d = place_all ps' d.
  Proof.
    assert (Hapart : forall (ps : list (list attr * list string)) x y, NoDup (map fst (x :: ps)) ->
      (forall x' y, x' ∈ x :: ps -> y ∈ x :: ps -> fst x' `prefix_of` fst y -> fst x' = fst y) ->
      y ∈ ps -> apart (fst x) (fst y)).
    { clear. intros ps x y Hnd Hpre Hy. simpl in Hnd. apply NoDup_cons in Hnd as [Hn _].
      assert (fst x <> fst y).
      { intros E. apply Hn. rewrite E. by apply elem_of_list_fmap_1. }
      split; intros H'; [apply Hpre in H'; [done|left|by right]|apply Hpre in H'; [done|by right|left]]. }
    induction 1 as [|x l l' Hp IH|x y l|l1 l2 l3 H1 IH1 H2 IH2]; intros d Hnd Hpre Hh.
    - done.
    - unfold ListRel.place_all. cbn [rfold]. destruct (place (fst x) _ d) as [d1|] eqn:E; [|done]. cbn [rbind].
      apply IH.
      + simpl in Hnd. by apply NoDup_cons in Hnd as [_ ?].
      + intros a b Ha Hb. apply Hpre; by right.
      + intros a Ha. apply (hasp_keep (fst x) (fst a) (PL (map PStr (snd x))) d d1); [by apply (Hapart l)|apply Hh; by right|exact E].
    - unfold ListRel.place_all. cbn [rfold].
      pose proof (place_swap (fst y) (fst x) (PL (map PStr (snd y))) (PL (map PStr (snd x))) d) as Hs.
      specialize (Hs (Hapart (x :: l) y x Hnd Hpre ltac:(left)) (Hh y ltac:(left)) (Hh x ltac:(right; left))).
      destruct (hasp_place (fst y) (PL (map PStr (snd y))) d (Hh y ltac:(left))) as (dy & Ey).
      destruct (hasp_place (fst x) (PL (map PStr (snd x))) d (Hh x ltac:(right; left))) as (dx & Ex).
      rewrite Ex, Ey in *. cbn [rbind] in *. by rewrite Hs.
    - rewrite IH1 by done. apply IH2.
      + by rewrite <- H1.
      + intros x y Hx Hy. rewrite <- H1 in Hx, Hy. by apply Hpre.
      + intros x Hx. rewrite <- H1 in Hx. by apply Hh.
  Qed.

  (** The order of the attributes does not matter either. *)
  Lemma place_perm p v d d' d1 : dwf d -> Permutation d d' -> place p v d = Ok d1 ->
    exists d1', place p v d' = Ok d1' /\ Permutation d1 d1' /\ dwf d1.
  Proof.
    intros Hw Hp E. destruct p as [|a p]; [done|].
    destruct (decide (p = [])) as [->|Hne].
    - injection E as <-. exists (dset a v d'). split; [done|]. split; [by apply dset_perm|by apply dset_wf].
    - rewrite place_cons in E |- * by done. rewrite <- (dget_perm a d d') by done.
      destruct (inner _ _) as [u|]; [|done]. injection E as <-. exists (dset a u d').
      split; [done|]. split; [by apply dset_perm|by apply dset_wf].
  Qed.
  Lemma place_all_perm_d ps d d' d1 : dwf d -> Permutation d d' -> place_all ps d = Ok d1 ->
    exists d1', place_all ps d' = Ok d1' /\ Permutation d1 d1'.
  Proof.
    revert d d'. induction ps as [|x ps IH]; intros d d' Hw Hp E.
    - injection E as <-. by exists d'.
    - unfold ListRel.place_all in E |- *. cbn [rfold] in E |- *.
      destruct (place (fst x) _ d) as [d2|] eqn:E2; [|done]. cbn [rbind] in E.
      destruct (place_perm _ _ _ _ _ Hw Hp E2) as (d2' & -> & Hp2 & Hw2). cbn [rbind].
      by apply (IH d2 d2').
  Qed.
End Place.

(** ** The first loop of the way back, in any order *)
Section AnyOrder.
  Context {X : Type} (vtrue : pv X) (strx : X -> string) (keyx : X -> attr) (valk : attr -> pv X).
  Notation pv := (pv X).
  Notation inst := (inst X).
  Notation lst := (lst (X:=X)).

  Definition he (ln : attr) (e : attr * pv) : option attr :=
    match fst e with
    | ATup [r; ln'; el] => if decide (r = AStr "has-element" /\ ln' = ln) then Some el else None
    | _ => None
    end.
  Definition ol (ln : attr) (e : attr * pv) : option (attr * attr) :=
    match fst e with
    | ATup [r; ln'; a; b] => if decide (r = AStr "ordered-list" /\ ln' = ln) then Some (a, b) else None
    | _ => None
    end.
  Definition plain (e : attr * pv) : bool := match rel_lname (fst e) with None => true | _ => false end.
  Definition item_ok (e : attr * pv) : Prop :=
    (exists ln el, fst e = has_element ln el) \/ (exists ln s t, fst e = ordered ln s t) \/
    (fst e <> ATup [] /\ forall r args, fst e = ATup (r :: args) -> r <> AStr "has-element" /\ r <> AStr "ordered-list").

  Lemma dget_put {Y} (ln ln' : attr) (x : Y) (m : list (attr * list Y)) :
    default [] (dget ln' (dset ln (default [] (dget ln m) ++ [x]) m)) =
    default [] (dget ln' m) ++ (if decide (ln = ln') then [x] else []).
  Proof.
    destruct (decide (ln = ln')) as [->|Hne].
    - by rewrite dget_dset_eq.
    - rewrite dget_dset_ne by done. by rewrite app_nil_r.
  Qed.
  Lemma put_ne {Y} (ln : attr) (x : Y) (m : list (attr * list Y)) : (forall ln', dget ln' m <> Some []) ->
    forall ln', dget ln' (dset ln (default [] (dget ln m) ++ [x]) m) <> Some [].
  Proof.
    intros H ln'. rewrite dget_dset. case_decide; [|apply H]. destruct (default [] (dget ln m)); done.
  Qed.

  Lemma fold_char l : Forall item_ok l -> forall s,
    NoDup (dkeys (l_new s) ++ dkeys l) ->
    exists s' : lst, rfold rel_step s l = Ok s' /\
      l_new s' = l_new s ++ List.filter plain l /\
      (forall ln, default [] (dget ln (l_els s')) = default [] (dget ln (l_els s)) ++ omap (he ln) l) /\
      (forall ln, default [] (dget ln (l_ord s')) = default [] (dget ln (l_ord s)) ++ omap (ol ln) l) /\
      (dwf (l_els s) -> dwf (l_els s')) /\
      ((forall ln, dget ln (l_els s) <> Some []) -> forall ln, dget ln (l_els s') <> Some []) /\
      ((forall ln, dget ln (l_ord s) <> Some []) -> forall ln, dget ln (l_ord s') <> Some []).
  Proof.
    induction 1 as [|[a v] l Ha _ IH]; intros s Hnd.
    - exists s. simpl. rewrite app_nil_r. split; [done|]. split; [done|].
      split; [by intros ln; rewrite app_nil_r|]. split; [by intros ln; rewrite app_nil_r|]. done.
    - assert (Hna : a ∉ dkeys (l_new s)).
      { apply NoDup_app in Hnd as (_ & Hx & _). intros Hin. apply (Hx _ Hin). left. }
      destruct Ha as [(ln & el & E)|[(ln & t & u & E)|[H0 Hr]]]; simpl in *.
      + subst a. set (s1 := LSt (l_new s) (dset ln (default [] (dget ln (l_els s)) ++ [el]) (l_els s)) (l_ord s) (add_orig ln (l_orig s))).
        destruct (IH s1) as (s' & E & H1 & H2 & H3 & H4 & H5 & H6).
        { simpl. apply NoDup_app in Hnd as (Hn1 & Hn2 & Hn3). apply NoDup_cons in Hn3 as [_ Hn3].
          apply NoDup_app. split; [done|]. split; [|done]. intros x Hx Hx2. apply (Hn2 x Hx). by right. }
        exists s'. split; [exact E|]. simpl in H1, H2, H3, H4, H5, H6. split; [done|]. split; [|split; [|split; [|split]]].
        * intros ln'. rewrite H2. rewrite dget_put. rewrite <- app_assoc. f_equal.
          unfold he at 2. simpl. destruct (decide (ln = ln')) as [->|Hne].
          -- by rewrite decide_True.
          -- rewrite decide_False by (by intros [_ ?]). done.
        * intros ln'. rewrite H3. done.
        * intros Hw. apply H4. by apply dset_wf.
        * intros Hne. apply H5. by apply put_ne.
        * intros Hne. by apply H6.
      + subst a. set (s1 := LSt (l_new s) (l_els s) (dset ln (default [] (dget ln (l_ord s)) ++ [(AStr t, AStr u)]) (l_ord s)) (add_orig ln (l_orig s))).
        destruct (IH s1) as (s' & E & H1 & H2 & H3 & H4 & H5 & H6).
        { simpl. apply NoDup_app in Hnd as (Hn1 & Hn2 & Hn3). apply NoDup_cons in Hn3 as [_ Hn3].
          apply NoDup_app. split; [done|]. split; [|done]. intros x Hx Hx2. apply (Hn2 x Hx). by right. }
        exists s'. split; [exact E|]. simpl in H1, H2, H3, H4, H5, H6. split; [done|]. split; [|split; [|split; [|split]]].
        * intros ln'. rewrite H2. done.
        * intros ln'. rewrite H3. rewrite dget_put. rewrite <- app_assoc. f_equal.
          unfold ol at 2. simpl. destruct (decide (ln = ln')) as [->|Hne].
          -- by rewrite decide_True.
          -- rewrite decide_False by (by intros [_ ?]). done.
        * done.
        * intros Hne. by apply H5.
        * intros Hne. apply H6. by apply put_ne.
      + set (s1 := LSt (l_new s ++ [(a, v)]) (l_els s) (l_ord s) (l_orig s)).
        assert (Es : rel_step s (a, v) = Ok s1).
        { unfold rel_step. simpl fst. simpl snd. destruct a as [t|[|r args]|z]; try done.
          1,3: by rewrite dset_fresh.
          destruct (Hr r args eq_refl) as [? ?]. rewrite !decide_False by done. by rewrite dset_fresh. }
        destruct (IH s1) as (s' & E & H1 & H2 & H3 & H4 & H5 & H6).
        { simpl. rewrite dkeys_app, <- app_assoc. done. }
        exists s'. rewrite Es. cbn [rbind]. split; [exact E|]. simpl in H1, H2, H3, H4, H5, H6.
        assert (Hh : forall ln, he ln (a, v) = None /\ ol ln (a, v) = None).
        { intros ln. unfold he, ol. simpl. destruct a as [t|l0|z]; try done.
          destruct l0 as [|r args]; [done|]. destruct (Hr r args eq_refl) as [? ?].
          destruct args as [|x1 [|x2 [|x3 [|]]]]; try done; (split; [|try done]); try done;
            by rewrite decide_False by (by intros [? _]). }
        split; [|split; [|split; [|done]]].
        * rewrite H1. assert (plain (a, v) = true) as ->; [|by rewrite <- app_assoc].
          unfold plain. simpl. destruct a as [t|[|[r| |] [|ln args]]|z]; try done. simpl.
          rewrite bool_decide_false; [done|]. intros [-> | ->]; destruct (Hr _ _ eq_refl); done.
        * intros ln. rewrite H2. by destruct (Hh ln) as [-> _].
        * intros ln. rewrite H3. by destruct (Hh ln) as [_ ->].
  Qed.

  Lemma items_ok d : rel_ok (PD d) -> Forall item_ok (items vtrue d).
  Proof.
    intros Hro. inversion Hro as [| | |? Hw Hk Hr]; subst.
    apply Forall_forall. intros e He. rewrite items_perm in He. apply elem_of_app in He as [He|He].
    - right. right. unfold stripd in He. apply elem_of_list_fmap in He as ([a v] & -> & He). simpl.
      rewrite Forall_forall in Hk. specialize (Hk _ He). simpl in Hk.
      destruct (key_rel_lname _ _ Hk) as [_ Hne]. split; [done|].
      intros r args ->. destruct v as [?|?|?|?]; simpl in Hk; try (by destruct Hk).
      all: destruct (Hk _ eq_refl) as (_ & H1 & H2); simpl in *; split; congruence.
    - assert (Hk' : fst e ∈ dkeys (all_rels vtrue (top_lists d))) by (by apply elem_of_list_fmap_1).
      apply all_rels_keys in Hk' as (q & _ & Hq). apply rels_keys in Hq as [(s & _ & E)|(s & t & _ & E)].
      + left. by exists (fst q), (AStr s).
      + right. left. by exists (fst q), s, t.
  Qed.

  Lemma dget_elsl ln (ls : list (attr * list string)) : dget ln (elsl ls) = List.map AStr <$> dget ln ls.
  Proof.
    induction ls as [|[l n] ls IH]; [done|]. unfold elsl in *. simpl. by destruct (decide (ln = l)).
  Qed.
  Lemma dget_ordl ln (ls : list (attr * list string)) : NoDup (map fst ls) ->
    default [] (dget ln (ordl ls)) = pairs (default [] (dget ln ls)).
  Proof.
    induction ls as [|[l n] ls IH]; intros Hnd; [done|]. simpl in Hnd. apply NoDup_cons in Hnd as [Hn Hnd].
    change (ordl ((l, n) :: ls)) with (put l [] (pairs n) ++ ordl ls). rewrite dget_app. simpl dget at 3.
    destruct (decide (ln = l)) as [->|Hne].
    - simpl. assert (Hno : dget l (ordl ls) = None).
      { apply dget_None. intros Hx. by apply Hn, ordl_keys. }
      destruct (pairs n) eqn:E; simpl; [by rewrite Hno|]. by rewrite decide_True.
    - rewrite <- (IH Hnd). destruct (pairs n); simpl; [done|]. by rewrite decide_False.
  Qed.

  (** *** The paths of the lists *)
  Lemma rlists_prefix (v : pv) : rel_ok v -> forall x y, x ∈ rlists v -> y ∈ rlists v ->
    fst x `prefix_of` fst y -> fst x = fst y.
  Proof.
    induction v as [s|z|l IH|d IH] using pv_ind'; intros Hro x y Hx Hy Hp; try (by inversion Hx).
    - apply elem_of_list_singleton in Hx as ->. by apply elem_of_list_singleton in Hy as ->.
    - inversion Hro as [| | |? Hw Hk Hr]; subst. simpl in Hx, Hy.
      apply elem_of_list_In, in_concat in Hx as (l1 & Hl1 & Hx). apply in_map_iff in Hl1 as ([a u] & <- & Ha).
      apply in_map_iff in Hx as (qx & <- & Hqx).
      apply elem_of_list_In, in_concat in Hy as (l2 & Hl2 & Hy). apply in_map_iff in Hl2 as ([b w] & <- & Hb).
      apply in_map_iff in Hy as (qy & <- & Hqy). simpl in *.
      pose proof (prefix_cons_inv_1 _ _ _ _ Hp) as ->. apply prefix_cons_inv_2 in Hp. f_equal.
      apply elem_of_list_In in Ha, Hb.
      assert (u = w) as ->.
      { apply (In_dget b) in Ha; [|done]. apply (In_dget b) in Hb; [|done]. congruence. }
      rewrite Forall_forall in IH, Hr. apply (IH _ Ha (Hr _ Ha)); [by apply elem_of_list_In..|done].
  Qed.
  Lemma rlists_hasp (v : pv) : rel_ok v -> match v with
    | PD d => forall x, x ∈ rlists v -> hasp (fst x) (stripd d)
    | _ => True end.
  Proof.
    induction v as [s|z|l IH|d IH] using pv_ind'; intros Hro; try done.
    inversion Hro as [| | |? Hw Hk Hr]; subst. intros x Hx. simpl in Hx.
    apply elem_of_list_In, in_concat in Hx as (l1 & Hl1 & Hx). apply in_map_iff in Hl1 as ([a u] & <- & Ha).
    apply in_map_iff in Hx as (q & <- & Hq). apply elem_of_list_In in Hq, Ha. cbn [fst snd] in *.
    rewrite Forall_forall in IH, Hr. specialize (IH _ Ha (Hr _ Ha)). specialize (Hr _ Ha). simpl in IH, Hr.
    assert (Hs : (a, strip u) ∈ stripd d).
    { unfold stripd. apply elem_of_list_fmap. by exists (a, u). }
    destruct u as [s|z|l|dd]; [by inversion Hq..| |].
    - apply elem_of_list_singleton in Hq as ->. simpl. apply elem_of_list_fmap. exists (a, PD []). by split.
    - assert (Hqn : fst q <> []) by exact (rlists_dict_ne dd q Hq). apply hasp_cons; [done|].
      exists (stripd dd). split; [|by apply IH]. apply In_dget; [|exact Hs].
      unfold dwf, dkeys, stripd in *. by rewrite map_map.
  Qed.

  (** ** The round trip, in any order *)
  Theorem relations_any_order (d d' d'' : inst) : rel_ok (PD d) -> ltr vtrue strx keyx d = Ok d' -> Permutation d' d'' ->
    exists d2, rtl valk d'' = Ok d2 /\ Permutation d d2.
  Proof.
    intros Hro Eltr Hperm. inversion Hro as [| | |? Hw Hk Hr]; subst.
    pose proof (items_wf vtrue d Hro) as Hwi.
    assert (d' = items vtrue d) as ->.
    { rewrite ltr_dupd in Eltr by done. rewrite dupd_app in Eltr by done. by injection Eltr as <-. }
    clear Eltr. pose proof (top_nodup d Hro) as Htn.
    destruct (fold_char (items vtrue d) (items_ok d Hro) (LSt [] [] [] [])) as (s0 & E0 & N0 & A0 & O0 & _).
    { done. }
    destruct (items_steps vtrue d [] [] []) as [orig Eit].
    { done. } { done. } { done. } { intros q Hq. by apply (top_names d q). }
    change (LSt [] (elsl []) (ordl []) []) with (LSt (X:=X) [] [] [] []) in Eit. rewrite Eit in E0. injection E0 as <-.
    simpl in N0, A0, O0.
    destruct (fold_char d'') with (s := LSt (X:=X) [] [] [] []) as (s & E & N1 & A1 & O1 & W1 & NE1 & NO1).
    { rewrite <- Hperm. by apply items_ok. } { simpl. unfold dwf, dkeys in *. by rewrite <- Hperm. }
    simpl in N1, A1, O1. specialize (W1 ltac:(constructor)). specialize (NE1 ltac:(done)). specialize (NO1 ltac:(done)).
    set (top := top_lists d) in *.
    assert (Hplain : Permutation (stripd d) (l_new s)).
    { rewrite N0, N1. clear -Hperm.
      induction Hperm as [|x l l' Hp IH|x y l|l1 l2 l3 H1 IH1 H2 IH2]; simpl.
      - done.
      - destruct (plain x); [by constructor|done].
      - destruct (plain x), (plain y); try done. constructor.
      - by rewrite IH1. }
    assert (Hels : forall ln, Permutation (default [] (dget ln (l_els s))) (List.map AStr (default [] (dget ln top)))).
    { intros ln. rewrite A1, <- Hperm, <- A0. simpl. rewrite dget_elsl. by destruct (dget ln top). }
    assert (Hord : forall ln, Permutation (default [] (dget ln (l_ord s))) (pairs (default [] (dget ln top)))).
    { intros ln. rewrite O1, <- Hperm, <- O0. simpl. by rewrite dget_ordl. }
    set (ls := map (fun e => (fst e, default [] (dget (fst e) top))) (l_els s)).
    assert (Hget : forall ln names, (ln, names) ∈ top <-> dget ln top = Some names).
    { intros ln names. split; [by apply In_dget|apply dget_In]. }
    assert (Hls : Permutation ls top).
    { apply NoDup_Permutation.
      - apply (NoDup_fmap_1 fst). unfold ls. rewrite <- list_fmap_compose. exact W1.
      - by apply (NoDup_fmap_1 fst).
      - intros [ln names]. unfold ls. rewrite elem_of_list_fmap. rewrite Hget. split.
        + intros ([ln' els] & [= -> ->] & Hin). simpl. apply (In_dget ln') in Hin; [|done].
          pose proof (Hels ln') as Hp. rewrite Hin in Hp. simpl in Hp.
          destruct (dget ln' top) as [names|]; [done|]. simpl in Hp. apply Permutation_nil_r in Hp. subst els.
          by destruct (NE1 ln').
        + intros Hg. pose proof (Hels ln) as Hp. rewrite Hg in Hp. simpl in Hp.
          destruct (top_names d (ln, names) Hro) as [Hne _]; [by apply Hget|]. simpl in Hne.
          destruct (dget ln (l_els s)) as [els|] eqn:Ee.
          * exists (ln, els). simpl. rewrite Hg. split; [done|]. by apply dget_In.
          * simpl in Hp. apply Permutation_nil_l in Hp. by destruct names. }
    assert (Hstep : forall ln els new, (ln, els) ∈ l_els s ->
      list_step valk s new (ln, els) = place (l_path ln) (PL (map PStr (default [] (dget ln top)))) new).
    { intros ln els new Hin. apply (In_dget ln) in Hin; [|done].
      pose proof (Hels ln) as Hp. rewrite Hin in Hp. simpl in Hp.
      pose proof (Hord ln) as Ho.
      destruct els as [|x els]; [by destruct (NE1 ln)|].
      destruct (dget ln top) as [names|] eqn:Eg.
      2:{ simpl in Hp. by apply Permutation_nil_r in Hp. }
      simpl in Hp, Ho. destruct (top_names d (ln, names) Hro) as [Hne Hnn]; [by apply Hget|]. simpl in Hne, Hnn.
      assert (Hkv : forall l, map (key_val valk) (map AStr l) = map (@PStr X) l) by (intros l; by rewrite map_map).
      unfold list_step. cbn [snd fst].
      destruct (decide (2 <= List.length names)%nat) as [Hlen|Hlen].
      - destruct (dget ln (l_ord s)) as [o|] eqn:Eo.
        2:{ simpl in Ho. apply Permutation_length in Ho. rewrite pairs_len in Ho. simpl in Ho. lia. }
        simpl in Ho. cbn [default]. unfold Datatypes.id. 
        rewrite (chain_any names x els o) by done. cbn [rbind c_els c_list]. by rewrite Hkv.
      - destruct names as [|n [|]]; [done| |simpl in Hlen; lia].
        simpl in Hp. apply Permutation_singleton_r in Hp. injection Hp as -> ->. done. }
    assert (Hall : forall l new, l ⊆ l_els s ->
      rfold (list_step valk s) new l =
      place_all (map (fun q => (l_path (fst q), snd q)) (map (fun e => (fst e, default [] (dget (fst e) top))) l)) new).
    { induction l as [|[ln els] l IH]; intros new Hsub; [done|].
      unfold place_all. cbn [map rfold fst snd]. rewrite Hstep by (apply Hsub; left).
      destruct (place _ _ new) as [new'|]; cbn [rbind]; [|done].
      apply IH. intros q Hq. apply Hsub. by right. }
    unfold rtl. rewrite E. cbn [rbind]. rewrite Hall by done. fold ls.
    assert (Hps : Permutation (rlists (PD d)) (map (fun q => (l_path (fst q), snd q)) ls)).
    { rewrite <- top_paths by done. symmetry. by apply Permutation_map. }
    pose proof (place_restores _ Hro) as Hres. cbv beta iota in Hres.
    rewrite (place_all_perm _ _ Hps) in Hres.
    - apply (place_all_perm_d _ (stripd d)); [|done|done].
      unfold dwf, dkeys, stripd in *. by rewrite map_map.
    - by apply rlists_nodup.
    - by apply rlists_prefix.
    - apply (rlists_hasp (PD d) Hro).
  Qed.
End AnyOrder.

(** ** The objects put back, in any order *)
Section UndoPerm.
  Context {X : Type}.
  Notation pv := (pv X).
  Notation inst := (inst X).
  Implicit Types (d : inst).

  (** A loop that sets some of the attributes of [d], in the order of [d]. *)
  Definition sets (f : attr * pv -> res (option pv)) (acc d : inst) : res inst :=
    rfold (fun acc e => rbind (f e) (fun o => Ok (match o with Some v => dset (fst e) v acc | None => acc end))) acc d.

  Lemma sets_perm f d d' : Permutation d d' -> forall acc acc' r, dwf acc -> Permutation acc acc' ->
    NoDup (dkeys d) -> (forall e o, e ∈ d -> f e = Ok (Some o) -> fst e ∉ dkeys acc) ->
    sets f acc d = Ok r -> exists r', sets f acc' d' = Ok r' /\ Permutation r r' /\ dwf r.
  Proof.
    induction 1 as [|x l l' Hp IH|x y l|l1 l2 l3 H1 IH1 H2 IH2]; intros acc acc' r Hw Ha Hnd Hf E.
    - injection E as <-. by exists acc'.
    - unfold sets in E |- *. cbn [rfold] in E |- *. destruct (f x) as [o|] eqn:Ef; [|done]. cbn [rbind] in E |- *.
      simpl in Hnd. apply NoDup_cons in Hnd as [Hn Hnd].
      apply (IH (match o with Some v => dset (fst x) v acc | None => acc end)); [| |done| |done].
      + destruct o; [by apply dset_wf|done].
      + destruct o; [by apply dset_perm|done].
      + intros e o' He Ee. assert (Hx : fst e ∉ dkeys acc) by (apply (Hf e o'); [by right|done]).
        destruct o as [v|]; [|done]. intros Hin. rewrite dkeys_dset in Hin. case_decide; [done|].
        apply elem_of_app in Hin as [Hin|Hin]; [done|]. apply elem_of_list_singleton in Hin.
        apply Hn. rewrite <- Hin. by apply elem_of_list_fmap_1.
    - assert (Hsame : forall l acc acc' r, dwf acc -> Permutation acc acc' -> NoDup (dkeys l) ->
        sets f acc l = Ok r -> exists r', sets f acc' l = Ok r' /\ Permutation r r' /\ dwf r).
      { clear. induction l as [|x l IH]; intros acc acc' r Hw Ha Hnd E.
        - injection E as <-. by exists acc'.
        - unfold sets in E |- *. cbn [rfold] in E |- *. destruct (f x) as [o|] eqn:Ef; [|done]. cbn [rbind] in E |- *.
          simpl in Hnd. apply NoDup_cons in Hnd as [Hn Hnd].
          apply (IH (match o with Some v => dset (fst x) v acc | None => acc end)); [| |done|done].
          + destruct o; [by apply dset_wf|done].
          + destruct o; [by apply dset_perm|done]. }
      simpl in Hnd. apply NoDup_cons in Hnd as [Hny Hnd]. apply NoDup_cons in Hnd as [Hnx Hnd].
      unfold sets in E |- *. cbn [rfold] in E |- *.
      destruct (f y) as [oy|] eqn:Ey; [|done]. cbn [rbind] in E |- *.
      destruct (f x) as [ox|] eqn:Ex; [|done]. cbn [rbind] in E |- *.
      apply (Hsame l) with (acc' := match oy with Some v => dset (fst y) v (match ox with Some v => dset (fst x) v acc' | None => acc' end)
                                   | None => match ox with Some v => dset (fst x) v acc' | None => acc' end end) in E; [exact E| | |done].
      + destruct ox, oy; repeat apply dset_wf; done.
      + assert (fst x <> fst y) as Hxy by (intros E2; apply Hny; rewrite <- E2; left).
        destruct oy as [vy|]; [|destruct ox; [by apply dset_perm|done]].
        destruct ox as [vx|]; [|by apply dset_perm].
        assert (Hx : fst x ∉ dkeys acc) by (apply (Hf x vx); [right; left|done]).
        assert (Hy : fst y ∉ dkeys acc) by (apply (Hf y vy); [left|done]).
        assert (Hka : forall k, k ∈ dkeys acc' -> k ∈ dkeys acc).
        { intros k. unfold dkeys. by rewrite <- (Permutation_map fst Ha). }
        assert (Hset : forall (k1 k2 : attr) (v1 v2 : pv) (m : inst), k1 ∉ dkeys m -> k2 ∉ dkeys m -> k1 <> k2 ->
          dset k1 v1 (dset k2 v2 m) = m ++ [(k2, v2); (k1, v1)]).
        { clear. intros k1 k2 v1 v2 m H1 H2 Hne. rewrite (dset_fresh k2) by done. rewrite dset_fresh; [by rewrite <- app_assoc|].
          rewrite dkeys_app. intros [Hin|Hin]%elem_of_app; [done|]. by apply elem_of_list_singleton in Hin. }
        rewrite !Hset; [|by auto..].
        rewrite <- Ha. apply Permutation_app_head. constructor.
    - destruct (IH1 acc acc r Hw ltac:(done) Hnd Hf E) as (r2 & E2 & Hr2 & Hw2).
      destruct (IH2 acc acc' r2 Hw Ha) as (r3 & E3 & Hr3 & Hw3); [| |done|].
      + unfold dkeys in *. by rewrite <- (Permutation_map fst H1).
      + intros e o He. apply Hf. by rewrite H1.
      + exists r3. split; [done|]. split; [by rewrite Hr2|done].
  Qed.

  Lemma sets_ext f g acc d : (forall e, e ∈ d -> f e = g e) -> sets f acc d = sets g acc d.
  Proof.
    revert acc. induction d as [|x d IH]; intros acc H; [done|]. unfold sets. cbn [rfold].
    rewrite (H x) by left. destruct (g x) as [o|]; [|done]. cbn [rbind]. apply IH. intros e He. apply H. by right.
  Qed.

  Definition lists_f (us : list (attr * res inst)) (e : attr * pv) : res (option pv) :=
    match snd e with PL l => rbind (rmapM (undo_elem us) l) (fun nl => Ok (Some (PL nl))) | _ => Ok None end.
  Definition rest_f (us : list (attr * res inst)) (els : list attr) (e : attr * pv) : res (option pv) :=
    if is_list (snd e) || bool_decide (fst e ∈ els) then Ok None
    else match snd e with
         | PD _ => rbind (match dget (fst e) us with Some r => r | None => Err KeyError end) (fun o => Ok (Some (PD o)))
         | v => Ok (Some v)
         end.
  Lemma undo_lists_sets us acc d : undo_lists us acc d = sets (lists_f us) acc d.
  Proof.
    unfold undo_lists, sets. revert acc. induction d as [|e d IH]; intros acc; [done|]. cbn [rfold].
    unfold lists_f at 1. destruct (snd e) as [s|x|l|s]; try apply IH.
    destruct (rmapM (undo_elem us) l); [|done]. cbn [rbind]. apply IH.
  Qed.
  Lemma undo_rest_sets us els acc d : undo_rest us els acc d = sets (rest_f us els) acc d.
  Proof.
    unfold undo_rest, sets. revert acc. induction d as [|e d IH]; intros acc; [done|]. cbn [rfold].
    unfold rest_f at 1. destruct (is_list (snd e) || bool_decide (fst e ∈ els)); [apply IH|].
    destruct (snd e) as [s|x|l|s]; try apply IH.
    destruct (dget (fst e) us) as [[o|]|]; try done. apply IH.
  Qed.
  Lemma sets_keys f d : forall acc r, sets f acc d = Ok r ->
    forall k, k ∈ dkeys r -> k ∈ dkeys acc \/ exists e o, e ∈ d /\ f e = Ok (Some o) /\ k = fst e.
  Proof.
    induction d as [|e d IH]; intros acc r E k Hk.
    - injection E as <-. by left.
    - unfold sets in E. cbn [rfold] in E. destruct (f e) as [o|] eqn:Ef; [|done]. cbn [rbind] in E.
      destruct (IH _ _ E k Hk) as [Hin|(e' & o' & He & Ef' & ->)].
      + destruct o as [v|]; [|by left]. rewrite dkeys_dset in Hin. case_decide; [by left|].
        apply elem_of_app in Hin as [Hin|Hin]; [by left|]. apply elem_of_list_singleton in Hin as ->.
        right. exists e, v. split; [left|done].
      + right. exists e', o'. split; [by right|done].
  Qed.

  Lemma rmapM_ext {A B} (f g : A -> res B) l : (forall x, f x = g x) -> rmapM f l = rmapM g l.
  Proof. intros H. induction l as [|x l IH]; [done|]. simpl. by rewrite H, IH. Qed.
  Lemma list_elems_perm d d' : Permutation d d' -> Permutation (list_elems d) (list_elems d').
  Proof.
    unfold list_elems. induction 1 as [|x l l' Hp IH|x y l|l1 l2 l3 H1 IH1 H2 IH2]; simpl.
    - done.
    - by rewrite IH.
    - rewrite !app_assoc. apply Permutation_app_tail, Permutation_app_comm.
    - by rewrite IH1.
  Qed.

  Theorem undo_extract_any_order d d' r : dwf d -> Permutation d d' -> undo_extract (PD d) = Ok r ->
    exists r', undo_extract (PD d') = Ok r' /\ Permutation r r'.
  Proof.
    intros Hw Hp E. rewrite undo_extract_dict in E |- *.
    assert (Hus : forall k, dget k (us_of d') = dget k (us_of d)).
    { intros k. rewrite !dget_us. by rewrite (dget_perm k d d'). }
    rewrite undo_lists_sets in E |- *. 
    rewrite (sets_ext (lists_f (us_of d')) (lists_f (us_of d))).
    2:{ intros e _. unfold lists_f. destruct (snd e); try done. erewrite rmapM_ext; [done|].
        intros el. unfold undo_elem. destruct el; try done. by rewrite Hus. }
    destruct (sets (lists_f (us_of d)) [] d) as [acc|] eqn:El; [|done]. cbn [rbind] in E.
    destruct (sets_perm (lists_f (us_of d)) d d' Hp [] [] acc) as (acc' & -> & Ha & Hwa);
      [apply dwf_nil|done|done|intros; by apply not_elem_of_nil|done|].
    cbn [rbind]. rewrite undo_rest_sets in E |- *.
    rewrite (sets_ext (rest_f (us_of d') (list_elems d')) (rest_f (us_of d) (list_elems d))).
    2:{ intros e _. unfold rest_f. rewrite Hus.
        assert (bool_decide (fst e ∈ list_elems d') = bool_decide (fst e ∈ list_elems d)) as ->; [|done].
        apply bool_decide_ext. by rewrite (list_elems_perm d d' Hp). }
    destruct (sets_perm (rest_f (us_of d) (list_elems d)) d d' Hp acc acc' r) as (r' & Er & Hr & _); try done.
    - intros e o He Ee Hin. destruct (sets_keys _ _ _ _ El _ Hin) as [Hx|(e' & o' & He' & Ee' & Ek)].
      + inversion Hx.
      + assert (e = e') as <-.
        { destruct e as [k v], e' as [k' v']. simpl in Ek. subst k'.
          apply (In_dget k) in He; [|done]. apply (In_dget k) in He'; [|done]. congruence. }
        unfold rest_f in Ee. unfold lists_f in Ee'. by destruct (snd e).
    - by exists r'.
  Qed.
End UndoPerm.
