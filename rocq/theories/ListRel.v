(** * ListsToRelations can be undone. *)
From stdpp Require Import base decidable list strings pretty.
From Coq Require Import Ascii String ZArith Lia.
From Verif Require Import Base PyVal Preproc ListProc ListExt.
Set Default Proof Using "Type".
Open Scope string_scope.
Open Scope list_scope.

Section Rel.
  Context {X : Type} (vtrue : pv X) (strx : X -> string) (keyx : X -> attr) (valk : attr -> pv X).
  Notation pv := (pv X).
  Notation inst := (inst X).
  Implicit Types (v : pv) (d acc : inst).

  (** The instance without its lists, and its lists with their names. *)
  Fixpoint strip v : pv :=
    match v with
    | PL _ => PD []
    | PD d => PD (map (fun e => (fst e, strip (snd e))) d)
    | _ => v
    end.
  Definition stripd d : inst := map (fun e => (fst e, strip (snd e))) d.
  Definition strs (l : list pv) : list string := map (el_str (fun _ => "")) l.
  Fixpoint lists_of (lname : attr) v : list (attr * list string) :=
    match v with
    | PL l => [(lname, strs l)]
    | PD d => List.concat (map (fun e => lists_of (ATup [fst e; lname]) (snd e)) d)
    | _ => []
    end.
  (** The same with the path inside the value. *)
  Fixpoint rlists v : list (list attr * list string) :=
    match v with
    | PL l => [([], strs l)]
    | PD d => List.concat (map (fun e => map (fun q => (fst e :: fst q, snd q)) (rlists (snd e))) d)
    | _ => []
    end.
  Definition top_lists d : list (attr * list string) :=
    List.concat (map (fun e => lists_of (fst e) (snd e)) d).

  Fixpoint rels (ln : attr) (names : list string) : inst :=
    match names with
    | [] => []
    | [e] => [(has_element ln (AStr e), vtrue)]
    | e :: ((e' :: _) as l) => (ordered ln e e', vtrue) :: (has_element ln (AStr e), vtrue) :: rels ln l
    end.
  Fixpoint pairs (names : list string) : list (attr * attr) :=
    match names with
    | e :: ((e' :: _) as l) => (AStr e, AStr e') :: pairs l
    | _ => []
    end.
  Definition all_rels (ls : list (attr * list string)) : inst :=
    List.concat (map (fun q => rels (fst q) (snd q)) ls).

  Lemma strs_map names : strs (map PStr names) = names.
  Proof. unfold strs. rewrite map_map. by rewrite map_id. Qed.

  Lemma list_rels_ok ln names : list_rels vtrue strx keyx ln (map PStr names) = Ok (rels ln names).
  Proof.
    induction names as [|e [|e' names] IH]; [done..|].
    change (list_rels vtrue strx keyx ln (map PStr (e :: e' :: names))) with
      (rbind (list_rels vtrue strx keyx ln (map PStr (e' :: names))) (fun r =>
        Ok ((ordered ln e e', vtrue) :: (has_element ln (AStr e), vtrue) :: r))).
    by rewrite IH.
  Qed.

  Lemma all_rels_app l1 l2 : all_rels (l1 ++ l2) = all_rels l1 ++ all_rels l2.
  Proof. unfold all_rels. by rewrite map_app, concat_app. Qed.

  (** *** The transformation *)
  Lemma ltr_val_ok v : rel_ok v -> forall lname,
    ltr_val vtrue strx keyx lname v = Ok (strip v, all_rels (lists_of lname v)).
  Proof.
    induction v as [s|x|l IH|d IH] using pv_ind'; intros Hro lname; try done.
    - inversion Hro as [| |names Hne Hnd|]; subst. simpl. rewrite list_rels_ok. simpl.
      unfold all_rels. simpl. by rewrite strs_map, app_nil_r.
    - inversion Hro as [| | |? Hw Hk Hr]; subst.
      assert (forall acc r, NoDup (dkeys acc ++ dkeys d) ->
        (fix go (d acc rels : inst) : res (inst * inst) :=
           match d with
           | [] => Ok (acc, rels)
           | (a, w) :: d =>
               rbind (ltr_val vtrue strx keyx (ATup [a; lname]) w) (fun o =>
               go d (dset a (fst o) acc) (rels ++ snd o))
           end) d acc r =
        Ok (acc ++ stripd d, r ++ all_rels (List.concat (map (fun e => lists_of (ATup [fst e; lname]) (snd e)) d)))) as E.
      { clear Hw Hk Hro. induction d as [|[a w] d IHd]; intros acc r Hnd.
        - simpl. unfold all_rels. simpl. by rewrite !app_nil_r.
        - apply Forall_cons in IH as [Ha IH]. apply Forall_cons in Hr as [Hra Hr]. simpl in Ha, Hra.
          rewrite Ha by done. simpl.
          rewrite dset_fresh.
          2:{ apply NoDup_app in Hnd as (_ & Hx & _). intros Hin. apply (Hx _ Hin). left. }
          rewrite IHd; [|done|done|].
          + f_equal. f_equal; [by rewrite <- app_assoc|]. by rewrite all_rels_app, <- app_assoc.
          + rewrite dkeys_app, <- app_assoc. done. }
      change (ltr_val vtrue strx keyx lname (PD d)) with
        (rbind ((fix go (d acc rels : inst) : res (inst * inst) :=
           match d with
           | [] => Ok (acc, rels)
           | (a, w) :: d =>
               rbind (ltr_val vtrue strx keyx (ATup [a; lname]) w) (fun o =>
               go d (dset a (fst o) acc) (rels ++ snd o))
           end) d [] []) (fun r => Ok (PD (fst r), snd r))).
      rewrite E by done. done.
  Qed.

  Definition items1 (e : attr * pv) : inst :=
    match snd e with
    | PD _ => all_rels (lists_of (fst e) (snd e)) ++ [(fst e, strip (snd e))]
    | _ => (fst e, strip (snd e)) :: all_rels (lists_of (fst e) (snd e))
    end.
  Definition items d : inst := List.concat (map items1 d).

  Lemma ltr_dupd d : Forall (fun e => rel_ok (snd e)) d ->
    ltr vtrue strx keyx d = Ok (dupd [] (items d)).
  Proof.
    unfold ltr. intros Hr. assert (forall acc, rfold (fun acc e =>
      rbind (ltr_val vtrue strx keyx (fst e) (snd e)) (fun o =>
      Ok (match snd e with
          | PD _ => dset (fst e) (fst o) (dupd acc (snd o))
          | _ => dupd (dset (fst e) (fst o) acc) (snd o)
          end))) acc d = Ok (dupd acc (items d))) as E; [|apply E].
    induction Hr as [|[a v] d Hv _ IH]; intros acc; [done|]. simpl in *.
    rewrite ltr_val_ok by done. simpl. rewrite IH. f_equal.
    unfold items. simpl. rewrite <- (dupd_dupd acc).
    f_equal. unfold items1. simpl. destruct v; try done.
    rewrite <- dupd_dupd. done.
  Qed.

  (** *** Names and paths *)
  Lemma lists_paths v : rel_ok v -> forall lname,
    map (fun q => (l_path (fst q), snd q)) (lists_of lname v) =
    map (fun q => (l_path lname ++ fst q, snd q)) (rlists v).
  Proof.
    induction v as [s|x|l IH|d IH] using pv_ind'; intros Hro lname; try done.
    - simpl. by rewrite app_nil_r.
    - inversion Hro as [| | |? Hw Hk Hr]; subst. simpl. clear Hw Hro.
      induction d as [|[a w] d IHd]; [done|].
      apply Forall_cons in IH as [Ha IH]. apply Forall_cons in Hr as [Hra Hr].
      apply Forall_cons in Hk as [Hka Hk]. simpl in *.
      rewrite !map_app. rewrite (IHd IH Hk Hr). f_equal.
      rewrite (Ha Hra). rewrite map_map. simpl. apply map_ext. intros q. simpl.
      by rewrite <- app_assoc.
  Qed.

  Lemma top_paths d : rel_ok (PD d) ->
    map (fun q => (l_path (fst q), snd q)) (top_lists d) = rlists (PD d).
  Proof.
    intros Hro. inversion Hro as [| | |? Hw Hk Hr]; subst. simpl. clear Hw Hro. unfold top_lists.
    induction d as [|[a w] d IHd]; [done|].
    apply Forall_cons in Hr as [Hra Hr]. apply Forall_cons in Hk as [Hka Hk]. simpl in *.
    rewrite !map_app. rewrite (IHd Hk Hr). f_equal.
    destruct w as [s|x|l|dd]; [done|done|..].
    - destruct Hka as [s ->]. done.
    - destruct Hka as [s ->]. rewrite lists_paths by done. done.
  Qed.

  Lemma rlists_nodup v : rel_ok v -> NoDup (map fst (rlists v)).
  Proof.
    induction v as [s|x|l IH|d IH] using pv_ind'; intros Hro; simpl; try constructor.
    - intros Hin. inversion Hin.
    - constructor.
    - inversion Hro as [| | |? Hw Hk Hr]; subst. clear Hro Hk.
      induction d as [|[a w] d IHd]; [constructor|].
      apply Forall_cons in IH as [Ha IH]. apply Forall_cons in Hr as [Hra Hr].
      apply dwf_cons in Hw as [Hna Hw]. simpl in *.
      rewrite map_app, map_map. simpl. apply NoDup_app. split; [|split].
      + rewrite <- (map_map fst (cons a)). apply (NoDup_fmap_2 (cons a)). by apply Ha.
      + intros p Hp Hp2. apply elem_of_list_fmap in Hp as (q & -> & Hq).
        apply elem_of_list_fmap in Hp2 as (q2 & E2 & Hq2).
        apply elem_of_list_In, in_concat in Hq2 as (ll & Hll & Hin2).
        apply in_map_iff in Hll as ([b u] & <- & Hbu). apply in_map_iff in Hin2 as (q3 & <- & Hq3).
        simpl in E2. injection E2 as <- _. apply Hna. apply elem_of_list_fmap.
        exists (a, u). split; [done|]. by apply elem_of_list_In.
      + by apply IHd.
  Qed.

  Lemma top_nodup d : rel_ok (PD d) -> NoDup (map fst (top_lists d)).
  Proof.
    intros Hro. pose proof (rlists_nodup _ Hro) as Hnd. rewrite <- top_paths in Hnd by done.
    rewrite map_map in Hnd. simpl in Hnd. rewrite <- (map_map fst l_path) in Hnd.
    by apply NoDup_fmap_1 in Hnd.
  Qed.

  Lemma lists_names v : rel_ok v -> forall lname q, q ∈ lists_of lname v -> snd q <> [] /\ NoDup (snd q).
  Proof.
    induction v as [s|x|l IH|d IH] using pv_ind'; intros Hro lname q Hq; try (by inversion Hq).
    - inversion Hro as [| |names Hne Hnd|]; subst. apply elem_of_list_singleton in Hq. subst q. simpl.
      by rewrite strs_map.
    - inversion Hro as [| | |? Hw Hk Hr]; subst. simpl in Hq.
      apply elem_of_list_In, in_concat in Hq as (ll & Hll & Hin).
      apply in_map_iff in Hll as (e & <- & He). apply elem_of_list_In in He.
      rewrite Forall_forall in IH, Hr. apply (IH _ He (Hr _ He) (ATup [fst e; lname])).
      by apply elem_of_list_In.
  Qed.

  Lemma top_names d q : rel_ok (PD d) -> q ∈ top_lists d -> snd q <> [] /\ NoDup (snd q).
  Proof.
    intros Hro Hq. inversion Hro as [| | |? Hw Hk Hr]; subst. unfold top_lists in Hq.
    apply elem_of_list_In, in_concat in Hq as (ll & Hll & Hin).
    apply in_map_iff in Hll as (e & <- & He). apply elem_of_list_In in He.
    rewrite Forall_forall in Hr. apply (lists_names _ (Hr _ He) (fst e)). by apply elem_of_list_In.
  Qed.

  (** *** The keys of the transformed instance are distinct *)
  Definition rel_lname (k : attr) : option attr :=
    match k with
    | ATup (AStr r :: ln :: _) =>
        if bool_decide (r = "has-element" \/ r = "ordered-list") then Some ln else None
    | _ => None
    end.

  Lemma rels_keys ln names k : k ∈ dkeys (rels ln names) ->
    (exists s, s ∈ names /\ k = has_element ln (AStr s)) \/ (exists s t, s ∈ names /\ k = ordered ln s t).
  Proof.
    induction names as [|e [|e' names] IH]; intros Hk.
    - inversion Hk.
    - apply elem_of_list_singleton in Hk. left. exists e. split; [left|done].
    - change (k ∈ ordered ln e e' :: has_element ln (AStr e) :: dkeys (rels ln (e' :: names))) in Hk.
      apply elem_of_cons in Hk as [->|Hk]; [right; exists e, e'; split; [left|done]|].
      apply elem_of_cons in Hk as [->|Hk]; [left; exists e; split; [left|done]|].
      destruct (IH Hk) as [(s & Hs & ->)|(s & t & Hs & ->)].
      + left. exists s. split; [by right|done].
      + right. exists s, t. split; [by right|done].
  Qed.
  Lemma rels_lname ln names k : k ∈ dkeys (rels ln names) -> rel_lname k = Some ln.
  Proof. intros [(s & _ & ->)|(s & t & _ & ->)]%rels_keys; done. Qed.

  Lemma rels_nodup ln names : NoDup names -> NoDup (dkeys (rels ln names)).
  Proof.
    induction names as [|e [|e' names] IH]; intros Hnd.
    - constructor.
    - apply NoDup_singleton.
    - change (NoDup (ordered ln e e' :: has_element ln (AStr e) :: dkeys (rels ln (e' :: names)))).
      apply NoDup_cons in Hnd as [He Hnd]. specialize (IH Hnd).
      constructor; [|constructor; [|done]].
      + intros Hin. apply elem_of_cons in Hin as [E|Hin]; [discriminate E|].
        apply rels_keys in Hin as [(s & Hs & E)|(s & t & Hs & E)]; [discriminate E|].
        injection E as -> _. done.
      + intros Hin. apply rels_keys in Hin as [(s & Hs & E)|(s & t & Hs & E)]; [|discriminate E].
        injection E as ->. done.
  Qed.

  Lemma all_rels_keys ls k : k ∈ dkeys (all_rels ls) -> exists q, q ∈ ls /\ k ∈ dkeys (rels (fst q) (snd q)).
  Proof.
    intros Hk. apply elem_of_list_fmap in Hk as (e & -> & He).
    apply elem_of_list_In, in_concat in He as (ll & Hll & Hin). apply in_map_iff in Hll as (q & <- & Hq).
    exists q. split; [by apply elem_of_list_In|]. apply elem_of_list_fmap. exists e. split; [done|].
    by apply elem_of_list_In.
  Qed.

  Lemma all_rels_nodup ls : NoDup (map fst ls) -> (forall q, q ∈ ls -> NoDup (snd q)) ->
    NoDup (dkeys (all_rels ls)).
  Proof.
    induction ls as [|q ls IH]; intros Hnd Hq; [constructor|]. simpl in Hnd.
    apply NoDup_cons in Hnd as [Hn Hnd].
    change (all_rels (q :: ls)) with (rels (fst q) (snd q) ++ all_rels ls).
    rewrite dkeys_app. apply NoDup_app. split; [|split].
    - apply rels_nodup, Hq. left.
    - intros k Hk Hk2. apply rels_lname in Hk. apply all_rels_keys in Hk2 as (q' & Hq' & Hk2).
      apply rels_lname in Hk2. rewrite Hk in Hk2. injection Hk2 as E. apply Hn. rewrite E.
      by apply elem_of_list_fmap_1.
    - apply IH; [done|]. intros q' Hq'. apply Hq. by right.
  Qed.

  Lemma items_perm d : Permutation (items d) (stripd d ++ all_rels (top_lists d)).
  Proof.
    unfold items, top_lists. induction d as [|[a v] d IH]; [done|]. simpl.
    rewrite all_rels_app, IH. unfold items1. simpl.
    assert (Permutation (match v with
      | PD _ => all_rels (lists_of a v) ++ [(a, strip v)]
      | _ => (a, strip v) :: all_rels (lists_of a v)
      end) ((a, strip v) :: all_rels (lists_of a v))) as ->.
    { destruct v; try done. symmetry. apply Permutation_cons_append. }
    simpl. constructor. rewrite !app_assoc. apply Permutation_app_tail. apply Permutation_app_comm.
  Qed.

  Lemma key_rel_lname a v : key_rel a v -> rel_lname a = None /\ a <> ATup [].
  Proof.
    intros Hk. destruct v as [s|x|l|d]; simpl in Hk.
    1,2: destruct a as [t|l|z]; try done; destruct (Hk l eq_refl) as (H1 & H2 & H3);
      split; [|congruence]; destruct l as [|[r| |] [|ln l]]; try done; simpl;
      rewrite bool_decide_false; [done|]; intros [-> | ->]; [by apply H2|by apply H3].
    all: destruct Hk as [s ->]; done.
  Qed.

  Lemma items_wf d : rel_ok (PD d) -> dwf (items d).
  Proof.
    intros Hro. inversion Hro as [| | |? Hw Hk Hr]; subst. unfold dwf, dkeys.
    rewrite (Permutation_map fst (items_perm d)). rewrite map_app.
    apply NoDup_app. split; [|split].
    - unfold stripd. rewrite map_map. done.
    - intros k Hk1 Hk2. unfold stripd in Hk1. rewrite map_map in Hk1.
      apply elem_of_list_fmap in Hk1 as (e & -> & He). rewrite Forall_forall in Hk.
      destruct (key_rel_lname _ _ (Hk _ He)) as [Hn _]. simpl in Hk2.
      apply all_rels_keys in Hk2 as (q & _ & Hq). apply rels_lname in Hq. congruence.
    - apply all_rels_nodup; [by apply top_nodup|]. intros q Hq. by apply (top_names d q Hro).
  Qed.

  (** *** The first loop of the way back *)
  Definition put {Y} (ln : attr) (pre : list (attr * list Y)) (l : list Y) : list (attr * list Y) :=
    match l with [] => pre | _ => pre ++ [(ln, l)] end.

  Lemma put_snoc {Y} ln (pre : list (attr * list Y)) l x : ln ∉ dkeys pre ->
    dset ln (default [] (dget ln (put ln pre l)) ++ [x]) (put ln pre l) = put ln pre (l ++ [x]).
  Proof.
    intros Hn. assert (Hd : dget ln pre = None) by (by apply dget_None). destruct l as [|y l].
    - simpl. rewrite Hd. simpl. by rewrite dset_fresh.
    - simpl. rewrite dget_app, Hd. simpl. rewrite decide_True by done. simpl.
      clear Hd. induction pre as [|[k w] pre IH]; simpl.
      + by rewrite decide_True.
      + rewrite decide_False; [|intros ->; apply Hn; left]. f_equal. apply IH.
        intros Hin. apply Hn. by right.
  Qed.

  Lemma has_step new els ord orig ln el preE dE : els = put ln preE dE -> ln ∉ dkeys preE ->
    exists orig', rel_step (LSt new els ord orig) (has_element ln el, vtrue) =
      Ok (LSt new (put ln preE (dE ++ [el])) ord orig').
  Proof.
    intros -> Hn. eexists. unfold rel_step, has_element. simpl fst. cbv iota.
    rewrite decide_True by done. simpl. by rewrite put_snoc.
  Qed.
  Lemma ord_step new els ord orig ln s t preO dO : ord = put ln preO dO -> ln ∉ dkeys preO ->
    exists orig', rel_step (LSt new els ord orig) (ordered ln s t, vtrue) =
      Ok (LSt new els (put ln preO (dO ++ [(AStr s, AStr t)])) orig').
  Proof.
    intros -> Hn. eexists. unfold rel_step, ordered. simpl fst. cbv iota.
    rewrite decide_False by done. rewrite decide_True by done. simpl. by rewrite put_snoc.
  Qed.

  Lemma rels_steps ln names new preE preO : ln ∉ dkeys preE -> ln ∉ dkeys preO ->
    forall dE dO orig, exists orig',
    rfold rel_step (LSt new (put ln preE dE) (put ln preO dO) orig) (rels ln names) =
      Ok (LSt new (put ln preE (dE ++ map AStr names)) (put ln preO (dO ++ pairs names)) orig').
  Proof.
    intros HE HO. induction names as [|e [|e' names] IH]; intros dE dO orig.
    - exists orig. simpl. by rewrite !app_nil_r.
    - destruct (has_step new _ (put ln preO dO) orig ln (AStr e) preE dE eq_refl HE) as [o1 E1].
      exists o1. change (rels ln [e]) with [(has_element ln (AStr e), vtrue)].
      cbn [rfold]. rewrite E1. cbn [rbind]. simpl pairs. by rewrite app_nil_r.
    - destruct (ord_step new (put ln preE dE) _ orig ln e e' preO dO eq_refl HO) as [o1 E1].
      destruct (has_step new _ (put ln preO (dO ++ [(AStr e, AStr e')])) o1 ln (AStr e) preE dE eq_refl HE) as [o2 E2].
      destruct (IH (dE ++ [AStr e]) (dO ++ [(AStr e, AStr e')]) o2) as [o3 E3].
      exists o3.
      change (rels ln (e :: e' :: names)) with
        ((ordered ln e e', vtrue) :: (has_element ln (AStr e), vtrue) :: rels ln (e' :: names)).
      change (rfold rel_step ?s (?a :: ?b :: ?l)) with
        (rbind (rel_step s a) (fun s1 => rbind (rel_step s1 b) (fun s2 => rfold rel_step s2 l))).
      rewrite E1. cbn [rbind]. rewrite E2. cbn [rbind]. rewrite E3.
      rewrite <- !app_assoc. done.
  Qed.

  Definition ordl (ls : list (attr * list string)) : list (attr * list (attr * attr)) :=
    List.concat (map (fun q => put (fst q) [] (pairs (snd q))) ls).
  Definition elsl (ls : list (attr * list string)) : list (attr * list attr) :=
    map (fun q => (fst q, map AStr (snd q))) ls.

  Lemma ordl_keys ls k : k ∈ dkeys (ordl ls) -> k ∈ map fst ls.
  Proof.
    unfold ordl. induction ls as [|q ls IH]; simpl; [done|].
    rewrite dkeys_app. intros [Hk|Hk]%elem_of_app; [|right; by apply IH].
    destruct (pairs (snd q)); simpl in Hk; [inversion Hk|].
    apply elem_of_list_singleton in Hk. subst. left.
  Qed.
  Lemma put_app {Y} ln (pre : list (attr * list Y)) l : put ln pre l = pre ++ put ln [] l.
  Proof. destruct l; simpl; [by rewrite app_nil_r|done]. Qed.

  Lemma all_rels_steps ls pl new orig : NoDup (map fst (pl ++ ls)) ->
    (forall q, q ∈ ls -> snd q <> []) -> exists orig',
    rfold rel_step (LSt new (elsl pl) (ordl pl) orig) (all_rels ls) =
      Ok (LSt new (elsl (pl ++ ls)) (ordl (pl ++ ls)) orig').
  Proof.
    revert pl orig. induction ls as [|[ln names] ls IH]; intros pl orig Hnd Hne.
    - exists orig. by rewrite app_nil_r.
    - change (all_rels ((ln, names) :: ls)) with (rels ln names ++ all_rels ls).
      assert (Hn : ln ∉ map fst pl).
      { rewrite map_app in Hnd. apply NoDup_app in Hnd as (_ & Hx & _). intros Hin. apply (Hx _ Hin). left. }
      destruct (rels_steps ln names new (elsl pl) (ordl pl)) with (dE := @nil attr) (dO := @nil (attr * attr)) (orig := orig)
        as [o1 E1].
      { unfold elsl, dkeys. by rewrite map_map. }
      { intros Hin. by apply Hn, ordl_keys. }
      assert (rfold_app : forall (s : lst) (l1 l2 : inst),
        rfold rel_step s (l1 ++ l2) = rbind (rfold rel_step s l1) (fun s => rfold rel_step s l2)).
      { clear. intros s l1 l2. revert s. induction l1 as [|a l1 IH]; intros s; [done|]. simpl.
        destruct (rel_step s a); [apply IH|done]. }
      rewrite rfold_app. simpl in E1. rewrite E1. cbn [rbind].
      destruct (IH (pl ++ [(ln, names)]) o1) as [o2 E2].
      { by rewrite <- app_assoc. } { intros q Hq. apply Hne. by right. }
      exists o2. rewrite <- app_assoc in E2. change ([(ln, names)] ++ ls) with ((ln, names) :: ls) in E2.
      rewrite <- E2. f_equal. f_equal.
      + specialize (Hne (ln, names) ltac:(left)). simpl in Hne. unfold elsl. rewrite map_app. simpl.
        destruct names; [done|]. done.
      + rewrite put_app. unfold ordl. rewrite map_app, concat_app. simpl. by rewrite app_nil_r.
  Qed.

  Lemma entry_step a v w (s : lst (X:=X)) : key_rel a v -> a ∉ dkeys (l_new s) ->
    rel_step s (a, w) = Ok (LSt (l_new s ++ [(a, w)]) (l_els s) (l_ord s) (l_orig s)).
  Proof.
    intros Hk Hn. assert (Hr : forall r args, a = ATup (r :: args) -> r <> AStr "has-element" /\ r <> AStr "ordered-list").
    { intros r args ->. destruct v as [?|?|?|?]; simpl in Hk; try (by destruct Hk).
      all: destruct (Hk _ eq_refl) as (_ & H1 & H2); simpl in *; split; congruence. }
    destruct (key_rel_lname _ _ Hk) as [_ Hne].
    unfold rel_step. simpl fst. simpl snd. destruct a as [t|[|r args]|z]; try done.
    1,3: by rewrite dset_fresh.
    destruct (Hr r args eq_refl) as [H1 H2]. rewrite !decide_False by done. by rewrite dset_fresh.
  Qed.

  Lemma items_steps d new pl orig :
    Forall (fun e => key_rel (fst e) (snd e)) d ->
    NoDup (dkeys new ++ dkeys d) -> NoDup (map fst (pl ++ top_lists d)) ->
    (forall q, q ∈ top_lists d -> snd q <> []) -> exists orig',
    rfold rel_step (LSt new (elsl pl) (ordl pl) orig) (items d) =
      Ok (LSt (new ++ stripd d) (elsl (pl ++ top_lists d)) (ordl (pl ++ top_lists d)) orig').
  Proof.
    assert (rfold_app : forall (s : lst) (l1 l2 : inst),
      rfold rel_step s (l1 ++ l2) = rbind (rfold rel_step s l1) (fun s => rfold rel_step s l2)).
    { clear. intros s l1 l2. revert s. induction l1 as [|a l1 IH]; intros s; [done|]. simpl.
      destruct (rel_step s a); [apply IH|done]. }
    revert new pl orig. induction d as [|[a v] d IH]; intros new pl orig Hk Hnd Hnl Hne.
    - exists orig. unfold top_lists. simpl. by rewrite !app_nil_r.
    - apply Forall_cons in Hk as [Ha Hk]. simpl in Ha.
      unfold top_lists in Hnl, Hne |- *. simpl in Hnl, Hne |- *.
      fold (top_lists d) in Hnl, Hne |- *.
      change (items ((a, v) :: d)) with (items1 (a, v) ++ items d). rewrite rfold_app.
      assert (Hna : a ∉ dkeys new).
      { apply NoDup_app in Hnd as (_ & Hx & _). intros Hin. apply (Hx _ Hin). left. }
      assert (Hnl1 : NoDup (map fst (pl ++ lists_of a v))).
      { rewrite app_assoc, map_app in Hnl. by apply NoDup_app in Hnl as [? _]. }
      assert (Hne1 : forall q, q ∈ lists_of a v -> snd q <> []).
      { intros q Hq. apply Hne. apply elem_of_app. by left. }
      assert (exists o1, rfold rel_step (LSt new (elsl pl) (ordl pl) orig) (items1 (a, v)) =
        Ok (LSt (new ++ [(a, strip v)]) (elsl (pl ++ lists_of a v)) (ordl (pl ++ lists_of a v)) o1)) as [o1 E1].
      { unfold items1. simpl fst. simpl snd.
        assert (Hfst : exists o1, rfold rel_step (LSt new (elsl pl) (ordl pl) orig)
            ((a, strip v) :: all_rels (lists_of a v)) =
          Ok (LSt (new ++ [(a, strip v)]) (elsl (pl ++ lists_of a v)) (ordl (pl ++ lists_of a v)) o1)).
        { destruct (all_rels_steps (lists_of a v) pl (new ++ [(a, strip v)]) orig Hnl1 Hne1) as [o1 E1].
          exists o1. change (rfold rel_step ?s (?e :: ?l)) with (rbind (rel_step s e) (fun s1 => rfold rel_step s1 l)).
          rewrite (entry_step a v) by done. exact E1. }
        destruct v as [t|x|l|dd]; [exact Hfst..|].
        destruct (all_rels_steps (lists_of a (PD dd)) pl new orig Hnl1 Hne1) as [o1 E1].
        exists o1. rewrite rfold_app, E1. cbn [rbind rfold].
        by rewrite (entry_step a (PD dd)). }
      rewrite E1. cbn [rbind].
      destruct (IH (new ++ [(a, strip v)]) (pl ++ lists_of a v) o1) as [o2 E2].
      + done.
      + rewrite dkeys_app, <- app_assoc. done.
      + by rewrite <- app_assoc.
      + intros q Hq. apply Hne. apply elem_of_app. by right.
      + exists o2. rewrite E2. rewrite <- !app_assoc. done.
  Qed.

  (** *** Chaining *)
  Lemma pairs_snd e names p : p ∈ pairs (e :: names) -> exists s, s ∈ names /\ snd p = AStr s.
  Proof.
    revert e. induction names as [|e' names IH]; intros e Hp; [inversion Hp|].
    change (p ∈ (AStr e, AStr e') :: pairs (e' :: names)) in Hp.
    apply elem_of_cons in Hp as [->|Hp]; [exists e'; split; [left|done]|].
    destruct (IH _ Hp) as (s & Hs & E). exists s. split; [by right|done].
  Qed.
  Lemma pairs_length e names : List.length (pairs (e :: names)) = List.length names.
  Proof.
    revert e. induction names as [|e' names IH]; intros e; [done|].
    change (S (List.length (pairs (e' :: names))) = S (List.length names)). by rewrite IH.
  Qed.

  Lemma front_none n e names els : e ∉ names ->
    chain_front n (CSt els (pairs (e :: names)) [AStr e]) false =
    Ok (CSt els (pairs (e :: names)) [AStr e], false).
  Proof.
    intros He. destruct n; [done|]. cbn [chain_front c_list c_ord].
    destruct (find _ _) as [p|] eqn:E; [|done]. exfalso. apply find_some in E as [Hin Hp].
    apply elem_of_list_In in Hin. apply pairs_snd in Hin as (s & Hs & Es).
    apply bool_decide_eq_true in Hp. rewrite Es in Hp. simpl in Hp. injection Hp as ->. done.
  Qed.

  Lemma back_all names : forall e pre b,
    chain_back (List.length names) (CSt (map AStr names) (pairs (e :: names)) (pre ++ [AStr e])) b =
    Ok (CSt [] [] (pre ++ map AStr (e :: names)), match names with [] => b | _ => true end).
  Proof.
    induction names as [|e' names IH]; intros e pre b; [done|].
    change (List.length (e' :: names)) with (S (List.length names)).
    change (pairs (e :: e' :: names)) with ((AStr e, AStr e') :: pairs (e' :: names)).
    cbn [chain_back c_list c_ord c_els find fst snd].
    rewrite last_snoc, bool_decide_true by done.
    unfold pop_el. cbn [map lremove fst snd]. rewrite !decide_True by done. cbn [rbind default]. unfold id.
    rewrite IH. f_equal. f_equal; [|by destruct names]. f_equal. by rewrite <- app_assoc.
  Qed.

  Lemma list_step_ok ls new orig nw ln names : NoDup (map fst ls) -> (ln, names) ∈ ls ->
    names <> [] -> NoDup names ->
    list_step valk (LSt nw (elsl ls) (ordl ls) orig) new (ln, map AStr names) =
    place (l_path ln) (PL (map PStr names)) new.
  Proof.
    intros Hnd Hin Hne Hnn. destruct names as [|e names]; [done|].
    apply NoDup_cons in Hnn as [He _].
    assert (Hord : dget ln (ordl ls) = match names with [] => None | _ => Some (pairs (e :: names)) end).
    { clear He Hne. induction ls as [|[l2 n2] ls IH]; [inversion Hin|].
      simpl in Hnd. apply NoDup_cons in Hnd as [Hn Hnd].
      change (ordl ((l2, n2) :: ls)) with (put l2 [] (pairs n2) ++ ordl ls).
      rewrite dget_app. apply elem_of_cons in Hin as [E|Hin].
      - injection E as <- <-.
        assert (Hno : dget ln (ordl ls) = None).
        { apply dget_None. intros Hx. by apply Hn, ordl_keys. }
        destruct names as [|e' names]; [exact Hno|]. simpl. by rewrite decide_True.
      - assert (dget ln (put l2 [] (pairs n2)) = None) as ->; [|by apply IH].
        destruct (pairs n2); [done|]. simpl. rewrite decide_False; [done|].
        intros ->. apply Hn. apply elem_of_list_fmap. by exists (l2, e :: names). }
    assert (Hmap : map (key_val valk) (map AStr (e :: names)) = map PStr (e :: names)).
    { rewrite map_map. done. }
    unfold list_step. cbn [snd fst map l_ord]. rewrite Hord.
    destruct names as [|e' names].
    - cbn. done.
    - cbn [default]. unfold id. 
      change (List.length (map AStr (e' :: names))) with (S (List.length (map AStr names))).
      cbn [chain_all c_els map]. 
      change (AStr e' :: map AStr names) with (map AStr (e' :: names)).
      rewrite front_none by done. cbn [rbind fst snd c_ord].
      rewrite pairs_length.
      pose proof (back_all (e' :: names) e [] false) as Hb. simpl app in Hb. rewrite Hb. cbn [rbind fst snd c_els].
      exact (f_equal (fun l => place (l_path ln) (PL l) new) Hmap).
  Qed.

  (** *** Placing the lists *)
  Definition place_all (ps : list (list attr * list string)) (d : inst) : res inst :=
    rfold (fun d q => place (fst q) (PL (map PStr (snd q))) d) d ps.

  Lemma dset_mid (pre post : inst) a v w : a ∉ dkeys pre ->
    dset a v (pre ++ (a, w) :: post) = pre ++ (a, v) :: post.
  Proof.
    induction pre as [|[k x] pre IH]; intros Hn; simpl.
    - by rewrite decide_True.
    - rewrite decide_False; [|intros ->; apply Hn; left]. f_equal. apply IH.
      intros Hin. apply Hn. by right.
  Qed.

  Lemma place_all_under a ps (pre post s : inst) : a ∉ dkeys pre ->
    (forall q, q ∈ ps -> fst q <> []) ->
    place_all (map (fun q => (a :: fst q, snd q)) ps) (pre ++ (a, PD s) :: post) =
    rbind (place_all ps s) (fun s' => Ok (pre ++ (a, PD s') :: post)).
  Proof.
    intros Hn. revert s. induction ps as [|[p n] ps IH]; intros s Hp; [done|].
    assert (Hp1 : p <> []) by (apply (Hp (p, n)); left).
    destruct p as [|b p]; [done|].
    unfold place_all. cbn [map rfold fst snd].
    change (place (a :: b :: p) ?v ?d) with
      (match dget a d with
       | None => Err KeyError
       | Some (PD s) => rbind (place (b :: p) v s) (fun s' => Ok (dset a (PD s') d))
       | Some _ => Err TypeError
       end).
    assert (dget a (pre ++ (a, PD s) :: post) = Some (PD s)) as ->.
    { rewrite dget_app. assert (dget a pre = None) as -> by (by apply dget_None). simpl.
      by rewrite decide_True. }
    cbv iota. destruct (place (b :: p) (PL (map PStr n)) s) as [s'|e]; cbn [rbind]; [|done].
    rewrite dset_mid by done. apply IH. intros q Hq. apply Hp. by right.
  Qed.

  Lemma rlists_dict_ne d q : q ∈ rlists (PD d) -> fst q <> [].
  Proof.
    simpl. intros Hq. apply elem_of_list_In, in_concat in Hq as (ll & Hll & Hin).
    apply in_map_iff in Hll as (e & <- & He). apply in_map_iff in Hin as (q' & <- & _). done.
  Qed.

  Lemma place_all_app p1 p2 d : place_all (p1 ++ p2) d = rbind (place_all p1 d) (place_all p2).
  Proof.
    unfold place_all. revert d. induction p1 as [|q p1 IH]; intros d; [done|]. simpl.
    destruct (place _ _ d); [apply IH|done].
  Qed.

  Lemma place_restores v : rel_ok v ->
    match v with PD d => place_all (rlists v) (stripd d) = Ok d | _ => True end.
  Proof.
    induction v as [s|x|l IH|d IH] using pv_ind'; intros Hro; try done.
    inversion Hro as [| | |? Hw Hk Hr]; subst. clear Hk Hro.
    assert (forall pre, NoDup (dkeys pre ++ dkeys d) ->
      place_all (rlists (PD d)) (pre ++ stripd d) = Ok (pre ++ d)) as E; [|by apply (E [])].
    clear Hw. induction d as [|[a v] d IHd]; intros pre Hnd; [done|].
    apply Forall_cons in IH as [Ha IH]. apply Forall_cons in Hr as [Hra Hr]. simpl in Ha, Hra.
    specialize (Ha Hra).
    assert (Hna : a ∉ dkeys pre).
    { apply NoDup_app in Hnd as (_ & Hx & _). intros Hin. apply (Hx _ Hin). left. }
    change (rlists (PD ((a, v) :: d))) with
      (map (fun q => (a :: fst q, snd q)) (rlists v) ++ rlists (PD d)).
    rewrite place_all_app.
    change (stripd ((a, v) :: d)) with ((a, strip v) :: stripd d).
    assert (place_all (map (fun q => (a :: fst q, snd q)) (rlists v)) (pre ++ (a, strip v) :: stripd d) =
      Ok ((pre ++ [(a, v)]) ++ stripd d)) as ->.
    { rewrite <- app_assoc. destruct v as [t|x|l|dd]; [done|done|..].
      - inversion Hra as [| |names Hne Hn|]; subst. cbn [rlists map place_all rfold fst snd place].
        rewrite strs_map. unfold place_all. cbn [rfold fst snd place rbind strip]. by rewrite dset_mid.
      - cbn [strip]. rewrite place_all_under; [|done|apply rlists_dict_ne].
        fold (stripd dd). by rewrite Ha. }
    cbn [rbind]. rewrite IHd; [by rewrite <- app_assoc|done|done|].
    rewrite dkeys_app, <- app_assoc. done.
  Qed.

  (** ** The round trip *)
  Theorem relations_round_trip d : rel_ok (PD d) ->
    exists d', ltr vtrue strx keyx d = Ok d' /\ dwf d' /\ rtl valk d' = Ok d.
  Proof.
    intros Hro. inversion Hro as [| | |? Hw Hk Hr]; subst.
    pose proof (items_wf d Hro) as Hwi.
    exists (items d). split; [|split; [done|]].
    - rewrite ltr_dupd by done. by rewrite dupd_app.
    - destruct (items_steps d [] [] []) as [orig E].
      + done.
      + done.
      + by apply top_nodup.
      + intros q Hq. by apply (top_names d q).
      + unfold rtl. change (LSt [] [] [] []) with (LSt (@nil (attr * pv)) (elsl []) (ordl []) []).
        rewrite E. cbn [rbind l_new l_els].
        simpl app.
        transitivity (place_all (map (fun q => (l_path (fst q), snd q)) (top_lists d)) (stripd d)).
        * assert (forall ls new, ls ⊆ top_lists d ->
            rfold (list_step valk (LSt (stripd d) (elsl (top_lists d)) (ordl (top_lists d)) orig)) new (elsl ls) =
            place_all (map (fun q => (l_path (fst q), snd q)) ls) new) as Hall; [|by apply Hall].
          induction ls as [|[ln names] ls IH]; intros new Hsub; [done|].
          assert (Hin : (ln, names) ∈ top_lists d) by (apply Hsub; left).
          destruct (top_names d _ Hro Hin) as [Hne Hnn].
          unfold elsl, place_all. cbn [map rfold fst snd].
          rewrite (list_step_ok (top_lists d)); [|by apply top_nodup|done|done|done].
          destruct (place _ _ new) as [new'|]; cbn [rbind]; [|done].
          apply IH. intros q Hq. apply Hsub. by right.
        * rewrite top_paths by done. apply (place_restores _ Hro).
  Qed.
End Rel.
