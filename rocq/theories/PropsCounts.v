(** * C97: the "counts" written by output_json. *)
From stdpp Require Import base decidable list gmap strings pretty.
From Verif Require Import Base Num TreeModel TreeFun TreeScore TreeRefine TreeSorts TreeInv
  SpecTree TreeState Nominal NominalFacts NominalTree CV Cobweb3 C3Facts C3Tree PropsC3 Print.
Set Default Proof Using "Type".

(** ** Specification *)

(** Distinct members of [D] are printed differently. *)
Definition distinct_on {A} (D : A -> Prop) (str : A -> string) : Prop :=
  forall x y, D x -> D y -> str x = str y -> x = y.

(** The number written for the attribute text [x] and the value text [y] *)
Definition written (o : list (string * list (string * nat))) (x y : string) : nat :=
  match dget x o with Some d => default 0 (dget y d) | None => 0 end.
Definition written3 {N : NumOps} (o : list (string * list (string * cell N))) (x y : string) : option (cell N) :=
  match dget x o with Some d => dget y d | None => None end.

(** The instances use only attributes in [DA] and values in [DV]. *)
Definition only (DA : attr -> Prop) (DV : nom -> Prop) (l : list inst) : Prop :=
  forall i a v, i ∈ l -> dget a i = Some v -> DA a /\ DV v.
Definition only3 {N : NumOps} (DA : attr -> Prop) (DV : nom -> Prop) (l : list (inst3 N)) : Prop :=
  forall i a v, i ∈ l -> dget a i = Some v -> DA a /\ match v with VNom v => DV v | VNum _ => True end.

(** ** Dictionaries built by assignment *)
Section Fold.
  Context {K V W : Type} `{EqDecision K} (f : K -> string) (g : V -> W).

  Lemma dset_new k (v : W) (d : list (string * W)) : k ∉ dkeys d -> dset k v d = d ++ [(k, v)].
  Proof.
    induction d as [|[k' v'] d IH]; intros H; [done|]. simpl. rewrite decide_False.
    - rewrite IH; [done|]. intros H'. apply H. by right.
    - intros ->. apply H. left.
  Qed.

  Lemma fold_dset (l : list (K * V)) (acc : list (string * W)) :
    NoDup (dkeys acc ++ map f (dkeys l)) ->
    fold_left (fun d q => dset (f (fst q)) (g (snd q)) d) l acc = acc ++ map (fun q => (f (fst q), g (snd q))) l.
  Proof.
    revert acc. induction l as [|[k v] l IH]; intros acc Hnd; simpl; [by rewrite app_nil_r|].
    rewrite dset_new.
    - rewrite IH; [by rewrite <- app_assoc|].
      unfold dkeys in *. rewrite map_app, <- app_assoc. exact Hnd.
    - apply NoDup_app in Hnd as (_ & H & _). intros Hk. apply (H _ Hk). left.
  Qed.

  Context (D : K -> Prop) (Hf : distinct_on D f).
  Lemma NoDup_f (l : list (K * V)) : (forall k, k ∈ dkeys l -> D k) -> dwf l -> NoDup (map f (dkeys l)).
  Proof using Hf.
    intros HD Hw. unfold dwf in Hw. induction Hw as [|k ks Hk Hw IH]; simpl; constructor.
    - intros Hin. apply elem_of_list_fmap in Hin as (k' & E & Hk'). apply Hf in E; [|apply HD; left|apply HD; by right].
      by subst.
    - apply IH. intros; apply HD; by right.
  Qed.
  Lemma fold_dset_nil (l : list (K * V)) : (forall k, k ∈ dkeys l -> D k) -> dwf l ->
    fold_left (fun d q => dset (f (fst q)) (g (snd q)) d) l [] = map (fun q => (f (fst q), g (snd q))) l.
  Proof using Hf. intros HD Hw. rewrite fold_dset; [done|]. by apply NoDup_f. Qed.

  Lemma dget_map (l : list (K * V)) k : (forall k, k ∈ dkeys l -> D k) -> D k ->
    dget (f k) (map (fun q => (f (fst q), g (snd q))) l) = option_map g (dget k l).
  Proof using Hf.
    intros HD Hk. induction l as [|[k' v] l IH]; [done|]. simpl.
    destruct (decide (k = k')) as [->|Hne]; [by rewrite decide_True|].
    rewrite decide_False; [apply IH; intros; apply HD; by right|].
    intros E. apply Hne, Hf; [done|apply HD; left|done].
  Qed.
  Lemma dget_map_inv (l : list (K * V)) x w : dget x (map (fun q => (f (fst q), g (snd q))) l) = Some w ->
    exists k v, (k, v) ∈ l /\ x = f k /\ w = g v.
  Proof.
    induction l as [|[k' v] l IH]; [done|]. simpl. destruct (decide (x = f k')) as [->|].
    - intros [= <-]. exists k', v. split; [left|done].
    - intros E. apply IH in E as (k & v' & Hin & ? & ?). exists k, v'. split; [by right|done].
  Qed.
End Fold.

(** ** CobwebTree *)
Lemma json_counts_map DA DV strA strV (s : nsum) : distinct_on DA strA -> distinct_on DV strV -> av_wf (ns_av s) ->
  (forall a d, dget a (ns_av s) = Some d -> DA a /\ forall v, v ∈ dkeys d -> DV v) ->
  json_counts strA strV s =
  map (fun p => (strA (fst p), map (fun q => (strV (fst q), snd q)) (snd p))) (ns_av s).
Proof.
  intros HA HV [Hw Hin] HD. unfold json_counts.
  assert (E : forall l acc, (forall a d, (a, d) ∈ l -> (a, d) ∈ ns_av s) ->
    fold_left (fun acc p => match snd p with
                          | [] => acc
                          | _ => dset (strA (fst p)) (fold_left (fun d q => dset (strV (fst q)) (snd q) d) (snd p) []) acc
                          end) l acc =
    fold_left (fun d q => dset (strA (fst q)) (map (fun q => (strV (fst q), snd q)) (snd q)) d) l acc).
  { induction l as [|[a d] l IH]; intros acc Hl; [done|]. cbn [fold_left fst snd].
    assert (Ha : (a, d) ∈ ns_av s) by (apply Hl; left). apply (In_dget _ _ _ Hw) in Ha.
    destruct (Hin a d Ha) as (Hd & Hne & _). destruct (HD a d Ha) as [_ HDv].
    rewrite (fold_dset_nil strV (fun n : nat => n) DV HV d HDv Hd).
    destruct d as [|e d]; [done|]. apply IH. intros; apply Hl; by right. }
  rewrite E by done.
  apply (fold_dset_nil strA (fun d => map (fun q => (strV (fst q), snd q)) d) DA HA); [|done].
  intros a Ha. apply dget_key_Some in Ha as (d & Ha). by apply HD in Ha as [? _].
Qed.

Section Counts.
  Context {N : NumOps} (rng : nat -> num N).
  Notation C := (CobwebClass N).

  (** If the attributes in [DA] and the values in [DV] are printed differently
      and only those were fitted, the counts written for a concept are those
      of its table: the number for each attribute and value, and nothing else. *)
  Theorem C97_counts DA DV strA strV evs (s : st C) id tb :
    distinct_on DA strA -> distinct_on DV strV ->
    reachable C rng tt evs s -> all_inst (C:=C) good evs -> all_ok evs -> only DA DV (history evs) ->
    in_tree s id -> table_of s id tb ->
    (forall a v, DA a -> DV v -> written (json_counts strA strV tb) (strA a) (strV v) = entry tb a v) /\
    (forall x y, 0 < written (json_counts strA strV tb) x y ->
       exists a v, DA a /\ DV v /\ x = strA a /\ y = strV v).
  Proof.
    intros HA HV Hr Hg Hao Ho Hi Htb.
    destruct (reachable_tinv C rng Hist LeafV good (hist_laws N) tt evs s Hr Hg Hao) as (t & Hok & Ht).
    apply (in_tree_sub _ _ _ _ Hok) in Hi as (u & Hu & <-).
    destruct (tinv_sub C Hist LeafV good (hist_laws N) t _ u Ht Hu) as (lu & Htu & Hl & _).
    apply tinv_summ in Htu. pose proof (sub_table C s t u Hok Hu) as (n1 & E1 & E2).
    destruct Htb as (n2 & E3 & E4). rewrite E1 in E3. injection E3 as <-. rewrite E2 in E4. subst tb.
    destruct Htu as (_ & [Hd Hw] & He).
    assert (HD : forall a d, dget a (ns_av (tsum u)) = Some d -> DA a /\ forall v, v ∈ dkeys d -> DV v).
    { intros a d Ha. destruct (Hw a d Ha) as (Hdd & Hne & Hpos).
      assert (Hv : forall v, v ∈ dkeys d -> DA a /\ DV v).
      { intros v Hv. apply dget_key_Some in Hv as (n & Hv). specialize (Hpos v n Hv). specialize (He a v).
        unfold entry in He. rewrite Ha, Hv in He. simpl in He.
        assert (Hocc : 0 < occ lu a v) by lia. apply occ_pos in Hocc as (i & Hii & Ei). by eapply Ho; [apply Hl|]. }
      split; [|intros v Hv'; by apply Hv]. destruct d as [|[v n] d]; [done|]. apply (Hv v). left. }
    rewrite (json_counts_map DA DV strA strV _ HA HV (conj Hd Hw) HD). unfold written. split.
    - intros a v Ha Hv.
      rewrite (dget_map strA (fun d => map (fun q => (strV (fst q), snd q)) d) DA HA) by
        (done || (intros k Hk; apply dget_key_Some in Hk as (d & Hk); by apply HD in Hk as [? _])).
      unfold entry. destruct (dget a (ns_av (tsum u))) as [d|] eqn:E; [|done]. cbn [option_map].
      rewrite (dget_map strV (fun n : nat => n) DV HV) by (done || by eapply HD).
      by destruct (dget v d).
    - intros x y H. destruct (dget x _) as [d'|] eqn:E; [|lia].
      apply (dget_map_inv strA (fun d => map (fun q => (strV (fst q), snd q)) d)) in E as (a & d & Hin & -> & ->).
      destruct (dget y _) as [n|] eqn:E; [|simpl in H; lia].
      apply (dget_map_inv strV (fun n : nat => n)) in E as (v & n' & Hin' & -> & ->).
      apply (In_dget _ _ _ Hd) in Hin. destruct (HD a d Hin) as [Ha Hv].
      exists a, v. split; [done|]. split; [apply Hv, elem_of_list_fmap; by exists (v, n')|done].
  Qed.

  (** In particular for attributes and values that are strings. *)
  Corollary C97_strings reprX evs (s : st C) id tb :
    reachable C rng tt evs s -> all_inst (C:=C) good evs -> all_ok evs ->
    only (fun a => exists x, a = AStr x) (fun v => exists x, v = NStr x) (history evs) ->
    in_tree s id -> table_of s id tb -> forall x y,
    written (json_counts str_attr (str_nom reprX) tb) x y = entry tb (AStr x) (NStr y).
  Proof.
    intros Hr Hg Hao Ho Hi Htb x y.
    destruct (C97_counts (fun a => exists x, a = AStr x) (fun v => exists x, v = NStr x) str_attr (str_nom reprX) evs s id tb) as [H _]; try done.
    - intros ? ? (p & ->) (q & ->) E. simpl in E. by subst.
    - intros ? ? (p & ->) (q & ->) E. simpl in E. by subst.
    - apply (H (AStr x) (NStr y)); eauto.
  Qed.
End Counts.

(** ** Cobweb3Tree *)
Lemma json_counts3_map {N : NumOps} DA DV strA strV (s : nsum3 N) : distinct_on DA strA ->
  distinct_on DV (key3 strV) -> dwf (n3_av s) ->
  (forall a d, dget a (n3_av s) = Some d -> DA a /\ dwf d /\ forall v, v ∈ dkeys d -> DV v) ->
  json_counts3 strA strV s =
  map (fun p => (strA (fst p), map (fun q => (key3 strV (fst q), snd q)) (snd p))) (n3_av s).
Proof.
  intros HA HV Hw HD. unfold json_counts3.
  assert (E : forall l acc, (forall a d, (a, d) ∈ l -> (a, d) ∈ n3_av s) ->
    fold_left (fun acc p => dset (strA (fst p)) (fold_left (fun d q => dset (key3 strV (fst q)) (snd q) d) (snd p) []) acc) l acc =
    fold_left (fun d q => dset (strA (fst q)) (map (fun q => (key3 strV (fst q), snd q)) (snd q)) d) l acc).
  { induction l as [|[a d] l IH]; intros acc Hl; [done|]. cbn [fold_left fst snd].
    assert (Ha : (a, d) ∈ n3_av s) by (apply Hl; left). apply (In_dget _ _ _ Hw) in Ha.
    destruct (HD a d Ha) as (_ & Hd & HDv).
    rewrite (fold_dset_nil (key3 strV) (fun n : cell N => n) DV HV d HDv Hd).
    apply IH. intros; apply Hl; by right. }
  rewrite E by done.
  apply (fold_dset_nil strA (fun d => map (fun q => (key3 strV (fst q), snd q)) d) DA HA); [|done].
  intros a Ha. apply dget_key_Some in Ha as (d & Ha). by apply HD in Ha as [? _].
Qed.

Section Counts3.
  Context {N : NumOps} (rng : nat -> num N) (sc : option (num N)) (inner : bool).
  Notation C := (Cobweb3Class N).
  Notation x0 := (new_ctx sc inner).

  (** The same for Cobweb3Tree, with the numbers of an attribute under
      "#ContinuousValue#", which no value in [DV] may be printed as. *)
  Theorem C97_counts3 DA DV strA strV evs (s : st C) id tb :
    distinct_on DA strA -> distinct_on DV strV -> (forall v, DV v -> v <> cv_key /\ strV v <> "#ContinuousValue#"%string) ->
    reachable C rng x0 evs s -> all_inst (C:=C) good3 evs -> all_ok evs -> only3 DA DV (history evs) ->
    in_tree s id -> table_of s id tb ->
    (forall a v, DA a -> DV v -> written3 (json_counts3 strA strV tb) (strA a) (strV v) =
                                 if decide (count_of tb a v = 0) then None else Some (Cnt (count_of tb a v))) /\
    (forall a, DA a -> written3 (json_counts3 strA strV tb) (strA a) "#ContinuousValue#" = option_map CVc (numeric_of tb a)) /\
    (forall x y, written3 (json_counts3 strA strV tb) x y <> None ->
       exists a, DA a /\ x = strA a /\ (y = "#ContinuousValue#"%string \/ exists v, DV v /\ y = strV v)).
  Proof.
    intros HA HV Hkey Hr Hg Hao Ho Hi Htb.
    destruct (reachable_tinv C rng _ _ _ (hist3_laws counts (fun _ _ => True) (counts_laws N)) x0 evs s Hr Hg Hao)
      as (t & Hok & Ht).
    apply (in_tree_sub _ _ _ _ Hok) in Hi as (u & Hu & <-).
    destruct (tinv_sub C _ _ _ (hist3_laws counts (fun _ _ => True) (counts_laws N)) t _ u Ht Hu) as (lu & Htu & Hl & _).
    apply tinv_summ in Htu. pose proof (sub_table C s t u Hok Hu) as (n1 & E1 & E2).
    destruct Htb as (n2 & E3 & E4). rewrite E1 in E3. injection E3 as <-. rewrite E2 in E4. subst tb.
    destruct Htu as (_ & Hd & Hne & Hc).
    set (DV' := fun v => v = cv_key \/ DV v).
    assert (HV' : distinct_on DV' (key3 strV)).
    { intros v w [->|Hv] [->|Hw]; unfold key3.
      - done.
      - destruct (Hkey w Hw) as [H1 H2]. rewrite decide_True by done. rewrite (decide_False (P:=w = cv_key)) by done.
        intros E. by rewrite <- E in H2.
      - destruct (Hkey v Hv) as [H1 H2]. rewrite (decide_True (P:=cv_key = cv_key)) by done. rewrite (decide_False (P:=v = cv_key)) by done.
        intros E. by rewrite E in H2.
      - destruct (Hkey v Hv) as [H1 _], (Hkey w Hw) as [H2 _]. rewrite !decide_False by done. by apply HV. }
    assert (Hcell : forall a d v, dget a (n3_av (tsum u)) = Some d -> v ∈ dkeys d -> DA a /\ DV' v).
    { intros a d v Ha Hv. specialize (Hc a). rewrite Ha in Hc. simpl in Hc. destruct Hc as (_ & _ & Hcnt & Hnum).
      destruct (decide (v = cv_key)) as [->|Hnk].
      - split; [|by left]. apply dget_key_Some in Hv as (c & Hv). destruct (nums lu a) as [|x xs] eqn:En; [congruence|].
        assert (Hx : x ∈ nums lu a) by (rewrite En; left). apply nums_in in Hx as (i & Hi' & Ei).
        apply Hl in Hi'. by destruct (Ho _ _ _ Hi' Ei).
      - apply dget_key_Some in Hv as (c & Hv). rewrite (Hcnt v Hnk) in Hv.
        destruct (decide (occ3 lu a v = 0)); [done|].
        assert (Hp : 0 < occ3 lu a v) by lia. apply occ3_pos in Hp as (i & Hi' & Ei).
        apply Hl in Hi'. destruct (Ho _ _ _ Hi' Ei). split; [done|by right]. }
    assert (HD : forall a d, dget a (n3_av (tsum u)) = Some d -> DA a /\ dwf d /\ forall v, v ∈ dkeys d -> DV' v).
    { intros a d Ha. split; [|split].
      - pose proof (Hne a d Ha). destruct d as [|[v n] d]; [done|]. apply (Hcell a _ v Ha). left.
      - specialize (Hc a). rewrite Ha in Hc. by destruct Hc.
      - intros v Hv. by apply (Hcell a d v). }
    rewrite (json_counts3_map DA DV' strA strV _ HA HV' Hd HD). unfold written3.
    assert (HDA : forall k, k ∈ dkeys (n3_av (tsum u)) -> DA k).
    { intros k Hk; apply dget_key_Some in Hk as (d & Hk); by apply HD in Hk as [? _]. }
    split; [|split].
    - intros a v Ha Hv. destruct (Hkey v Hv) as [Hnk _].
      rewrite (dget_map strA (fun d => map (fun q => (key3 strV (fst q), snd q)) d) DA HA) by done.
      unfold count_of. specialize (Hc a). destruct (dget a (n3_av (tsum u))) as [d|] eqn:E; [|done]. cbn [option_map].
      assert (Ek : strV v = key3 strV v) by (unfold key3; by rewrite decide_False).
      rewrite Ek, (dget_map (key3 strV) (fun n : cell N => n) DV' HV') by ((by right) || by eapply HD).
      destruct Hc as (_ & _ & Hcnt & _). simpl in Hcnt. rewrite (Hcnt v Hnk).
      destruct (decide (occ3 lu a v = 0)) as [E0|E0]; [done|]. cbn [option_map]. by rewrite decide_False.
    - intros a Ha.
      rewrite (dget_map strA (fun d => map (fun q => (key3 strV (fst q), snd q)) d) DA HA) by done.
      unfold numeric_of. specialize (Hc a). destruct (dget a (n3_av (tsum u))) as [d|] eqn:E; [|done]. cbn [option_map].
      assert (Ek : "#ContinuousValue#"%string = key3 strV cv_key) by (unfold key3; by rewrite decide_True).
      rewrite Ek, (dget_map (key3 strV) (fun n : cell N => n) DV' HV') by ((by left) || by eapply HD).
      destruct Hc as (_ & _ & _ & Hnum). simpl in Hnum. destruct (nums lu a); [by rewrite Hnum|].
      by destruct Hnum as (c & -> & _).
    - intros x y H. destruct (dget x _) as [d'|] eqn:E; [|done].
      apply (dget_map_inv strA (fun d => map (fun q => (key3 strV (fst q), snd q)) d)) in E as (a & d & Hin & -> & ->).
      destruct (dget y _) as [n|] eqn:E; [|done].
      apply (dget_map_inv (key3 strV) (fun n : cell N => n)) in E as (v & n' & Hin' & -> & ->).
      apply (In_dget _ _ _ Hd) in Hin. destruct (HD a d Hin) as (Ha & _ & Hv).
      exists a. split; [done|]. split; [done|].
      assert (Hv' : DV' v) by (apply Hv, elem_of_list_fmap; by exists (v, n')).
      destruct Hv' as [->|Hv']; [left; unfold key3; by rewrite decide_True|right].
      exists v. split; [done|]. unfold key3. rewrite decide_False; [done|]. by apply Hkey.
  Qed.
End Counts3.
