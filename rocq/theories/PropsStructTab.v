(** * What the structure mapper's cost computes, in terms of the instances (C93);
    exact arithmetic. *)
From Coq Require Import Reals Lra.
From stdpp Require Import base decidable tactics list gmap strings.
From Coq Require Import ZArith.
From Verif Require Import Base Num TreeModel TreeFun TreeScore TreeRefine TreeSorts TreeInv
  SpecTree TreeState TreeTotal TreeLeaf TreeGen RSum Nominal NominalFacts ScoreR CV CVFacts Cobweb3 C3Facts C3Scales C3R C3Tree C3Total
  Query Query3 PyVal Preproc PreStd StructMap StructFacts PropsStruct StructTab Trestle SpecTrestle TrestleRun TrestleFacts TrestleFresh TrestleVals TrestleTotal
  PropsTotal PropsC3 PropsC3R PropsC3E PropsCU PropsCU3 Preproc2 PropsTrestle PropsTrestleR.
Set Default Proof Using "Type".
Open Scope list_scope.
Open Scope nat_scope.

(** ** The specification *)

(** [f] is the renaming that the dictionary [m] stands for. *)
Definition stands_for (m : list (attr * attr)) (f : string -> string) : Prop :=
  (forall o c, (o, c) ∈ m -> exists u, o = AStr u /\ c = AStr (f u)) /\
  (forall u, (forall c, (AStr u, c) ∉ m) -> f u = u).
(** Every attribute renamed. *)
Definition rename_all {V} (f : string -> string) (d : list (attr * V)) : list (attr * V) :=
  map (fun e => (rename_in f (fst e), snd e)) d.
(** The dictionary [d] is the instance [i] of strings, other nominal values and
    numbers. *)
Definition is_instance {N} (d : inst (val3 N)) (i : inst3 N) : Prop :=
  Forall2 (fun e p => fst e = fst p /\
    match snd e with PStr s => snd p = VNom (NStr s) | PX v => snd p = v | _ => False end) d i.

(** ** Renaming *)
Lemma rename_all_keys {V} f (d : list (attr * V)) : dkeys (rename_all f d) = map (rename_in f) (dkeys d).
Proof. unfold rename_all, dkeys. by rewrite !map_map. Qed.
Lemma rename_all_dget {V} f (d : list (attr * V)) a : (forall b, b ∈ dkeys d -> rename_in f b = rename_in f a -> b = a) ->
  dget (rename_in f a) (rename_all f d) = dget a d.
Proof.
  induction d as [|[b v] d IH]; intros Hi; [done|]. cbn [rename_all map dget fst snd].
  destruct (decide (a = b)) as [->|Hne]; [by rewrite decide_True|]. rewrite decide_False.
  - apply IH. intros c Hc. apply Hi. by right.
  - intros E. apply Hne. symmetry. apply Hi; [left|done].
Qed.
Lemma rename_all_none {V} f (d : list (attr * V)) b : (forall a, a ∈ dkeys d -> rename_in f a <> b) -> dget b (rename_all f d) = None.
Proof.
  intros H. apply dget_None. rewrite rename_all_keys. intros (a & -> & Ha)%elem_of_list_fmap. by apply (H a Ha).
Qed.

Definition inj_on (f : string -> string) (K : list attr) : Prop :=
  forall a b, a ∈ K -> b ∈ K -> rename_in f a = rename_in f b -> a = b.

Lemma separates_inj tkeys bkeys m f : separates tkeys bkeys m -> stands_for m f ->
  (forall o, component tkeys o -> ~ component bkeys o) -> inj_on f tkeys /\ forall u, is_var u = true -> is_var (f u) = true.
Proof.
  intros Hm [Hf1 Hf2] Hd.
  assert (Hcase : forall u, (AStr u, AStr (f u)) ∈ m \/ f u = u).
  { intros u. destruct (dget (AStr u) m) as [c|] eqn:E.
    - left. apply dget_In in E. destruct (Hf1 _ _ E) as (u' & [= <-] & ->). done.
    - right. apply Hf2. intros c Hc. apply (In_dget _ _ _ (sp_dict _ _ _ Hm)) in Hc. congruence. }
  assert (Hv : forall u, is_var u = true -> is_var (f u) = true).
  { intros u Hu. destruct (Hcase u) as [Hin| ->]; [|done]. destruct (sp_to _ _ _ Hm _ _ Hin) as [E|(w & b & E & Hw & _)].
    - injection E as E. by rewrite E.
    - injection E as ->. done. }
  split; [|exact Hv]. intros a b Ha Hb. rewrite !rename_in_arename. apply arename_inj.
  - intros u v Hu Hv'. assert (Cu : component tkeys (AStr u)) by (apply component_kvars; exists u; split; [done|]; by exists a).
    assert (Cv : component tkeys (AStr v)) by (apply component_kvars; exists v; split; [done|]; by exists b).
    intros E. destruct (Hcase u) as [Hi|Eu], (Hcase v) as [Hj|Ev].
    + rewrite <- E in Hj. assert (H : AStr u = AStr v) by (by eapply (sp_inj _ _ _ Hm)). congruence.
    + destruct (sp_to _ _ _ Hm _ _ Hi) as [H|H]; [congruence|]. exfalso. rewrite E, Ev in H. by apply (Hd _ Cv).
    + destruct (sp_to _ _ _ Hm _ _ Hj) as [H|H]; [congruence|]. exfalso. rewrite <- E, Eu in H. by apply (Hd _ Cu).
    + congruence.
  - intros u Hu. apply Hv. by eapply avars_var.
  - intros u Hu. apply Hv. by eapply avars_var.
Qed.

Lemma stands_flat tkeys bkeys m f a : separates tkeys bkeys m -> stands_for m f -> flat_name m a = rename_in f a.
Proof.
  intros Hm [Hf1 Hf2]. rewrite rename_in_arename, (flat_name_var m a (separates_var _ _ _ Hm)).
  assert (E : forall u, fm m u = f u).
  { intros u. unfold fm. destruct (dget (AStr u) m) as [c|] eqn:E.
    - apply dget_In in E. destruct (Hf1 _ _ E) as (u' & [= <-] & ->). done.
    - symmetry. apply Hf2. intros c Hc. apply (In_dget _ _ _ (sp_dict _ _ _ Hm)) in Hc. congruence. }
  induction a as [s|l IH|z] using attr_ind'; simpl; [by rewrite E| |done]. f_equal.
  induction IH as [|b l Hb Hl IHl]; simpl; [done|]. by rewrite Hb, IHl.
Qed.

Lemma rename_flat_all {V} bkeys m f (d : list (attr * V)) : dwf d -> separates (dkeys d) bkeys m -> stands_for m f ->
  (forall o, component (dkeys d) o -> ~ component bkeys o) -> rename_flat m d = rename_all f d /\ dwf (rename_all f d).
Proof.
  intros Hw Hm Hf Hd. destruct (separates_inj _ _ _ _ Hm Hf Hd) as [Hi _].
  assert (Hnd : NoDup (map (rename_in f) (dkeys d))).
  { unfold dwf in Hw. revert Hw Hi. generalize (dkeys d) as K. clear. induction K as [|a K IH]; intros Hw Hi; simpl; [constructor|].
    apply NoDup_cons in Hw as [Ha Hw]. apply NoDup_cons. split.
    - intros (b & E & Hb)%elem_of_list_fmap. assert (a = b) as -> by (apply Hi; [left|by right|done]). done.
    - apply IH; [done|]. intros b c Hb Hc. apply Hi; by right. }
  split; [|unfold dwf; by rewrite rename_all_keys]. unfold rename_flat.
  rewrite (fold_dset_app (flat_name m) snd d []).
  - simpl. apply map_ext. intros [a v]. cbn [fst snd]. by rewrite (stands_flat _ _ _ _ _ Hm Hf).
  - simpl. unfold dkeys in Hnd. rewrite map_map in Hnd. erewrite map_ext; [exact Hnd|].
    intros [a v]. cbn [fst snd]. by rewrite (stands_flat _ _ _ _ _ Hm Hf).
Qed.

(** ** Tables of renamed instances *)
Section Ren.
  Context (f : string -> string) (K : list attr) (Hi : inj_on f K).
  Notation ren := (rename_all f).

  Lemma occ3_ren (l : list I3) a v : a ∈ K -> (forall i b, i ∈ l -> b ∈ dkeys i -> b ∈ K) -> occ3 (map ren l) (rename_in f a) v = occ3 l a v.
  Proof using Hi.
    intros Ha. induction l as [|i l IH]; intros Hl; [done|]. cbn [map occ3]. rewrite IH by (intros j b Hj; apply Hl; by right).
    rewrite rename_all_dget; [done|]. intros b Hb. apply Hi; [|done]. apply (Hl i); [left|done].
  Qed.
  Lemma nums_ren (l : list I3) a : a ∈ K -> (forall i b, i ∈ l -> b ∈ dkeys i -> b ∈ K) -> nums (map ren l) (rename_in f a) = nums l a.
  Proof using Hi.
    intros Ha. induction l as [|i l IH]; intros Hl; [done|]. cbn [map nums]. rewrite IH by (intros j b Hj; apply Hl; by right).
    rewrite rename_all_dget; [done|]. intros b Hb. apply Hi; [|done]. apply (Hl i); [left|done].
  Qed.
  Lemma none_ren (l : list I3) b v : (forall a, a ∈ K -> rename_in f a <> b) -> (forall i b, i ∈ l -> b ∈ dkeys i -> b ∈ K) ->
    occ3 (map ren l) b v = 0 /\ nums (map ren l) b = [].
  Proof.
    intros Hb. induction l as [|i l IH]; intros Hl; [done|]. cbn [map occ3 nums].
    destruct (IH ltac:(intros j c Hj; apply Hl; by right)) as [-> ->]. rewrite rename_all_none; [done|].
    intros a Ha. apply Hb. apply (Hl i); [left|done].
  Qed.
End Ren.

Lemma HistR_rename f (s : nsum3 ROps) l : HistR s l -> inj_on f (dkeys (n3_av s)) ->
  HistR (NSum3 (n3_count s) (rename_all f (n3_av s))) (map (rename_all f) l).
Proof.
  intros HH Hi. pose proof HH as (Hc & Hwf & Hne & Hcells).
  assert (HK : forall i b, i ∈ l -> b ∈ dkeys i -> b ∈ dkeys (n3_av s)).
  { intros i b Hil Hb. apply (Hist3_key summarises s l b HH). by exists i. }
  split; [cbn; by rewrite map_length|]. cbn [n3_av].
  assert (Hcase : forall b, (exists a, a ∈ dkeys (n3_av s) /\ rename_in f a = b) \/ (forall a, a ∈ dkeys (n3_av s) -> rename_in f a <> b)).
  { intros b. destruct (decide (b ∈ map (rename_in f) (dkeys (n3_av s)))) as [Hb|Hb].
    - left. apply elem_of_list_fmap in Hb as (a & -> & Ha). eauto.
    - right. intros a Ha <-. apply Hb. apply elem_of_list_fmap. eauto. }
  split; [|split].
  - unfold dwf. rewrite rename_all_keys. unfold dwf in Hwf. revert Hwf Hi. generalize (dkeys (n3_av s)) as K. clear.
    induction K as [|a K IH]; intros Hw Hi; simpl; [constructor|]. apply NoDup_cons in Hw as [Ha Hw]. apply NoDup_cons. split.
    + intros (b & E & Hb)%elem_of_list_fmap. assert (a = b) as -> by (apply Hi; [left|by right|done]). done.
    + apply IH; [done|]. intros b c Hb Hc. apply Hi; by right.
  - intros b d Hd. destruct (Hcase b) as [(a & Ha & <-)|Hb].
    + rewrite rename_all_dget in Hd by (intros c Hc'; by apply Hi). by eapply Hne.
    + by rewrite rename_all_none in Hd.
  - intros b. destruct (Hcase b) as [(a & Ha & <-)|Hb].
    + rewrite rename_all_dget by (intros c Hc'; by apply Hi). rewrite (nums_ren f _ Hi l a Ha HK).
      eapply cells_ext; [apply Hcells|]. intros v. symmetry. by apply (occ3_ren f _ Hi).
    + rewrite (rename_all_none f _ b Hb). pose proof (fun v => none_ren f _ l b v Hb HK) as Hn.
      destruct (Hn cv_key) as [_ En]. rewrite En. eapply cells_ext; [apply cells_nil|]. intros v. by destruct (Hn v) as [-> _].
Qed.

(** ** The count of a table *)
Definition have (a : attr) (l : list I3) : nat := List.length (List.filter (fun i => bool_decide (a ∈ dkeys i)) l).

Lemma cells_have (l : list I3) a (ks : list nom) : NoDup ks -> occ3 l a cv_key = 0 ->
  (forall v, occ3 l a v <> 0 -> v ∈ ks) -> (nums l a <> [] -> cv_key ∈ ks) ->
  sumn (map (fun k => if decide (k = cv_key) then List.length (nums l a) else occ3 l a k) ks) = have a l.
Proof.
  intros Hnd. induction l as [|i l IH]; intros H0 Ho Hn.
  { unfold have. simpl. clear. induction ks as [|k ks IH]; simpl; [done|]. case_decide; simpl; lia. }
  cbn [occ3 nums] in *.
  set (w := fun k : nom => (match dget a i with
    | Some (VNom v) => if decide (k = cv_key) then 0 else if decide (v = k) then 1 else 0
    | Some (VNum _) => if decide (k = cv_key) then 1 else 0
    | None => 0 end)%nat).
  assert (Hsum : forall k0 ks, NoDup ks -> k0 ∈ ks -> (forall k, k <> k0 -> w k = 0) -> sumn (map w ks) = w k0).
  { clear. intros k0 ks Hnd Hin Hz. induction Hnd as [|k ks Hk Hnd IH]; [by apply elem_of_nil in Hin|]. simpl.
    apply elem_of_cons in Hin as [->|Hin].
    - assert (E : sumn (map w ks) = 0); [|lia]. clear IH Hnd. induction ks as [|k' ks IH]; simpl; [done|].
      apply not_elem_of_cons in Hk as [H1 H2]. rewrite Hz, IH; [done|done|]. by intros ->.
    - rewrite IH by done. rewrite Hz; [done|]. by intros ->. }
  assert (Hone : sumn (map w ks) = if bool_decide (a ∈ dkeys i) then 1 else 0).
  { unfold w. destruct (dget a i) as [[v|y]|] eqn:E.
    - rewrite bool_decide_eq_true_2 by (by eapply dget_Some_key).
      assert (Hv : v <> cv_key). { intros ->. rewrite decide_True in H0 by done. lia. }
      etransitivity; [apply (Hsum v)|]; unfold w; try rewrite E.
      + done.
      + apply Ho. rewrite decide_True by done. lia.
      + intros k Hk. destruct (decide (k = cv_key)); [done|]. rewrite decide_False; [done|congruence].
      + by rewrite decide_False, decide_True.
    - rewrite bool_decide_eq_true_2 by (by eapply dget_Some_key). etransitivity; [apply (Hsum cv_key)|]; unfold w; try rewrite E.
      + done.
      + by apply Hn.
      + intros k Hk. by rewrite decide_False.
      + by rewrite decide_True.
    - rewrite bool_decide_eq_false_2 by (by apply dget_None). clear. induction ks; simpl; lia. }
  assert (IH' : sumn (map (fun k => if decide (k = cv_key) then List.length (nums l a) else occ3 l a k) ks) = have a l).
  { apply IH.
    - destruct (dget a i) as [[v|y]|]; lia.
    - intros v Hv. apply Ho. lia.
    - intros Hv. apply Hn. destruct (dget a i) as [[v|y]|]; done. }
  transitivity (sumn (map w ks) + have a l).
  - rewrite <- IH', <- sumn_map_add. f_equal. apply map_ext. intros k. unfold w.
    destruct (decide (k = cv_key)); destruct (dget a i) as [[v|y]|]; simpl; lia.
  - rewrite Hone. unfold have. cbn [List.filter]. destruct (bool_decide (a ∈ dkeys i)); simpl; lia.
Qed.

Lemma attr_num_have s l a d : HistR s l -> dget a (n3_av s) = Some d -> attr_num d = Ok (have a l).
Proof.
  intros (_ & _ & _ & Hcells) Hd. specialize (Hcells a). rewrite Hd in Hcells. change (default [] (Some d)) with d in Hcells.
  destruct Hcells as (Hwf & H0 & Hn & Hc).
  set (w := fun k : nom => if decide (k = cv_key) then List.length (nums l a) else occ3 l a k).
  assert (Hq : forall q, q ∈ d -> cell_num q = Ok (w (fst q))).
  { intros [v q] Hin. apply (In_dget v q d Hwf) in Hin. unfold cell_num, w. cbn [fst snd]. destruct (decide (v = cv_key)) as [->|Hv].
    - destruct (nums l a) as [|y ys]; [congruence|]. destruct Hc as (c & E & Hx). assert (q = CVc c) as -> by congruence.
      unfold summarises in Hx. by subst c.
    - rewrite (Hn v Hv) in Hin. case_decide; [done|]. by injection Hin as <-. }
  assert (Hf : forall d n, (forall q, q ∈ d -> cell_num q = Ok (w (fst q))) ->
    rfold (fun n q => rbind (cell_num (N:=ROps) q) (fun k => Ok (n + k))) n d = Ok (n + sumn (map w (dkeys d)))).
  { clear. induction d as [|q d IH]; intros n H; simpl; [f_equal; lia|]. rewrite (H q ltac:(left)). cbn [rbind].
    rewrite IH by (intros r Hr; apply H; by right). f_equal. unfold dkeys. lia. }
  unfold attr_num. rewrite (Hf d 0 Hq). f_equal. simpl. apply cells_have; [done|done| |].
  - intros v Hv. assert (Hv' : v <> cv_key) by congruence. specialize (Hn v Hv'). rewrite decide_False in Hn by done. by eapply dget_Some_key.
  - intros Hx. destruct (nums l a) as [|y ys]; [done|]. destruct Hc as (c & E & _). by eapply dget_Some_key.
Qed.
Lemma have_le a l : have a l <= List.length l.
Proof. unfold have. induction l as [|i l IH]; simpl; [lia|]. destruct (bool_decide _); simpl; lia. Qed.
Lemma have_all a l : (forall i, i ∈ l -> a ∈ dkeys i) -> have a l = List.length l.
Proof.
  unfold have. induction l as [|i l IH]; intros H; simpl; [done|]. rewrite bool_decide_eq_true_2 by (apply H; left). simpl.
  rewrite IH; [done|]. intros j Hj. apply H. by right.
Qed.
Lemma tab_count_max s l : HistR s l -> n3_av s <> [] ->
  tab_count (n3_av s) = Ok (foldr Nat.max 0 (map (fun e => have (fst e) l) (n3_av s))).
Proof.
  intros HH Hne. pose proof HH as (_ & Hwf & _). unfold tab_count.
  assert (Hm : rmapM (fun e => attr_num (snd e)) (n3_av s) = Ok (map (fun e => have (fst e) l) (n3_av s))).
  { assert (Hall : forall e, e ∈ n3_av s -> attr_num (snd e) = Ok (have (fst e) l)).
    { intros [a d] He. apply (In_dget _ _ _ Hwf) in He. by eapply attr_num_have. }
    revert Hall. generalize (n3_av s) as av. clear. induction av as [|e av IH]; intros H; [done|]. simpl.
    rewrite (H e ltac:(left)). cbn [rbind]. rewrite IH by (intros q Hq; apply H; by right). done. }
  rewrite Hm. by destruct (n3_av s).
Qed.
(** Right if some attribute is in every instance. *)
Lemma tab_count_full s l a : HistR s l -> l <> [] -> (forall i, i ∈ l -> a ∈ dkeys i) -> tab_count (n3_av s) = Ok (List.length l).
Proof.
  intros HH Hl Ha. assert (Hk : a ∈ dkeys (n3_av s)).
  { apply (Hist3_key summarises s l a HH). destruct l as [|i l]; [done|]. exists i. split; [left|apply Ha; left]. }
  apply elem_of_list_fmap in Hk as ([a' d] & -> & Hin).
  rewrite (tab_count_max s l HH) by (intros E; rewrite E in Hin; by apply elem_of_nil in Hin). f_equal. apply Nat.le_antisymm.
  - clear. induction (n3_av s) as [|e av IH]; simpl; [lia|]. pose proof (have_le (fst e) l). lia.
  - rewrite <- (have_all _ l Ha). clear -Hin. induction (n3_av s) as [|e av IH]; [by apply elem_of_nil in Hin|]. simpl.
    apply elem_of_cons in Hin as [<-|Hin]; [cbn [fst]; lia|]. specialize (IH Hin). cbn [fst] in IH. lia.
Qed.

(** ** What the cost needs *)
Lemma rename_visible f a : (forall u, is_var u = true -> is_var (f u) = true) -> visible a = true -> visible (rename_in f a) = true.
Proof. intros Hf Ha. rewrite rename_in_arename. apply visible_arename; [|done]. intros u Hu. apply Hf. by eapply avars_var. Qed.
Lemma fits3_rename f (i : I3) : fits3 i -> inj_on f (dkeys i) -> (forall u, is_var u = true -> is_var (f u) = true) ->
  dwf (rename_all f i) -> fits3 (rename_all f i).
Proof.
  intros [(Hw & Ha & Hv) (a & Hva & Hka)] Hi Hf Hw'. split; [split; [done|split]|].
  - rewrite rename_all_keys. apply Forall_forall. intros b (c & -> & Hc)%elem_of_list_fmap. rewrite Forall_forall in Ha. specialize (Ha c Hc).
    destruct c as [s|[|y l]|z]; cbn [rename_in]; try done. destruct (is_var s) eqn:Es; [|done]. apply Hf in Es. by destruct (f s).
  - intros b Hb. pose proof (dget_Some_key _ _ _ Hb) as Hk. rewrite rename_all_keys in Hk. apply elem_of_list_fmap in Hk as (c & -> & Hc).
    rewrite rename_all_dget in Hb by (intros d Hd; by apply Hi). by apply (Hv c).
  - exists (rename_in f a). split; [by apply rename_visible|]. rewrite rename_all_keys. apply elem_of_list_fmap. eauto.
Qed.
Lemma is_instance_keys {N} d (i : inst3 N) : is_instance d i -> dkeys d = dkeys i.
Proof. unfold dkeys. induction 1 as [|e p d i [E _] _ IH]; simpl; congruence. Qed.
Lemma is_instance_hashed {N} d (i : inst3 N) : is_instance d i -> hashed d = Ok i.
Proof.
  unfold hashed. induction 1 as [|[a v] [b w] d i [E Ev] _ IH]; [done|]. cbn [rmapM fst snd] in *. subst b.
  destruct v as [s|v| |]; try done; cbn [scalar]; cbn [rbind]; rewrite IH; by subst w.
Qed.
Lemma is_instance_rename {N} f d (i : inst3 N) : is_instance d i -> is_instance (rename_all f d) (rename_all f i).
Proof.
  unfold is_instance, rename_all. induction 1 as [|e p d i [E Ev] _ IH]; simpl; [constructor|]. constructor; [|exact IH].
  cbn [fst snd]. by rewrite E.
Qed.
Lemma HistR_copy (s : nsum3 ROps) l : HistR s l -> exists s', tcopy C3 s = Ok s' /\ HistR s' l.
Proof.
  intros Hs. destruct (Hist3_add summarises eq summarises_laws _ _ [] l (Hist3_empty summarises) Hs) as (s' & E & Hs').
  exists s'. split; [|exact Hs']. unfold tcopy, tadd. simpl. by rewrite E.
Qed.
Lemma nneg_R (g : R) : nneg ROps g = (- g)%R.
Proof. unfold nneg. change (nofnat ROps 0) with 0%R. change (nsub ROps) with Rminus. lra. Qed.

Lemma inst_cost (unit : attr -> R) x (base : nsum3 ROps) h d (i : I3) m f : HistR base h -> scales_ok x -> is_instance d i -> fits3 i ->
  separates (dkeys i) (dkeys (n3_av base)) m -> stands_for m f ->
  (forall o, component (dkeys i) o -> ~ component (dkeys (n3_av base)) o) ->
  (forall a, unit a = eff_scale (escale x a)) ->
  exists g, mapping_cost x base d m = Ok (- g)%R /\ guess_rate3 unit (rename_all f i :: h) g.
Proof.
  intros Hb Hx Hdi Hfit Hm Hf Hd Hu. pose proof (is_instance_keys d i Hdi) as Ek. destruct (separates_inj _ _ _ _ Hm Hf Hd) as [Hi Hv].
  pose proof Hfit as [[Hw _] _].
  destruct (rename_flat_all (dkeys (n3_av base)) m f i Hw Hm Hf Hd) as [_ Hw2].
  destruct (rename_flat_all (dkeys (n3_av base)) m f d) as [E1 _]; [by unfold dwf; rewrite Ek|by rewrite Ek|done|by rewrite Ek|].
  pose proof (fits3_rename f i Hfit Hi Hv Hw2) as [Hg Hvis].
  unfold mapping_cost. destruct (HistR_copy base h Hb) as (t & -> & Ht). cbn [rbind].
  rewrite E1, (is_instance_hashed _ _ (is_instance_rename f d i Hdi)). cbn [rbind].
  destruct (Hist3_inc summarises eq summarises_laws t h _ Ht Hg) as (t2 & E2 & Ht2).
  unfold tinc. simpl. rewrite E2. cbn [rbind].
  destruct (ecg3_rate_some unit x t2 _ Ht2 Hx) as (g & Eg & Hr); [|exact Hu|].
  { exists (rename_all f i). split; [left|done]. }
  rewrite Eg. exists g. split; [|done]. cbn [rbind]. f_equal. exact (nneg_R g).
Qed.

Lemma table_cost (unit : attr -> R) x (base tgt : nsum3 ROps) h l m f a : HistR base h -> HistR tgt l -> scales_ok x ->
  l <> [] -> (forall j, j ∈ l -> has_visible3 j) -> (forall j, j ∈ l -> a ∈ dkeys j) ->
  separates (dkeys (n3_av tgt)) (dkeys (n3_av base)) m -> stands_for m f ->
  (forall o, component (dkeys (n3_av tgt)) o -> ~ component (dkeys (n3_av base)) o) ->
  (forall a, unit a = eff_scale (escale x a)) ->
  exists g, mapping_cost_tab x base (n3_av tgt) m = Ok (- g)%R /\ guess_rate3 unit (h ++ map (rename_all f) l) g.
Proof.
  intros Hb Ht Hx Hne Hvis Ha Hm Hf Hd Hu. destruct (separates_inj _ _ _ _ Hm Hf Hd) as [Hi Hv].
  pose proof Ht as (Hc & Hw & _).
  destruct (rename_flat_all (dkeys (n3_av base)) m f (n3_av tgt) Hw Hm Hf Hd) as [E1 _].
  pose proof (HistR_rename f tgt l Ht Hi) as Hr.
  assert (En : tab_count (rename_all f (n3_av tgt)) = Ok (n3_count tgt)).
  { pose proof (tab_count_full _ _ (rename_in f a) Hr) as H. cbn [n3_av] in H. rewrite H, map_length; [by rewrite Hc| |].
    - by destruct l.
    - intros j (j0 & -> & Hj)%elem_of_list_fmap. rewrite rename_all_keys. apply elem_of_list_fmap. eauto. }
  unfold mapping_cost_tab. cbv zeta. rewrite E1. destruct (HistR_copy base h Hb) as (t & -> & Ht'). cbn [rbind]. rewrite En. cbn [rbind].
  destruct (Hist3_add summarises eq summarises_laws t _ h _ Ht' Hr) as (t2 & E2 & Ht2).
  unfold tadd. simpl. rewrite E2. cbn [rbind].
  destruct (ecg3_rate_some unit x t2 _ Ht2 Hx) as (g & Eg & Hg); [|exact Hu|].
  { destruct l as [|j l]; [done|]. exists (rename_all f j). split; [apply elem_of_app; right; left|].
    destruct (Hvis j ltac:(left)) as (b & Hvb & Hkb). exists (rename_in f b). split; [by apply rename_visible|].
    rewrite rename_all_keys. apply elem_of_list_fmap. eauto. }
  rewrite Eg. exists g. split; [|done]. cbn [rbind]. f_equal. exact (nneg_R g).
Qed.

(** Every mapping that keeps the components apart stands for a renaming. *)
Lemma separates_stands tkeys bkeys m : separates tkeys bkeys m -> exists f, stands_for m f.
Proof.
  intros Hm. exists (fm m). split.
  - intros o c Hin. pose proof (sp_from _ _ _ Hm _ _ Hin) as (u & b & E & Hu). exists u. split; [done|]. subst o.
    pose proof (In_dget _ _ _ (sp_dict _ _ _ Hm) Hin) as E. unfold fm. rewrite E.
    destruct (sp_to _ _ _ Hm _ _ Hin) as [->|(w & b' & -> & _)]; done.
  - intros u Hu. unfold fm. destruct (dget (AStr u) m) as [c|] eqn:E; [|done]. apply dget_In in E. by destruct (Hu c).
Qed.

(** ** C93 *)
Section Trees.
  Context (rng : nat -> num ROps) (sc : option R) (inner : bool).
  Notation x0 := (@new_ctx ROps sc inner).

  Lemma concept_hist rng' sc' inner' evs s id tb : reachable C3 rng' (@new_ctx ROps sc' inner') evs s ->
    all_inst (C:=C3) (fits3 (N:=ROps)) evs -> all_ok evs -> in_tree s id -> table_of s id tb ->
    exists h, HistR tb h /\ (forall i, i ∈ h -> i ∈ history evs) /\ (history evs <> [] -> h <> []).
  Proof.
    intros Hr Hg Hao Hin Ht. pose proof (fits_good evs Hg) as Hgood.
    destruct (reachable_tinv C3 rng' _ _ _ histR_laws _ evs s Hr Hgood Hao) as (t & Hok & Htt).
    destruct (proj1 (in_tree_sub C3 s t id Hok) Hin) as (v & Hu & <-).
    rewrite (table_of_det _ _ _ _ _ Ht (sub_table _ _ _ _ Hok Hu)).
    destruct (tinv_sub C3 HistR LeafR good3 histR_laws t _ v Htt Hu) as (lu & Htu & Hsub & Hnl).
    exists lu. split; [by apply tinv_summ in Htu|]. split; [done|]. intros Hne. destruct Hnl as [-> |]; [|done].
    intros ->. apply tinv_summ in Htt, Htu. destruct Htt as [H1 _], Htu as [H2 _]. rewrite H1 in H2. simpl in H2. by destruct (history evs).
  Qed.

  (** The cost of a mapping of an instance to a concept. *)
  Theorem C93_instance_cost evs s id (base : nsum3 ROps) d (i : I3) m f :
    reachable C3 rng x0 evs s -> all_inst (C:=C3) (fits3 (N:=ROps)) evs -> all_ok evs ->
    in_tree s id -> table_of s id base -> is_instance d i -> fits3 i ->
    (forall o, component (map fst i) o -> ~ component (map fst (n3_av base)) o) ->
    separates (map fst i) (map fst (n3_av base)) m -> stands_for m f ->
    exists h g, (forall j, j ∈ h -> j ∈ history evs) /\ tabulates3 base h /\
      mapping_cost (st_ctx s) base d m = Ok (- g)%R /\
      guess_rate3 (unit_of sc inner (history evs)) (rename_all f i :: h) g.
  Proof.
    intros Hr Hg Hao Hin Ht Hdi Hi Hd Hm Hf. destruct (concept_hist rng sc inner evs s id base Hr Hg Hao Hin Ht) as (h & Hh & Hsub & _).
    destruct (inst_cost (unit_of sc inner (history evs)) (st_ctx s) base h d i m f Hh) as (g & E & Hrate); try done.
    { by eapply reach_scales_ok. }
    { intros a. by eapply unit_eff. }
    exists h, g. split; [done|]. split; [by apply HistR_tabulates|]. done.
  Qed.

  (** The cost of a mapping of one concept to another, of the same or another
      tree, if some attribute is in every instance below the former's root. *)
  Theorem C93_table_cost evs s id (base : nsum3 ROps) rng' sc' inner' evs' s' id' (tgt : nsum3 ROps) a m f :
    reachable C3 rng x0 evs s -> all_inst (C:=C3) (fits3 (N:=ROps)) evs -> all_ok evs ->
    in_tree s id -> table_of s id base ->
    reachable C3 rng' (@new_ctx ROps sc' inner') evs' s' -> all_inst (C:=C3) (fits3 (N:=ROps)) evs' -> all_ok evs' ->
    in_tree s' id' -> table_of s' id' tgt -> history evs' <> [] -> (forall j, j ∈ history evs' -> a ∈ map fst j) ->
    (forall o, component (map fst (n3_av tgt)) o -> ~ component (map fst (n3_av base)) o) ->
    separates (map fst (n3_av tgt)) (map fst (n3_av base)) m -> stands_for m f ->
    exists h l g, (forall j, j ∈ h -> j ∈ history evs) /\ tabulates3 base h /\
      (forall j, j ∈ l -> j ∈ history evs') /\ tabulates3 tgt l /\
      mapping_cost_tab (st_ctx s) base (n3_av tgt) m = Ok (- g)%R /\
      guess_rate3 (unit_of sc inner (history evs)) (h ++ map (rename_all f) l) g.
  Proof.
    intros Hr Hg Hao Hin Ht Hr' Hg' Hao' Hin' Ht' Hne Ha Hd Hm Hf.
    destruct (concept_hist rng sc inner evs s id base Hr Hg Hao Hin Ht) as (h & Hh & Hsub & _).
    destruct (concept_hist rng' sc' inner' evs' s' id' tgt Hr' Hg' Hao' Hin' Ht') as (l & Hl & Hsub' & Hnl).
    destruct (table_cost (unit_of sc inner (history evs)) (st_ctx s) base tgt h l m f a Hh Hl) as (g & E & Hrate); try done.
    { by eapply reach_scales_ok. }
    { by apply Hnl. }
    { intros j Hj. apply Hsub' in Hj. by apply (history_all _ _ _ Hg') in Hj as [_ ?]. }
    { intros j Hj. by apply Ha, Hsub'. }
    { intros b. by eapply unit_eff. }
    exists h, l, g. split; [done|]. split; [by apply HistR_tabulates|]. split; [done|]. split; [by apply HistR_tabulates|]. done.
  Qed.
End Trees.

(** get_mapping after transform: the mapping by which the target was renamed. *)
Theorem C93_get_mapping {F V} (cost : list (attr * attr) -> res F) orc bkeys (target : list (attr * V)) target' rev :
  oracle_ok orc -> NoDup (map fst target) -> (forall o, component (map fst target) o -> ~ component bkeys o) ->
  sm_transform cost orc None bkeys target = Ok (target', rev) ->
  exists m f, sm_get_mapping (Some rev) = Ok m /\ separates (map fst target) bkeys m /\ stands_for m f /\
    target' = rename_all f target /\
    ((exists c, component bkeys c) -> forall o, component (map fst target) o -> o ∈ map fst m).
Proof.
  intros Ho Hw Hd. unfold sm_transform. change (dkeys target) with (map fst target).
  destruct (flat_match cost orc None (map fst target) bkeys) as [m|] eqn:E; [|done]. cbn [rbind]. intros [= <- <-].
  destruct (C48_never_merges cost orc _ _ m Ho E) as [Hm Hall]. destruct (separates_stands _ _ _ Hm) as (f & Hf).
  exists m, f. split; [|split; [done|split; [done|split; [|done]]]].
  - unfold sm_get_mapping. f_equal. pose proof (sp_dict _ _ _ Hm) as Hwm.
    assert (Hj : forall o o' c, dget o m = Some c -> dget o' m = Some c -> o = o').
    { intros o o' c H1 H2. apply dget_In in H1, H2. by eapply (sp_inj _ _ _ Hm). }
    destruct (reverse_get m Hwm Hj) as (E1 & Hw1 & Hg1).
    destruct (reverse_get (reverse_mapping m) Hw1) as (E2 & _).
    { intros o o' c H1 H2. apply Hg1 in H1, H2. congruence. }
    rewrite E2, E1, map_map. rewrite <- (map_id m) at 2. apply map_ext. by intros [].
  - by destruct (rename_flat_all bkeys m f target Hw Hm Hf Hd).
Qed.

(** ** C93 for TrestleTree: the instance is mapped to the root of the tree, whose
    instances are those of the calls of ifit since the last clear, as they were
    mapped then.  [d3]: the instance after the first three stages. *)
Lemma hashed_is_instance {N} d (i : inst3 N) : hashed d = Ok i -> is_instance d i.
Proof.
  unfold hashed, is_instance. revert i. induction d as [|[a v] d IH]; intros i E; simpl in E; [injection E as <-; constructor|].
  destruct (scalar v) as [w|] eqn:Es; [|done]. cbn [rbind] in E. destruct (rmapM _ d) as [j'|] eqn:Ej; [|done]. cbn [rbind] in E.
  injection E as <-. constructor; [|by apply IH]. split; [done|]. cbn [snd]. destruct v; try done; by injection Es as <-.
Qed.
Section TrestleCost.
  Context (rng : nat -> R) (ncmp : nom -> nom -> option bool) (normal : R -> R -> A R).
  Context (pystr : attr -> string) (setord : list attr -> list attr) (rlimit : nat).
  Hypothesis Hnormal : forall m sd, amono (normal m sd).
  Hypothesis setord_spec : forall l x, x ∈ setord l <-> x ∈ l.
  Hypothesis Hdraws : @distinct_draws ROps rng.
  Context (sc : option R) (inner : bool).
  Notation x0 := (@new_ctx ROps sc inner).

  Theorem C93_trestle evs s (base : nsum3 ROps) q d :
    treachable (N:=ROps) rng ncmp normal pystr setord rlimit x0 evs s -> Forall t_sensible evs ->
    table_of (t_tree s) (st_root (t_tree s)) base -> t_fits d ->
    exists d3 hh c i, pipe_tr (stages (N:=ROps) pystr setord rlimit (st_ctx (t_tree s)) base q) [0; 1; 2] d new_objs (t_sym s) = (Ok d3, hh, c) /\
      is_instance d3 i /\
      forall m f, separates (map fst d3) (map fst (n3_av base)) m -> stands_for m f ->
        exists g, mapping_cost (st_ctx (t_tree s)) base d3 m = Ok (- g)%R /\
          guess_rate3 (unit_of sc inner (thistory evs)) (rename_all f i :: thistory evs) g.
  Proof using Hnormal setord_spec Hdraws.
    intros Hr Hsens Ht Hfd. pose proof Hfd as [Hw Hn Hv Hp].
    destruct (treachable_wn rng sc inner ncmp normal pystr setord rlimit Hnormal setord_spec evs s Hr Hsens) as (_ & Hg & _).
    destruct (C76_fitting_never_raises rng sc inner ncmp normal pystr setord rlimit Hnormal setord_spec Hdraws evs s Hr Hsens) as [Hao _].
    destruct (before_mapping_total (N:=ROps) pystr setord rlimit setord_spec (st_ctx (t_tree s)) base q d (t_sym s) Hw Hn Hv Hp)
      as (d3 & h3 & c3 & E3 & Hk3 & Hs3 & Hv3).
    destruct (before_mapping pystr setord rlimit setord_spec _ _ _ _ _ _ _ _ Hw E3) as (_ & _ & H3). destruct (H3 _ eq_refl) as [_ Hw3].
    destruct (hashed_total d3 Hv3) as [i Ei]. pose proof (hashed_is_instance d3 i Ei) as Hdi.
    pose proof (is_instance_keys d3 i Hdi) as Ek.
    assert (Hi : fits3 i).
    { split; [split; [|split]|].
      - unfold dwf. by rewrite <- Ek.
      - rewrite <- Ek. apply Forall_forall. intros a Ha. apply wn_ok. apply elem_of_list_fmap in Ha as (e & -> & He).
        unfold keysW in Hk3. rewrite Forall_forall in Hk3. by apply Hk3.
      - intros a Ha. by apply (hashed_clean d3 i (plain_clean d3 Hv3) Ei a (dget_Some_key _ _ _ Ha)).
      - destruct Hs3 as (a & Ha1 & Ha2). exists a. rewrite <- Ek. by split. }
    exists d3, h3, c3, i. split; [done|]. split; [done|]. intros m f Hm Hf.
    pose proof (treachable_calls (N:=ROps) rng ncmp normal pystr setord rlimit Hnormal x0 evs s Hr) as Hr'.
    pose proof (all_inst_calls _ _ Hg) as Hg'. pose proof (all_ok_calls _ Hao) as Hao'.
    destruct (reachable_tinv C3 rng _ _ _ histR_laws _ _ _ Hr' (fits_good _ Hg') Hao') as (t & Hok & Htt).
    rewrite history_calls in Htt. apply tinv_summ in Htt.
    assert (Hroot : table_of (t_tree s) (st_root (t_tree s)) (tsum t)).
    { rewrite (so_root _ _ _ Hok). apply (sub_table _ _ _ _ Hok), sub_refl. }
    rewrite <- (table_of_det _ _ _ _ _ Ht Hroot) in Htt.
    assert (Hin : in_tree (t_tree s) (st_root (t_tree s))) by constructor.
    pose proof (C50_names_apart (N:=ROps) rng ncmp normal pystr setord rlimit Hnormal setord_spec sc inner evs s _ _ _ _ _ _ _ _ _ Hr Hin Ht Hw E3) as Hd.
    unfold dkeys in Ek. rewrite Ek in Hd, Hm.
    apply (inst_cost _ _ base (thistory evs) d3 i m f Htt); try done.
    - by eapply reach_scales_ok.
    - intros a. rewrite <- history_calls. by eapply unit_eff.
  Qed.
End TrestleCost.

(** ** The count of a table of instances that share no attribute is wrong, and so
    is the cost: the root of a tree of two such instances, mapped to itself. *)
Definition only (a : string) : I3 := [(AStr a, VNom (NStr "v"))].
Definition both : I3 := [(AStr "a", VNom (NStr "v")); (AStr "b", VNom (NStr "v"))].
Lemma only_fits a : visible (AStr a) = true -> attr_ok (AStr a) = true -> fits3 (only a).
Proof.
  intros Hv Ha. split; [split; [apply NoDup_singleton|split; [by repeat constructor|]]|].
  - intros b E. cbn in E. case_decide; [|done]. by injection E.
  - exists (AStr a). split; [done|]. left.
Qed.
Lemma only_run : exists evs s, reachable RC3 ex_draws (@new_ctx ROps (Some 0.5%R) true) evs s /\
  all_inst (C:=RC3) (fits3 (N:=ROps)) evs /\ all_ok evs /\ history evs = [only "a"; only "b"].
Proof. apply ex_C3_run. repeat (apply Forall_cons_2; [by apply only_fits|]). apply Forall_nil_2. Qed.

Lemma only_occ x v : occ3 [only "b"; only "a"] x v = occ3 [both] x v.
Proof.
  unfold only, both. cbn [occ3 dget]. destruct (decide (x = AStr "a")) as [->|Ha].
  - rewrite decide_False by done. lia.
  - destruct (decide (x = AStr "b")); lia.
Qed.
Lemma only_nums x : nums [only "a"; only "b"] x = [].
Proof. unfold only. cbn [nums dget]. by do 2 case_decide. Qed.
Lemma both_nums x : nums [both] x = [].
Proof. unfold both. cbn [nums dget]. by repeat case_decide. Qed.

(** The rate of a table whose attributes are a and b, each with one value. *)
Lemma ab_rate unit (l : list I3) : (forall i, i ∈ l -> i = only "a" \/ i = only "b" \/ i = both) ->
  (exists i, i ∈ l /\ AStr "a" ∈ dkeys i) -> (exists i, i ∈ l /\ AStr "b" ∈ dkeys i) ->
  guess_rate3 unit l (((INR (occ3 l (AStr "a") (NStr "v")) / INR (length l)) ^ 2 + (INR (occ3 l (AStr "b") (NStr "v")) / INR (length l)) ^ 2) / 2)%R.
Proof.
  intros Hl Ha Hb. exists [AStr "a"; AStr "b"], [], [(AStr "a", NStr "v"); (AStr "b", NStr "v")].
  assert (Hin : forall i x w, i ∈ l -> dget x i = Some w -> (x = AStr "a" \/ x = AStr "b") /\ w = VNom (NStr "v")).
  { intros i x w Hi E. destruct (Hl i Hi) as [->|[->| ->]]; unfold only, both in E; cbn [dget] in E; repeat case_decide; try done; injection E as <-; auto. }
  split; [apply (bool_decide_unpack _); by vm_compute|]. split; [constructor|]. split; [apply (bool_decide_unpack _); by vm_compute|].
  split; [|split; [|split]].
  - intros x. rewrite !elem_of_cons, elem_of_nil. split.
    + by intros [->|[->|[]]].
    + intros [_ (i & Hi & Hx)]. apply dget_key_Some in Hx as (w & Hx). destruct (Hin i x w Hi Hx) as [[->| ->] _]; auto.
  - intros x. split; [by intros ?%elem_of_nil|]. intros [_ (i & y & Hi & Hx)]. by destruct (Hin i x _ Hi Hx) as [_ ?].
  - intros x v. rewrite !elem_of_cons, elem_of_nil. split.
    + intros [[= -> ->]|[[= -> ->]|[]]]; (split; [done|]).
      * destruct Ha as (i & Hi & Hk). exists i. split; [done|]. apply dget_key_Some in Hk as (w & Hw). by destruct (Hin _ _ _ Hi Hw) as [_ ->].
      * destruct Hb as (i & Hi & Hk). exists i. split; [done|]. apply dget_key_Some in Hk as (w & Hw). by destruct (Hin _ _ _ Hi Hw) as [_ ->].
    + intros [_ (i & Hi & Hx)]. destruct (Hin i x _ Hi Hx) as [[->| ->] [= ->]]; auto.
  - cbn [Rsum fst snd]. replace (INR (length [AStr "a"; AStr "b"])) with 2%R by (simpl; lra). f_equal. lra.
Qed.

Theorem C93_table_cost_refuted : exists (evs : list (event RC3)) s (tb : nsum3 ROps) g,
  reachable RC3 ex_draws (@new_ctx ROps (Some 0.5%R) true) evs s /\ all_inst (C:=RC3) (fits3 (N:=ROps)) evs /\ all_ok evs /\
  table_of s (st_root s) tb /\ tabulates3 tb (history evs) /\ history evs <> [] /\
  separates (map fst (n3_av tb)) (map fst (n3_av tb)) [] /\ (forall o, ~ component (map fst (n3_av tb)) o) /\
  guess_rate3 (unit_of (Some 0.5%R) true (history evs)) (history evs ++ history evs) g /\ g = (1 / 4)%R /\
  mapping_cost_tab (st_ctx s) tb (n3_av tb) [] = Ok (- (4 / 9))%R.
Proof.
  destruct only_run as (evs & s & Hr & Hg & Hao & Hh).
  destruct (reachable_tinv RC3 ex_draws _ _ _ histR_laws _ evs s Hr (fits_good evs Hg) Hao) as (t & Hok & Htt).
  apply tinv_summ in Htt. set (tb := tsum t) in *.
  assert (Ht : table_of s (st_root s) tb). { rewrite (so_root _ _ _ Hok). apply (sub_table _ _ _ _ Hok), sub_refl. }
  assert (Hun : forall a, unit_of (Some 0.5%R) true (history evs) a = eff_scale (escale (st_ctx s) a)) by (intros a; by eapply unit_eff).
  assert (Hx : scales_ok (st_ctx s)) by (by eapply reach_scales_ok).
  clearbody tb. exists evs, s, tb, (1 / 4)%R. rewrite Hh in *.
  assert (Hkeys : forall x, x ∈ dkeys (n3_av tb) -> x = AStr "a" \/ x = AStr "b").
  { intros x Hk. apply (Hist3_key summarises tb _ x Htt) in Hk as (i & Hi & Hk). rewrite !elem_of_cons, elem_of_nil in Hi.
    destruct Hi as [->|[->|[]]]; cbn in Hk; apply elem_of_list_singleton in Hk; auto. }
  assert (Hnc : forall o, ~ component (map fst (n3_av tb)) o).
  { intros o Ho. apply component_kvars in Ho as (v & -> & (x & Hk & Hv)). destruct (Hkeys x Hk) as [->| ->]; cbn in Hv; by apply elem_of_nil in Hv. }
  assert (Hsep : separates (map fst (n3_av tb)) (map fst (n3_av tb)) []).
  { split; [constructor|..]; intros *; by intros ?%elem_of_nil. }
  split; [done|]. split; [done|]. split; [done|]. split; [done|]. split; [by apply HistR_tabulates|]. split; [done|].
  split; [done|]. split; [done|]. split; [|split; [done|]].
  - replace (1 / 4)%R with (((INR (occ3 ([only "a"; only "b"] ++ [only "a"; only "b"]) (AStr "a") (NStr "v")) / INR (length ([only "a"; only "b"] ++ [only "a"; only "b"]))) ^ 2
      + (INR (occ3 ([only "a"; only "b"] ++ [only "a"; only "b"]) (AStr "b") (NStr "v")) / INR (length ([only "a"; only "b"] ++ [only "a"; only "b"]))) ^ 2) / 2)%R.
    + apply ab_rate.
      * intros i Hi. cbn in Hi. rewrite !elem_of_cons, elem_of_nil in Hi. naive_solver.
      * exists (only "a"). split; left.
      * exists (only "b"). split; [right; left|left].
    + assert (E1 : occ3 ([only "a"; only "b"] ++ [only "a"; only "b"]) (AStr "a") (NStr "v") = 2) by (by vm_compute).
      assert (E2 : occ3 ([only "a"; only "b"] ++ [only "a"; only "b"]) (AStr "b") (NStr "v") = 2) by (by vm_compute).
      rewrite E1, E2. simpl. lra.
  - (* the table with count 1 is that of one instance with both attributes *)
    assert (H1 : HistR (NSum3 1 (n3_av tb)) [both]).
    { destruct Htt as (_ & Hw & Hne & Hcells). split; [done|]. split; [done|]. split; [done|]. cbn [n3_av]. intros x.
      rewrite both_nums. specialize (Hcells x). rewrite only_nums in Hcells. eapply cells_ext; [exact Hcells|]. intros v.
      rewrite <- only_occ. cbn [occ3]. lia. }
    assert (En : tab_count (n3_av tb) = Ok 1).
    { apply (tab_count_full _ [both] (AStr "a") H1); [done|]. intros i ->%elem_of_list_singleton. left. }
    assert (Er : rename_flat [] (n3_av tb) = n3_av tb).
    { destruct Htt as (_ & Hw & _). destruct (rename_flat_all (dkeys (n3_av tb)) [] (fun u => u) (n3_av tb) Hw Hsep) as [E _].
      - split; [intros *; by intros ?%elem_of_nil|done].
      - intros o Ho. by destruct (Hnc o).
      - rewrite E. unfold rename_all. rewrite <- (map_id (n3_av tb)) at 2. apply map_ext_in. intros [x d] Hin. cbn [fst snd].
        assert (Hk : x ∈ dkeys (n3_av tb)) by (apply elem_of_list_fmap; exists (x, d); split; [done|by apply elem_of_list_In]).
        by destruct (Hkeys x Hk) as [->| ->]. }
    unfold mapping_cost_tab. cbv zeta. rewrite Er. destruct (HistR_copy tb _ Htt) as (t1 & -> & Ht1). cbn [rbind]. rewrite En. cbn [rbind].
    destruct (Hist3_add summarises eq summarises_laws t1 _ _ _ Ht1 H1) as (t2 & E2 & Ht2).
    unfold tadd. simpl. rewrite E2. cbn [rbind].
    destruct (ecg3_rate_some (unit_of (Some 0.5%R) true [only "a"; only "b"]) (st_ctx s) t2 _ Ht2 Hx) as (g & Eg & Hrate); [|exact Hun|].
    { exists both. split; [right; right; left|]. exists (AStr "a"). split; [done|left]. }
    rewrite Eg. cbn [rbind]. f_equal. etransitivity; [exact (nneg_R g)|]. f_equal.
    eapply guess_rate3_det; [exact Hrate|].
    replace (4 / 9)%R with (((INR (occ3 ([only "a"; only "b"] ++ [both]) (AStr "a") (NStr "v")) / INR (length ([only "a"; only "b"] ++ [both]))) ^ 2
      + (INR (occ3 ([only "a"; only "b"] ++ [both]) (AStr "b") (NStr "v")) / INR (length ([only "a"; only "b"] ++ [both]))) ^ 2) / 2)%R.
    + apply ab_rate.
      * intros i Hi. cbn in Hi. rewrite !elem_of_cons, elem_of_nil in Hi. naive_solver.
      * exists (only "a"). split; left.
      * exists (only "b"). split; [right; left|left].
    + assert (E3 : occ3 ([only "a"; only "b"] ++ [both]) (AStr "a") (NStr "v") = 2) by (by vm_compute).
      assert (E4 : occ3 ([only "a"; only "b"] ++ [both]) (AStr "b") (NStr "v") = 2) by (by vm_compute).
      rewrite E3, E4. simpl. lra.
Qed.

(** ** The hypotheses are met: one component, named ?o1 in the base and ?x in the
    target.  Mapped to each other they are always guessed right. *)
Definition red (v : string) : I3 := [(rel_a v, VNom (NStr "red"))].
Definition x_to_o1 : list (attr * attr) := [(AStr "?x", AStr "?o1")].
Definition f_x_o1 (u : string) : string := if decide (u = "?x"%string) then "?o1"%string else u.
Lemma red_fits v : fits3 (red v).
Proof.
  split; [split; [apply NoDup_singleton|split; [by repeat constructor|]]|].
  - intros b E. cbn in E. case_decide; [|done]. by injection E.
  - exists (rel_a v). split; [done|]. left.
Qed.
Lemma red_run l : exists evs s, reachable RC3 ex_draws (@new_ctx ROps (Some 0.5%R) true) evs s /\
  all_inst (C:=RC3) (fits3 (N:=ROps)) evs /\ all_ok evs /\ history evs = map red l.
Proof. apply ex_C3_run. induction l; constructor; [apply red_fits|done]. Qed.
Lemma x_to_o1_stands : stands_for x_to_o1 f_x_o1.
Proof.
  split.
  - intros o c [= -> ->]%elem_of_list_singleton. by exists "?x"%string.
  - intros u Hu. unfold f_x_o1. case_decide as E; [|done]. subst u. by destruct (Hu (AStr "?o1")); left.
Qed.
Lemma red_component v w : component [rel_a v] (AStr w) -> is_var v = true -> w = v.
Proof.
  intros H Hv. apply component_kvars in H as (u & [= ->] & (x & ->%elem_of_list_singleton & Hu)).
  unfold rel_a in Hu. cbn in Hu. rewrite Hv in Hu. cbn in Hu. by apply elem_of_list_singleton in Hu.
Qed.
Lemma x_to_o1_separates : separates [rel_a "?x"] [rel_a "?o1"] x_to_o1.
Proof.
  split; [apply NoDup_singleton|..].
  - intros o c [= -> ->]%elem_of_list_singleton. apply component_kvars. exists "?x"%string. split; [done|]. exists (rel_a "?x"). split; [left|]. by left.
  - intros o c [= -> ->]%elem_of_list_singleton. right. apply component_kvars. exists "?o1"%string. split; [done|]. exists (rel_a "?o1"). split; [left|]. by left.
  - intros o o' c H1%elem_of_list_singleton H2%elem_of_list_singleton. congruence.
Qed.
Lemma red_apart o : component [rel_a "?x"] o -> ~ component [rel_a "?o1"] o.
Proof.
  intros H1 H2. assert (exists w, o = AStr w) as (w & ->) by (apply component_kvars in H1 as (w & -> & _); eauto).
  apply red_component in H1; [|done]. apply red_component in H2; [|done]. by subst w.
Qed.
Lemma red_root evs s l : reachable RC3 ex_draws (@new_ctx ROps (Some 0.5%R) true) evs s ->
  all_inst (C:=RC3) (fits3 (N:=ROps)) evs -> all_ok evs -> history evs = l -> forall v, l <> [] -> (forall i, i ∈ l -> i = red v) ->
  exists tb, table_of s (st_root s) tb /\ HistR tb l /\ map fst (n3_av tb) = [rel_a v].
Proof.
  intros Hr Hg Hao Hh v Hne Hl.
  destruct (reachable_tinv RC3 ex_draws _ _ _ histR_laws _ evs s Hr (fits_good evs Hg) Hao) as (t & Hok & Htt).
  apply tinv_summ in Htt. rewrite Hh in Htt. exists (tsum t). split; [|split; [done|]].
  - rewrite (so_root _ _ _ Hok). apply (sub_table _ _ _ _ Hok), sub_refl.
  - change (map fst (n3_av (tsum t))) with (dkeys (n3_av (tsum t))).
    pose proof (fun x => Hist3_key summarises _ l x Htt) as Hk. destruct Htt as (_ & Hw & _). unfold dwf in Hw.
    assert (Hp : Permutation (dkeys (n3_av (tsum t))) [rel_a v]).
    { apply NoDup_Permutation; [done|apply NoDup_singleton|]. intros x. rewrite Hk, elem_of_list_singleton. split.
      - intros (i & Hi & Hx). rewrite (Hl i Hi) in Hx. by apply elem_of_list_singleton in Hx.
      - intros ->. destruct l as [|i l]; [done|]. exists i. split; [left|]. rewrite (Hl i ltac:(left)). left. }
    by apply Permutation_length_1_inv in Hp || (symmetry in Hp; by apply Permutation_length_1_inv in Hp).
Qed.
Lemma red_rate unit l : l <> [] -> (forall i, i ∈ l -> i = red "?o1") -> guess_rate3 unit l 1%R.
Proof.
  intros Hne Hl. assert (Ho : occ3 l (rel_a "?o1") (NStr "red") = length l).
  { clear Hne. induction l as [|i l IH]; [done|]. cbn [occ3 length]. rewrite IH by (intros j Hj; apply Hl; by right).
    rewrite (Hl i ltac:(left)). cbn [red dget]. rewrite decide_True by done. by rewrite decide_True. }
  assert (Hin : exists i, i ∈ l) by (destruct l as [|i l]; [done|]; exists i; left). destruct Hin as (i0 & Hi0).
  exists [rel_a "?o1"], [], [(rel_a "?o1", NStr "red")].
  split; [apply NoDup_singleton|]. split; [constructor|]. split; [apply NoDup_singleton|]. split; [|split; [|split]].
  - intros a. rewrite elem_of_list_singleton. split.
    + intros ->. split; [done|]. exists i0. split; [done|]. rewrite (Hl i0 Hi0). left.
    + intros [_ (i & Hi & Ha)]. rewrite (Hl i Hi) in Ha. by apply elem_of_list_singleton in Ha.
  - intros a. split; [by intros ?%elem_of_nil|]. intros [_ (i & y & Hi & Hy)]. rewrite (Hl i Hi) in Hy. cbn [red dget] in Hy. by case_decide.
  - intros a v. rewrite elem_of_list_singleton. split.
    + intros [= -> ->]. split; [done|]. exists i0. split; [done|]. rewrite (Hl i0 Hi0). cbn [red dget]. by rewrite decide_True.
    + intros [_ (i & Hi & Hy)]. rewrite (Hl i Hi) in Hy. cbn [red dget] in Hy. case_decide; [|done]. subst a. by injection Hy as <-.
  - cbn [Rsum fst snd]. rewrite Ho. assert (Hpos : INR (length l) <> 0%R) by (apply not_0_INR; by destruct l).
    replace (INR (length l) / INR (length l))%R with 1%R by (by field). simpl. lra.
Qed.

Lemma ex_C93_instance : exists (evs : list (event RC3)) s (base : nsum3 ROps) d,
  reachable RC3 ex_draws (@new_ctx ROps (Some 0.5%R) true) evs s /\ all_inst (C:=RC3) (fits3 (N:=ROps)) evs /\ all_ok evs /\
  history evs = [red "?o1"; red "?o1"] /\ table_of s (st_root s) base /\ is_instance d (red "?x") /\ fits3 (red "?x") /\
  (forall o, component (map fst (red "?x")) o -> ~ component (map fst (n3_av base)) o) /\
  separates (map fst (red "?x")) (map fst (n3_av base)) x_to_o1 /\ stands_for x_to_o1 f_x_o1 /\
  mapping_cost (st_ctx s) base d x_to_o1 = Ok (- 1)%R.
Proof.
  destruct (red_run ["?o1"; "?o1"]%string) as (evs & s & Hr & Hg & Hao & Hh). cbn [map] in Hh.
  destruct (red_root evs s _ Hr Hg Hao Hh "?o1") as (tb & Ht & HH & Hk); [done| |].
  { intros i Hi. rewrite !elem_of_cons, elem_of_nil in Hi. by destruct Hi as [->|[->|[]]]. }
  assert (Hd : is_instance (N:=ROps) [(rel_a "?x", PStr "red")] (red "?x")) by (repeat constructor).
  exists evs, s, tb, [(rel_a "?x", PStr "red")]. rewrite Hk.
  split; [done|]. split; [done|]. split; [done|]. split; [done|]. split; [done|]. split; [done|]. split; [apply red_fits|].
  split; [apply red_apart|]. split; [apply x_to_o1_separates|]. split; [apply x_to_o1_stands|].
  destruct (inst_cost (unit_of (Some 0.5%R) true (history evs)) (st_ctx s) tb _ [(rel_a "?x", PStr "red")] (red "?x") x_to_o1 f_x_o1 HH) as (g & -> & Hrate).
  - by eapply reach_scales_ok.
  - exact Hd.
  - apply red_fits.
  - unfold dkeys. rewrite Hk. apply x_to_o1_separates.
  - apply x_to_o1_stands.
  - unfold dkeys. rewrite Hk. apply red_apart.
  - intros a. by eapply unit_eff.
  - assert (g = 1%R) as ->; [|f_equal; lra]. eapply guess_rate3_det; [exact Hrate|]. apply red_rate; [done|].
    intros i Hi. rewrite !elem_of_cons, elem_of_nil in Hi. by destruct Hi as [->|[->|[->|[]]]].
Qed.
Lemma ex_C93_table : exists (evs evs' : list (event RC3)) s s' (base tgt : nsum3 ROps),
  reachable RC3 ex_draws (@new_ctx ROps (Some 0.5%R) true) evs s /\ all_inst (C:=RC3) (fits3 (N:=ROps)) evs /\ all_ok evs /\
  table_of s (st_root s) base /\
  reachable RC3 ex_draws (@new_ctx ROps (Some 0.5%R) true) evs' s' /\ all_inst (C:=RC3) (fits3 (N:=ROps)) evs' /\ all_ok evs' /\
  table_of s' (st_root s') tgt /\ history evs' = [red "?x"; red "?x"; red "?x"] /\
  (forall j, j ∈ history evs' -> rel_a "?x" ∈ map fst j) /\
  (forall o, component (map fst (n3_av tgt)) o -> ~ component (map fst (n3_av base)) o) /\
  separates (map fst (n3_av tgt)) (map fst (n3_av base)) x_to_o1 /\ stands_for x_to_o1 f_x_o1.
Proof.
  destruct (red_run ["?o1"; "?o1"]%string) as (evs & s & Hr & Hg & Hao & Hh). cbn [map] in Hh.
  destruct (red_run ["?x"; "?x"; "?x"]%string) as (evs' & s' & Hr' & Hg' & Hao' & Hh'). cbn [map] in Hh'.
  destruct (red_root evs s _ Hr Hg Hao Hh "?o1") as (tb & Ht & _ & Hk); [done| |].
  { intros i Hi. rewrite !elem_of_cons, elem_of_nil in Hi. by destruct Hi as [->|[->|[]]]. }
  assert (Hall : forall i, i ∈ [red "?x"; red "?x"; red "?x"] -> i = red "?x").
  { intros i Hi. rewrite !elem_of_cons, elem_of_nil in Hi. by destruct Hi as [->|[->|[->|[]]]]. }
  destruct (red_root evs' s' _ Hr' Hg' Hao' Hh' "?x") as (tb' & Ht' & _ & Hk'); [done|done|].
  exists evs, evs', s, s', tb, tb'. rewrite Hk, Hk'.
  do 9 (split; [done|]). split.
  { rewrite Hh'. intros j Hj. rewrite (Hall j Hj). left. }
  split; [apply red_apart|]. split; [apply x_to_o1_separates|]. apply x_to_o1_stands.
Qed.
(** A TrestleTree that was fitted, cleared and fitted again. *)
Lemma ex_C93_trestle : exists evs s base, treachable (N:=ROps) ex_draws tr_cmp tr_normal tr_str tr_ord 100 (new_ctx (N:=ROps) (Some 1%R) true) evs s /\
  Forall t_sensible evs /\ table_of (t_tree s) (st_root (t_tree s)) base /\ t_fits (tr_inst "?u" "?w" 3) /\
  (forall m sd, amono (tr_normal m sd)) /\ @distinct_draws ROps ex_draws.
Proof.
  assert (Hr : treachable (N:=ROps) ex_draws tr_cmp tr_normal tr_str tr_ord 100 (new_ctx (N:=ROps) (Some 1%R) true)
    (tevents (N:=ROps) ex_draws tr_cmp tr_normal tr_str tr_ord 100 (new_ctx (N:=ROps) (Some 1%R) true) tr_calls (t_new 0 0 (new_ctx (N:=ROps) (Some 1%R) true)))
    (snd (texec (N:=ROps) ex_draws tr_cmp tr_normal tr_str tr_ord 100 (new_ctx (N:=ROps) (Some 1%R) true) tr_calls (t_new 0 0 (new_ctx (N:=ROps) (Some 1%R) true))))).
  { exists 0, 0. apply (texec_run (N:=ROps) ex_draws tr_cmp tr_normal tr_str tr_ord 100).
    repeat (apply Forall_cons_2; [first [exact I|split; [by apply tf_wf, tr_inst_fits|apply id_oracle_ok]]|]). apply Forall_nil_2. }
  assert (Hs : Forall t_sensible (tevents (N:=ROps) ex_draws tr_cmp tr_normal tr_str tr_ord 100 (new_ctx (N:=ROps) (Some 1%R) true) tr_calls (t_new 0 0 (new_ctx (N:=ROps) (Some 1%R) true)))).
  { apply (tevents_all (N:=ROps) ex_draws tr_cmp tr_normal tr_str tr_ord 100 t_fits).
    intros d q H. repeat (apply elem_of_cons in H as [H|H]; [try discriminate H; injection H as -> _; by apply tr_inst_fits|]).
    by apply elem_of_nil in H. }
  assert (Hn : forall m sd, amono (tr_normal m sd)) by (intros m sd a; split; simpl; lia).
  destruct (treachable_wn ex_draws (Some 1%R) true tr_cmp tr_normal tr_str tr_ord 100 Hn (fun _ _ => iff_refl _) _ _ Hr Hs) as (_ & _ & t & Hok & _).
  eexists _, _, (tsum t). split; [exact Hr|]. split; [exact Hs|]. split.
  { rewrite (so_root _ _ _ Hok). exact (sub_table _ _ _ _ Hok (sub_refl _ t)). }
  split; [by apply tr_inst_fits|]. split; [exact Hn|apply ex_draws_distinct].
Qed.

(** Structure mapping of one component to another: what get_mapping answers. *)
Lemma ex_C93_get_mapping : exists target' rev, sm_transform (fun _ => Ok 0) id_oracle None [rel_a "?o1"] [(rel_a "?x", 1)] = Ok (target', rev) /\
  sm_get_mapping (Some rev) = Ok x_to_o1 /\ target' = [(rel_a "?o1", 1)] /\ sm_get_mapping None = Err TypeError.
Proof. eexists _, _. split; [by vm_compute|]. split; [by vm_compute|]. by vm_compute. Qed.

Print Assumptions C93_instance_cost.
Print Assumptions C93_table_cost.
Print Assumptions C93_table_cost_refuted.
Print Assumptions C93_trestle.
Print Assumptions C93_get_mapping.
