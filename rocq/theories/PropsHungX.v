(** * C100, continued: an oracle as assumed there, and a start that is not the best
    mapping. *)
From Coq Require Import Reals Lra.
From stdpp Require Import base decidable tactics list list_numbers gmap strings.
From Coq Require Import ZArith.
From Verif Require Import Base Num TreeModel SpecTree RSum Nominal CV Cobweb3 C3Facts C3Scales C3R C3Total Query3
  PyVal Preproc StructMap StructFacts PropsStruct Trestle PropsTotal PropsC3 PropsC3R PropsC3E PropsSearch PropsHung.
Set Default Proof Using "Type".
Open Scope list_scope.
Open Scope nat_scope.

(** ** An oracle that tries every assignment *)
Fixpoint injs (w r : nat) : list (list nat) :=
  match r with
  | 0 => [[]]
  | S r => flat_map (fun js => map (fun j => j :: js) (List.filter (fun j => bool_decide (j ∉ js)) (seq 0 w))) (injs w r)
  end.
Lemma elem_injs w r : forall js, js ∈ injs w r <-> List.length js = r /\ NoDup js /\ forall j, j ∈ js -> j < w.
Proof.
  induction r as [|r IH]; intros js; simpl.
  - rewrite elem_of_list_singleton. split.
    + intros ->. split; [done|]. split; [constructor|]. intros j Hj. by apply elem_of_nil in Hj.
    + intros (H & _). by apply nil_length_inv.
  - rewrite elem_of_list_In, in_flat_map. split.
    + intros (js0 & H0 & H). apply in_map_iff in H as (j & <- & H). apply filter_In in H as [Hj Hn].
      apply elem_of_list_In, IH in H0 as (Hl & Hd & Hw). apply in_seq in Hj. apply bool_decide_eq_true in Hn.
      split; [simpl; by rewrite Hl|]. split; [by constructor|]. intros k [->|Hk]%elem_of_cons; [lia|auto].
    + intros (Hl & Hd & Hw). destruct js as [|j js]; [done|]. apply NoDup_cons in Hd as [Hj Hd]. exists js. split.
      * apply elem_of_list_In, IH. split; [simpl in Hl; lia|]. split; [done|]. intros k Hk. apply Hw. by right.
      * apply in_map_iff. exists j. split; [done|]. apply filter_In. split; [|by apply bool_decide_eq_true].
        apply in_seq. split; [lia|]. apply Hw. left.
Qed.

Definition price (rows : list (list (option R))) (l : list (nat * nat)) : option R :=
  foldr (fun rc acc => match entry rows rc, acc with Some c, Some t => Some (c + t)%R | _, _ => None end) (Some 0%R) l.
Lemma price_spec rows l t : price rows l = Some t <-> priced rows l t.
Proof.
  revert t. induction l as [|rc l IH]; intros t; simpl.
  - split; [intros [= <-]; by exists []|]. intros (cs & HF & ->). inversion HF. done.
  - split.
    + destruct (entry rows rc) as [c|] eqn:E; [|done]. destruct (price rows l) as [t'|] eqn:Ep; [|done].
      intros [= <-].
      destruct (proj1 (IH t') eq_refl) as (cs & HF & ->). exists (c :: cs). split; [by constructor|done].
    + intros (cs & HF & ->). inversion HF as [|? c ? cs' Ec HF']; subst. rewrite Ec.
      rewrite (proj2 (IH (Rsum id cs'))) by (by exists cs'). done.
Qed.
Lemma priced_perm rows l l' t : Permutation l l' -> priced rows l t -> priced rows l' t.
Proof.
  intros Hp Ht. apply price_spec in Ht. apply price_spec. revert t Ht. induction Hp as [|x l l' Hp IH|x y l|l1 l2 l3 H1 IH1 H2 IH2]; intros t Ht.
  - done.
  - simpl in *.
    destruct (entry rows x) as [c|]; [|done]. destruct (price rows l) as [t'|]; [|done]. by rewrite (IH t').
  - simpl in *. destruct (entry rows x), (entry rows y), (price rows l); try done. injection Ht as <-. f_equal. lra.
  - auto.
Qed.

Fixpoint cheapest {U} (f : U -> option R) (L : list U) : option (U * R) :=
  match L with
  | [] => None
  | l :: L => match f l, cheapest f L with
              | None, b => b
              | Some t, None => Some (l, t)
              | Some t, Some (l', t') => if Rle_dec t t' then Some (l, t) else Some (l', t')
              end
  end.
Lemma cheapest_spec {U} (f : U -> option R) L : match cheapest f L with
  | Some (l, t) => l ∈ L /\ f l = Some t /\ forall l' t', l' ∈ L -> f l' = Some t' -> (t <= t')%R
  | None => forall l, l ∈ L -> f l = None
  end.
Proof.
  induction L as [|l L IH]; simpl; [intros l Hl; by apply elem_of_nil in Hl|].
  destruct (f l) as [t|] eqn:E; destruct (cheapest f L) as [[l1 t1]|].
  - destruct IH as (H1 & H2 & H3). destruct (Rle_dec t t1).
    + split; [left|]. split; [done|]. intros l' t' [->|Hl']%elem_of_cons E'; [rewrite E in E'; injection E' as <-; lra|].
      specialize (H3 l' t' Hl' E'). lra.
    + split; [by right|]. split; [done|]. intros l' t' [->|Hl']%elem_of_cons E'; [rewrite E in E'; injection E' as <-; lra|].
      exact (H3 l' t' Hl' E').
  - split; [left|]. split; [done|]. intros l' t' [->|Hl']%elem_of_cons E'; [rewrite E in E'; injection E' as <-; lra|].
    by rewrite (IH l' Hl') in E'.
  - destruct IH as (H1 & H2 & H3). split; [by right|]. split; [done|]. intros l' t' [->|Hl']%elem_of_cons E'; [congruence|].
    exact (H3 l' t' Hl' E').
  - intros l' [->|Hl']%elem_of_cons; [done|auto].
Qed.

Definition all_asg (r w : nat) : list (list (nat * nat)) := map (fun js => zip (seq 0 r) js) (injs w r).
Lemma all_asg_ok r w l : l ∈ all_asg r w -> assignment r w l.
Proof.
  unfold all_asg. intros (js & -> & (Hl & Hd & Hw)%elem_injs)%elem_of_list_fmap.
  assert (E1 : map fst (zip (seq 0 r) js) = seq 0 r) by (apply fst_zip; rewrite seq_length; lia).
  assert (E2 : map snd (zip (seq 0 r) js) = js) by (apply snd_zip; rewrite seq_length; lia).
  split; [|split; [|split]].
  - rewrite E1. apply NoDup_ListNoDup, seq_NoDup.
  - intros i. rewrite E1, elem_of_list_In, in_seq. lia.
  - by rewrite E2.
  - by rewrite E2.
Qed.
Lemma all_asg_every r w l : assignment r w l -> exists l', l' ∈ all_asg r w /\ Permutation l l'.
Proof.
  intros (A1 & A2 & A3 & A4). set (f i := default 0 (dget i l)).
  assert (Hf : forall i j, (i, j) ∈ l <-> i < r /\ f i = j).
  { intros i j. split.
    - intros Hin. split; [apply A2, elem_of_list_fmap; by exists (i, j)|]. unfold f. by rewrite (In_dget i j l).
    - intros [Hi <-]. apply A2 in Hi. apply elem_of_list_fmap in Hi as ([i' j] & -> & Hin). simpl.
      unfold f. by rewrite (In_dget i' j l). }
  assert (Hp : Permutation l (map (fun i => (i, f i)) (seq 0 r))).
  { apply NoDup_Permutation.
    - by apply (NoDup_fmap_1 fst).
    - apply NoDup_fmap_2; [by intros i i' [= -> _]|]. apply NoDup_ListNoDup, seq_NoDup.
    - intros [i j]. rewrite Hf. split.
      + intros [Hi <-]. apply elem_of_list_fmap. exists i. split; [done|]. apply elem_of_list_In, in_seq. lia.
      + intros (i' & [= -> ->] & Hi%elem_of_list_In%in_seq)%elem_of_list_fmap. split; [lia|done]. }
  exists (map (fun i => (i, f i)) (seq 0 r)). split; [|done]. unfold all_asg. apply elem_of_list_fmap.
  exists (map f (seq 0 r)). split.
  - generalize (seq 0 r). intros k. induction k as [|i k IH]; [done|]. simpl. by rewrite IH.
  - apply elem_injs. split; [by rewrite map_length, seq_length|].
    assert (E : map f (seq 0 r) = map snd (map (fun i => (i, f i)) (seq 0 r))) by (by rewrite map_map).
    split.
    + rewrite E. by rewrite <- Hp.
    + intros j Hj. rewrite E, <- Hp in Hj. by apply A4.
Qed.

Definition width (rows : list (list (option R))) : nat := match rows with r :: _ => List.length r | [] => 0 end.
Definition best_oracle (path : list nat) : oracle R := Oracle (fun l => l) (fun rows =>
  match cheapest (price rows) (all_asg (List.length rows) (width rows)) with
  | Some (l, _) => l
  | None => imap (fun i _ => (i, i)) rows
  end) path.
Lemma width_le rows w : Forall (fun r : list (option R) => List.length r = w) rows -> width rows <= w.
Proof. destruct 1; simpl; lia. Qed.
Lemma assignment_mono r w w' l : w <= w' -> assignment r w l -> assignment r w' l.
Proof. intros H (A1 & A2 & A3 & A4). split; [done|]. split; [done|]. split; [done|]. intros j Hj. specialize (A4 j Hj). lia. Qed.
Lemma best_oracle_ok path : oracle_ok (best_oracle path).
Proof.
  split; [done|]. intros rows w Hw Hl. simpl.
  pose proof (cheapest_spec (price rows) (all_asg (List.length rows) (width rows))) as H.
  destruct (cheapest _ _) as [[l t]|].
  - destruct H as (H & _). apply all_asg_ok in H. eapply assignment_mono; [|exact H]. by apply width_le.
  - apply (oo_munkres _ (id_oracle_ok (F:=R)) rows w Hw Hl).
Qed.
Lemma best_oracle_best path : munkres_best (best_oracle path).
Proof.
  intros rows w l t Hw Hl Ha Ht. simpl.
  assert (Ew : List.length rows = 0 \/ width rows = w) by (destruct Hw; simpl; auto).
  assert (Ha' : assignment (List.length rows) (width rows) l).
  { destruct Ew as [Ew|Ew]; [|by rewrite Ew]. destruct Ha as (A1 & A2 & A3 & A4). rewrite Ew in *.
    destruct l as [|[i j] l]; [|exfalso; pose proof (proj1 (A2 i) ltac:(left)); lia].
    split; [done|]. split; [done|]. split; [done|]. intros j Hj. by apply elem_of_nil in Hj. }
  destruct (all_asg_every _ _ _ Ha') as (l' & Hl' & Hp). apply (priced_perm _ _ _ _ Hp), price_spec in Ht.
  pose proof (cheapest_spec (price rows) (all_asg (List.length rows) (width rows))) as H.
  destruct (cheapest _ _) as [[l0 t0]|].
  - destruct H as (_ & E0 & H). exists t0. split; [by apply price_spec|]. by apply (H l' t).
  - by rewrite (H l' Hl') in Ht.
Qed.

(** ** A start that is not the best mapping *)
(** With all costs of single components at hand the matrix can be built. *)
Lemma hungarian_of_rows cost orc inames cnames rows : oracle_ok orc -> NoDup inames ->
  rmapM (hungarian_row cost (o_enum orc cnames) (o_enum orc inames)) (o_enum orc inames) = Ok rows ->
  exists m0, hungarian_mapping (F:=R) cost orc inames cnames = Ok m0.
Proof.
  intros Ho Ni Er. unfold hungarian_mapping. rewrite Er. cbn [rbind].
  set (cl := o_enum orc cnames) in *. set (il := o_enum orc inames) in *.
  assert (Pi : Permutation il inames) by apply (oo_enum _ Ho).
  assert (Hw : Forall (fun r => List.length r = List.length cl + List.length il) rows).
  { eapply rmapM_Forall; [exact Er|]. intros o r _ Hr. unfold hungarian_row in Hr.
    destruct (rmapM (fun c => cost [(o, c)]) cl) as [x|] eqn:Ex; [|done]. cbn [rbind] in Hr.
    destruct (cost []); [|done]. cbn [rbind] in Hr. injection Hr as <-.
    rewrite List.app_length, !List.map_length. by rewrite (rmapM_length _ _ _ Ex). }
  pose proof (rmapM_length _ _ _ Er) as Hlen.
  pose proof (oo_munkres _ Ho rows _ Hw ltac:(lia)) as (A1 & A2 & A3 & A4).
  rewrite (entries_of cl il ltac:(by rewrite Pi) (o_munkres orc rows) []); [by eexists|done| |].
  - intros i j Hin. rewrite <- Hlen at 1. split; [apply A2|apply A4]; apply elem_of_list_fmap; by exists (i, j).
  - intros i j _. apply not_elem_of_nil.
Qed.

Definition cN (v : string) : attr := ATup [AStr "c"; AStr v].
Definition onN (u v : string) : attr := ATup [AStr "on"; AStr u; AStr v].
(** A red thing on a green one. *)
Definition hx_inst : inst3 ROps := [(cN "?o1", VNom (NStr "r")); (cN "?o2", VNom (NStr "g")); (onN "?o1" "?o2", VNom (NStr "y"))].
(** A green thing on another one. *)
Definition hx_target : inst (val3 ROps) := [(cN "?x", PStr "g"); (onN "?x" "?y", PStr "y")].
Definition hx_x0 := @new_ctx ROps (Some 0.5%R) true.
Definition hx_exec := exec RC3 ex_draws hx_x0 [@CFit _ RC3 hx_inst] (fresh RC3 0 0 hx_x0).
Definition hx_s := snd hx_exec.
Definition hx_base : nsum3 ROps := NSum3 1 [(cN "?o1", [(NStr "r", Cnt 1)]); (cN "?o2", [(NStr "g", Cnt 1)]); (onN "?o1" "?o2", [(NStr "y", Cnt 1)])].
Lemma hx_root : st_root hx_s = 1.
Proof. vm_compute. reflexivity. Qed.
Lemma hx_node : match st_heap hx_s !! 1 with Some n => nd_sum n = hx_base | None => False end.
Proof. vm_compute. reflexivity. Qed.
Lemma hx_table : table_of hx_s (st_root hx_s) hx_base.
Proof.
  unfold table_of. rewrite hx_root. pose proof hx_node as H. destruct (st_heap hx_s !! 1) as [n|]; [|done]. by exists n.
Qed.
Lemma hx_ctx : st_ctx hx_s = hx_x0.
Proof. reflexivity. Qed.
Lemma hx_reachable : exists evs, reachable RC3 ex_draws hx_x0 evs hx_s /\ history evs = [hx_inst].
Proof.
  exists (zip_with event_of [@CFit _ RC3 hx_inst] (fst hx_exec)). split; [exact (exec_reachable RC3 ex_draws hx_x0 [@CFit _ RC3 hx_inst] 0 0)|].
  vm_compute. reflexivity.
Qed.

Definition hx_cost := mapping_cost (st_ctx hx_s) hx_base hx_target.
(** Tables with counts only. *)
Definition hx_tab (l : list (attr * list (nom * nat))) : nsum3 ROps :=
  NSum3 2 (map (fun e => (fst e, map (fun q => (fst q, Cnt (snd q))) (snd e))) l).
Definition sq_sum (d : list (nom * nat)) : nat := foldr (fun q k => snd q * snd q + k) 0 d.
Definition hx_sum (l : list (attr * list (nom * nat))) : nat := foldr (fun e n => sq_sum (snd e) + n) 0 l.
Lemma hx_cells (z : R) (d : list (nom * nat)) : Rsum (fun q => contrib z 2%nat (snd q)) (map (fun q : nom * nat => (fst q, @Cnt ROps (snd q))) d) =
  (INR (sq_sum d) / 4)%R.
Proof.
  unfold sq_sum.
  induction d as [|[v k] d IH]; [simpl; lra|]. cbn [map Rsum fst snd foldr]. rewrite IH, plus_INR, mult_INR.
  unfold contrib. cbn [weight]. change (INR 2) with 2%R. lra.
Qed.
Lemma hx_guesses x l : Rsum (fun p : attr * list (nom * cell ROps) => Rsum (fun q => contrib (escale x (fst p)) 2%nat (snd q)) (snd p)) (n3_av (hx_tab l)) =
  (INR (hx_sum l) / 4)%R.
Proof.
  unfold hx_tab, hx_sum. cbn [n3_av]. induction l as [|[a d] l IH]; [simpl; lra|].
  cbn [map Rsum fst snd foldr]. rewrite IH, plus_INR, hx_cells. lra.
Qed.
Lemma hx_cost_of m i l : hashed (rename_flat m hx_target) = Ok i -> tinc RC3 hx_base i = Ok (hx_tab l) ->
  forallb (fun e => visible (fst e) && forallb (fun q => bool_decide (fst q <> cv_key)) (snd e)) l = true -> l <> [] ->
  hx_cost m = Ok (0 - INR (hx_sum l) / 4 / INR (List.length l))%R.
Proof.
  intros E1 E2 Hv Hne. unfold hx_cost. rewrite hx_ctx. unfold mapping_cost.
  assert (E : tcopy RC3 hx_base = Ok hx_base) by (vm_compute; reflexivity). rewrite E. cbn [rbind]. rewrite E1. cbn [rbind].
  change (tinc (Cobweb3Class ROps) hx_base i) with (tinc RC3 hx_base i). rewrite E2. cbn [rbind].
  assert (Evis : vis3 (hx_tab l) = n3_av (hx_tab l)).
  { unfold vis3, hx_tab. cbn [n3_av]. clear -Hv. induction l as [|e l IH]; [done|]. simpl in *.
    apply andb_true_iff in Hv as [[H1 _]%andb_true_iff H2]. unfold dfilter in *. simpl. rewrite H1. f_equal. by apply IH. }
  assert (Hlen : List.length (n3_av (hx_tab l)) = List.length l) by (unfold hx_tab; cbn [n3_av]; apply map_length).
  rewrite n3_ecg_ok.
  - cbn [rbind]. rewrite Evis, Hlen. unfold guesses3. rewrite Evis.
    assert (Es := hx_guesses hx_x0 l). change (n3_count (hx_tab l)) with 2. rewrite Es. reflexivity.
  - apply scales_ok_new.
  - intros p Hp q Hq. rewrite Evis in Hp. unfold hx_tab in Hp. cbn [n3_av] in Hp.
    apply elem_of_list_fmap in Hp as (e & -> & He). cbn [snd] in Hq. apply elem_of_list_fmap in Hq as (q' & -> & Hq').
    unfold cell_fine. cbn [fst snd]. rewrite forallb_forall in Hv. apply elem_of_list_In, Hv, andb_true_iff in He as [_ He].
    rewrite forallb_forall in He. apply elem_of_list_In, He in Hq'. by apply bool_decide_eq_true in Hq'.
  - unfold hx_tab. cbn [n3_count]. lia.
  - rewrite Evis. unfold hx_tab. cbn [n3_av]. by destruct l.
Qed.
Definition ax := AStr "?x". Definition ay := AStr "?y". Definition ao1 := AStr "?o1". Definition ao2 := AStr "?o2".
Definition vr := NStr "r". Definition vg := NStr "g". Definition vy := NStr "y".
Ltac hx_val u v l := rewrite (hx_cost_of _ [(cN u, VNom vg); (onN u v, VNom vy)] l);
  [f_equal; cbn [hx_sum sq_sum foldr fst snd List.length Nat.add Nat.mul INR]; lra|vm_compute; reflexivity|vm_compute; reflexivity|vm_compute; reflexivity|discriminate].
Lemma hx_none : hx_cost [] = Ok (- (1 / 4))%R.
Proof. hx_val "?x" "?y" [(cN "?o1", [(vr, 1)]); (cN "?o2", [(vg, 1)]); (onN "?o1" "?o2", [(vy, 1)]); (cN "?x", [(vg, 1)]); (onN "?x" "?y", [(vy, 1)])]. Qed.
Lemma hx_x1 : hx_cost [(ax, ao1)] = Ok (- (5 / 16))%R.
Proof. hx_val "?o1" "?y" [(cN "?o1", [(vr, 1); (vg, 1)]); (cN "?o2", [(vg, 1)]); (onN "?o1" "?o2", [(vy, 1)]); (onN "?o1" "?y", [(vy, 1)])]. Qed.
Lemma hx_x2 : hx_cost [(ax, ao2)] = Ok (- (7 / 16))%R.
Proof. hx_val "?o2" "?y" [(cN "?o1", [(vr, 1)]); (cN "?o2", [(vg, 2)]); (onN "?o1" "?o2", [(vy, 1)]); (onN "?o2" "?y", [(vy, 1)])]. Qed.
Lemma hx_y1 : hx_cost [(ay, ao1)] = Ok (- (1 / 4))%R.
Proof. hx_val "?x" "?o1" [(cN "?o1", [(vr, 1)]); (cN "?o2", [(vg, 1)]); (onN "?o1" "?o2", [(vy, 1)]); (cN "?x", [(vg, 1)]); (onN "?x" "?o1", [(vy, 1)])]. Qed.
Lemma hx_y2 : hx_cost [(ay, ao2)] = Ok (- (1 / 4))%R.
Proof. hx_val "?x" "?o2" [(cN "?o1", [(vr, 1)]); (cN "?o2", [(vg, 1)]); (onN "?o1" "?o2", [(vy, 1)]); (cN "?x", [(vg, 1)]); (onN "?x" "?o2", [(vy, 1)])]. Qed.
(** The two together. *)
Lemma hx_x2y1 : hx_cost [(ax, ao2); (ay, ao1)] = Ok (- (7 / 16))%R.
Proof. hx_val "?o2" "?o1" [(cN "?o1", [(vr, 1)]); (cN "?o2", [(vg, 2)]); (onN "?o1" "?o2", [(vy, 1)]); (onN "?o2" "?o1", [(vy, 1)])]. Qed.
Lemma hx_y1x2 : hx_cost [(ay, ao1); (ax, ao2)] = Ok (- (7 / 16))%R.
Proof. hx_val "?o2" "?o1" [(cN "?o1", [(vr, 1)]); (cN "?o2", [(vg, 2)]); (onN "?o1" "?o2", [(vy, 1)]); (onN "?o2" "?o1", [(vy, 1)])]. Qed.
Lemma hx_x2y : hx_cost [(ax, ao2); (ay, ay)] = Ok (- (7 / 16))%R.
Proof. hx_val "?o2" "?y" [(cN "?o1", [(vr, 1)]); (cN "?o2", [(vg, 2)]); (onN "?o1" "?o2", [(vy, 1)]); (onN "?o2" "?y", [(vy, 1)])]. Qed.
Lemma hx_yx2 : hx_cost [(ay, ay); (ax, ao2)] = Ok (- (7 / 16))%R.
Proof. hx_val "?o2" "?y" [(cN "?o1", [(vr, 1)]); (cN "?o2", [(vg, 2)]); (onN "?o1" "?o2", [(vy, 1)]); (onN "?o2" "?y", [(vy, 1)])]. Qed.
Lemma hx_x1y2 : hx_cost [(ax, ao1); (ay, ao2)] = Ok (- (7 / 12))%R.
Proof. hx_val "?o1" "?o2" [(cN "?o1", [(vr, 1); (vg, 1)]); (cN "?o2", [(vg, 1)]); (onN "?o1" "?o2", [(vy, 2)])]. Qed.

Definition hx_in := [ax; ay]. Definition hx_cn := [ao1; ao2].
Lemma hx_rows path : exists rows, rmapM (hungarian_row hx_cost (o_enum (best_oracle path) hx_cn) (o_enum (best_oracle path) hx_in)) (o_enum (best_oracle path) hx_in) = Ok rows.
Proof.
  cbn [best_oracle o_enum]. unfold hungarian_row, hx_in, hx_cn. cbn [rmapM].
  rewrite hx_x1, hx_x2, hx_none, hx_y1, hx_y2. cbn [rbind]. by eexists.
Qed.
Lemma hx_between a b : a ∈ [ax; ao1; ao2] -> b ∈ [ay; ao1; ao2] -> a <> b -> mapping_between hx_in hx_cn [(ax, a); (ay, b)].
Proof.
  intros Ha Hb Hab. split.
  - simpl. apply NoDup_cons. split; [|apply NoDup_singleton]. intros H%elem_of_list_singleton. discriminate H.
  - done.
  - intros o c [[= -> ->]|[= -> ->]%elem_of_list_singleton]%elem_of_cons;
      [apply elem_of_cons in Ha as [->|Ha]; [by left|by right]|apply elem_of_cons in Hb as [->|Hb]; [by left|by right]].
  - intros o o' c [[= -> ->]|[= -> ->]%elem_of_list_singleton]%elem_of_cons [[= ->]|[= ->]%elem_of_list_singleton]%elem_of_cons; congruence.
Qed.
(** The mapping that flat_match starts from matches the green things; the
    relation holds for the other one. *)
Theorem C100_start_is_best_overall_refuted : exists (evs : list (event RC3)) s base target orc inames cnames m0 m c0 c,
  reachable RC3 ex_draws (@new_ctx ROps (Some 0.5%R) true) evs s /\ history evs = [hx_inst] /\ table_of s (st_root s) base /\
  comp_names (dkeys target) = Ok inames /\ comp_names (dkeys (n3_av base)) = Ok cnames /\
  oracle_ok orc /\ munkres_best orc /\
  hungarian_mapping (mapping_cost (st_ctx s) base target) orc inames cnames = Ok m0 /\
  mapping_between inames cnames m /\
  mapping_cost (st_ctx s) base target m0 = Ok c0 /\ mapping_cost (st_ctx s) base target m = Ok c /\ (c < c0)%R.
Proof.
  destruct hx_reachable as (evs & Hr & Hh). destruct (hx_rows []) as (rows & Er).
  assert (Ni : NoDup hx_in) by (apply NoDup_cons; split; [intros H%elem_of_list_singleton; discriminate H|apply NoDup_singleton]).
  assert (Nc : NoDup hx_cn) by (apply NoDup_cons; split; [intros H%elem_of_list_singleton; discriminate H|apply NoDup_singleton]).
  assert (Hd : forall o, o ∈ hx_in -> o ∉ hx_cn).
  { intros o Ho Hc. unfold hx_in, hx_cn in *. rewrite elem_of_cons, elem_of_list_singleton in Ho, Hc.
    destruct Ho as [->| ->], Hc as [Hc|Hc]; discriminate Hc. }
  destruct (hungarian_of_rows hx_cost (best_oracle []) hx_in hx_cn rows (best_oracle_ok []) Ni Er) as (m0 & E0).
  destruct (C100_start_is_best hx_cost (best_oracle []) hx_in hx_cn m0 (best_oracle_ok []) (best_oracle_best []) Ni Nc Hd E0) as (Hm0 & t0 & Ht0 & Hbest).
  exists evs, hx_s, hx_base, hx_target, (best_oracle []), hx_in, hx_cn, m0, [(ax, ao1); (ay, ao2)].
  assert (Hc0 : hx_cost m0 = Ok (- (7 / 16))%R).
  { assert (Hp : Permutation m0 [(ax, img m0 ax); (ay, img m0 ay)]).
    { apply NoDup_Permutation.
      - apply (NoDup_fmap_1 fst). apply (mb_dict _ _ _ Hm0).
      - apply NoDup_cons. split; [|apply NoDup_singleton]. intros H%elem_of_list_singleton. discriminate H.
      - intros [o c]. rewrite (between_img _ _ _ o c Hm0). unfold hx_in. rewrite !elem_of_cons, !elem_of_nil. split.
        + intros [[->|[->|[]]] <-]; auto.
        + intros [[= -> ->]|[[= -> ->]|[]]]; auto. }
    assert (Hin : forall o, o ∈ hx_in -> img m0 o = o \/ img m0 o ∈ hx_cn).
    { intros o Ho. apply (mb_to _ _ _ Hm0). by apply (between_img _ _ _ _ _ Hm0). }
    assert (Hinj : img m0 ax <> img m0 ay).
    { intros E. assert (ax = ay); [|discriminate]. apply (mb_inj _ _ _ Hm0 ax ay (img m0 ax)); apply (between_img _ _ _ _ _ Hm0);
        (split; [unfold hx_in; set_solver|done]). }
    apply (apart_perm _ _ _ _ Hp) in Ht0.
    assert (Hle : (t0 <= - (7 / 16) + - (1 / 4))%R).
    { apply (Hbest [(ax, ao2); (ay, ay)]).
      - apply hx_between; [set_solver|set_solver|discriminate].
      - exists [(- (7 / 16))%R; (- (1 / 4))%R]. split; [|cbn; unfold id; lra].
        constructor; [exact hx_x2|]. constructor; [exact hx_none|]. constructor. }
    destruct Ht0 as (cs & HF & ->). inversion HF as [|? c1 ? cs1 H1 HF1]; subst. inversion HF1 as [|? c2 ? cs2 H2 HF2]; subst. inversion HF2; subst.
    cbn [Rsum] in Hle. unfold id in Hle.
    assert (Hy : c2 = (- (1 / 4))%R).
    { destruct (Hin ay ltac:(unfold hx_in; set_solver)) as [E|E].
      - rewrite E in H2. change (hx_cost [] = Ok c2) in H2. rewrite hx_none in H2. by injection H2.
      - unfold hx_cn in E. rewrite elem_of_cons, elem_of_list_singleton in E. destruct E as [E|E]; rewrite E in H2.
        + change (hx_cost [(ay, ao1)] = Ok c2) in H2. rewrite hx_y1 in H2. by injection H2.
        + change (hx_cost [(ay, ao2)] = Ok c2) in H2. rewrite hx_y2 in H2. by injection H2. }
    assert (Hx : img m0 ax = ao2).
    { destruct (Hin ax ltac:(unfold hx_in; set_solver)) as [E|E].
      - exfalso. rewrite E in H1. change (hx_cost [] = Ok c1) in H1. rewrite hx_none in H1. injection H1 as <-. lra.
      - unfold hx_cn in E. rewrite elem_of_cons, elem_of_list_singleton in E. destruct E as [E|E]; [|done].
        exfalso. rewrite E in H1. change (hx_cost [(ax, ao1)] = Ok c1) in H1. rewrite hx_x1 in H1. injection H1 as <-. lra. }
    rewrite Hx in *. clear HF HF1 HF2 H1 H2 Hle.
    destruct (Hin ay ltac:(unfold hx_in; set_solver)) as [E|E].
    - rewrite E in Hp. symmetry in Hp. apply Permutation_length_2_inv in Hp as [-> | ->]; [exact hx_x2y|exact hx_yx2].
    - unfold hx_cn in E. rewrite elem_of_cons, elem_of_list_singleton in E. destruct E as [E|E]; [|by rewrite E in Hinj].
      rewrite E in Hp. symmetry in Hp. apply Permutation_length_2_inv in Hp as [-> | ->]; [exact hx_x2y1|exact hx_y1x2]. }
  exists (- (7 / 16))%R, (- (7 / 12))%R.
  split; [exact Hr|]. split; [exact Hh|]. split; [exact hx_table|]. split; [vm_compute; reflexivity|]. split; [vm_compute; reflexivity|].
  split; [apply best_oracle_ok|]. split; [apply best_oracle_best|]. split; [exact E0|].
  split; [apply hx_between; [set_solver|set_solver|discriminate]|]. split; [exact Hc0|]. split; [exact hx_x1y2|lra].
Qed.

Print Assumptions C100_start_is_best_overall_refuted.
