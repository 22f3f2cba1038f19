(** * C81: as long as there are no numbers, a DummyTree maps as a TrestleTree
    would. *)
From stdpp Require Import base decidable list gmap strings.
From Coq Require Import Ascii String ZArith.
From Verif Require Import Base Num TreeModel TreeInv Nominal CV Cobweb3 C3Facts Query Query3 PyVal Preproc Preproc2 PreTuple
  StructMap Trestle SpecTree TreeKeep TrestleFresh TrestleVals TrestleTotal PropsC3 Dummy PropsDummy.
Set Default Proof Using "Type".
Open Scope list_scope.

(** ** The mapper only depends on the costs *)
Section Ext.
  Context {F : Type} (f g : list (attr * attr) -> res F) (Hfg : forall m, f m = g m).

  Lemma rmapM_ext' {U V} (h k : U -> res V) l : (forall x, h x = k x) -> rmapM h l = rmapM k l.
  Proof. intros H. induction l as [|x l IH]; [done|]. simpl. by rewrite H, IH. Qed.
  Lemma hungarian_ext orc inames cnames : hungarian_mapping f orc inames cnames = hungarian_mapping g orc inames cnames.
  Proof using Hfg.
    unfold hungarian_mapping. erewrite (rmapM_ext' (hungarian_row f _ _)); [done|].
    intros o. unfold hungarian_row. by rewrite Hfg, (rmapM_ext' (fun c => f [(o, c)]) (fun c => g [(o, c)])).
  Qed.
  Lemma climb_ext path : forall s, climb f path s = climb g path s.
  Proof using Hfg.
    induction path as [|k path IH]; intros s; [done|]. cbn [climb].
    rewrite (rmapM_ext' _ (fun s' => g (fst s'))) by done. destruct (rmapM _ _); [|done]. cbn [rbind].
    destruct (successors s !! k); [by apply IH|done].
  Qed.
  Lemma sm_transform_ext {V} orc init bkeys (target : list (attr * V)) :
    sm_transform f orc init bkeys target = sm_transform g orc init bkeys target.
  Proof using Hfg.
    unfold sm_transform. assert (E : flat_match f orc init (dkeys target) bkeys = flat_match g orc init (dkeys target) bkeys); [|by rewrite E].
    unfold flat_match. destruct (comp_names (dkeys target)) as [inames|]; [|done]. cbn [rbind].
    destruct (comp_names bkeys) as [cnames|]; [|done]. cbn [rbind].
    destruct (_ || _); [done|]. destruct (existsb _ _); [done|].
    rewrite hungarian_ext. destruct init as [l|].
    - cbn [rbind]. rewrite Hfg. destruct (g _); [|done]. cbn [rbind]. by rewrite climb_ext.
    - destruct (hungarian_mapping g orc inames cnames) as [m0|]; [|done]. cbn [rbind]. rewrite Hfg.
      destruct (g m0); [|done]. cbn [rbind]. by rewrite climb_ext.
  Qed.
End Ext.

Section Maps.
  Context {N : NumOps}.
  Notation F := (num N).
  Notation X := (val3 N).
  Notation C := (Cobweb3Class N).

  (** Instances and tables without numbers. *)
  Definition no_numbers (j : inst3 N) : Prop := forall a y, (a, VNum y) ∉ j.
  Definition tabN (tb : nsum3 N) : Prop := forall a d, (a, d) ∈ n3_av tb -> cv_key ∉ dkeys d.
  Definition nomV (x : X) : Prop := exists v, x = VNom v /\ v <> cv_key.

  Lemma dset_in {K V} `{EqDecision K} (k : K) (v : V) d k' v' : (k', v') ∈ dset k v d -> (k', v') = (k, v) \/ (k', v') ∈ d.
  Proof.
    induction d as [|[k1 v1] d IH]; simpl.
    - intros H%elem_of_list_singleton. by left.
    - case_decide; subst.
      + intros [->|Hx]%elem_of_cons; [by left|]. right. by right.
      + intros [->|Hx]%elem_of_cons; [right; left|]. destruct (IH Hx) as [->|]; [by left|]. right. by right.
  Qed.
  Lemma on_attr_N {Y} (f : list (nom * cell N) -> Y -> list (nom * cell N) * option exn) av p :
    (forall d, cv_key ∉ dkeys d -> cv_key ∉ dkeys (fst (f d (snd p)))) ->
    (forall a d, (a, d) ∈ av -> cv_key ∉ dkeys d) -> forall a d, (a, d) ∈ fst (on_attr f av p) -> cv_key ∉ dkeys d.
  Proof.
    intros Hf Hav a d. unfold on_attr. destruct (f (default [] (dget (fst p) av)) (snd p)) as [d1 e] eqn:E. simpl.
    intros [[= -> ->]|H]%dset_in; [|by eapply Hav].
    assert (H : cv_key ∉ dkeys (default [] (dget (fst p) av))).
    { destruct (dget (fst p) av) as [d0|] eqn:E0; simpl; [|apply not_elem_of_nil]. apply dget_In in E0. by eapply Hav. }
    apply Hf in H. by rewrite E in H.
  Qed.
  Lemma inc1_N d x : nomV x -> cv_key ∉ dkeys d -> cv_key ∉ dkeys (fst (inc1 (N:=N) d x)).
  Proof.
    intros (v & -> & Hv) Hd. simpl. destruct (dget v d) as [[n|c]|]; simpl; [|done|];
      intros [E|E]%elem_of_dkeys_dset; done.
  Qed.
  Lemma inc_N tb j : Forall (fun e => nomV (snd e)) j -> tabN tb -> tabN (fst (n3_inc tb j)).
  Proof.
    intros Hj Ht. unfold tabN, n3_inc.
    pose proof (sfold_keep (on_attr (inc1 (N:=N))) (fun av => forall a d, (a, d) ∈ av -> cv_key ∉ dkeys d) j (n3_av tb)) as H.
    destruct (sfold (on_attr inc1) (n3_av tb) j) as [av e]. simpl in *. apply H; [|done].
    intros av' p Hin Hav. apply on_attr_N; [|done]. intros d. apply inc1_N. rewrite Forall_forall in Hj. by apply Hj.
  Qed.
  Lemma add_N t1 t2 : tabN t1 -> tabN t2 -> tabN (fst (n3_add (N:=N) t1 t2)).
  Proof.
    intros H1 H2. unfold tabN, n3_add.
    pose proof (sfold_keep (on_attr (sfold (add1 (N:=N)))) (fun av => forall a d, (a, d) ∈ av -> cv_key ∉ dkeys d) (n3_av t2) (n3_av t1)) as H.
    destruct (sfold (on_attr (sfold add1)) (n3_av t1) (n3_av t2)) as [av e]. simpl in *. apply H; [|done].
    intros av' [a d2] Hin Hav. apply on_attr_N; [|done]. intros d Hd. simpl.
    apply (sfold_keep (add1 (N:=N)) (fun d => cv_key ∉ dkeys d) d2 d); [|done].
    intros d' [v c] Hv Hd'. unfold add1. cbn [fst snd].
    assert (Hn : v <> cv_key).
    { intros ->. apply (H2 _ _ Hin). apply elem_of_list_fmap. by exists (cv_key, c). }
    rewrite (decide_False (P := v = cv_key)) by done.
    destruct c as [n|c]; destruct (default (Cnt 0) (dget v d')) as [n'|c']; simpl; try done;
      intros [E|E]%elem_of_dkeys_dset; done.
  Qed.

  (** *** The scores agree *)
  Lemma rfold_ext' {U V} (h k : U -> V -> res U) l : (forall u x, x ∈ l -> h u x = k u x) -> forall u, rfold h u l = rfold k u l.
  Proof.
    induction l as [|x l IH]; intros H u; [done|]. simpl. rewrite H by left. destruct (k u x); [|done]. simpl.
    apply IH. intros u' y Hy. apply H. by right.
  Qed.
  Lemma ecg_agree (x : ctx3 N) tb : tabN tb -> d_ecg tb = n3_ecg x tb.
  Proof.
    intros Ht. unfold d_ecg, n3_ecg. f_equal. apply rfold_ext'. intros u [a d] Hin. cbn [fst snd].
    assert (Hd : cv_key ∉ dkeys d).
    { unfold dfilter in Hin. apply elem_of_list_In, filter_In in Hin as [Hin _]. apply elem_of_list_In in Hin. by eapply Ht. }
    apply rfold_ext'. intros u' [v c] Hv.
    assert (E : d_ecg_value (n3_count tb) (v, c) = ecg_value x (n3_count tb) a (v, c)); [|by rewrite E].
    assert (Hn : v <> cv_key) by (intros ->; apply Hd, elem_of_list_fmap; by exists (cv_key, c)).
    unfold d_ecg_value, ecg_value. cbn [fst snd]. by rewrite !(decide_False (P := v = cv_key)) by done.
  Qed.

  Definition nomP (v : pv X) : Prop := forall x, scalar v = Some x -> nomV x.
  Lemma hashed_nom d (j : inst3 N) : valsV nomP d -> hashed d = Ok j -> Forall (fun e => nomV (snd e)) j.
  Proof.
    intros Hd. revert j. induction Hd as [|[a v] d Hv Hd IH]; intros j H.
    - injection H as <-. constructor.
    - unfold hashed in H. cbn [rmapM fst snd] in H. destruct (scalar v) as [x|] eqn:Ev; [|discriminate H].
      cbn [rbind] in H. fold (hashed d) in H. destruct (hashed d) as [i'|] eqn:Ed; [|discriminate H].
      injection H as <-. constructor; [|by apply IH]. simpl. by apply Hv.
  Qed.
  Lemma cost_agree (x : ctx3 N) base d : tabN base -> valsV nomP d -> forall m, d_mapping_cost base d m = mapping_cost x base d m.
  Proof.
    intros Hb Hd m. unfold d_mapping_cost, mapping_cost.
    assert (H0 : tabN (nc_empty C)) by (intros a e He; by apply elem_of_nil in He).
    pose proof (add_N _ _ H0 Hb) as H1. change (n3_add (nc_empty C) base) with (nc_add C (nc_empty C) base) in H1.
    unfold tcopy, tadd. destruct (nc_add C (nc_empty C) base) as [t [e|]]; [done|]. cbn [rbind fst] in *.
    destruct (hashed (rename_flat m d)) as [i|] eqn:Ei; [|done]. cbn [rbind].
    pose proof (inc_N _ _ (hashed_nom _ _ (rename_flat_V _ m _ Hd) Ei) H1) as H2.
    change (n3_inc t i) with (nc_inc C t i) in H2. unfold tinc. destruct (nc_inc C t i) as [t' [e|]]; [done|]. cbn [rbind fst] in *.
    by rewrite (ecg_agree x).
  Qed.

  Context (pystr : attr -> string) (setord : list attr -> list attr) (rlimit : nat).
  Hypothesis setord_spec : forall l x, x ∈ setord l <-> x ∈ l.

  Lemma d_pipe_same x base orc d h c :
    pipe_tr (d_stages (N:=N) pystr setord rlimit base orc) [0; 1; 2] d h c = pipe_tr (stages (N:=N) pystr setord rlimit x base orc) [0; 1; 2] d h c.
  Proof. reflexivity. Qed.

  Lemma nomP_list (l l' : list (pv X)) : nomP (PL l) -> nomP (PL l').
  Proof. intros H x E. by apply (H x). Qed.
  Lemma nomP_true : nomP (vtrue (N:=N)).
  Proof. intros x [= <-]. by eexists. Qed.

  Lemma d_pipe_agree x base orc d c : tabN base -> pwf (PD d) -> pV nomP (PD d) ->
    pipe_tr (d_stages (N:=N) pystr setord rlimit base orc) stage_list d new_objs c =
    pipe_tr (stages (N:=N) pystr setord rlimit x base orc) stage_list d new_objs c.
  Proof using setord_spec.
    intros Hb Hw Hv. change stage_list with ([0; 1; 2] ++ [3]). rewrite !pipe_tr_app.
    rewrite (d_pipe_same x). destruct (pipe_tr (stages (N:=N) pystr setord rlimit x base orc) [0; 1; 2] d new_objs c) as [[[d3|e] h] c'] eqn:E; [|done].
    pose proof (before_mapping_vals pystr setord rlimit setord_spec nomP x base orc d c d3 h c' nomP_list nomP_true Hw Hv E) as H3.
    cbn [pipe_tr]. destruct (h !! 3) as [s0|]; [|done]. cbn [d_stages stages d_map_proc map_proc pp_tr].
    by rewrite (sm_transform_ext _ _ (cost_agree x base d3 Hb H3)).
  Qed.

  Notation dreachable := (dreachable pystr setord rlimit).
  Lemma run_N evs (s : dst N) : dreachable evs s -> Forall d_good evs -> (forall j, j ∈ dhistory evs -> no_numbers j) -> tabN (d_tb s).
  Proof.
    intros (ctr & Hr). remember (d_new ctr) as s0 eqn:E0. induction Hr as [s|s evs s1 e s2 Hr IH Hs]; subst; intros Hg Hn.
    { intros a d Hd. by apply elem_of_nil in Hd. }
    apply Forall_app in Hg as [Hg He]. inversion He as [|? ? He' _]; subst.
    unfold dhistory in *. rewrite fold_left_app in Hn. cbn [fold_left] in Hn.
    destruct Hs as [s m d q j r s' Hc Hf|s d r s' Hf|s k Hk|s].
    - destruct He' as (i & -> & Hi). cbn [dhist_step] in Hn.
      assert (Ht : tabN (d_tb s)) by (apply IH; [done|done|]; intros j Hj; apply Hn, elem_of_app; by left).
      unfold d_counted in Hc. unfold d_fit in Hf. destruct (d_prepare pystr setord rlimit m q d s) as [[d1|e] c]; [|discriminate Hc].
      cbn [fst rbind] in Hc. rewrite (d_inc_hashed _ _ _ Hc) in Hf.
      assert (Hin : Forall (fun e => nomV (snd e)) i).
      { apply Forall_forall. intros [a [v|y]] Hav; simpl.
        - exists v. split; [done|]. intros ->. destruct Hi as (Hwf & _ & Hi). apply (Hi a). by apply In_dget.
        - destruct (Hn i ltac:(apply elem_of_app; right; left) a y Hav). }
      pose proof (inc_N _ _ Hin Ht) as H1. destruct (n3_inc (d_tb s) i) as [tb e]. injection Hf as _ <-. done.
    - injection Hf as _ <-. by apply IH.
    - by apply IH.
    - intros a d Hd. by apply elem_of_nil in Hd.
  Qed.

  (** What the preprocessing of a call gives is what the pipeline of a TrestleTree
      gives whose root has the same table, whatever its settings [x]: the same
      instance or exception, the same names made. *)
  Theorem C81_maps_like_trestle evs (s : dst N) (x : ctx3 N) q d : dreachable evs s -> Forall d_good evs ->
    (forall j, j ∈ dhistory evs -> no_numbers j) -> pwf (PD d) -> pV nomP (PD d) ->
    let '(r, _, c) := pipe_tr (stages (N:=N) pystr setord rlimit x (d_tb s) (to_orc q)) stage_list d new_objs (d_sym s) in
    d_prepare pystr setord rlimit true q d s = (r, c).
  Proof using setord_spec.
    intros Hr Hg Hn Hw Hv. pose proof (d_pipe_agree x (d_tb s) (to_orc q) d (d_sym s) (run_N evs s Hr Hg Hn) Hw Hv) as E.
    unfold d_prepare. change (d_stage_list true) with stage_list. rewrite E.
    destruct (pipe_tr (stages pystr setord rlimit x (d_tb s) (to_orc q)) stage_list d new_objs (d_sym s)) as [[r h] c]. reflexivity.
  Qed.
End Maps.

Print Assumptions C81_maps_like_trestle.
