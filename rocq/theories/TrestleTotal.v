(** * TRESTLE's pipeline works on sensible instances. *)
From Coq Require Import Reals Lra.
From stdpp Require Import base decidable list gmap strings sets.
From Coq Require Import Ascii String ZArith.
From Verif Require Import Base Num TreeModel TreeFun TreeScore TreeRefine TreeSorts TreeInv SpecTree TreeState
  TreeTotal TreeLeaf Nominal Utils CV Cobweb3 C3Facts C3R C3Tree C3Total Query Query3 PropsC3 PropsC3R
  PyVal Preproc Preproc2 StructMap StructFacts PropsStruct PreStd Trestle SpecTrestle
  TreeKeep TrestleFacts TrestleFresh TrestleVals.
Set Default Proof Using "Type".
Open Scope list_scope.

(** Mappings from variables to variables. *)
Definition var_map (m : list (attr * attr)) : Prop :=
  forall o c, dget o m = Some c -> exists v w, o = AStr v /\ c = AStr w /\ is_var v = true /\ is_var w = true.
Lemma fm_var m v : var_map m -> is_var v = true -> is_var (fm m v) = true.
Proof.
  intros Hm Hv. unfold fm. destruct (dget (AStr v) m) as [c|] eqn:E; [|done].
  destruct (Hm _ _ E) as (v' & w & _ & -> & _ & ?). done.
Qed.
Lemma avars_var a v : v ∈ avars a -> is_var v = true.
Proof. intros H. apply (kvars_var [a]). exists a. split; [left|done]. Qed.
Lemma flat_name_var m a : var_map m -> flat_name m a = arename (fm m) a.
Proof. intros Hm. apply flat_name_fm. intros o c E. destruct (Hm o c E) as (v & w & ? & ? & ? & _). eauto. Qed.
Lemma rename_flat_keys {V} m (d : list (attr * V)) x :
  x ∈ dkeys (rename_flat m d) <-> exists a, a ∈ dkeys d /\ x = flat_name m a.
Proof.
  unfold rename_flat. assert (H : forall acc, x ∈ dkeys (fold_left (fun acc e => dset (flat_name m (fst e)) (snd e) acc) d acc) <->
    x ∈ dkeys acc \/ exists a, a ∈ dkeys d /\ x = flat_name m a).
  { induction d as [|[b w] d IH]; intros acc; simpl.
    - split; [by left|]. intros [?|(a & Ha & _)]; [done|]. by apply elem_of_nil in Ha.
    - rewrite IH, elem_of_dkeys_dset. split.
      + intros [[->|?]|(a & Ha & ->)]; [right; exists b; split; [left|done]|by left|right; exists a; split; [by right|done]].
      + intros [?|(a & [->|Ha]%elem_of_cons & ->)]; [left; by right|left; by left|right; eauto]. }
  rewrite H. split; [|by right]. intros [Hx|?]; [by apply elem_of_nil in Hx|done].
Qed.
Lemma rename_flat_wf {V} m (d : list (attr * V)) : dwf (rename_flat m d).
Proof.
  unfold rename_flat. assert (H : forall acc, dwf acc -> dwf (fold_left (fun acc e => dset (flat_name m (fst e)) (snd e) acc) d acc)).
  { induction d as [|[b w] d IH]; intros acc Hacc; simpl; [done|]. apply IH. by apply dset_wf. }
  apply H, dwf_nil.
Qed.
Lemma rename_flat_seen {V} m (d : list (attr * V)) : var_map m -> seen d -> seen (rename_flat m d).
Proof.
  intros Hm (a & Ha & Hin). exists (arename (fm m) a). split.
  - apply visible_arename; [|done]. intros v Hv. apply fm_var; [done|]. by eapply avars_var.
  - apply rename_flat_keys. exists a. split; [done|]. symmetry. by apply flat_name_var.
Qed.
Lemma rename_flat_W {V} m (d : list (attr * V)) : var_map m -> keysW d -> keysW (rename_flat m d).
Proof.
  intros Hm Hd. apply Forall_forall. intros [a w] Hin. assert (Ha : a ∈ dkeys (rename_flat m d)) by (apply elem_of_list_fmap; by exists (a, w)).
  apply rename_flat_keys in Ha as (b & Hb & ->). simpl. rewrite flat_name_var by done.
  apply wn_arename.
  - intros v Hv. apply fm_var; [done|]. by eapply avars_var.
  - apply elem_of_list_fmap in Hb as ([b' w'] & -> & Hb). unfold keysW in Hd. rewrite Forall_forall in Hd. apply (Hd _ Hb).
Qed.
Lemma wn_readable a : wn a = true -> readable a = true.
Proof.
  destruct a as [s|l|z]; [|apply (wn_tup_ok (ATup l))|done]. simpl. rewrite !negb_true_iff.
  intros H%bool_decide_eq_false. by apply String.eqb_neq.
Qed.
Lemma separates_var tkeys bkeys m : separates tkeys bkeys m -> var_map m.
Proof.
  intros [Sw Sf St Si] o c E. apply dget_In in E.
  destruct (Sf _ _ E) as (v & a & -> & Hv & _). destruct (St _ _ E) as [->|(w & b & -> & Hw & _)]; eauto 7.
Qed.

Section Gen.
  Context {N : NumOps} (rng : nat -> num N).
  Notation F := (num N).
  Notation C := (Cobweb3Class N).
  Notation X := (val3 N).
  Context (ncmp : nom -> nom -> option bool) (normal : F -> F -> A F).
  Context (pystr : attr -> string) (setord : list attr -> list attr) (rlimit : nat).
  Hypothesis Hnormal : forall m sd, amono (normal m sd).
  Hypothesis setord_spec : forall l x, x ∈ setord l <-> x ∈ l.
  Notation t_ready := (t_ready (N:=N) pystr setord rlimit).
  Notation t_prepare := (t_prepare (N:=N) pystr setord rlimit).
  Notation stages := (stages (N:=N) pystr setord rlimit).

  (** The string that marks numeric values is not used as a value. *)
  Definition clean (v : pv X) : Prop := scalar v <> Some (VNom cv_key).
  (** Nor are lists and dictionaries. *)
  Definition plain (v : pv X) : Prop := clean v /\ exists x, scalar v = Some x.
  Lemma clean_list (l l' : list (pv X)) : clean (PL l) -> clean (PL l').
  Proof. done. Qed.
  Lemma plain_list (l l' : list (pv X)) : plain (PL l) -> plain (PL l').
  Proof. by intros [_ [x Hx]]. Qed.
  Lemma clean_true : clean vtrue.
  Proof. done. Qed.
  Lemma plain_true : plain vtrue.
  Proof. split; [done|]. simpl. eauto. Qed.

  Lemma before_mapping_vals (V : pv X -> Prop) x base orc (d : inst X) c d3 h c' : (forall l l', V (PL l) -> V (PL l')) -> V vtrue ->
    pwf (PD d) -> pV V (PD d) ->
    pipe_tr (stages x base orc) [0; 1; 2] d new_objs c = (Ok d3, h, c') -> valsV V d3.
  Proof using setord_spec.
    intros HV Ht Hw Hv E. simpl in E.
    destruct (ns_transform pystr setord c d) as [[[d1 rev]|e] c1] eqn:E1; [|done].
    pose proof (ns_transform_V V HV pystr setord c d d1 rev c1 setord_spec Hw Hv E1) as H1. simpl in E.
    destruct (flatten d1) as [d2|e] eqn:E2; [|done].
    pose proof (flatten_V V d1 d2 H1 E2) as H2. simpl in E.
    destruct (sub_transform vtrue d2) as [d3'|e] eqn:E3; [|done].
    injection E as <- <- <-. exact (sub_transform_V V vtrue d2 d3' Ht H2 E3).
  Qed.

  Lemma hashed_clean (d : inst X) j : valsV clean d -> hashed d = Ok j -> forall a, a ∈ dkeys j -> dget a j <> Some (VNom cv_key).
  Proof.
    intros Hd E a _ Hg. apply dget_In in Hg. unfold hashed in E. revert j E Hg. induction Hd as [|[b w] d Hw Hd IH]; intros j E Hg; simpl in E.
    - injection E as <-. by apply elem_of_nil in Hg.
    - destruct (scalar w) as [x|] eqn:Es; [|done]. cbn [rbind] in E.
      destruct (rmapM _ d) as [j'|] eqn:Ej; [|done]. cbn [rbind] in E. injection E as <-.
      apply elem_of_cons in Hg as [[= -> <-]|Hg]; [by apply Hw|by apply (IH j')].
  Qed.
  Lemma hashed_total (d : inst X) : valsV plain d -> exists j, hashed d = Ok j.
  Proof.
    intros Hd. unfold hashed. apply rmapM_total. intros [a v] Hin. unfold valsV in Hd. rewrite Forall_forall in Hd.
    destruct (Hd _ Hin) as [_ [x Hx]]. simpl in Hx |- *. rewrite Hx. eauto.
  Qed.
  Lemma plain_clean (d : inst X) : valsV plain d -> valsV clean d.
  Proof. intros H. eapply Forall_impl; [exact H|]. by intros e [? _]. Qed.

  (** What reaches the Cobweb/3 code. *)
  Lemma ready_good q d (s : tst N) j s' : pwf (PD d) -> pV clean (PD d) -> t_ready q d s = (Ok j, s') -> good3 j.
  Proof using setord_spec.
    intros Hw Hv E. unfold Trestle.t_ready, Trestle.t_prepare in E.
    destruct (st_heap (t_tree s) !! st_root (t_tree s)) as [n|]; [|done].
    destruct (pipe_tr (stages (st_ctx (t_tree s)) (nd_sum n) (to_orc q)) [0; 1; 2] d new_objs (t_sym s)) as [[r3 h3] c3] eqn:E3.
    rewrite (stages_split pystr setord rlimit setord_spec _ _ _ _ _ _ _ _ Hw E3) in E. destruct r3 as [d3|e]; [|done].
    pose proof (before_mapping_vals clean _ _ _ _ _ _ _ _ clean_list clean_true Hw Hv E3) as H3.
    unfold sm_transform in E. destruct (flat_match _ _ _ _ _) as [m|]; [|done]. cbn [rbind] in E.
    destruct (t_sane (rename_flat m d3)) eqn:Es; [|done]. injection E as E _.
    assert (H4 : valsV clean (rename_flat m d3)) by (by apply rename_flat_V).
    pose proof (hashed_keys _ _ E) as Hk. split; [|split].
    - unfold dwf. rewrite Hk. apply rename_flat_wf.
    - rewrite Hk. unfold t_sane in Es. simpl in Es. rewrite forallb_forall in Es. apply Forall_forall. intros a Ha.
      apply elem_of_list_fmap in Ha as ([a' w] & -> & Hin). apply elem_of_list_In in Hin.
      apply Es in Hin. simpl in *. by apply andb_true_iff in Hin as [[? _]%andb_true_iff _].
    - intros a Ha. eapply hashed_clean; [exact H4|exact E| |exact Ha]. by eapply dget_Some_key.
  Qed.

  (** *** It does not raise before the mapping *)
  Lemma before_mapping_total x base orc (d : inst X) c : pwf (PD d) -> pN (PD d) -> pvis (PD d) -> pV plain (PD d) ->
    exists d3 h c', pipe_tr (stages x base orc) [0; 1; 2] d new_objs c = (Ok d3, h, c') /\
      keysW d3 /\ seen d3 /\ valsV plain d3.
  Proof using setord_spec.
    intros Hw Hn Hvis Hv.
    destruct (ns_transform_ok pystr setord setord_spec c d (pN_std_ok _ Hw Hn)) as (d1 & s1 & E1 & HG & Hdom & Hp).
    assert (Hf : forall u, u ∈ pvars (PD d) -> is_var (fm (snd s1) u) = true).
    { intros u Hu. destruct (fm_good c s1 u HG) as (n & -> & _); [by apply Hdom|done]. }
    assert (Hn1 : pN (PD d1)) by (eapply pN_peq; [apply peq_sym; exact Hp|]; exact (pN_prename _ (PD d) Hf Hn)).
    assert (Hv1 : pvis (PD d1)) by (eapply pvis_peq; [apply peq_sym; exact Hp|]; exact (pvis_prename _ (PD d) Hf Hvis)).
    destruct (flatten_total d1 Hn1) as (d2 & E2 & Hk2 & Hs2). specialize (Hs2 Hv1).
    destruct (sub_transform_total (vtrue (N:=N)) d2 Hk2) as (d3 & E3 & Hk3 & Hs3). specialize (Hs3 Hs2).
    destruct (pipe_tr (stages x base orc) [0; 1; 2] d new_objs c) as [[r h] c'] eqn:E.
    assert (Er : r = Ok d3).
    { simpl in E. rewrite E1 in E. simpl in E. rewrite E2 in E. simpl in E. rewrite E3 in E. by injection E as <- <- <-. }
    subst r. exists d3, h, c'. split; [done|]. split; [done|]. split; [done|].
    eapply before_mapping_vals; [apply plain_list|apply plain_true|exact Hw|exact Hv|exact E].
  Qed.

  (** Tables whose attributes satisfy [K]. *)
  Definition tabK (K : attr -> Prop) (tb : nsum3 N) : Prop := forall a, a ∈ dkeys (n3_av tb) -> K a.
  Lemma tabK_kept (K : attr -> Prop) (j : inst3 N) : (forall a, a ∈ dkeys j -> K a) -> kept C (tabK K) j.
  Proof.
    intros Hj. assert (Hset : forall a d av, K a -> (forall b, b ∈ dkeys av -> K b) -> forall b, b ∈ dkeys (dset a d av : list (attr * list (nom * cell N))) -> K b).
    { intros a d av Ha Hav b [->|Hb]%elem_of_dkeys_dset; auto. }
    split.
    - intros a Ha. by apply elem_of_nil in Ha.
    - intros s Hs. unfold tabK. simpl. unfold n3_inc.
      pose proof (sfold_keep (on_attr inc1) (fun av => forall b, b ∈ dkeys av -> K b) j (n3_av s)) as H.
      destruct (sfold (on_attr inc1) (n3_av s) j) as [av e]. simpl in *. apply H; [|done].
      intros av' [a v] Hin Hav. unfold on_attr. simpl. destruct (inc1 _ v) as [d e']. simpl.
      apply Hset; [|done]. apply Hj. apply elem_of_list_fmap. by exists (a, v).
    - intros s1 s2 H1 H2. unfold tabK. simpl. unfold n3_add.
      pose proof (sfold_keep (on_attr (sfold add1)) (fun av => forall b, b ∈ dkeys av -> K b) (n3_av s2) (n3_av s1)) as H.
      destruct (sfold (on_attr (sfold add1)) (n3_av s1) (n3_av s2)) as [av e]. simpl in *. apply H; [|done].
      intros av' [a v] Hin Hav. unfold on_attr. simpl. destruct (sfold add1 _ v) as [d e']. simpl.
      apply Hset; [|done]. apply H2. apply elem_of_list_fmap. by exists (a, v).
  Qed.
End Gen.

(** ** Exact arithmetic *)
Section Real.
  Context (rng : nat -> R) (sc : option R) (inner : bool).
  Notation C := (Cobweb3Class ROps).
  Notation X := (val3 ROps).
  Notation x0 := (@new_ctx ROps sc inner).
  Context (pystr : attr -> string) (setord : list attr -> list attr) (rlimit : nat).
  Hypothesis setord_spec : forall l x, x ∈ setord l <-> x ∈ l.
  Notation t_ready := (t_ready (N:=ROps) pystr setord rlimit).
  Notation stages := (stages (N:=ROps) pystr setord rlimit).

  (** Instances that TRESTLE can work with. *)
  Record t_fits (d : inst X) : Prop := {
    tf_wf : pwf (PD d);
    tf_names : pN (PD d);
    tf_visible : pvis (PD d);
    tf_plain : pV (plain (N:=ROps)) (PD d);
  }.

  Lemma cost_total x base l (d3 : inst X) m : scales_ok x -> HistR base l -> var_map m ->
    keysW d3 -> seen d3 -> valsV (plain (N:=ROps)) d3 -> exists c, mapping_cost x base d3 m = Ok c.
  Proof.
    intros Hx Hb Hm Hk Hs Hv. pose proof summarises_laws as CL.
    destruct (Hist3_add summarises eq CL _ base [] l (Hist3_empty summarises) Hb) as (t & Et & Ht). simpl in Ht.
    assert (Hv' : valsV (plain (N:=ROps)) (rename_flat m d3)) by (by apply rename_flat_V).
    destruct (hashed_total _ Hv') as [j Ej]. pose proof (hashed_keys _ _ Ej) as Ekeys.
    assert (Hg : good3 j).
    { split; [unfold dwf; rewrite Ekeys; apply rename_flat_wf|]. split.
      - rewrite Ekeys. apply Forall_forall. intros a Ha. apply wn_ok.
        pose proof (rename_flat_W m d3 Hm Hk) as H. unfold keysW in H. rewrite Forall_forall in H.
        apply elem_of_list_fmap in Ha as (e & -> & He). by apply H.
      - intros a Ha. eapply hashed_clean; [apply plain_clean; exact Hv'|exact Ej| |exact Ha]. by eapply dget_Some_key. }
    destruct (Hist3_inc summarises eq CL _ l j Ht Hg) as (t' & Et' & Ht').
    destruct (V3_ecg x t' Hx) as [e Ee].
    { exists (j :: l). split; [done|]. exists j. split; [left|].
      destruct (rename_flat_seen m d3 Hm Hs) as (a & Ha & Hin). exists a. split; [done|]. by rewrite Ekeys. }
    unfold mapping_cost, tcopy, tadd, tinc. simpl in Et, Et' |- *. rewrite Et. cbn [rbind]. rewrite Ej. cbn [rbind].
    rewrite Et'. cbn [rbind]. rewrite Ee. cbn [rbind]. eauto.
  Qed.

  (** Attributes that the mapper can read. *)
  Definition wnames : nsum3 ROps -> Prop := tabK (fun a => wn a = true).

  (** The mapper always succeeds, and Cobweb/3 can work with what it returns. *)
  Lemma ready_total q d (s : tst ROps) n l : oracle_ok (to_orc q) -> t_fits d ->
    st_heap (t_tree s) !! st_root (t_tree s) = Some n ->
    tabQ (made 0 (t_sym s)) (nd_sum n) -> wnames (nd_sum n) -> HistR (nd_sum n) l -> scales_ok (st_ctx (t_tree s)) ->
    exists j s', t_ready q d s = (Ok j, s') /\ fits3 j /\ forall a, a ∈ dkeys j -> wn a = true.
  Proof using setord_spec.
    intros Ho [Hw Hn Hv Hp] Hroot HQ HW Hh Hx.
    destruct (before_mapping_total (N:=ROps) pystr setord rlimit setord_spec (st_ctx (t_tree s)) (nd_sum n) (to_orc q) d (t_sym s) Hw Hn Hv Hp)
      as (d3 & h3 & c3 & E3 & Hk3 & Hs3 & Hv3).
    destruct (before_mapping pystr setord rlimit setord_spec _ _ _ _ _ _ _ _ Hw E3) as (Hle & _ & H3).
    destruct (H3 _ eq_refl) as [HQ3 Hw3].
    assert (Hdisj : forall o, component (dkeys d3) o -> ~ component (dkeys (n3_av (nd_sum n))) o).
    { intros o (v & -> & Hv1)%component_kvars (v' & [= <-] & Hv2)%component_kvars.
      pose proof (kvars_Q _ _ HQ3 _ Hv1) as (k & -> & Hk). pose proof (kvars_Q _ _ HQ _ Hv2) as (k' & E & Hk').
      apply gensym_inj in E. lia. }
    assert (Hmap : forall m, separates (dkeys d3) (dkeys (n3_av (nd_sum n))) m -> exists c, mapping_cost (st_ctx (t_tree s)) (nd_sum n) d3 m = Ok c).
    { intros m Hm. eapply cost_total; [done|done|by eapply separates_var|done|done|done]. }
    assert (Hr3 : Forall (fun a => readable a = true) (dkeys d3)).
    { apply Forall_forall. intros a (e & -> & He)%elem_of_list_fmap. apply wn_readable. unfold keysW in Hk3. rewrite Forall_forall in Hk3. by apply Hk3. }
    assert (Hrb : Forall (fun a => readable a = true) (dkeys (n3_av (nd_sum n)))).
    { apply Forall_forall. intros a Ha. apply wn_readable. by apply HW. }
    destruct (C49_succeeds (mapping_cost (st_ctx (t_tree s)) (nd_sum n) d3) (to_orc q) (dkeys (n3_av (nd_sum n))) d3 Ho Hr3 Hrb Hdisj Hmap)
      as (d4 & rev & Esm).
    pose proof Esm as Esm'. unfold sm_transform in Esm'.
    destruct (flat_match _ _ _ _ _) as [m|] eqn:Em; [|done]. cbn [rbind] in Esm'. injection Esm' as <- _.
    apply flat_match_ok in Em as (Hm & _ & _); [|done]. apply map_ok_separates, separates_var in Hm.
    set (d4 := rename_flat m d3) in *.
    assert (Hk4 : keysW d4) by (by apply rename_flat_W).
    assert (Hs4 : seen d4) by (by apply rename_flat_seen).
    assert (Hv4 : valsV (plain (N:=ROps)) d4) by (by apply rename_flat_V).
    destruct (hashed_total d4 Hv4) as [j Ej]. pose proof (hashed_keys _ _ Ej) as Ekeys.
    assert (Hwn : forall a, a ∈ dkeys d4 -> wn a = true).
    { intros a (e & -> & He)%elem_of_list_fmap. unfold keysW in Hk4. rewrite Forall_forall in Hk4. by apply Hk4. }
    assert (Esane : t_sane d4 = true).
    { unfold t_sane. simpl. apply forallb_forall. intros [a v] Hin%elem_of_list_In. simpl.
      assert (Ha : wn a = true) by (apply Hwn; apply elem_of_list_fmap; by exists (a, v)).
      rewrite (wn_ok a Ha), (wn_sane a Ha). simpl. unfold valsV in Hv4. rewrite Forall_forall in Hv4.
      destruct (Hv4 _ Hin) as [_ [x Hsx]]. by destruct v. }
    assert (Eready : exists s', t_ready q d s = (Ok j, s')).
    { unfold Trestle.t_ready, Trestle.t_prepare. rewrite Hroot.
      rewrite (stages_split pystr setord rlimit setord_spec _ _ _ _ _ _ _ _ Hw E3).
      rewrite Esm. cbv beta iota. rewrite Esane, Ej. eauto. }
    destruct Eready as [s' Er]. exists j, s'. split; [done|]. split; [split|].
    - eapply (ready_good (N:=ROps) pystr setord rlimit setord_spec q d s j s'); [done| |exact Er].
      eapply pV_mono; [|exact Hp]. by intros v [? _].
    - destruct Hs4 as (a & Ha & Hin). exists a. split; [done|]. by rewrite Ekeys.
    - rewrite Ekeys. done.
  Qed.
End Real.
