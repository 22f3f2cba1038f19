(** * A Cobweb3Tree recognises the nominal instance fitted last (C108).

    From C108 for CobwebTree and C64 (cobweb3.py:78-122 does nothing else for
    instances without numbers). *)
From Coq Require Import Reals Lra.
From stdpp Require Import base decidable tactics gmap strings list.
From Verif Require Import Base Num TreeModel TreeFun TreeScore TreeRefine TreeSorts TreeInv SpecTree TreeState TreeGen
  Nominal NominalFacts PropsCU CV Cobweb3 C3Facts C3Nominal C3Total PropsC3 PropsC3R PropsTotal PropsClimb PropsRecall.
Notation RC3 := (Cobweb3Class ROps).

(** Nominal instances that have the visible attributes of [i]. *)
Definition alike (i : inst) (c : call RC) : Prop :=
  match c with
  | CFit m => good m /\ (forall a, (a, cv_key) ∉ m) /\ same_attrs i m
  | CCat m => good m /\ forall a, (a, cv_key) ∉ m
  | _ => True
  end.
Definition silent (c : call RC) : Prop := match c with CCat m => good m /\ (forall a, (a, cv_key) ∉ m) | COther _ _ => True | _ => False end.
(** [k] is a leaf that holds only instances that look like [i]. *)
Definition holds_only3 (s : st RC3) (k : nat) (i : inst) : Prop :=
  is_leaf s k /\ exists tb, table_of s k tb /\ 0 < n3_count tb /\
    forall a, visible a = true -> forall v, count_of tb a v = if decide (dget a i = Some v) then n3_count tb else 0.

Lemma exec_app {N} (C : NodeClass N) rng x0 cs1 cs2 : forall s,
  exec C rng x0 (cs1 ++ cs2) s =
  let '(r1, s1) := exec C rng x0 cs1 s in let '(r2, s2) := exec C rng x0 cs2 s1 in (r1 ++ r2, s2).
Proof.
  induction cs1 as [|c cs1 IH]; intros s; simpl; [by destruct (exec C rng x0 cs2 s)|].
  destruct (exec1 C rng x0 c s) as [r s1]. rewrite IH. destruct (exec C rng x0 cs1 s1) as [r1 s2].
  by destruct (exec C rng x0 cs2 s2).
Qed.
Lemma exec_length {N} (C : NodeClass N) rng x0 cs : forall s, length (fst (exec C rng x0 cs s)) = length cs.
Proof.
  induction cs as [|c cs IH]; intros s; [done|]. simpl. destruct (exec1 C rng x0 c s) as [r s1]. specialize (IH s1).
  destruct (exec C rng x0 cs s1). simpl in *. by rewrite IH.
Qed.

Section Events.
  Context (i : inst).
  Lemma alike_events cs rs : Forall (alike i) cs -> Forall (fun r : res nat => exists j, r = Ok j) rs ->
    all_inst (C:=RC) good (zip_with event_of cs rs) /\ all_ok (zip_with event_of cs rs).
  Proof.
    intros Hc. revert rs. induction Hc as [|c cs Hc _ IH]; intros rs Hr; [by split; constructor|].
    destruct Hr as [|r rs (j & ->) Hr]; [by split; constructor|]. destruct (IH rs Hr) as [H1 H2]. simpl. split.
    - constructor; [|done]. intros m Hm. destruct c; simpl in *; try done; destruct Hm; by destruct Hc.
    - constructor; [|done]. by destruct c.
  Qed.
  Lemma alike_history cs rs : Forall (alike i) cs -> forall m, m ∈ history (zip_with event_of cs rs) -> same_attrs i m.
  Proof.
    intros Hc.
    assert (G : forall evs : list (event RC), Forall (fun e : event RC => match e with EFit m _ => same_attrs i (m : inst) | _ => True end) evs ->
      forall m, m ∈ history evs -> same_attrs i m).
    { unfold history. intros evs. induction evs as [|e evs IH] using rev_ind; intros H m Hm; [by apply elem_of_nil in Hm|].
      rewrite fold_left_app in Hm. simpl in Hm. apply Forall_app in H as [H He]. rewrite Forall_singleton in He.
      destruct e; simpl in Hm; try (by apply IH); [|by apply elem_of_nil in Hm].
      apply elem_of_app in Hm as [Hm|Hm]; [by apply IH|]. apply elem_of_list_singleton in Hm as ->. done. }
    apply G. clear G. revert rs. induction Hc as [|c cs Hc _ IH]; intros [|r rs]; try constructor; [|apply IH].
    destruct c; simpl in *; try done. by destruct Hc as (_ & _ & ?).
  Qed.
  Lemma silent_events cs rs : Forall silent cs -> Forall quiet (zip_with event_of cs rs).
  Proof.
    intros Hc. revert rs. induction Hc as [|c cs Hc _ IH]; intros [|r rs]; try constructor; [|apply IH]. by destruct c.
  Qed.
End Events.

Section Props.
  Context (rng : nat -> R) (sc : option R) (inner : bool).

  Theorem C108_cobweb3_nominal cs i qs ctr rpos rs s :
    Forall (alike i) cs -> good i -> (forall a, (a, cv_key) ∉ i) -> Forall silent qs ->
    exec RC3 rng (new_ctx (N:=ROps) sc inner) (map (nom_call ROps) (cs ++ [CFit (C:=RC) i] ++ qs ++ [CCat (C:=RC) i]))
      (fresh RC3 ctr rpos (new_ctx (N:=ROps) sc inner)) = (rs, s) ->
    Forall (fun r => exists j, r = Ok j) rs ->
    exists k, last rs = Some (Ok k) /\ holds_only3 s k i.
  Proof.
    intros Hcs Hg Hk Hqs E Hok.
    set (all := cs ++ [CFit (C:=RC) i] ++ qs ++ [CCat (C:=RC) i]) in *.
    assert (Hav : Forall (call_avoids_key ROps) all).
    { unfold all. rewrite !Forall_app, !Forall_singleton. repeat split; try done.
      - eapply Forall_impl; [exact Hcs|]. intros [m|m| |]; simpl; tauto.
      - eapply Forall_impl; [exact Hqs|]. intros [m|m| |]; simpl; tauto. }
    pose proof (C64_cobweb3_extends_cobweb ROps rng sc inner all ctr rpos Hav) as H64. cbv zeta in H64. rewrite E in H64.
    unfold all in H64. rewrite exec_app in H64.
    pose proof (exec_reachable RC rng tt cs ctr rpos) as Hr.
    destruct (exec RC rng tt cs (fresh RC ctr rpos tt)) as [r0 s0]. cbn [fst snd] in Hr.
    rewrite exec_app in H64. cbn [exec exec1] in H64.
    destruct (cobweb RC rng i s0) as [rj s1] eqn:Ef.
    rewrite exec_app in H64.
    pose proof (exec_run RC rng tt qs s1) as Hq.
    destruct (exec RC rng tt qs s1) as [r2 s2]. cbn [fst snd] in Hq. cbn [exec exec1] in H64.
    destruct (cobweb_categorize RC rng i s2) as [rk s3] eqn:Ec.
    destruct H64 as [<- Hv]. rewrite !Forall_app, !Forall_singleton in Hok. destruct Hok as (Ho0 & (j & ->) & Ho2 & (k & ->)).
    destruct (alike_events i cs r0 Hcs Ho0) as [Hi Ha].
    assert (Hh : holds_only s2 k i).
    { eapply C108_just_fitted_recognised; [exact Hr|exact Hi|exact Ha|exact Hg| |exact Ef|exact Hq| |exact Ec].
      - by apply alike_history.
      - by apply silent_events. }
    exists k. split; [by rewrite !app_assoc, last_snoc|].
    destruct Hh as [Hl (tb & l & Ht & (Hn & He) & Hne & Hagr)].
    (* categorize leaves the objects alone *)
    assert (Hsame : st_heap s3 = st_heap s2 /\ st_root s3 = st_root s2).
    { destruct Hr as (c0 & p0 & Hr).
      assert (Hr2 : reachable RC rng tt ((zip_with event_of cs r0 ++ [EFit (C:=RC) i (Ok j)]) ++ zip_with event_of qs r2) s2).
      { exists c0, p0. clear -Hr Hq Ef. remember (zip_with event_of qs r2) as evs eqn:Ee. clear Ee.
        assert (H1 : run RC rng tt (fresh RC c0 p0 tt) (zip_with event_of cs r0 ++ [EFit (C:=RC) i (Ok j)]) s1).
        { econstructor; [exact Hr|]. by constructor. }
        induction Hq as [|s1 evs s2 e s3 Hq IH Hs]; [by rewrite app_nil_r|]. rewrite app_assoc. econstructor; [by apply IH|done]. }
      destruct (reachable_ok RC rng _ _ _ Hr2) as (t & Hok2).
      destruct (quiet_run rng s2 [ECat (C:=RC) i (Ok k)] s3 t) as (_ & H1 & H2); [|repeat constructor|done|done].
      apply (run_snoc RC rng tt s2 [] s2); [constructor|by constructor]. }
    destruct Hsame as [E1 E2].
    assert (Hin2 : forall id, in_tree s2 id -> in_tree s3 id).
    { intros id H. unfold in_tree in *. rewrite E2. induction H as [|b c H IH Hbc]; [constructor|].
      destruct Hbc as (ch & (n & Hn1 & Hn2) & Hc). econstructor; [exact IH|]. exists ch. split; [|done]. exists n. by rewrite E1. }
    destruct Hl as [Hl1 Hl2]. pose proof (Hin2 k Hl1) as Hk3.
    assert (Hch : children_of s3 k []) by (destruct Hl2 as (n & ? & ?); exists n; by rewrite E1).
    assert (Htb : table_of s3 k tb) by (destruct Ht as (n & ? & ?); exists n; by rewrite E1).
    pose proof (proj1 (sv_children _ _ _ Hv k [] Hk3) Hch) as Hch3.
    split; [split; [by apply (sv_in _ _ _ Hv)|done]|].
    destruct Hch3 as (n3 & En3 & _). exists (nd_sum n3).
    assert (Ht3 : table_of s k (nd_sum n3)) by (by exists n3).
    destruct (sv_table _ _ _ Hv k tb _ Hk3 Htb Ht3) as [Hc3 Hav3]. split; [done|].
    rewrite Hc3, Hn. split; [destruct l; [done|simpl; lia]|].
    intros a Hva v.
    assert (Hcnt : count_of (nd_sum n3) a v = entry tb a v).
    { unfold count_of, entry. rewrite Hav3.
      rewrite (dget_map (fun d : list (nom * nat) => map (fun q => (fst q, Cnt (N:=ROps) (snd q))) d)).
      destruct (dget a (ns_av tb)) as [d|]; [|done]. simpl. rewrite (dget_map (@Cnt ROps)). by destruct (dget v d). }
    rewrite Hcnt, He. case_decide as Hd.
    - apply occ_all_2. intros m Hm. by rewrite <- (Hagr m Hm a Hva).
    - apply occ_none. intros m Hm. by rewrite <- (Hagr m Hm a Hva).
  Qed.
End Props.
(** Calls of ifit and categorize return, for instances with a visible attribute. *)
Definition sorts (c : call RC3) : Prop := match c with CFit i | CCat i => fits3 (N:=ROps) i | _ => False end.
Lemma sorts_return (rng : nat -> R) sc inner all : distinct_draws (N:=ROps) rng -> Forall sorts all ->
  exists rs s, exec RC3 rng (new_ctx (N:=ROps) sc inner) all (fresh RC3 0 0 (new_ctx (N:=ROps) sc inner)) = (rs, s) /\
    Forall (fun r => exists j, r = Ok j) rs.
Proof.
  intros Hd Hall.
  pose proof (exec_reachable RC3 rng (new_ctx (N:=ROps) sc inner) all 0 0) as Hr.
  pose proof (exec_length RC3 rng (new_ctx (N:=ROps) sc inner) all (fresh RC3 0 0 (new_ctx (N:=ROps) sc inner))) as Hlen.
  destruct (exec RC3 rng (new_ctx (N:=ROps) sc inner) all (fresh RC3 0 0 (new_ctx (N:=ROps) sc inner))) as [rs s].
  cbn [fst snd] in Hr, Hlen. exists rs, s. split; [reflexivity|].
  destruct (C63_fitting_never_raises rng sc inner Hd _ s Hr) as [Hn _].
  - clear -Hall. revert rs. induction Hall as [|c all Hc _ IH]; intros [|r rs]; try constructor; [|apply IH].
    destruct c; simpl in *; try done; by intros q ->.
  - clear -Hall Hlen Hn. revert rs Hlen Hn. induction Hall as [|c all Hc _ IH]; intros [|r rs] Hlen Hn; try done.
    apply Forall_cons in Hn as [H1 H2]. constructor; [|apply IH; [by injection Hlen|done]].
    destruct c, r; simpl in *; try done; by eexists.
Qed.
Definition one (v : string) : inst := [(AStr "a", NStr v)].
Lemma one_good v : good (one v).
Proof. split; [apply NoDup_singleton|apply Forall_singleton; done]. Qed.
Lemma one_plain v : v <> "#ContinuousValue#" -> forall a, (a, cv_key) ∉ one v.
Proof. intros Hv a H. apply elem_of_list_singleton in H. unfold cv_key in H. congruence. Qed.
Lemma one_fits v : v <> "#ContinuousValue#" -> fits3 (N:=ROps) (nom_inst ROps (one v)).
Proof.
  intros Hv. split; [|exists (AStr "a"); split; [done|left]].
  split; [apply NoDup_singleton|]. split; [by apply Forall_singleton|]. intros a Ha. simpl in Ha. case_decide; [|done].
  injection Ha as Ha. congruence.
Qed.
(** A third instance is fitted to a tree of two, another one is categorized,
    and then the third: all calls return. *)
Lemma ex_C108_3 : exists cs i qs rs s, cs <> [] /\ qs <> [] /\
  Forall (alike i) cs /\ good i /\ (forall a, (a, cv_key) ∉ i) /\ Forall silent qs /\
  exec RC3 ex_draws (new_ctx (N:=ROps) (Some 1%R) true) (map (nom_call ROps) (cs ++ [CFit (C:=RC) i] ++ qs ++ [CCat (C:=RC) i]))
    (fresh RC3 0 0 (new_ctx (N:=ROps) (Some 1%R) true)) = (rs, s) /\
  Forall (fun r => exists j, r = Ok j) rs.
Proof.
  exists [CFit (C:=RC) (one "x"); CFit (C:=RC) (one "y")], (one "z"), [CCat (C:=RC) (one "x")].
  assert (H : exists rs s, exec RC3 ex_draws (new_ctx (N:=ROps) (Some 1%R) true)
    (map (nom_call ROps) ([CFit (C:=RC) (one "x"); CFit (C:=RC) (one "y")] ++ [CFit (C:=RC) (one "z")] ++ [CCat (C:=RC) (one "x")] ++ [CCat (C:=RC) (one "z")]))
    (fresh RC3 0 0 (new_ctx (N:=ROps) (Some 1%R) true)) = (rs, s) /\ Forall (fun r => exists j, r = Ok j) rs).
  { apply sorts_return; [exact ex_draws_distinct|]. cbn [map app nom_call].
    repeat (apply Forall_cons_2; [apply one_fits; discriminate|]). apply Forall_nil_2. }
  destruct H as (rs & s & H). exists rs, s. split; [discriminate|]. split; [discriminate|].
  split; [|split; [apply one_good|split; [apply one_plain; discriminate|split; [|exact H]]]]; clear H.
  - repeat (apply Forall_cons_2; [split; [apply one_good|split; [apply one_plain; discriminate|intros a _; reflexivity]]|]). apply Forall_nil_2.
  - apply Forall_singleton. split; [apply one_good|apply one_plain; discriminate].
Qed.
Print Assumptions C108_cobweb3_nominal.
