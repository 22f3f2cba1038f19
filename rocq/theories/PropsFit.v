(** * fit on CobwebTree, Cobweb3Tree and TrestleTree (C24), for any arithmetic. *)
From stdpp Require Import base decidable tactics gmap strings list sets.
From Coq Require Import Ascii String ZArith.
From Verif Require Import Base Num TreeModel TreeFun TreeScore TreeRefine TreeSorts TreeInv SpecTree TreeState TreeTotal
  TreeKeep TreeGen Nominal NominalFacts NominalTree Query Query3 PropsTree CV Cobweb3 C3Facts PropsC3
  PyVal Preproc Preproc2 StructMap StructFacts PropsStruct PreStd Trestle SpecTrestle TrestleFacts TrestleFresh TrestleRaise TrestleVals TrestleTotal PropsTrestle Fit.
Set Default Proof Using "Type".
Open Scope list_scope.

(** How many of the given instances have a property. *)
Definition tally {I} (f : I -> bool) (l : list I) : nat := List.length (List.filter f l).
Lemma tally_app {I} (f : I -> bool) l1 l2 : tally f (l1 ++ l2) = tally f l1 + tally f l2.
Proof. unfold tally. by rewrite List.filter_app, app_length. Qed.
Lemma tally_cons {I} (f : I -> bool) i l : tally f (i :: l) = (if f i then 1 else 0) + tally f l.
Proof. unfold tally. simpl. by destruct (f i). Qed.
Lemma tally_perm {I} (f : I -> bool) l1 l2 : Permutation l1 l2 -> tally f l1 = tally f l2.
Proof. induction 1; rewrite ?tally_cons; lia. Qed.
Lemma tally_repeat {I} (f : I -> bool) l n : tally f (List.concat (repeat l n)) = n * tally f l.
Proof. induction n as [|n IH]; simpl; [done|]. rewrite tally_app, IH. lia. Qed.
Lemma length_repeat {I} (l : list I) n : List.length (List.concat (repeat l n)) = n * List.length l.
Proof. induction n as [|n IH]; simpl; [done|]. rewrite app_length, IH. lia. Qed.
Lemma perm_repeat_in {I} (order l : list I) n i : Permutation order (List.concat (repeat l n)) -> i ∈ order -> i ∈ l.
Proof.
  intros HP Hi. rewrite HP in Hi. clear HP. induction n as [|n IH]; simpl in Hi; [by apply elem_of_nil in Hi|].
  apply elem_of_app in Hi as [?|?]; auto.
Qed.

Lemma history_fits {N} {C : NodeClass N} (evs : list (event C)) js rs : List.length js = List.length rs ->
  history (evs ++ zip_with (EFit (C:=C)) js rs) = history evs ++ js.
Proof.
  revert evs rs. induction js as [|j js IH]; intros evs [|r rs] Hl; try done; [by rewrite !app_nil_r|].
  simpl. injection Hl as Hl. change (EFit j r :: zip_with (EFit (C:=C)) js rs) with ([EFit (C:=C) j r] ++ zip_with (EFit (C:=C)) js rs).
  rewrite app_assoc, IH by done. rewrite history_snoc. simpl. by rewrite <- app_assoc.
Qed.
Lemma fits_inst {N} {C : NodeClass N} (P : nc_inst C -> Prop) js rs : Forall P js -> all_inst P (zip_with (EFit (C:=C)) js rs).
Proof.
  intros H. revert rs. induction H as [|j js Hj _ IH]; intros [|r rs]; simpl; try apply Forall_nil_2.
  apply Forall_cons_2; [by intros q ->|]. apply IH.
Qed.
Lemma fits_ok {N} {C : NodeClass N} js rs : Forall returned rs -> all_ok (zip_with (EFit (C:=C)) js rs).
Proof.
  intros H. revert js. induction H as [|r rs [k ->] _ IH]; intros [|j js]; simpl; try apply Forall_nil_2.
  apply Forall_cons_2; [done|]. apply IH.
Qed.

Section Cob.
  Context {N : NumOps} (rng : nat -> num N).
  Notation C := (CobwebClass N).

  Lemma each_ifit_all n (l : list raw) s : each (fun _ => ifit rng) n l s = ifit_all rng l s.
  Proof.
    revert n s. induction l as [|i l IH]; intros n s; [done|]. simpl. unfold mbind.
    destruct (ifit rng i s) as [[j|e] s1]; [apply IH|done].
  Qed.
  Lemma passes_fit_loop perms first x iters n (l : list raw) s : first && bool_decide (x = 0) = false ->
    passes (fun _ => ifit rng) perms first x iters n l s = fit_loop rng perms (S x) iters l s.
  Proof.
    revert x n l s. induction iters as [|iters IH]; intros x n l s Hx; [done|]. cbn [passes fit_loop]. rewrite Hx.
    cbv zeta. rewrite each_ifit_all. unfold mbind. destruct (ifit_all rng l s) as [[u|e] s1]; [|done].
    apply IH. by rewrite andb_comm.
  Qed.
  (** The model of fit in Nominal.v is this one. *)
  Lemma fit_is_fit_any perms iterations first (l : list raw) s :
    fit rng perms iterations first l s = fit_any (fun _ => ifit rng) perms iterations first l s.
  Proof.
    unfold fit, fit_any. destruct iterations as [|n]; [done|]. destruct first.
    - cbn [passes fit_loop]. rewrite bool_decide_true by done. cbn [andb]. cbv zeta. rewrite each_ifit_all. unfold mbind.
      destruct (ifit_all rng (perms 0 l) s) as [[u|e] s1]; [|done]. symmetry. apply passes_fit_loop. done.
    - symmetry. by apply passes_fit_loop.
  Qed.

  Definition gives (a : attr) (v : nom) (i : raw) : bool := bool_decide (dget a i = Some (PVal v)).

  Lemma fit_calls evs s n (order : list raw) rs s' : reachable C rng tt evs s -> Forall (fun i : raw => dwf i) order ->
    calls (fun _ => ifit rng) n order s rs s' -> Forall returned rs ->
    exists js, reachable C rng tt (evs ++ zip_with (EFit (C:=C)) js rs) s' /\ List.length js = List.length rs /\
      List.length js = List.length order /\ Forall NominalFacts.good js /\ forall a v, occ js a v = tally (gives a v) order.
  Proof.
    intros Hr Hw Hc. revert evs Hr Hw. induction Hc as [n s|n i l s r s1 rs s2 E Hc IH]; intros evs Hr Hw Hrs.
    { exists []. rewrite app_nil_r. done. }
    apply Forall_cons in Hw as [Hi Hw]. apply Forall_cons in Hrs as [[j ->] Hrs].
    unfold ifit in E. destruct (sanity i) as [q|e] eqn:Es; [|done].
    destruct (sanity_ok _ _ Es) as [Hiq Hk].
    destruct (IH (evs ++ [EFit (C:=C) q (Ok j)])) as (js & Hr' & Hl & Hl2 & Hg & Ho); [|done|done|].
    { destruct Hr as (c & p & Hr). exists c, p. eapply run_snoc; [exact Hr|]. by apply step_fit. }
    exists (q :: js). rewrite <- app_assoc in Hr'. split; [exact Hr'|]. split; [exact (f_equal S Hl)|]. split; [exact (f_equal S Hl2)|].
    split.
    - apply Forall_cons_2; [|done]. split; [|done]. subst i. unfold dwf, dkeys in *. by rewrite map_map in Hi.
    - intros a v. cbn [occ]. rewrite tally_cons, Ho. f_equal. unfold gives. subst i. clear.
      assert (H : dget a (map (fun p : attr * nom => (fst p, PVal (snd p))) q) = option_map PVal (dget a q)).
      { induction q as [|[b w] q IH]; simpl; [done|]. by destruct (decide (a = b)). }
      rewrite H. destruct (dget a q) as [w|]; cbn [option_map].
      + destruct (decide (w = v)) as [->|Hd].
        * by rewrite decide_True, bool_decide_true by done.
        * by rewrite decide_False, bool_decide_false by congruence.
      + by rewrite decide_False, bool_decide_false by done.
  Qed.

  (** On any tree, not only a new one, a fit that returns adds every instance
      [iterations] times to the root. *)
  Theorem C24_fit_adds evs s perms iterations first (l : list raw) s' :
    reachable C rng tt evs s -> all_inst (C:=C) NominalFacts.good evs -> all_ok evs ->
    (forall k l, Permutation (perms k l) l) -> Forall (fun i : raw => dwf i) l ->
    fit rng perms iterations first l s = (Ok tt, s') ->
    exists tb tb', table_of s (st_root s) tb /\ table_of s' (st_root s') tb' /\
      ns_count tb' = ns_count tb + iterations * List.length l /\
      forall a v, entry tb' a v = entry tb a v + iterations * tally (gives a v) l.
  Proof.
    intros Hr Hg Hao Hp Hw E. rewrite fit_is_fit_any in E.
    destruct (C24_fit_is_calls _ _ _ _ _ _ _ _ Hp E) as (order & HP & _ & rs & Hc & Hrs).
    destruct (fit_calls evs s 0 order rs s' Hr) as (js & Hr' & Hl & Hl2 & Hgj & Ho); [|done|done|].
    { rewrite Forall_forall in *. intros i Hi. apply Hw. by eapply perm_repeat_in. }
    destruct (C01_root_is_histogram rng evs s Hr Hg Hao) as (tb & Ht & Hn & He).
    destruct (C01_root_is_histogram rng _ s' Hr') as (tb' & Ht' & Hn' & He').
    { apply Forall_app. split; [done|]. by apply fits_inst. }
    { apply Forall_app. split; [done|]. by apply fits_ok. }
    rewrite history_fits in Hn', He' by done. exists tb, tb'. split; [done|]. split; [done|]. split.
    - rewrite Hn', Hn, app_length. f_equal. transitivity (List.length order); [exact Hl2|]. rewrite HP. apply length_repeat.
    - intros a v. rewrite He', He, occ_app, Ho, (tally_perm _ _ _ HP), tally_repeat. done.
  Qed.
End Cob.

Section Cob3.
  Context {N : NumOps} (rng : nat -> num N) (sc : option (num N)) (inner : bool).
  Notation C := (Cobweb3Class N).
  Notation x0 := (new_ctx sc inner).

  Definition gives_nom (a : attr) (v : nom) (i : raw3 N) : bool :=
    match dget a i with Some (PVal3 (VNom w)) => bool_decide (w = v) | _ => false end.
  Definition gives_num (a : attr) (i : raw3 N) : bool :=
    match dget a i with Some (PVal3 (VNum _)) => true | _ => false end.
  (** A dictionary none of whose values is the reserved string (C36). *)
  Definition proper3 (i : raw3 N) : Prop := dwf i /\ forall a, dget a i <> Some (PVal3 (VNom cv_key)).
  (** How many numbers a table holds under an attribute. *)
  Definition numbers (tb : nsum3 N) (a : attr) : nat :=
    match numeric_of tb a with Some c => cv_num c | None => 0 end.

  Lemma fit3_calls evs s n (order : list (raw3 N)) rs s' : reachable C rng x0 evs s -> Forall proper3 order ->
    calls (fun _ => ifit3 rng) n order s rs s' -> Forall returned rs ->
    exists js, reachable C rng x0 (evs ++ zip_with (EFit (C:=C)) js rs) s' /\ List.length js = List.length rs /\
      List.length js = List.length order /\ Forall good3 js /\ (forall a v, occ3 js a v = tally (gives_nom a v) order) /\
      forall a, List.length (nums js a) = tally (gives_num a) order.
  Proof.
    intros Hr Hw Hc. revert evs Hr Hw. induction Hc as [n s|n i l s r s1 rs s2 E Hc IH]; intros evs Hr Hw Hrs.
    { exists []. rewrite app_nil_r. done. }
    apply Forall_cons in Hw as [[Hi Hcv] Hw]. apply Forall_cons in Hrs as [[j ->] Hrs].
    unfold ifit3 in E. destruct (sanity3 i) as [q|e] eqn:Es; [|done].
    destruct (sanity3_ok _ _ Es) as [Hiq Hk].
    destruct (IH (evs ++ [EFit (C:=C) q (Ok j)])) as (js & Hr' & Hl & Hl2 & Hg & Ho & Hn); [|done|done|].
    { destruct Hr as (c & p & Hr). exists c, p. eapply run_snoc; [exact Hr|]. by apply step_fit. }
    assert (H : forall a, dget a i = option_map PVal3 (dget a q)).
    { intros a. rewrite Hiq. clear. induction q as [|[b w] q IH]; simpl; [done|]. by destruct (decide (a = b)). }
    exists (q :: js). rewrite <- app_assoc in Hr'. split; [exact Hr'|]. split; [exact (f_equal S Hl)|]. split; [exact (f_equal S Hl2)|].
    split; [|split].
    - apply Forall_cons_2; [|done]. split; [subst i; unfold dwf, dkeys in *; by rewrite map_map in Hi|]. split; [done|].
      intros a Ha. apply (Hcv a). by rewrite H, Ha.
    - intros a v. cbn [occ3]. rewrite tally_cons, Ho. unfold gives_nom. rewrite H. clear.
      destruct (dget a q) as [[w|y]|]; cbn [option_map]; try done. f_equal.
      destruct (decide (w = v)); [by rewrite bool_decide_true|by rewrite bool_decide_false].
    - intros a. rewrite tally_cons, <- Hn. unfold gives_num. rewrite H. clear. cbn [nums].
      by destruct (dget a q) as [[w|y]|].
  Qed.

  Lemma numbers_nums (tb : nsum3 N) (h : list (inst3 N)) a :
    match nums h a with [] => numeric_of tb a = None | xs => exists c, numeric_of tb a = Some c /\ cv_num c = List.length xs end ->
    numbers tb a = List.length (nums h a).
  Proof. unfold numbers. destruct (nums h a); [by intros ->|]. by intros (c & -> & ->). Qed.

  Theorem C24_fit3_adds evs s perms iterations first (l : list (raw3 N)) s' :
    reachable C rng x0 evs s -> all_inst (C:=C) good3 evs -> all_ok evs ->
    (forall k l, Permutation (perms k l) l) -> Forall proper3 l ->
    fit_any (fun _ => ifit3 rng) perms iterations first l s = (Ok tt, s') ->
    exists tb tb', table_of s (st_root s) tb /\ table_of s' (st_root s') tb' /\
      n3_count tb' = n3_count tb + iterations * List.length l /\
      (forall a v, count_of tb' a v = count_of tb a v + iterations * tally (gives_nom a v) l) /\
      (forall a, numbers tb' a = numbers tb a + iterations * tally (gives_num a) l).
  Proof.
    intros Hr Hg Hao Hp Hw E.
    destruct (C24_fit_is_calls _ _ _ _ _ _ _ _ Hp E) as (order & HP & _ & rs & Hc & Hrs).
    destruct (fit3_calls evs s 0 order rs s' Hr) as (js & Hr' & Hl & Hl2 & Hgj & Ho & Hm); [|done|done|].
    { rewrite Forall_forall in *. intros i Hi. apply Hw. by eapply perm_repeat_in. }
    destruct (C31_counts_any_arithmetic rng sc inner evs s Hr Hg Hao) as (tb & Ht & Hn & He & Hx).
    destruct (C31_counts_any_arithmetic rng sc inner _ s' Hr') as (tb' & Ht' & Hn' & He' & Hx').
    { apply Forall_app. split; [done|]. by apply fits_inst. }
    { apply Forall_app. split; [done|]. by apply fits_ok. }
    rewrite history_fits in Hn', He', Hx' by done. exists tb, tb'. split; [done|]. split; [done|]. split; [|split].
    - rewrite Hn', Hn, app_length. f_equal. transitivity (List.length order); [exact Hl2|]. rewrite HP. apply length_repeat.
    - intros a v. rewrite He', He. etransitivity; [apply occ3_app|]. f_equal. rewrite Ho, (tally_perm _ _ _ HP). apply tally_repeat.
    - intros a. rewrite (numbers_nums tb _ a (Hx a)), (numbers_nums tb' _ a (Hx' a)).
      assert (Happ : nums (history evs ++ js) a = nums (history evs) a ++ nums js a) by apply nums_app.
      rewrite Happ, app_length, Hm, (tally_perm _ _ _ HP), tally_repeat. done.
  Qed.
End Cob3.

Section Tres.
  Context {N : NumOps} (rng : nat -> num N).
  Notation F := (num N).
  Notation X := (val3 N).
  Context (ncmp : nom -> nom -> option bool) (normal : F -> F -> A F).
  Context (pystr : attr -> string) (setord : list attr -> list attr) (rlimit : nat).
  Hypothesis Hnormal : forall m sd, amono (normal m sd).
  Hypothesis setord_spec : forall l x, x ∈ setord l <-> x ∈ l.
  Notation treachable := (treachable rng ncmp normal pystr setord rlimit).
  (** What the searches of each call answer. *)
  Context (qf : nat -> torc N).
  Hypothesis Hqf : forall n, oracle_ok (to_orc (qf n)).
  Notation t_ifit := (fun n => t_fit rng pystr setord rlimit (qf n)).

  Lemma tfit_calls x0 evs s n order rs s' : treachable x0 evs s ->
    Forall (fun d : inst X => pwf (PD d) /\ pV (clean (N:=N)) (PD d)) order ->
    calls t_ifit n order s rs s' -> Forall returned rs ->
    exists evs', treachable x0 (evs ++ evs') s' /\ Forall t_clean evs' /\ Forall tfit_ok evs' /\
      List.length (thistory (evs ++ evs')) = List.length (thistory evs) + List.length order.
  Proof using Hqf.
    intros Hr Hw Hc. revert evs Hr Hw. induction Hc as [n s|n d l s r s1 rs s2 E Hc IH]; intros evs Hr Hw Hrs.
    { exists []. rewrite app_nil_r. split; [done|]. split; [done|]. split; [done|]. simpl. lia. }
    apply Forall_cons in Hw as [[Hd Hcl] Hw]. apply Forall_cons in Hrs as [[j ->] Hrs].
    destruct (t_ready pystr setord rlimit (qf n) d s) as [[q|e] s0] eqn:Eq.
    2:{ unfold t_fit in E. rewrite Eq in E. done. }
    destruct (IH (evs ++ [TFit d (qf n) (Ok q) (Ok j)])) as (evs' & Hr' & Hc' & Ho' & Hl'); [|done|done|].
    { destruct Hr as (c & p & Hr). exists c, p. eapply trun_snoc; [exact Hr|]. apply tstep_fit; [done|apply Hqf| |done]. by rewrite Eq. }
    exists (TFit d (qf n) (Ok q) (Ok j) :: evs'). rewrite <- app_assoc in Hr', Hl'. split; [exact Hr'|].
    split; [by constructor|]. split; [by constructor|]. etransitivity; [exact Hl'|].
    unfold thistory at 1. rewrite fold_left_app. simpl. rewrite app_length. simpl. unfold thistory. lia.
  Qed.

  (** A fit that returns adds [iterations] times the number of given instances
      to the count of the root (what is counted under which attribute depends
      on the structure mapping, C75). *)
  Theorem C24_fit_trestle sc inner evs s perms iterations first (l : list (inst X)) s' :
    treachable (@new_ctx N sc inner) evs s -> Forall t_clean evs -> Forall tfit_ok evs ->
    (forall k l, Permutation (perms k l) l) ->
    Forall (fun d : inst X => pwf (PD d) /\ pV (clean (N:=N)) (PD d)) l ->
    fit_any t_ifit perms iterations first l s = (Ok tt, s') ->
    exists tb tb', table_of (t_tree s) (st_root (t_tree s)) tb /\ table_of (t_tree s') (st_root (t_tree s')) tb' /\
      n3_count tb' = n3_count tb + iterations * List.length l.
  Proof using Hnormal setord_spec Hqf.
    intros Hr Hcl Hok Hp Hw E.
    destruct (C24_fit_is_calls _ _ _ _ _ _ _ _ Hp E) as (order & HP & _ & rs & Hc & Hrs).
    destruct (tfit_calls _ evs s 0 order rs s' Hr) as (evs' & Hr' & Hc' & Ho' & Hl'); [|done|done|].
    { rewrite Forall_forall in *. intros i Hi. apply Hw. by eapply perm_repeat_in. }
    destruct (C75_counts rng ncmp normal pystr setord rlimit Hnormal setord_spec sc inner evs s Hr Hcl Hok) as (tb & Ht & Hn & _).
    destruct (C75_counts rng ncmp normal pystr setord rlimit Hnormal setord_spec sc inner _ s' Hr') as (tb' & Ht' & Hn' & _).
    { by apply Forall_app. }
    { by apply Forall_app. }
    exists tb, tb'. split; [done|]. split; [done|]. rewrite Hn', Hn, Hl', (Permutation_length HP), length_repeat. done.
  Qed.
End Tres.
