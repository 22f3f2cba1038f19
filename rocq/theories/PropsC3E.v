(** * Cobweb3 over the reals: the hypotheses of the theorems are met. *)
From Coq Require Import Reals Lra.
From stdpp Require Import base decidable tactics gmap strings list.
From Verif Require Import Base Num TreeModel TreeTotal SpecTree Nominal NominalFacts PropsTotal RSum
  CV Cobweb3 C3Facts C3Scales C3Total C3Units Query3 PropsC3 PropsC3R PropsC3U.
Notation RC3 := (Cobweb3Class ROps).

(** Any list of instances with a visible attribute each can be fitted. *)
Lemma ex_C3_run (sc : option R) (inner : bool) (l : list (inst3 ROps)) :
  Forall (fits3 (N:=ROps)) l ->
  exists evs s, reachable RC3 ex_draws (@new_ctx ROps sc inner) evs s /\
    all_inst (C:=RC3) (fits3 (N:=ROps)) evs /\ all_ok evs /\ history evs = l.
Proof.
  intros Hl. set (x0 := @new_ctx ROps sc inner).
  pose proof (exec_reachable RC3 ex_draws x0 (map (@CFit _ RC3) l) 0 0) as Hr.
  assert (Hlen : length (fst (exec RC3 ex_draws x0 (map (@CFit _ RC3) l) (fresh RC3 0 0 x0))) = length l).
  { generalize (fresh RC3 0 0 x0) as s. clear. induction l as [|i l IH]; intros s; [done|].
    cbn [map exec]. destruct (exec1 _ _ _ _ s) as [r s1]. specialize (IH s1).
    destruct (exec _ _ _ _ s1) as [rs s2]. simpl in *. by rewrite IH. }
  revert Hr Hlen. generalize (fst (exec RC3 ex_draws x0 (map (@CFit _ RC3) l) (fresh RC3 0 0 x0))) as rs.
  generalize (snd (exec RC3 ex_draws x0 (map (@CFit _ RC3) l) (fresh RC3 0 0 x0))) as s.
  intros s rs Hr Hlen.
  exists (zip_with event_of (map (@CFit _ RC3) l) rs), s. split; [done|].
  assert (Hg : all_inst (C:=RC3) (fits3 (N:=ROps)) (zip_with event_of (map (@CFit _ RC3) l) rs)).
  { clear -Hl. revert rs. induction Hl as [|i l Hi Hl IH]; intros rs; [constructor|].
    destruct rs as [|r rs]; [constructor|]. simpl. constructor; [|apply IH]. intros j Hj. simpl in Hj. by subst. }
  split; [done|].
  destruct (C63_fitting_never_raises ex_draws sc inner ex_draws_distinct _ _ Hr Hg) as [Hev _].
  clear Hr Hg Hl. split.
  - revert rs Hlen Hev. induction l as [|i l IH]; intros rs Hlen Hev; [constructor|].
    destruct rs as [|r rs]; [constructor|]. simpl in *. apply Forall_cons in Hev as [He Hev].
    constructor; [|apply IH; [lia|done]]. destruct r; [simpl; eauto|done].
  - unfold history. clear Hev.
    assert (Hgen : forall acc : list (inst3 ROps), fold_left (@hist_step _ RC3) (zip_with event_of (map (@CFit _ RC3) l) rs) acc = acc ++ l).
    { revert rs Hlen. induction l as [|i l IH]; intros rs Hlen acc.
      - by rewrite app_nil_r.
      - destruct rs as [|r rs]; [done|]. simpl in *. rewrite IH by lia. by rewrite <- app_assoc. }
    exact (Hgen []).
Qed.

Definition xci (x : R) (c : string) : inst3 ROps :=
  [(AStr "x", @VNum ROps x); (AStr "c", VNom (NStr c)); (AStr "_id", @VNum ROps x)].
Lemma xci_fits x c : NStr c <> cv_key -> fits3 (xci x c).
Proof.
  intros Hc. split.
  - split; [apply (bool_decide_unpack _); by vm_compute|]. split; [by repeat constructor|].
    intros a E. apply dget_In, elem_of_list_In in E. simpl in E. destruct E as [E|[E|[E|[]]]]; congruence.
  - exists (AStr "x"). split; [done|]. left.
Qed.

(** A tree holding three different instances with mixed values (C31, C32, C33,
    C35, C63, C65). *)
Lemma ex_C31 : exists evs s, reachable RC3 ex_draws (@new_ctx ROps (Some 0.5%R) true) evs s /\
  all_inst (C:=RC3) (fits3 (N:=ROps)) evs /\ all_ok evs /\
  history evs = [xci 1 "p"; xci 3 "q"; xci 1 "p"; xci 7 "q"].
Proof.
  apply ex_C3_run. repeat (apply Forall_cons_2; [by apply xci_fits|]). apply Forall_nil_2.
Qed.
(** Whose root has both kinds of entries. *)
Lemma ex_C31_root : exists evs s tb, reachable RC3 ex_draws (@new_ctx ROps (Some 0.5%R) true) evs s /\
  table_of s (st_root s) tb /\ count_of tb (AStr "c") (NStr "q") = 2%nat /\
  numeric_of tb (AStr "x") = Some (@CVal ROps 4 3%R 24%R).
Proof.
  destruct ex_C31 as (evs & s & Hr & Hg & Hok & Hh).
  assert (Hg' : all_inst (C:=RC3) (good3 (N:=ROps)) evs).
  { eapply Forall_impl; [exact Hg|]. intros e He i Hi. by apply He. }
  destruct (C31_root_summaries ex_draws (Some 0.5%R) true evs s Hr Hg' Hok) as (tb & Htb & _ & Hc & Hn).
  exists evs, s, tb. split; [done|]. split; [done|]. split.
  - rewrite Hc, Hh. by vm_compute.
  - rewrite Hn, Hh. assert (E : nums [xci 1 "p"; xci 3 "q"; xci 1 "p"; xci 7 "q"] (AStr "x") = [1; 3; 1; 7]%R) by done.
    etransitivity; [exact (f_equal summary_of E)|].
    unfold summary_of. cbn [length].
    assert (E4 : INR 4 = 4%R) by (simpl; lra).
    assert (Em : (Rsum (fun x => x) [1; 3; 1; 7] / INR 4 = 3)%R) by (rewrite E4; unfold Rsum; simpl; lra).
    rewrite Em. f_equal. f_equal. unfold Rsum; simpl. lra.
Qed.

(** Calls for which units do not matter (C37). *)
Lemma ex_C37 : measurable true []
  [@CFit _ RC3 (xci 1 "p"); @CFit _ RC3 (xci 3 "q"); @CCat _ RC3 (xci 2 "q"); @CClear _ RC3;
   @CFit _ RC3 (xci 5 "p"); @CCat _ RC3 (xci 5 "q")].
Proof.
  assert (Hg : forall x c, NStr c <> cv_key -> good3 (xci x c)) by (intros; by apply xci_fits).
  cbn [measurable app]. split; [by apply Hg|]. split; [by apply Hg|]. split; [by apply Hg|]. split.
  - intros a y Hin. right. exists 1%R, 3%R. apply elem_of_list_In in Hin. simpl in Hin.
    destruct Hin as [[= <- _]|[[=]|[[= <- _]|[]]]];
      (split; [left|]; split; [right; left|]; lra).
  - split; [by apply Hg|]. split; [by apply Hg|]. split; [|done].
    intros a y Hin. left. apply elem_of_list_In in Hin. simpl in Hin.
    destruct Hin as [[= <- <-]|[[=]|[[= <- <-]|[]]]]; left.
Qed.
