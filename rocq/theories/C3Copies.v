(** * Copying a Cobweb3Node in exact arithmetic gives the same tables. *)
From Coq Require Import Reals Lra.
From stdpp Require Import base decidable tactics gmap strings list.
From Verif Require Import Base Num TreeModel TreeFun TreeSorts TreeInv TreeState ScoreR RSum Nominal NominalFacts
  CV CVFacts Cobweb3 C3Facts C3R C3Tree.

Section Copies.
  Notation C := (Cobweb3Class ROps).

  (** A cell that copying preserves: a count, or a non-empty summary. *)
  Definition sound_cell (q : nom * cell ROps) : Prop :=
    match snd q with
    | Cnt _ => fst q <> cv_key
    | CVc c => fst q = cv_key /\ cv_num c <> 0
    end.

  Lemma combine_new (c : cval ROps) : cv_num c <> 0 -> cv_combine (cv_new ROps) c = Ok c.
  Proof.
    intros Hn. unfold cv_combine, cv_new. destruct c as [n m q]. simpl in *. rewrite decide_False by done.
    f_equal. f_equal.
    - assert (INR n <> 0%R) by (by apply not_0_INR).
      change (((0 * 0 + INR n * m) / INR n)%R = m). field. done.
    - change ((0 + q + (m - 0) * (m - 0) * (0 * INR n / INR n))%R = q). unfold Rdiv. rewrite Rmult_0_l, Rmult_0_l, Rmult_0_r, Rplus_0_l, Rplus_0_r. done.
  Qed.

  Lemma fresh_split {K V} `{EqDecision K} (d e : list (K * V)) k v : dwf (d ++ (k, v) :: e) -> k ∉ dkeys d.
  Proof.
    unfold dwf. rewrite dkeys_app. intros (_ & Hd & _)%NoDup_app Hv. apply (Hd k Hv). left.
  Qed.

  Lemma add1_copy (e : list (nom * cell ROps)) : Forall sound_cell e ->
    forall d, dwf (d ++ e) -> sfold add1 d e = (d ++ e, None).
  Proof.
    induction 1 as [|[v q] e Hq He IH]; intros d Hwf; [by rewrite app_nil_r|].
    pose proof (fresh_split _ _ _ _ Hwf) as Hf. apply dget_None in Hf as Hg.
    assert (E : add1 d (v, q) = (d ++ [(v, q)], None)).
    { unfold add1, sound_cell in *. simpl in *. destruct q as [n|c].
      - rewrite decide_False by done. rewrite Hg. simpl. by rewrite dset_fresh.
      - destruct Hq as [-> Hn]. rewrite decide_True by done. rewrite Hg. cbn [default].
        rewrite (combine_new c Hn). by rewrite dset_fresh. }
    cbn [sfold]. rewrite E. rewrite IH; rewrite <- (assoc_L (++)); done.
  Qed.

  Lemma av_copy (e : list (attr * list (nom * cell ROps))) :
    Forall (fun p => Forall sound_cell (snd p) /\ dwf (snd p)) e ->
    forall d, dwf (d ++ e) -> sfold (on_attr (sfold add1)) d e = (d ++ e, None).
  Proof.
    induction 1 as [|[a q] e [Hq Hqw] He IH]; intros d Hwf; [by rewrite app_nil_r|].
    pose proof (fresh_split _ _ _ _ Hwf) as Hf. apply dget_None in Hf as Hg.
    assert (E : on_attr (sfold add1) d (a, q) = (d ++ [(a, q)], None)).
    { unfold on_attr. simpl in *. rewrite Hg. cbn [default]. rewrite (add1_copy q Hq []) by done.
      simpl. by rewrite dset_fresh. }
    cbn [sfold]. rewrite E. rewrite IH; rewrite <- (assoc_L (++)); done.
  Qed.

  Lemma hist_cells s l a d : HistR s l -> (a, d) ∈ n3_av s -> Forall sound_cell d /\ dwf d.
  Proof.
    intros (Hc & Hwf & Hne & Hcells) Hin. apply (In_dget _ _ _ Hwf) in Hin.
    specialize (Hcells a). rewrite Hin in Hcells. simpl in Hcells.
    destruct Hcells as (Hd & H0 & Hn & Hx). split; [|done].
    apply Forall_forall. intros [v q] Hq. apply (In_dget _ _ _ Hd) in Hq. unfold sound_cell. simpl.
    destruct (decide (v = cv_key)) as [->|Hv].
    - destruct (nums l a) as [|x xs]; [congruence|]. destruct Hx as (c & E & Hs).
      rewrite E in Hq. injection Hq as <-. split; [done|]. unfold summarises in Hs. subst c. simpl. lia.
    - rewrite (Hn v Hv) in Hq. case_decide; [done|]. by injection Hq as <-.
  Qed.

  Lemma copies3 s l : HistR s l -> copies C s.
  Proof.
    intros HH. unfold copies, tcopy, tadd. simpl. rewrite n3_add_eq. simpl.
    rewrite av_copy.
    - simpl. by destruct s.
    - apply Forall_forall. intros [a d] Hin. simpl. by eapply hist_cells.
    - simpl. apply HH.
  Qed.

  Lemma counts3 i : ScoreR.counts C i.
  Proof.
    intros s s'. unfold tinc. simpl. rewrite n3_inc_eq.
    destruct (sfold _ _ _) as [av [e|]]; simpl; [done|]. by intros [= <-].
  Qed.

  Lemma closed3 i : good3 i -> closed C (somesum C HistR) i.
  Proof. apply (summ_closed C HistR LeafR good3 histR_laws). Qed.
End Copies.
