(** * Probabilities of a table that summarises a list of instances, over the
    reals. *)
From Coq Require Import Reals Lra.
From stdpp Require Import base decidable tactics gmap strings list.
From Verif Require Import Base Num TreeModel RSum Nominal NominalFacts NominalR Utils PropsUtils Query.
Local Open Scope R_scope.

Lemma Rdiv_nonneg x y : 0 <= x -> 0 < y -> 0 <= x / y.
Proof.
  intros Hx Hy. unfold Rdiv. apply Rmult_le_pos; [done|]. left. by apply Rinv_0_lt_compat.
Qed.

(** Number of instances without the attribute. *)
Fixpoint lacks (l : list inst) (a : attr) : nat :=
  match l with
  | [] => 0
  | i :: l => (match dget a i with None => 1 | Some _ => 0 end + lacks l a)%nat
  end.

Lemma lacks_nhas l a : (lacks l a + nhas l a)%nat = length l.
Proof. induction l as [|i l IH]; simpl; [done|]. destruct (dget a i); simpl; lia. Qed.

Lemma lacks_pos l a : (0 < lacks l a)%nat <-> exists i, i ∈ l /\ dget a i = None.
Proof.
  induction l as [|j l IH]; simpl.
  - split; [lia|]. intros (i & Hi & _). inversion Hi.
  - destruct (dget a j) as [v|] eqn:E.
    + simpl. rewrite IH. split.
      * intros (i & Hi & Hn). exists i. split; [by right|done].
      * intros (i & Hi & Hn). apply elem_of_cons in Hi as [->|Hi]; [congruence|eauto].
    + split; [|lia]. intros _. exists j. split; [left|done].
Qed.

(** Number of instances with value [v] for [a]; None: without [a]. *)
Definition share (l : list inst) (a : attr) (v : option nom) : nat :=
  match v with Some v => occ l a v | None => lacks l a end.

Lemma share_le l a v : (share l a v <= length l)%nat.
Proof. destruct v; simpl; [apply occ_le|]. pose proof (lacks_nhas l a). lia. Qed.

Lemma share_pos l a v : (0 < share l a v)%nat <-> exists i, i ∈ l /\ dget a i = v.
Proof. destruct v; [apply occ_pos|apply lacks_pos]. Qed.

Section Table.
  Context (s : nsum) (l : list inst).
  Hypothesis Hh : Hist s l.
  Hypothesis Hl : l <> [].

  Lemma count_pos : 0 < INR (ns_count s).
  Proof. apply lt_0_INR. destruct Hh as [-> _]. destruct l; simpl; [done|lia]. Qed.

  Lemma pydiv_count x : pydiv ROps x (nofnat ROps (ns_count s)) = Ok (x / INR (ns_count s)).
  Proof.
    unfold pydiv. simpl. destruct (Reqb _ 0) eqn:E; [|done].
    apply Reqb_true in E. pose proof count_pos. lra.
  Qed.

  Lemma vcount_nhas a d : dget a (ns_av s) = Some d -> vcount d = nhas l a.
  Proof. intros Hd. unfold vcount. by apply (Hist_sum s l a d). Qed.

  Theorem probability_share a v :
    probability (N:=ROps) s a v = Ok (INR (share l a v) / INR (length l)).
  Proof.
    assert (Hc : ns_count s = length l) by apply Hh. rewrite <- Hc.
    destruct v as [v|]; simpl.
    - destruct Hh as (_ & _ & He). specialize (He a v). unfold entry in He.
      destruct (dget a (ns_av s)) as [d|]; simpl in He.
      + destruct (dget v d) as [c|]; simpl in He.
        * rewrite pydiv_count. by rewrite He.
        * rewrite <- He. simpl. f_equal. unfold Rdiv. lra.
      + rewrite <- He. simpl. f_equal. unfold Rdiv. lra.
    - rewrite pydiv_count. f_equal. f_equal.
      pose proof (lacks_nhas l a) as Hn.
      assert (Hv : match dget a (ns_av s) with Some d => vcount d | None => 0%nat end = nhas l a).
      { destruct (dget a (ns_av s)) as [d|] eqn:E; [by apply vcount_nhas|].
        symmetry. by apply (nhas_absent s l a). }
      rewrite Hv, Hc, <- Hn, plus_INR. lra.
  Qed.

  Theorem probability_bounds a v : exists p, probability (N:=ROps) s a v = Ok p /\ 0 <= p <= 1.
  Proof.
    eexists. split; [apply probability_share|]. pose proof (share_le l a v) as Hle.
    pose proof count_pos as Hp. replace (ns_count s) with (length l) in Hp by (symmetry; apply Hh).
    apply le_INR in Hle. pose proof (pos_INR (share l a v)). split.
    - by apply Rdiv_nonneg.
    - apply Rmult_le_reg_r with (INR (length l)); [done|]. unfold Rdiv.
      rewrite Rmult_assoc, Rinv_l by lra. lra.
  Qed.

  (** The choices for a known attribute. *)
  Definition choices (d : list (nom * nat)) : list (option nom * R) :=
    map (fun q => (Some (fst q), INR (snd q) / INR (ns_count s))) d.

  Lemma weighted_known a d b : dget a (ns_av s) = Some d ->
    get_weighted_values (N:=ROps) s a b =
      Ok (choices d ++ if b then [(None, INR (lacks l a) / INR (length l))] else []).
  Proof.
    intros Hd. unfold get_weighted_values. rewrite Hd.
    assert (Em : rmapM (fun q : nom * nat =>
       rbind (pydiv ROps (nofnat ROps (snd q)) (nofnat ROps (ns_count s))) (fun p => Ok (Some (fst q), p))) d
       = Ok (choices d)).
    { clear Hd. unfold choices. induction d as [|q d IH]; [done|]. cbn [rmapM map].
      rewrite pydiv_count. cbn [rbind]. rewrite IH. done. }
    rewrite Em. cbn [rbind]. destruct b; [|by rewrite app_nil_r].
    rewrite pydiv_count. cbn [rbind]. do 4 f_equal.
    assert (Hc : ns_count s = length l) by apply Hh. rewrite Hc, (vcount_nhas a d Hd).
    pose proof (lacks_nhas l a) as Hn. simpl. f_equal. rewrite <- Hn at 1. rewrite plus_INR. lra.
  Qed.

  Lemma choices_sum d a : dget a (ns_av s) = Some d ->
    Rsum snd (choices d) = INR (nhas l a) / INR (length l).
  Proof.
    intros Hd. unfold choices. rewrite Rsum_map. simpl.
    rewrite (Rsum_ext _ (fun q => (/ INR (ns_count s)) * INR (snd q))) by (intros; unfold Rdiv; lra).
    rewrite Rsum_scal, <- INR_sumn. fold (vcount d). rewrite (vcount_nhas a d Hd).
    destruct Hh as [-> _]. unfold Rdiv. lra.
  Qed.

  Lemma choices_in d a v w : dget a (ns_av s) = Some d -> (v, w) ∈ choices d ->
    0 < w /\ probability (N:=ROps) s a v = Ok w /\ exists u, v = Some u /\ (0 < occ l a u)%nat.
  Proof.
    intros Hd Hin. unfold choices in Hin. apply elem_of_list_fmap in Hin as ([u c] & Heq & Hin).
    simpl in Heq. injection Heq as -> ->. destruct (Hist_dict s l a d Hh Hd) as (Hwf & _ & Hocc & _).
    destruct (Hocc u c Hin) as [Hc Hp]. split; [|split].
    - apply Rdiv_lt_0_compat; [by apply lt_0_INR|apply count_pos].
    - rewrite probability_share. simpl. rewrite <- Hc. by destruct Hh as [-> _].
    - exists u. split; [done|]. by rewrite <- Hc.
  Qed.

  Theorem weighted_distribution a : exists ws,
    get_weighted_values (N:=ROps) s a true = Ok ws /\
    NoDup (map fst ws) /\ Rsum snd ws = 1 /\
    (forall v w, (v, w) ∈ ws -> 0 <= w /\ probability (N:=ROps) s a v = Ok w) /\
    (forall v p, probability (N:=ROps) s a v = Ok p -> 0 < p -> (v, p) ∈ ws).
  Proof.
    assert (Hc : ns_count s = length l) by apply Hh. pose proof count_pos as Hcp. rewrite Hc in Hcp.
    destruct (dget a (ns_av s)) as [d|] eqn:Hd.
    - rewrite (weighted_known a d true Hd). eexists. split; [done|].
      destruct (Hist_dict s l a d Hh Hd) as (Hwf & _ & Hocc & Hall). repeat split.
      + rewrite map_app. simpl. apply NoDup_app. split; [|split].
        * unfold choices. rewrite map_map. simpl.
          change (NoDup (map (fun q : nom * nat => Some (fst q)) d)).
          rewrite <- (map_map fst Some). apply NoDup_map_inj; [by intros ? ? [= ->]|done].
        * intros v Hv Hn. apply elem_of_list_singleton in Hn. subst v.
          unfold choices in Hv. rewrite map_map in Hv. apply elem_of_list_fmap in Hv as (q & Hq & _). done.
        * apply NoDup_singleton.
      + rewrite Rsum_app, (choices_sum d a Hd). simpl. pose proof (lacks_nhas l a) as Hn.
        rewrite <- Hn, plus_INR. rewrite <- Hn, plus_INR in Hcp. field. lra.
      + apply elem_of_app in H as [H|H].
        * apply (choices_in d a v w Hd) in H. lra.
        * apply elem_of_list_singleton in H. injection H as -> ->.
          apply Rdiv_nonneg; [apply pos_INR|done].
      + apply elem_of_app in H as [H|H].
        * by apply (choices_in d a v w Hd) in H as (_ & H & _).
        * apply elem_of_list_singleton in H. injection H as -> ->. apply probability_share.
      + intros v p E Hp. rewrite probability_share in E. injection E as <-. apply elem_of_app.
        destruct v as [v|]; simpl in *; [left|right; by apply elem_of_list_singleton].
        assert (Ho : (0 < occ l a v)%nat).
        { destruct (occ l a v); [|lia]. simpl in Hp. unfold Rdiv in Hp. lra. }
        pose proof Ho as (i & Hi & Hiv)%occ_pos. specialize (Hall i v Hi Hiv).
        apply dget_key_Some in Hall as [c Hvc]. apply dget_In in Hvc.
        destruct (Hocc v c Hvc) as [<- _]. unfold choices. apply elem_of_list_fmap.
        exists (v, c). split; [|done]. by rewrite Hc.
    - unfold get_weighted_values. rewrite Hd. eexists. split; [done|].
      assert (Hla : lacks l a = length l).
      { pose proof (lacks_nhas l a) as Hn. rewrite (nhas_absent s l a Hh Hd) in Hn. lia. }
      assert (Hnone : probability (N:=ROps) s a None = Ok 1).
      { rewrite probability_share. simpl. rewrite Hla. f_equal. field. lra. }
      repeat split.
      + apply NoDup_singleton.
      + simpl. lra.
      + apply elem_of_list_singleton in H. injection H as -> ->. simpl. lra.
      + apply elem_of_list_singleton in H. injection H as -> ->. done.
      + intros [v|] p E Hp.
        * simpl in E. rewrite Hd in E. injection E as <-. simpl in Hp. lra.
        * rewrite Hnone in E. injection E as <-. by apply elem_of_list_singleton.
  Qed.
End Table.
