(** * Cobweb3Node tables summarise the instances fitted.

    What a ContinuousValue knows about the numbers it has seen depends on the
    arithmetic: [cvP c xs] below is instantiated with "c counts xs" for any
    arithmetic and with "c has the number, mean and sum of squared deviations
    of xs" for exact arithmetic. *)
From stdpp Require Import base decidable list gmap strings.
From Verif Require Import Base Num TreeModel TreeSorts TreeInv Nominal NominalFacts CV Cobweb3.

(** ** Loops over dictionaries *)
Lemma sfold_point {K V X} `{EqDecision K} (step : list (K * V) -> K * X -> list (K * V) * option exn)
    (h : K -> option V -> X -> option V) :
  (forall d k x r, h k (dget k d) x = Some r -> step d (k, x) = (dset k r d, None)) ->
  forall (l : list (K * X)) d, dwf l ->
    (forall k x, dget k l = Some x -> exists r, h k (dget k d) x = Some r) ->
    exists d', sfold step d l = (d', None) /\ (dwf d -> dwf d') /\
      forall k, dget k d' = match dget k l with None => dget k d | Some x => h k (dget k d) x end.
Proof.
  intros Hstep. induction l as [|[k x] l IH]; intros d Hl Hh.
  { exists d. done. }
  apply dwf_cons in Hl as [Hni Hl].
  destruct (Hh k x) as [r Hr]; [simpl; by rewrite decide_True|].
  cbn [sfold]. rewrite (Hstep _ _ _ _ Hr).
  destruct (IH (dset k r d) Hl) as (d' & E & Hwf & Hd').
  { intros k' x' Hk'. rewrite dget_dset_ne.
    - apply Hh. simpl. rewrite decide_False; [done|].
      intros ->. apply Hni. by eapply dget_Some_key.
    - intros ->. apply Hni. by eapply dget_Some_key. }
  exists d'. split; [done|]. split; [intros; by apply Hwf, dset_wf|].
  intros k'. rewrite Hd'. simpl. destruct (decide (k' = k)) as [->|Hne].
  - rewrite (proj2 (dget_None k l)) by done. by rewrite dget_dset_eq.
  - by rewrite dget_dset_ne.
Qed.

Section Facts.
  Context {N : NumOps}.
  Notation F := (num N).
  Notation inst3 := (inst3 N).
  Notation C := (Cobweb3Class N).

  (** ** What was fitted *)
  (** Number of instances in which attribute [a] has the nominal value [v]. *)
  Fixpoint occ3 (l : list inst3) (a : attr) (v : nom) : nat :=
    match l with
    | [] => 0
    | i :: l => (match dget a i with
                 | Some (VNom w) => if decide (w = v) then 1 else 0
                 | _ => 0
                 end) + occ3 l a v
    end.
  (** The numbers that attribute [a] has had. *)
  Fixpoint nums (l : list inst3) (a : attr) : list F :=
    match l with
    | [] => []
    | i :: l => match dget a i with
                | Some (VNum x) => x :: nums l a
                | _ => nums l a
                end
    end.

  Lemma occ3_app l1 l2 a v : occ3 (l1 ++ l2) a v = occ3 l1 a v + occ3 l2 a v.
  Proof. induction l1 as [|i l1 IH]; simpl; [done|]. rewrite IH. lia. Qed.
  Lemma nums_app l1 l2 a : nums (l1 ++ l2) a = nums l1 a ++ nums l2 a.
  Proof.
    induction l1 as [|i l1 IH]; simpl; [done|]. destruct (dget a i) as [[w|x]|]; try done.
    by rewrite IH.
  Qed.
  Lemma occ3_perm l1 l2 a v : Permutation l1 l2 -> occ3 l1 a v = occ3 l2 a v.
  Proof. induction 1; simpl; lia. Qed.
  Lemma nums_perm l1 l2 a : Permutation l1 l2 -> Permutation (nums l1 a) (nums l2 a).
  Proof.
    induction 1 as [|i l1 l2 _ IH|i j l|l1 l2 l3 _ IH1 _ IH2]; simpl.
    - done.
    - destruct (dget a i) as [[w|x]|]; [done|by constructor|done].
    - destruct (dget a i) as [[w|x]|], (dget a j) as [[w'|x']|]; try done. constructor.
    - by rewrite IH1.
  Qed.
  Lemma occ3_le l a v : occ3 l a v + length (nums l a) <= length l.
  Proof.
    induction l as [|i l IH]; simpl; [lia|]. destruct (dget a i) as [[w|x]|]; simpl; [|lia|lia].
    case_decide; lia.
  Qed.
  Lemma occ3_all l a v : occ3 l a v = length l -> forall i, i ∈ l -> dget a i = Some (VNom v).
  Proof.
    induction l as [|j l IH]; simpl; intros Ho i Hi; [inversion Hi|].
    pose proof (occ3_le l a v). destruct (dget a j) as [[w|x]|] eqn:E; [|lia|lia].
    case_decide as Hd; [subst w|lia].
    apply elem_of_cons in Hi as [->|Hi]; [done|]. apply IH; [lia|done].
  Qed.
  Lemma occ3_all_2 l a v : (forall i, i ∈ l -> dget a i = Some (VNom v)) -> occ3 l a v = length l.
  Proof.
    induction l as [|j l IH]; simpl; intros Ho; [done|].
    rewrite (Ho j) by left. rewrite decide_True by done. f_equal. apply IH.
    intros i Hi. apply Ho. by right.
  Qed.
  Lemma occ3_pos l a v : 0 < occ3 l a v <-> exists i, i ∈ l /\ dget a i = Some (VNom v).
  Proof.
    induction l as [|j l IH]; simpl.
    - split; [lia|]. intros (i & Hi & _). inversion Hi.
    - split.
      + intros Ho. destruct (decide (0 < occ3 l a v)) as [Hl|Hl].
        * apply IH in Hl as (i & Hi & E). exists i. split; [by right|done].
        * exists j. split; [left|]. destruct (dget a j) as [[w|x]|]; [|lia|lia].
          case_decide; [by subst|lia].
      + intros (i & Hi & E). apply elem_of_cons in Hi as [->|Hi].
        * rewrite E, decide_True by done. lia.
        * assert (0 < occ3 l a v) by (apply IH; eauto). lia.
  Qed.
  Lemma nums_in l a x : x ∈ nums l a <-> exists i, i ∈ l /\ dget a i = Some (VNum x).
  Proof.
    induction l as [|j l IH]; simpl.
    - split; [inversion 1|]. intros (i & Hi & _). inversion Hi.
    - split.
      + intros Hx. destruct (dget a j) as [[w|y]|] eqn:E.
        * apply IH in Hx as (i & Hi & Ei). exists i. split; [by right|done].
        * apply elem_of_cons in Hx as [->|Hx]; [exists j; split; [left|done]|].
          apply IH in Hx as (i & Hi & Ei). exists i. split; [by right|done].
        * apply IH in Hx as (i & Hi & Ei). exists i. split; [by right|done].
      + intros (i & Hi & E). apply elem_of_cons in Hi as [->|Hi].
        * rewrite E. left.
        * assert (x ∈ nums l a) by (apply IH; eauto).
          destruct (dget a j) as [[w|y]|]; [done|by right|done].
  Qed.
  Lemma nums_all l a : length (nums l a) = length l ->
    forall i, i ∈ l -> exists x, dget a i = Some (VNum x) /\ x ∈ nums l a.
  Proof.
    intros Hlen i Hi.
    assert (exists x, dget a i = Some (VNum x)) as [x Hx].
    { revert Hlen i Hi. induction l as [|j l IH]; simpl; intros Hlen i Hi; [inversion Hi|].
      pose proof (occ3_le l a cv_key) as Hle.
      destruct (dget a j) as [[w|y]|] eqn:E; simpl in Hlen; [lia| |lia].
      apply elem_of_cons in Hi as [->|Hi]; [eauto|]. apply IH; [lia|done]. }
    exists x. split; [done|]. apply nums_in. eauto.
  Qed.

  (** ** Specification of a table *)
  Context (cvP : cval N -> list F -> Prop) (eqv : F -> F -> Prop).
  Record cv_laws : Prop := {
    cl_num : forall c xs, cvP c xs -> cv_num c = length xs;
    cl_perm : forall c xs ys, cvP c xs -> Permutation xs ys -> cvP c ys;
    cl_new : cvP (cv_new N) [];
    cl_update : forall c xs x, cvP c xs -> cvP (cv_update c x) (x :: xs);
    cl_combine : forall c o xs ys, cvP c xs -> cvP o ys -> ys <> [] ->
      exists c', cv_combine c o = Ok c' /\ cvP c' (xs ++ ys);
    cl_refl : forall x, eqv x x;
    cl_sym : forall x y, eqv x y -> eqv y x;
    cl_exact : forall c xs x u, cvP c xs -> cv_unbiased_std c = Ok u ->
      neqb N u (nofnat N 0) = true -> neqb N (cv_unbiased_mean c) x = true ->
      forall y, y ∈ xs -> eqv x y;
  }.
  Hypothesis CL : cv_laws.

  (** The dict of one attribute: the counts [f] of the nominal values and a
      summary of the numbers [xs], nothing else. *)
  Definition cells_ok (d : list (nom * cell N)) (f : nom -> nat) (xs : list F) : Prop :=
    dwf d /\ f cv_key = 0 /\
    (forall v, v <> cv_key -> dget v d = if decide (f v = 0) then None else Some (Cnt (f v))) /\
    match xs with
    | [] => dget cv_key d = None
    | _ => exists c, dget cv_key d = Some (CVc c) /\ cvP c xs
    end.

  Definition Hist3 (s : nsum3 N) (l : list inst3) : Prop :=
    n3_count s = length l /\
    dwf (n3_av s) /\
    (forall a d, dget a (n3_av s) = Some d -> d <> []) /\
    forall a, cells_ok (default [] (dget a (n3_av s))) (occ3 l a) (nums l a).

  (** Instances: a dict with valid attribute names, in which no nominal value
      is the reserved string. *)
  Definition good3 (i : inst3) : Prop :=
    dwf i /\ Forall (fun a => attr_ok a = true) (dkeys i) /\
    forall a, dget a i <> Some (VNom cv_key).

  Definition same_val (v w : val3 N) : Prop :=
    match v, w with
    | VNom v, VNom w => v = w
    | VNum x, VNum y => eqv x y
    | _, _ => False
    end.
  Definition same_vis3 (i j : inst3) : Prop :=
    forall a, visible a = true ->
      match dget a i, dget a j with
      | Some v, Some w => same_val v w
      | None, None => True
      | _, _ => False
      end.
  Definition LeafV3 (l : list inst3) : Prop := forall i j, i ∈ l -> j ∈ l -> same_vis3 i j.

  Lemma same_refl i : same_vis3 i i.
  Proof.
    intros a _. destruct (dget a i) as [[v|x]|]; simpl; try done. by apply cl_refl.
  Qed.
  Lemma same_sym i j : same_vis3 i j -> same_vis3 j i.
  Proof.
    intros H a Ha. specialize (H a Ha).
    destruct (dget a i) as [[v|x]|], (dget a j) as [[w|y]|]; simpl in *; try done.
    by apply cl_sym.
  Qed.

  (** ** Cells *)
  Lemma cells_ext d f g xs : cells_ok d f xs -> (forall v, f v = g v) -> cells_ok d g xs.
  Proof.
    intros (H1 & H0 & H2 & H3) Hfg. split; [done|]. split; [by rewrite <- Hfg|].
    split; [|done]. intros v Hv. rewrite (H2 v Hv). by rewrite (Hfg v).
  Qed.
  Lemma cells_perm d f xs ys : cells_ok d f xs -> Permutation xs ys -> cells_ok d f ys.
  Proof.
    intros (H1 & H0 & H2 & H3) Hp. split; [done|]. split; [done|]. split; [done|].
    destruct xs as [|x xs], ys as [|y ys]; try done.
    - by apply Permutation_nil in Hp.
    - symmetry in Hp. by apply Permutation_nil in Hp.
    - destruct H3 as (c & Hc & Hx). exists c. split; [done|]. by eapply (cl_perm CL).
  Qed.
  Lemma cells_nil : cells_ok [] (fun _ => 0) [].
  Proof. split; [apply dwf_nil|]. done. Qed.

  Lemma cells_num d f xs x : cells_ok d f xs ->
    exists d', inc1 d (VNum x) = (d', None) /\ d' <> [] /\ cells_ok d' f (x :: xs).
  Proof.
    intros (Hwf & H0 & Hn & Hc). unfold inc1.
    assert (Hgen : forall c, cvP c xs -> cells_ok (dset cv_key (CVc (cv_update c x)) d) f (x :: xs)).
    { intros c Hx. split; [by apply dset_wf|]. split; [done|]. split.
      - intros v Hv. rewrite dget_dset_ne by done. by apply Hn.
      - eexists. split; [apply dget_dset_eq|]. by apply (cl_update CL). }
    destruct xs as [|y xs].
    - rewrite Hc. eexists. split; [done|]. split; [apply dset_not_nil|]. apply Hgen, (cl_new CL).
    - destruct Hc as (c & -> & Hx). eexists. split; [done|]. split; [apply dset_not_nil|]. by apply Hgen.
  Qed.

  Lemma cells_nom d f xs v : v <> cv_key -> cells_ok d f xs ->
    exists d', inc1 d (VNom v) = (d', None) /\ d' <> [] /\
      cells_ok d' (fun w => (if decide (v = w) then 1 else 0) + f w) xs.
  Proof.
    intros Hv (Hwf & H0 & Hn & Hc). unfold inc1. rewrite (Hn v Hv).
    assert (Hgen : cells_ok (dset v (Cnt (f v + 1)) d)
      (fun w => (if decide (v = w) then 1 else 0) + f w) xs).
    { split; [by apply dset_wf|]. split; [by rewrite decide_False|]. split.
      - intros w Hw. rewrite dget_dset. destruct (decide (w = v)) as [->|Hne].
        + rewrite (decide_True (P := v = v)) by done. rewrite decide_False by lia. do 2 f_equal. lia.
        + rewrite (decide_False (P := v = w)) by done. by apply Hn.
      - destruct xs; rewrite dget_dset_ne by done; done. }
    destruct (decide (f v = 0)) as [E|E].
    - eexists. split; [done|]. split; [apply dset_not_nil|]. by rewrite E in Hgen.
    - eexists. split; [done|]. split; [apply dset_not_nil|]. done.
  Qed.

  (** Adding one cell to another: [None] when the code raises. *)
  Definition addcell (v : nom) (old : option (cell N)) (q : cell N) : option (cell N) :=
    if decide (v = cv_key) then
      match default (CVc (cv_new N)) old, q with
      | CVc c, CVc o => match cv_combine c o with Ok c' => Some (CVc c') | Err _ => None end
      | _, _ => None
      end
    else
      match default (Cnt 0) old, q with
      | Cnt n, Cnt m => Some (Cnt (n + m))
      | _, _ => None
      end.

  Lemma cells_add d e f g xs ys : cells_ok d f xs -> cells_ok e g ys -> e <> [] ->
    exists d', sfold add1 d e = (d', None) /\ d' <> [] /\ cells_ok d' (fun v => f v + g v) (xs ++ ys).
  Proof.
    intros (Hwf & H0 & Hn & Hc) (Ewf & E0 & En & Ec) Hne.
    destruct (sfold_point add1 addcell) with (l := e) (d := d) as (d' & E & Hwf' & Hd').
    - intros d0 k x r. unfold add1, addcell. simpl. destruct (decide (k = cv_key)) as [->|Hk].
      + destruct (default _ (dget cv_key d0)); [done|]. destruct x as [m|o]; [done|].
        destruct (cv_combine c o); [|done]. by intros [= <-].
      + destruct (default _ (dget k d0)); [|done]. destruct x as [m|o]; [|done]. by intros [= <-].
    - done.
    - intros k q Hq. unfold addcell. destruct (decide (k = cv_key)) as [->|Hk].
      + destruct ys as [|y ys]; [congruence|]. destruct Ec as (o & Eo & Ho).
        rewrite Eo in Hq. injection Hq as <-.
        assert (exists c, default (CVc (cv_new N)) (dget cv_key d) = CVc c /\ cvP c xs) as (c & -> & Hx).
        { destruct xs as [|x xs].
          - rewrite Hc. exists (cv_new N). split; [done|]. apply (cl_new CL).
          - destruct Hc as (c & -> & Hx). by exists c. }
        destruct (cl_combine CL c o xs (y :: ys) Hx Ho) as (c' & -> & _); [done|]. eauto.
      + rewrite (En k Hk) in Hq. case_decide as Hg; [done|]. injection Hq as <-.
        rewrite (Hn k Hk). case_decide; simpl; eauto.
    - exists d'. split; [done|]. split.
      { intros ->. destruct e as [|[k q] e]; [done|]. specialize (Hd' k). simpl in Hd'.
        rewrite decide_True in Hd' by done. unfold addcell in Hd'.
        assert (Hq : dget k ((k, q) :: e) = Some q) by (simpl; by rewrite decide_True).
        destruct (decide (k = cv_key)) as [->|Hk].
        - destruct ys as [|y ys]; [congruence|]. destruct Ec as (o & Eo & Ho).
          rewrite Eo in Hq. injection Hq as <-.
          assert (exists c, default (CVc (cv_new N)) (dget cv_key d) = CVc c /\ cvP c xs) as (c & E2 & Hx).
          { destruct xs as [|x xs].
            - rewrite Hc. exists (cv_new N). split; [done|]. apply (cl_new CL).
            - destruct Hc as (c & -> & Hx). by exists c. }
          rewrite E2 in Hd'.
          destruct (cl_combine CL c o xs (y :: ys) Hx Ho) as (c' & E3 & _); [done|].
          by rewrite E3 in Hd'.
        - rewrite (En k Hk) in Hq. case_decide as Hg; [done|]. injection Hq as <-.
          rewrite (Hn k Hk) in Hd'. by case_decide. }
      split; [by apply Hwf'|]. split; [lia|]. split.
      + intros v Hv. rewrite Hd', (En v Hv), (Hn v Hv). unfold addcell.
        destruct (decide (g v = 0)) as [Hg|Hg].
        * rewrite Hg, Nat.add_0_r. done.
        * rewrite decide_False by done. rewrite (decide_False (P := f v + g v = 0)) by lia.
          case_decide as Hf; simpl; [by rewrite Hf|done].
      + assert (Hx : match ys with [] => dget cv_key d' = dget cv_key d | _ =>
          exists c', dget cv_key d' = Some (CVc c') /\ cvP c' (xs ++ ys) end).
        { destruct ys as [|y ys]; [rewrite Hd', Ec; done|]. destruct Ec as (o & Eo & Ho).
          rewrite Hd', Eo. unfold addcell. rewrite decide_True by done.
          assert (exists c, default (CVc (cv_new N)) (dget cv_key d) = CVc c /\ cvP c xs) as (c & -> & Hx).
          { destruct xs as [|x xs].
            - rewrite Hc. exists (cv_new N). split; [done|]. apply (cl_new CL).
            - destruct Hc as (c & -> & Hx). by exists c. }
          destruct (cl_combine CL c o xs (y :: ys) Hx Ho) as (c' & -> & Hc'); [done|]. eauto. }
        destruct ys as [|y ys].
        * rewrite app_nil_r. by rewrite Hx.
        * destruct (xs ++ y :: ys) eqn:Exy; [by destruct xs|]. done.
  Qed.

  (** ** increment_counts *)
  Lemma n3_inc_eq (s : nsum3 N) (i : inst3) : n3_inc s i =
    (NSum3 (S (n3_count s)) (fst (sfold (on_attr inc1) (n3_av s) i)), snd (sfold (on_attr inc1) (n3_av s) i)).
  Proof. unfold n3_inc. by destruct (sfold _ _ _). Qed.
  Lemma n3_add_eq (s o : nsum3 N) : n3_add s o =
    (NSum3 (n3_count s + n3_count o) (fst (sfold (on_attr (sfold add1)) (n3_av s) (n3_av o))),
     snd (sfold (on_attr (sfold add1)) (n3_av s) (n3_av o))).
  Proof. unfold n3_add. by destruct (sfold _ _ _). Qed.

  Definition onh {X} (f : list (nom * cell N) -> X -> list (nom * cell N) * option exn)
      (old : option (list (nom * cell N))) (x : X) : option (list (nom * cell N)) :=
    match f (default [] old) x with (d, None) => Some d | _ => None end.

  Lemma on_attr_point {X} (f : list (nom * cell N) -> X -> list (nom * cell N) * option exn) :
    forall d k x r, onh f (dget k d) x = Some r -> on_attr f d (k, x) = (dset k r d, None).
  Proof.
    intros d k x r. unfold onh, on_attr. simpl. destruct (f _ x) as [d' [e|]]; [done|]. by intros [= <-].
  Qed.

  Lemma Hist3_inc s l i : Hist3 s l -> good3 i ->
    exists s', n3_inc s i = (s', None) /\ Hist3 s' (i :: l).
  Proof.
    intros (Hc & Hwf & Hne & Hcells) (Hi & _ & Hpoison).
    assert (Hstep : forall a v, dget a i = Some v -> exists r,
      inc1 (default [] (dget a (n3_av s))) v = (r, None) /\ r <> [] /\
      cells_ok r (occ3 (i :: l) a) (nums (i :: l) a)).
    { intros a v Hv. simpl. rewrite Hv. destruct v as [v|x].
      - assert (v <> cv_key) by (intros ->; by eapply Hpoison).
        by destruct (cells_nom _ _ _ v H (Hcells a)) as (d' & -> & Hd & Hcd); eauto.
      - by destruct (cells_num _ _ _ x (Hcells a)) as (d' & -> & Hd & Hcd); eauto. }
    destruct (sfold_point (on_attr inc1) (fun _ => onh inc1)) with (l := i) (d := n3_av s)
      as (av' & E & Hwf' & Hd').
    - apply on_attr_point.
    - done.
    - intros a v Hv. destruct (Hstep a v Hv) as (r & E & _). unfold onh. rewrite E. eauto.
    - rewrite n3_inc_eq, E. eexists. split; [done|]. split; [simpl; congruence|].
      split; [by apply Hwf'|]. cbn [n3_av fst]. split.
      + intros a d. rewrite Hd'. destruct (dget a i) as [v|] eqn:Ev; [|by apply Hne].
        destruct (Hstep a v Ev) as (r & Er & Hr & _). unfold onh. rewrite Er. by intros [= <-].
      + intros a. rewrite Hd'. destruct (dget a i) as [v|] eqn:Ev.
        * destruct (Hstep a v Ev) as (r & Er & Hr & Hok). unfold onh. by rewrite Er.
        * simpl. rewrite Ev. apply Hcells.
  Qed.

  Lemma Hist3_add s1 s2 l1 l2 : Hist3 s1 l1 -> Hist3 s2 l2 ->
    exists s', n3_add s1 s2 = (s', None) /\ Hist3 s' (l1 ++ l2).
  Proof.
    intros (Hc1 & Hwf1 & Hne1 & Hcells1) (Hc2 & Hwf2 & Hne2 & Hcells2).
    assert (Hstep : forall a e, dget a (n3_av s2) = Some e -> exists r,
      sfold add1 (default [] (dget a (n3_av s1))) e = (r, None) /\ r <> [] /\
      cells_ok r (occ3 (l1 ++ l2) a) (nums (l1 ++ l2) a)).
    { intros a e He. pose proof (Hcells2 a) as H2. rewrite He in H2. simpl in H2.
      destruct (cells_add _ _ _ _ _ _ (Hcells1 a) H2 (Hne2 a e He)) as (d' & -> & Hd & Hok).
      exists d'. split; [done|]. split; [done|]. rewrite nums_app.
      eapply cells_ext; [exact Hok|]. intros v. by rewrite occ3_app. }
    destruct (sfold_point (on_attr (sfold add1)) (fun _ => onh (sfold add1)))
      with (l := n3_av s2) (d := n3_av s1) as (av' & E & Hwf' & Hd').
    - apply on_attr_point.
    - done.
    - intros a v Hv. destruct (Hstep a v Hv) as (r & E & _). unfold onh. rewrite E. eauto.
    - rewrite n3_add_eq, E. eexists. split; [done|]. split; [simpl; rewrite app_length; congruence|].
      split; [by apply Hwf'|]. cbn [n3_av fst]. split.
      + intros a d. rewrite Hd'. destruct (dget a (n3_av s2)) as [e|] eqn:Ev; [|by apply Hne1].
        destruct (Hstep a e Ev) as (r & Er & Hr & _). unfold onh. rewrite Er. by intros [= <-].
      + intros a. rewrite Hd'. destruct (dget a (n3_av s2)) as [e|] eqn:Ev.
        * destruct (Hstep a e Ev) as (r & Er & Hr & Hok). unfold onh. by rewrite Er.
        * pose proof (Hcells2 a) as (_ & H0 & H2 & H3). rewrite Ev in H2, H3. simpl in H2, H3.
          assert (Hn2 : nums l2 a = []).
          { destruct (nums l2 a); [done|]. by destruct H3 as (c & ? & _). }
          rewrite nums_app, Hn2, app_nil_r. eapply cells_ext; [apply Hcells1|].
          intros v. rewrite occ3_app. destruct (decide (v = cv_key)) as [->|Hv]; [lia|].
          specialize (H2 v Hv). case_decide; [lia|done].
  Qed.

  Lemma Hist3_empty : Hist3 (NSum3 0 []) [].
  Proof. split; [done|]. split; [apply dwf_nil|]. split; [done|]. intros a. apply cells_nil. Qed.

  Lemma Hist3_perm s l l' : Hist3 s l -> Permutation l l' -> Hist3 s l'.
  Proof.
    intros (Hc & Hw & Hne & Hcells) Hp. split; [by rewrite <- Hp|]. split; [done|]. split; [done|].
    intros a. eapply cells_perm; [|by apply nums_perm].
    eapply cells_ext; [apply Hcells|]. intros v. by apply occ3_perm.
  Qed.

  (** The keys of a table are the attributes of the instances. *)
  Lemma Hist3_key s l a : Hist3 s l ->
    a ∈ dkeys (n3_av s) <-> exists i, i ∈ l /\ a ∈ dkeys i.
  Proof.
    intros (Hc & Hwf & Hne & Hcells). pose proof (Hcells a) as (Hd1 & Hd0 & Hd2 & Hd3). split.
    - intros (d & Hd)%dget_key_Some. rewrite Hd in Hd1, Hd2, Hd3. simpl in *.
      pose proof (Hne _ _ Hd) as Hn. destruct d as [|[v c] d]; [done|].
      assert (dget v ((v, c) :: d) = Some c) as Hv by (simpl; by rewrite decide_True).
      destruct (decide (v = cv_key)) as [->|Hk].
      + destruct (nums l a) as [|x xs] eqn:Ex; [congruence|].
        assert (x ∈ nums l a) as (i & Hi & E)%nums_in by (rewrite Ex; left).
        exists i. split; [done|]. by eapply dget_Some_key.
      + rewrite (Hd2 v Hk) in Hv. case_decide as Ho; [done|].
        assert (0 < occ3 l a v) as (i & Hi & E)%occ3_pos by lia.
        exists i. split; [done|]. by eapply dget_Some_key.
    - intros (i & Hi & (v & Hv)%dget_key_Some).
      destruct (dget a (n3_av s)) as [d|] eqn:E; [by eapply dget_Some_key|]. exfalso. simpl in *.
      destruct v as [v|x].
      + assert (v <> cv_key) as Hk.
        { intros ->. assert (0 < occ3 l a cv_key) by (apply occ3_pos; eauto). lia. }
        specialize (Hd2 v Hk). case_decide as Ho; [|done].
        assert (0 < occ3 l a v) by (apply occ3_pos; eauto). lia.
      + assert (Hx : x ∈ nums l a) by (apply nums_in; eauto).
        destruct (nums l a); [inversion Hx|]. by destruct Hd3 as (c & ? & _).
  Qed.

  (** ** is_exact_match *)
  Lemma rall_true {X} (f : X -> res bool) l : rall f l = Ok true <-> forall x, x ∈ l -> f x = Ok true.
  Proof.
    induction l as [|x l IH]; simpl.
    - split; [|done]. intros _ x Hx. inversion Hx.
    - split.
      + destruct (f x) as [[]|e] eqn:E; simpl; [|done|done]. intros Hr y Hy.
        apply elem_of_cons in Hy as [->|Hy]; [done|]. by apply IH.
      + intros Hall. rewrite (Hall x) by left. simpl. apply IH. intros y Hy. apply Hall. by right.
  Qed.
  Lemma rall_total {X} (f : X -> res bool) l : (forall x, x ∈ l -> exists b, f x = Ok b) ->
    exists b, rall f l = Ok b.
  Proof.
    induction l as [|x l IH]; simpl; intros Hall; [eauto|].
    destruct (Hall x) as [b ->]; [left|]. simpl. destruct b; [|eauto]. apply IH.
    intros y Hy. apply Hall. by right.
  Qed.

  (** What a true [exact1] says of the instances behind the table. *)
  Lemma exact1_same s l i a : Hist3 s l -> good3 i -> visible a = true ->
    exact1 s i a = Ok true -> forall j, j ∈ l ->
    match dget a i, dget a j with
    | Some v, Some w => same_val v w
    | None, None => True
    | _, _ => False
    end.
  Proof.
    intros HH (_ & _ & Hpo) Ha Hex j Hj.
    destruct HH as (Hc & Hwf & Hne & Hcells). pose proof (Hcells a) as (Hd1 & Hd0 & Hd2 & Hd3).
    unfold exact1 in Hex. unfold visible in Ha. apply negb_true_iff in Ha. rewrite Ha in Hex.
    destruct (dget a i) as [v|] eqn:Ei; destruct (dget a (n3_av s)) as [d|] eqn:Ed; try done.
    - simpl in Hd1, Hd2, Hd3. destruct v as [v|y].
      + assert (Hk : v <> cv_key) by (intros ->; by eapply Hpo).
        rewrite (Hd2 v Hk) in Hex. case_decide as Ho; [done|]. injection Hex as Hex.
        apply Nat.eqb_eq in Hex. rewrite Hc in Hex.
        by rewrite (occ3_all l a v Hex j Hj).
      + destruct (nums l a) as [|x xs] eqn:Ex; [by rewrite Hd3 in Hex|].
        destruct Hd3 as (c & E & Hcx). rewrite E in Hex.
        destruct (negb (length d =? 1)%nat); [done|].
        destruct (cv_num c =? n3_count s)%nat eqn:En; [|done]. simpl in Hex.
        destruct (cv_unbiased_std c) as [u|e] eqn:Eu; [|done]. simpl in Hex.
        destruct (neqb N u (nofnat N 0)) eqn:E0; [|done]. simpl in Hex. injection Hex as Hm.
        apply Nat.eqb_eq in En. rewrite (cl_num CL _ _ Hcx), Hc, <- Ex in En.
        destruct (nums_all l a En j Hj) as (z & -> & Hz). simpl.
        rewrite Ex in Hz. by eapply (cl_exact CL).
    - simpl in Hd1, Hd2, Hd3. destruct (dget a j) as [[w|y]|] eqn:Ej; [| |done].
      + assert (0 < occ3 l a w) by (apply occ3_pos; eauto).
        destruct (decide (w = cv_key)) as [->|Hk]; [lia|].
        specialize (Hd2 w Hk). case_decide; [lia|done].
      + assert (Hy : y ∈ nums l a) by (apply nums_in; eauto).
        destruct (nums l a); [inversion Hy|]. by destruct Hd3 as (c & ? & _).
  Qed.

  Lemma LeafV3_exact s l i : Hist3 s l -> LeafV3 l -> good3 i -> n3_exact s i = Ok true -> LeafV3 (i :: l).
  Proof.
    intros HH Hl Hg Hex. unfold n3_exact in Hex. rewrite rall_true in Hex.
    assert (Hi : forall j, j ∈ l -> same_vis3 i j).
    { intros j Hj a Ha.
      destruct (decide (a ∈ dkeys i ++ List.filter visible (dkeys (n3_av s)))) as [Hin|Hni].
      - by apply (exact1_same s l i a HH Hg Ha (Hex a Hin) j Hj).
      - apply not_elem_of_app in Hni as [H1 H2].
        rewrite (proj2 (dget_None a i) H1).
        destruct (dget a j) as [w|] eqn:Ej; [|done]. exfalso. apply H2.
        apply elem_of_filterb. split; [|done]. apply (Hist3_key s l a HH).
        exists j. split; [done|]. by eapply dget_Some_key. }
    intros j k Hj Hk. apply elem_of_cons in Hj as [->|Hj]; apply elem_of_cons in Hk as [->|Hk].
    - apply same_refl.
    - auto.
    - apply same_sym. auto.
    - auto.
  Qed.

  Lemma hist3_laws : summ_laws C Hist3 LeafV3 good3.
  Proof.
    split.
    - apply Hist3_perm.
    - apply Hist3_empty.
    - intros s l H. apply H.
    - intros s l i H Hg. by apply Hist3_inc.
    - intros s1 s2 l1 l2 H1 H2. by apply Hist3_add.
    - intros l l' Hl Hp i j Hi Hj. apply Hl; by rewrite Hp.
    - intros i j Hi. inversion Hi.
    - intros i _ j k ->%elem_of_list_singleton ->%elem_of_list_singleton. apply same_refl.
    - intros s l i H Hl Hg E. by eapply LeafV3_exact.
  Qed.
End Facts.
Global Arguments Hist3 {N}. Global Arguments LeafV3 {N}. Global Arguments cells_ok {N}.
Global Arguments same_vis3 {N}. Global Arguments same_val {N}. Global Arguments cv_laws : clear implicits.

(** ** The only exceptions are those of the code *)
Section Real.
  Context (N : NumOps).

  Lemma real_sfold {S X} (f : S -> X -> S * option exn) l :
    (forall s x e, snd (f s x) = Some e -> real_exn e) ->
    forall s e, snd (sfold f s l) = Some e -> real_exn e.
  Proof.
    intros Hf. induction l as [|x l IH]; intros s e; simpl; [done|].
    pose proof (Hf s x) as H. destruct (f s x) as [s' [e'|]]; simpl in *; [|apply IH].
    intros [= <-]. by apply H.
  Qed.
  Lemma real_on_attr {X} (f : list (nom * cell N) -> X -> list (nom * cell N) * option exn) :
    (forall s x e, snd (f s x) = Some e -> real_exn e) ->
    forall s x e, snd (on_attr f s x) = Some e -> real_exn e.
  Proof.
    intros Hf s x e. unfold on_attr. pose proof (Hf (default [] (dget (fst x) s)) (snd x)) as H.
    destruct (f _ _) as [d e']. simpl in *. apply H.
  Qed.
  Lemma real_rbind {X Y} (r : res X) (f : X -> res Y) : rres r -> (forall x, rres (f x)) -> rres (rbind r f).
  Proof. destruct r; simpl; auto. Qed.
  Lemma real_rfold {X Y} (f : Y -> X -> res Y) l : (forall b x, rres (f b x)) -> forall b, rres (rfold f b l).
  Proof. intros Hf. induction l as [|x l IH]; intros b; simpl; [done|]. by apply real_rbind. Qed.
  Lemma real_pydiv a b : rres (pydiv N a b).
  Proof. unfold pydiv. by destruct (neqb N b (nofnat N 0)). Qed.
  Lemma real_pysqrt a : rres (pysqrt N a).
  Proof. unfold pysqrt. by destruct (nltb N a (nofnat N 0)). Qed.
  Lemma real_c4 n : rres (c4 N n).
  Proof. unfold c4. repeat case_decide; try done. by destruct (dget _ _). Qed.
  Lemma real_ustd (c : cval N) : rres (cv_unbiased_std c).
  Proof.
    unfold cv_unbiased_std. case_decide; [done|]. apply real_rbind; [apply real_pysqrt|]. intros s.
    apply real_rbind; [apply real_c4|]. intros k. apply real_pydiv.
  Qed.
  Lemma real_combine (c o : cval N) e : cv_combine c o = Err e -> real_exn e.
  Proof. unfold cv_combine. case_decide; [|done]. by intros [= <-]. Qed.

  Lemma cobweb3_real : real_class (Cobweb3Class N).
  Proof.
    split.
    - intros s i. simpl. rewrite n3_inc_eq. simpl.
      destruct (snd _) as [e|] eqn:E; [|done]. revert E. apply real_sfold, real_on_attr.
      intros d [v|x] e'; simpl.
      + destruct (dget v d) as [[]|]; simpl; congruence || by intros [= <-].
      + destruct (dget cv_key d) as [[]|]; simpl; congruence || by intros [= <-].
    - intros s o. simpl. rewrite n3_add_eq. simpl.
      destruct (snd _) as [e|] eqn:E; [|done]. revert E. apply real_sfold, real_on_attr.
      intros d0 x0. apply real_sfold.
      intros d q e'. unfold add1. case_decide.
      + destruct (default _ _); [by intros [= <-]|]. destruct (snd q); [by intros [= <-]|].
        destruct (cv_combine _ _) eqn:E; simpl; [done|]. intros [= <-]. by eapply real_combine.
      + destruct (default _ _), (snd q); simpl; congruence || by intros [= <-].
    - intros x s. simpl. unfold n3_ecg. apply real_rbind; [|intros; apply real_pydiv].
      apply real_rfold. intros b p. apply real_rfold. intros b' q. apply real_rbind; [|done].
      unfold ecg_value. case_decide.
      + apply real_rbind.
        * unfold ecg_scale. destruct (scaling_on x); [|done]. destruct (dget _ _); [|done].
          apply real_rbind; [apply real_pydiv|]. intros. apply real_rbind; [apply real_ustd|done].
        * intros sc. destruct (snd q); [done|]. unfold cv_scaled_unbiased_std.
          repeat (apply real_rbind || apply real_pydiv || apply real_pysqrt || apply real_ustd || done || intro).
      + destruct (snd q); [|done]. apply real_rbind; [apply real_pydiv|done].
    - intros s i. simpl. unfold n3_exact. generalize (dkeys i ++ List.filter visible (dkeys (n3_av s))).
      intros l. induction l as [|a l IH]; simpl; [done|]. apply real_rbind; [|by intros []].
      unfold exact1. destruct (hidden a); [done|].
      destruct (dget a i) as [[v|x]|], (dget a (n3_av s)) as [d|]; try done.
      + by destruct (dget v d) as [[]|].
      + destruct (dget cv_key d) as [[]|]; [|..|done].
        * by destruct (negb _).
        * destruct (negb _); [done|]. destruct (negb _); [done|].
          apply real_rbind; [apply real_ustd|]. intros u. by destruct (negb _).
  Qed.
End Real.

(** ** Any arithmetic: a summary counts its numbers *)
Definition counts {N} (c : cval N) (xs : list (num N)) : Prop := cv_num c = length xs.
Lemma counts_laws N : cv_laws N counts (fun _ _ => True).
Proof.
  split; unfold counts; try done.
  - intros c xs ys -> Hp. by rewrite Hp.
  - intros c xs x E. simpl. by rewrite E.
  - intros c o xs ys E1 E2 Hne. unfold cv_combine. rewrite E1, E2, decide_False.
    + eexists. split; [done|]. simpl. by rewrite app_length.
    + destruct ys; [done|]. simpl. lia.
Qed.

(** ** Sanity check *)
Lemma sanity3_ok {N} (i : raw3 N) j : sanity3 i = Ok j ->
  i = map (fun p => (fst p, PVal3 (snd p))) j /\ Forall (fun a => attr_ok a = true) (dkeys j).
Proof.
  revert j. induction i as [|[a v] i IH]; simpl; intros j.
  { intros [= <-]. split; [done|constructor]. }
  destruct (attr_ok a) eqn:Ha; [|done]. destruct v as [v| |]; [|done|done].
  destruct (sanity3 i) as [j'|e]; [|done]. simpl. intros [= <-].
  destruct (IH j' eq_refl) as [-> Hk]. split; [done|]. by constructor.
Qed.

Lemma sanity3_rejects {N} (i : raw3 N) :
  (exists a v, (a, v) ∈ i /\ (attr_ok a = false \/ v = PNone3 \/ v = PUnhashable3)) ->
  sanity3 i = Err ValueError.
Proof.
  induction i as [|[a v] i IH]; intros (b & w & Hin & Hbad); [inversion Hin|].
  simpl. apply elem_of_cons in Hin as [[= -> ->]|Hin].
  - destruct (attr_ok a); [|done]. destruct Hbad as [?|[->| ->]]; done.
  - destruct (attr_ok a); [|done]. destruct v; [|done|done].
    rewrite IH; [done|eauto].
Qed.
