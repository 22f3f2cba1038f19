(** * Properties of Cobweb3Tree that hold for any arithmetic.

    [sc] and [inner] are the constructor's arguments, [N] an arbitrary number
    system (also IEEE floats), [rng] an arbitrary source of random numbers. *)
From stdpp Require Import base decidable list gmap strings.
From Verif Require Import Base Num TreeModel TreeFun TreeScore TreeRefine TreeSorts TreeInv
  SpecTree TreeState TreeTotal TreeRel TreeSim TreeLeaf TreeGen Nominal NominalFacts
  CV Cobweb3 C3Facts C3Scales Query3.

(** ** Reading a table *)
Definition count_of {N} (tb : nsum3 N) (a : attr) (v : nom) : nat :=
  match dget a (n3_av tb) with
  | Some d => match dget v d with Some (Cnt n) => n | _ => 0 end
  | None => 0
  end.
Definition numeric_of {N} (tb : nsum3 N) (a : attr) : option (cval N) :=
  match dget a (n3_av tb) with
  | Some d => match dget cv_key d with Some (CVc c) => Some c | _ => None end
  | None => None
  end.

Lemma hist_count {N} (cvP : cval N -> list (num N) -> Prop) tb l a v :
  Hist3 cvP tb l -> count_of tb a v = occ3 l a v.
Proof.
  intros (_ & _ & _ & Hc). specialize (Hc a). unfold count_of.
  destruct (dget a (n3_av tb)) as [d|]; simpl in Hc; destruct Hc as (_ & H0 & Hn & Hx).
  - destruct (decide (v = cv_key)) as [->|Hv].
    + rewrite H0. destruct (nums l a); [by rewrite Hx|]. by destruct Hx as (c & -> & _).
    + rewrite (Hn v Hv). by case_decide.
  - destruct (decide (v = cv_key)) as [->|Hv]; [done|]. specialize (Hn v Hv). by case_decide.
Qed.

Lemma hist_numeric {N} (cvP : cval N -> list (num N) -> Prop) tb l a : Hist3 cvP tb l ->
  match nums l a with
  | [] => numeric_of tb a = None
  | xs => exists c, numeric_of tb a = Some c /\ cvP c xs
  end.
Proof.
  intros (_ & _ & _ & Hc). specialize (Hc a). unfold numeric_of.
  destruct (dget a (n3_av tb)) as [d|]; simpl in Hc; destruct Hc as (_ & H0 & Hn & Hx).
  - destruct (nums l a); [by rewrite Hx|]. destruct Hx as (c & -> & ?). eauto.
  - destruct (nums l a); [done|]. by destruct Hx as (c & ? & _).
Qed.

(** [tb'] is [tb] with the instance [i] added once. *)
Definition plus_inst3 {N} (tb : nsum3 N) (i : inst3 N) (tb' : nsum3 N) : Prop :=
  n3_count tb' = S (n3_count tb) /\
  (forall a v, count_of tb' a v = count_of tb a v +
     match dget a i with Some (VNom w) => if decide (w = v) then 1 else 0 | _ => 0 end) /\
  (forall a, numeric_of tb' a =
     match dget a i with
     | Some (VNum y) => Some (cv_update (default (cv_new N) (numeric_of tb a)) y)
     | _ => numeric_of tb a
     end).

Lemma inc_plus {N} (cvP : cval N -> list (num N) -> Prop) (tb tb' : nsum3 N) l i : Hist3 cvP tb l -> good3 i ->
  n3_inc tb i = (tb', None) -> plus_inst3 tb i tb'.
Proof.
  intros (_ & _ & _ & Hcells) (Hi & _ & Hpoison) E.
  assert (Hstep : forall a v, dget a i = Some v -> exists r,
    inc1 (default [] (dget a (n3_av tb))) v = (r, None) /\
    forall w, dget w r = match v with
      | VNum y => if decide (w = cv_key) then Some (CVc (cv_update (default (cv_new N) (numeric_of tb a)) y))
                  else dget w (default [] (dget a (n3_av tb)))
      | VNom u => if decide (w = u) then Some (Cnt (count_of tb a u + 1))
                  else dget w (default [] (dget a (n3_av tb)))
      end).
  { intros a v Hv. unfold numeric_of, count_of. specialize (Hcells a).
    destruct Hcells as (Hwf & H0 & Hn & Hx). destruct v as [v|y].
    - assert (Hk : v <> cv_key) by (intros ->; by eapply Hpoison).
      unfold inc1. specialize (Hn v Hk).
      destruct (dget a (n3_av tb)) as [d|]; simpl in *.
      + rewrite Hn. destruct (decide (occ3 l a v = 0)); (eexists; split; [done|]); intros w; by rewrite dget_dset.
      + eexists. split; [done|]. intros w. done.
    - unfold inc1. destruct (dget a (n3_av tb)) as [d|]; simpl in *.
      + destruct (nums l a).
        * rewrite Hx. eexists. split; [done|]. intros w. by rewrite dget_dset.
        * destruct Hx as (c & -> & _). eexists. split; [done|]. intros w. by rewrite dget_dset.
      + eexists. split; [done|]. intros w. done. }
  destruct (sfold_point (on_attr (inc1 (N:=N))) (fun _ => onh (inc1 (N:=N)))) with (l := i) (d := n3_av tb)
    as (av' & E' & _ & Hd').
  { apply on_attr_point. }
  { done. }
  { intros a v Hv. destruct (Hstep a v Hv) as (r & Er & _). unfold onh. rewrite Er. eauto. }
  rewrite n3_inc_eq, E' in E. injection E as <-. cbn [fst].
  assert (Hget : forall a, match dget a i with
    | None => dget a av' = dget a (n3_av tb)
    | Some v => exists r, dget a av' = Some r /\ inc1 (default [] (dget a (n3_av tb))) v = (r, None) end).
  { intros a. rewrite Hd'. destruct (dget a i) as [v|] eqn:Ev; [|done].
    destruct (Hstep a v Ev) as (r & Er & _). exists r. unfold onh. by rewrite Er. }
  split; [done|]. split.
  - intros a v. specialize (Hget a). unfold count_of at 1. cbn [n3_av].
    destruct (dget a i) as [u|] eqn:Ev.
    + destruct Hget as (r & -> & Er). destruct (Hstep a u Ev) as (r' & Er' & Hr).
      assert (r' = r) as -> by congruence. rewrite Hr. destruct u as [u|y].
      * destruct (decide (v = u)) as [->|Hne].
        -- by rewrite decide_True.
        -- rewrite decide_False by congruence. unfold count_of.
           destruct (dget a (n3_av tb)); simpl; lia.
      * destruct (decide (v = cv_key)) as [->|Hne].
        -- unfold count_of. specialize (Hcells a). destruct Hcells as (_ & H0 & _ & Hx).
           destruct (dget a (n3_av tb)); simpl in *; [|done].
           destruct (nums l a); [by rewrite Hx|]. by destruct Hx as (c & -> & _).
        -- unfold count_of. destruct (dget a (n3_av tb)); simpl; lia.
    + rewrite Hget. unfold count_of. lia.
  - intros a. specialize (Hget a). unfold numeric_of at 1. cbn [n3_av].
    destruct (dget a i) as [u|] eqn:Ev.
    + destruct Hget as (r & -> & Er). destruct (Hstep a u Ev) as (r' & Er' & Hr).
      assert (r' = r) as -> by congruence. rewrite Hr. destruct u as [u|y].
      * assert (Hk : u <> cv_key) by (intros ->; by eapply Hpoison).
        rewrite decide_False by done. unfold numeric_of. by destruct (dget a (n3_av tb)).
      * by rewrite decide_True.
    + by rewrite Hget.
Qed.

Section Props.
  Context {N : NumOps} (rng : nat -> num N) (sc : option (num N)) (inner : bool).
  Notation C := (Cobweb3Class N).
  Notation x0 := (new_ctx sc inner).
  Notation good := (good3 (N:=N)).

  (** ** C31: counts are exact for any arithmetic. *)
  Theorem C31_counts_any_arithmetic evs s :
    reachable C rng x0 evs s -> all_inst (C:=C) good evs -> all_ok evs ->
    exists tb, table_of s (st_root s) tb /\
      n3_count tb = length (history evs) /\
      (forall a v, count_of tb a v = occ3 (history evs) a v) /\
      (forall a, match nums (history evs) a with
                 | [] => numeric_of tb a = None
                 | xs => exists c, numeric_of tb a = Some c /\ cv_num c = length xs
                 end).
  Proof.
    intros Hr Hg Hao.
    destruct (reachable_tinv C rng _ _ _ (hist3_laws counts (fun _ _ => True) (counts_laws N)) x0 evs s Hr Hg Hao)
      as (t & Hok & Ht).
    exists (tsum t). rewrite (so_root _ _ _ Hok).
    split; [apply (sub_table _ _ _ _ Hok), sub_refl|].
    apply tinv_summ in Ht. split; [by destruct Ht|]. split.
    - intros a v. by eapply hist_count.
    - intros a. by apply (hist_numeric counts).
  Qed.

  (** ** C38: scales. *)
  (** The entry for [b] is what updating a new ContinuousValue with all numbers
      fitted under the inner attribute [b], in order, gives; no entry when there
      are none.  (Fits that raised an exception count.) *)
  Theorem C38_scales_exact evs s b :
    reachable C rng x0 evs s ->
    dget b (x_scales (st_ctx s)) =
    match inner_nums inner (history evs) b with
    | [] => None
    | ys => Some (cv_update_batch (cv_new N) ys)
    end.
  Proof.
    intros Hr. rewrite (reachable_ctx C rng x0 evs s Hr).
    destruct (scales_fold (history evs) (new_ctx sc inner) (fun _ => []) (fun _ => eq_refl)) as (_ & _ & H).
    etransitivity; [exact (H b)|]. cbn [app x_inner new_ctx]. unfold scale_of. by destruct (inner_nums inner (history evs) b).
  Qed.

  (** Every attribute with a numeric summary in some concept has a scale. *)
  Theorem C38_scales_available evs s id tb a c :
    reachable C rng x0 evs s -> all_inst (C:=C) good evs ->
    in_tree s id -> table_of s id tb -> numeric_of tb a = Some c ->
    exists k, dget (inner_of inner a) (x_scales (st_ctx s)) = Some k.
  Proof.
    intros Hr Hg Hin Htb Hc. rewrite (C38_scales_exact evs s _ Hr).
    destruct (reachable_from counts _ (counts_laws N) rng x0 evs s Hr Hg) as (t & Hok & Hall).
    apply (in_tree_sub _ _ _ _ Hok) in Hin as (u & Hu & <-).
    rewrite (table_of_det _ _ _ _ _ Htb (sub_table _ _ _ _ Hok Hu)) in *.
    destruct (tall_sub C (from counts (history evs)) t u Hall Hu) as (l & Hl & Hh).
    pose proof (hist_numeric counts _ l a Hl) as Hn.
    destruct (nums l a) as [|y ys] eqn:E; [congruence|].
    assert (y ∈ nums l a) as (i & Hi & Ei)%nums_in by (rewrite E; left).
    assert (Hy : y ∈ inner_nums inner (history evs) (inner_of inner a)).
    { apply inner_nums_in. exists i, a. split; [auto|]. split; [by apply dget_In|done]. }
    destruct (inner_nums inner (history evs) (inner_of inner a)); [inversion Hy|eauto].
  Qed.

  Theorem C38_no_key_error evs s id tb a v :
    reachable C rng x0 evs s -> all_inst (C:=C) good evs ->
    in_tree s id -> table_of s id tb ->
    probability3 (st_ctx s) tb a v <> Err KeyError.
  Proof.
    intros Hr Hg Hin Htb. unfold probability3.
    assert (Hdiv : forall y z, pydiv N y z <> Err KeyError).
    { intros y z. unfold pydiv. by destruct (neqb N z _). }
    assert (Hsq : forall y, pysqrt N y <> Err KeyError).
    { intros y. unfold pysqrt. by destruct (nltb N y _). }
    assert (Hb : forall X Y (r : res X) (f : X -> res Y), r <> Err KeyError ->
      (forall y, r = Ok y -> f y <> Err KeyError) -> rbind r f <> Err KeyError).
    { intros X Y [y|e] f H1 H2; simpl; [by apply H2|congruence]. }
    assert (Hc4 : forall n, c4 N n <> Err KeyError) by apply c4_no_key.
    assert (Hu : forall cv : cval N, cv_unbiased_std cv <> Err KeyError).
    { intros cv. unfold cv_unbiased_std. case_decide; [done|].
      apply Hb; [apply Hsq|]. intros y _. apply Hb; [apply Hc4|]. intros z _. apply Hdiv. }
    destruct v as [[w|y]|].
    - destruct (dget a (n3_av tb)) as [d|]; [|done]. destruct (dget w d) as [[n|c]|]; [apply Hdiv|done|done].
    - destruct (dget a (n3_av tb)) as [d|] eqn:Ed; [|done].
      destruct (dget cv_key d) as [[n|c]|] eqn:Ec; [done| |done].
      destruct (C38_scales_available evs s id tb a c Hr Hg Hin Htb) as [k Hk].
      { unfold numeric_of. by rewrite Ed, Ec. }
      assert (Hin2 : inner_attr (st_ctx s) a = inner_of inner a).
      { rewrite (reachable_ctx C rng x0 evs s Hr).
        destruct (scales_fold (history evs) (new_ctx sc inner) (fun _ => []) (fun _ => eq_refl)) as (Hi & _).
        destruct a as [?|[|h r]|?]; simpl; try done. by rewrite Hi. }
      unfold prob_num. apply Hb; [apply Hdiv|]. intros p _.
      apply Hb.
      { unfold prob_scale. destruct (scaling_on _); [|done]. apply Hb; [apply Hdiv|]. intros q _.
        rewrite Hin2, Hk. apply Hb; [apply Hu|done]. }
      intros [scale shift] _.
      apply Hb; [destruct (scaling_on _); [apply Hdiv|done]|]. intros y' _.
      apply Hb; [apply Hdiv|]. intros m _.
      apply Hb; [apply Hb; [apply Hu|]; intros z _; apply Hdiv|]. intros o _.
      apply Hb; [apply Hdiv|]. intros o2 _. apply Hb; [apply Hsq|]. intros o3 _.
      apply Hb; [apply Hsq|]. intros o4 _. apply Hb; [apply Hdiv|]. intros o5 _.
      apply Hb; [apply Hdiv|]. done.
    - apply Hb; [|intros; apply Hdiv]. destruct (dget a (n3_av tb)) as [d|]; [|done].
      apply Hb; [|done]. clear. induction d as [|[w q] d IH]; simpl; [done|].
      unfold cell_count at 1. cbn [fst snd].
      destruct (decide (w = cv_key)), q; simpl; try done; by destruct (rmapM cell_count d).
  Qed.

  (** ** C62: the structural guarantees of CobwebTree carry over. *)
  Theorem C62_terminates evs s (i : inst3 N) :
    reachable C rng x0 evs s ->
    exists l : list nat, NoDup l /\ (forall id, id ∈ l <-> in_tree s id) /\
      (forall k, length l <= k ->
         fst (mcobweb C rng k (st_root s) i (with_pre C s i)) = fst (cobweb C rng i s) /\
         fst (mcategorize C rng k (st_root s) i s) = fst (cobweb_categorize C rng i s)) /\
      fst (cobweb C rng i s) <> Err OutOfFuel /\ fst (cobweb C rng i s) <> Err Dangling /\
      fst (cobweb_categorize C rng i s) <> Err OutOfFuel /\
      fst (cobweb_categorize C rng i s) <> Err Dangling.
  Proof. exact (reachable_terminates C rng (cobweb3_real N) x0 evs s i). Qed.

  Theorem C62_proper_tree evs s : reachable C rng x0 evs s -> all_inst (C:=C) good evs -> hierarchy s.
  Proof.
    apply (reachable_hierarchy C rng (some3 counts) good).
    - intros i. exact (some3_closed counts _ (counts_laws N) i).
    - exact (some3_empty counts).
  Qed.

  Theorem C62_categorize_read_only evs s (i : inst3 N) r s' :
    reachable C rng x0 evs s -> cobweb_categorize C rng i s = (r, s') ->
    st_heap s' = st_heap s /\ st_root s' = st_root s /\ st_ctx s' = st_ctx s /\
    forall j, r = Ok j -> is_leaf s j.
  Proof. exact (reachable_read_only C rng x0 evs s i r s'). Qed.

  Theorem C62_only_path_changes evs s (i : inst3 N) j s' :
    reachable C rng x0 evs s -> all_inst (C:=C) good evs -> good i -> cobweb C rng i s = (Ok j, s') ->
    (forall id tb tb', in_tree s id -> in_tree s' id -> desc s' id j ->
       table_of s id tb -> table_of s' id tb' -> plus_inst3 tb i tb') /\
    (forall id, in_tree s' id -> ~ desc s' id j ->
       in_tree s id /\
       (forall tb, table_of s id tb <-> table_of s' id tb) /\
       (forall l, children_of s id l <-> children_of s' id l)) /\
    (forall id, in_tree s id -> ~ in_tree s' id -> ~ is_leaf s id).
  Proof.
    intros Hr Hg Hi E.
    destruct (reachable_from counts _ (counts_laws N) rng x0 evs s Hr Hg) as (t & Hok & Hall).
    assert (Hall' : tall C (some3 counts) t).
    { clear -Hall. induction t as [id sm kids IH] using (tree_ind' C).
      apply tall_inv in Hall as [(l & Hs & _) HF]. constructor; [by exists l|].
      rewrite Forall_forall in *. auto. }
    destruct (reachable_path C rng (some3 counts) x0 evs s t i j s' Hr
      (some3_closed counts _ (counts_laws N) i Hi) Hok Hall' E) as (H1 & H2 & H3).
    split; [|done]. intros id tb tb' A1 A2 A3 A4 A5.
    destruct (H1 id tb tb' A1 A2 A3 A4 A5) as [[l Hl] Hinc]. by eapply inc_plus.
  Qed.

  (** ** C36: nominal values other than the reserved string leave every
      numeric summary as it is. *)
  Theorem C36_nominal_leaves_numbers evs s (i : inst3 N) j s' id tb tb' a :
    reachable C rng x0 evs s -> all_inst (C:=C) good evs -> good i -> cobweb C rng i s = (Ok j, s') ->
    (forall y, dget a i <> Some (VNum y)) ->
    in_tree s id -> in_tree s' id -> table_of s id tb -> table_of s' id tb' ->
    numeric_of tb' a = numeric_of tb a.
  Proof.
    intros Hr Hg Hi E Ha H1 H2 H3 H4.
    destruct (C62_only_path_changes evs s i j s' Hr Hg Hi E) as (HP & HQ & _).
    assert (Hdec : desc s' id j \/ ~ desc s' id j).
    { destruct (reachable_ok C rng x0 evs s Hr) as (t & Hok).
      destruct (cobweb_runs C rng s t i Hok) as (s2 & E2 & Hok2 & _). rewrite E in E2. injection E2 as _ <-.
      by apply (desc_dec C s' _ id j Hok2). }
    destruct Hdec as [Hd|Hd].
    - destruct (HP id tb tb' H1 H2 Hd H3 H4) as (_ & _ & Hn). rewrite Hn.
      specialize (Ha). destruct (dget a i) as [[v|y]|]; [done| |done]. by destruct (Ha y).
    - destruct (HQ id H2 Hd) as (_ & Ht & _). apply Ht in H3.
      by rewrite (table_of_det _ _ _ _ _ H3 H4).
  Qed.

  Theorem C62_ids_never_reused evs0 s evs s' :
    reachable C rng x0 evs0 s -> run C rng x0 s evs s' ->
    (forall id, in_tree s id -> id <= am_ctr (st_amb s)) /\
    am_ctr (st_amb s) <= am_ctr (st_amb s') /\
    (forall id, in_tree s' id -> ~ in_tree s id -> am_ctr (st_amb s) < id).
  Proof. exact (reachable_ids C rng x0 evs0 s evs s'). Qed.

  Theorem C62_rejected_no_trace (i : raw3 N) a v s :
    (a, v) ∈ i ->
    a = AStr "" \/ a = ATup [] \/ (exists z, a = ANum z) \/ v = PNone3 \/ v = PUnhashable3 ->
    ifit3 rng i s = (Err ValueError, s) /\ categorize3 rng i s = (Err ValueError, s).
  Proof.
    intros Hin Hbad.
    assert (E : sanity3 i = Err ValueError).
    { apply sanity3_rejects. exists a, v. split; [done|].
      destruct Hbad as [->|[->|[[z ->]|[->| ->]]]]; auto. }
    unfold ifit3, categorize3. by rewrite E.
  Qed.

  (** ** C25: clear forgets the scales as well. *)
  Theorem C25_clear3_like_new s cs :
    let s1 := snd (mclear C x0 s) in
    let s2 := fresh C (am_ctr (st_amb s)) (am_rpos (st_amb s)) x0 in
    fst (exec C rng x0 cs s1) = fst (exec C rng x0 cs s2) /\
    same_view eq (snd (exec C rng x0 cs s1)) (snd (exec C rng x0 cs s2)) /\
    x_scales (st_ctx s1) = [].
  Proof.
    cbv zeta. destruct (clear_like_new C rng (cobweb3_real N) x0 s cs) as [H1 H2].
    split; [done|]. split; [done|].
    destruct (clear_runs C x0 s) as (s3 & E2 & _ & _ & Hx2). rewrite E2. simpl. by rewrite Hx2.
  Qed.
End Props.
