(** * C59, C81, C82: DummyTree. *)
From stdpp Require Import base decidable list gmap strings.
From Coq Require Import Ascii String ZArith.
From Verif Require Import Base Num TreeModel TreeInv Nominal CV Cobweb3 C3Facts Query Query3 PyVal Preproc Preproc2 StructMap
  Trestle SpecTree PropsC3 Dummy.
Set Default Proof Using "Type".
Open Scope list_scope.

(** ** Histories *)
Section Spec.
  Context {N : NumOps} (pystr : attr -> string) (setord : list attr -> list attr) (rlimit : nat).
  Notation X := (val3 N).
  Notation d_fit := (d_fit pystr setord rlimit).

  (** The instance that is counted (or the exception of the preprocessing or of
      an unhashable value). *)
  Definition d_counted (m : bool) (q : torc N) (d : inst X) (s : dst N) : res (inst3 N) :=
    rbind (fst (d_prepare pystr setord rlimit m q d s)) hashed.

  (** The calls of a user; for ifit also the instance [j] that was counted and
      what was returned.  [DOther]: other trees create nodes. *)
  Inductive devent :=
  | DFit (m : bool) (d : inst X) (q : torc N) (j : res (inst3 N)) (r : res nat)
  | DCat (d : inst X) (r : res nat)
  | DOther
  | DClear.

  Inductive dstep : dst N -> devent -> dst N -> Prop :=
  | dstep_fit s m d q j r s' : d_counted m q d s = j -> d_fit m q d s = (r, s') -> dstep s (DFit m d q j r) s'
  | dstep_cat s d r s' : d_cat d s = (r, s') -> dstep s (DCat d r) s'
  | dstep_other s ctr : d_ctr s <= ctr -> dstep s DOther (DSt (d_id s) (d_tb s) (d_sym s) ctr)
  | dstep_clear s : dstep s DClear (d_clear s).
  Inductive drun : dst N -> list devent -> dst N -> Prop :=
  | drun_nil s : drun s [] s
  | drun_snoc s evs s1 e s2 : drun s evs s1 -> dstep s1 e s2 -> drun s (evs ++ [e]) s2.
  Definition dreachable (evs : list devent) (s : dst N) : Prop := exists ctr, drun (d_new ctr) evs s.

  (** Instances counted, and concepts returned by ifit and categorize, since the
      tree was created or last cleared. *)
  Definition dhist_step (l : list (inst3 N)) (e : devent) : list (inst3 N) :=
    match e with
    | DFit _ _ _ (Ok j) _ => l ++ [j]
    | DClear => []
    | _ => l
    end.
  Definition dhistory (evs : list devent) : list (inst3 N) := fold_left dhist_step evs [].
  Definition dret_step (l : list (res nat)) (e : devent) : list (res nat) :=
    match e with
    | DFit _ _ _ _ r | DCat _ r => l ++ [r]
    | DClear => []
    | DOther => l
    end.
  Definition dreturned (evs : list devent) : list (res nat) := fold_left dret_step evs [].

  (** What is counted are sensible instances: distinct attributes, and no value
      is the string reserved for numbers. *)
  Definition d_good (e : devent) : Prop :=
    match e with
    | DFit _ _ _ j _ => exists i, j = Ok i /\ good3 i
    | _ => True
    end.
End Spec.
Global Arguments devent : clear implicits. Global Arguments DFit {N}. Global Arguments DCat {N}.
Global Arguments DOther {N}. Global Arguments DClear {N}.

Section Facts.
  Context {N : NumOps}.
  Notation X := (val3 N).

  Lemma d_inc_hashed (tb : nsum3 N) (d : inst X) i : hashed d = Ok i -> d_inc tb d = n3_inc tb i.
  Proof.
    intros H. unfold d_inc. rewrite n3_inc_eq. destruct tb as [n av]. cbn [n3_av n3_count].
    assert (E : forall av, sfold (on_attr inc_any) av d = sfold (on_attr (inc1 (N:=N))) av i).
    { clear av. revert i H. induction d as [|[a v] d IH]; intros i H av.
      - injection H as <-. done.
      - unfold hashed in H. cbn [rmapM fst snd] in H. destruct (scalar v) as [x|] eqn:Ev; [|discriminate H].
        cbn [rbind] in H. fold (hashed d) in H. destruct (hashed d) as [i'|] eqn:Ed; [|discriminate H].
        injection H as <-. cbn [sfold].
        assert (E1 : on_attr inc_any av (a, v) = on_attr (inc1 (N:=N)) av (a, x)).
        { unfold on_attr. cbn [fst snd]. unfold inc_any. by rewrite Ev. }
        rewrite E1. destruct (on_attr inc1 av (a, x)) as [av' [e|]]; [done|]. by apply IH. }
    rewrite E. by destruct (sfold _ av i).
  Qed.

  Lemma hashed_inv (tb : nsum3 N) (d : inst X) : snd (d_inc tb d) = None -> exists i, hashed d = Ok i.
  Proof.
    unfold d_inc. destruct tb as [n av]. cbn [n3_av n3_count]. revert av.
    induction d as [|[a v] d IH]; intros av H; [by exists []|].
    cbn [sfold] in H. unfold on_attr at 1 in H. cbn [fst snd] in H. unfold inc_any at 1 in H.
    unfold hashed. cbn [rmapM fst snd]. destruct (scalar v) as [x|]; [|discriminate H]. cbn [rbind].
    destruct (inc1 (default [] (dget a av)) x) as [dd [e|]]; [discriminate H|].
    destruct (IH _ H) as (i & Hi). unfold hashed in Hi. rewrite Hi. by eexists.
  Qed.

  (** *** Instances without components *)
  Definition plain (d : inst X) : Prop :=
    dwf d /\ Forall (fun e => (exists s, fst e = AStr s) /\ exists x, scalar (snd e) = Some x) d.

  Lemma plain_sub (vt : pv X) d : plain d -> sub_transform vt d = Ok d.
  Proof.
    intros [Hw Hp]. unfold sub_transform.
    assert (G : forall acc, dwf (acc ++ d) ->
      rfold (fun acc e => rbind (has_components (fst e)) (fun rels =>
        Ok (dset (extract_attr (fst e)) (snd e) (fold_left (fun acc r => dset r vt acc) rels acc)))) acc d = Ok (acc ++ d)).
    { clear Hw. induction Hp as [|[a v] d [(s & Hs) _] Hp IH]; intros acc Hw; [by rewrite app_nil_r|].
      simpl in Hs. subst a. cbn [rfold fst snd has_components rbind fold_left extract_attr].
      assert (Hn : AStr s ∉ dkeys acc).
      { unfold dwf, dkeys in Hw. rewrite map_app in Hw. apply NoDup_app in Hw as (_ & Hd & _).
        intros Hin. apply (Hd _ Hin). left. }
      rewrite dset_fresh by done. rewrite IH; [by rewrite <- app_assoc|]. by rewrite <- app_assoc. }
    apply (G []). done.
  Qed.

  Lemma plain_flat d : plain d -> flatten d = Ok d.
  Proof.
    intros [Hw Hp]. unfold flatten.
    assert (G : forall acc, dwf (acc ++ d) ->
      rfold (fun acc e => rbind (flat_val (fst e) (snd e)) (fun so => Ok (dupd acc so))) acc d = Ok (acc ++ d)).
    { clear Hw. induction Hp as [|[a v] d [(s & Hs) (x & Hx)] Hp IH]; intros acc Hw; [by rewrite app_nil_r|].
      simpl in Hs. subst a. cbn [rfold fst snd].
      assert (Hn : AStr s ∉ dkeys acc).
      { unfold dwf, dkeys in Hw. rewrite map_app in Hw. apply NoDup_app in Hw as (_ & Hd & _).
        intros Hin. apply (Hd _ Hin). left. }
      assert (Ef : flat_val (AStr s) v = Ok [(AStr s, v)]) by (by destruct v).
      rewrite Ef. cbn [rbind]. assert (Eu : dupd acc [(AStr s, v)] = acc ++ [(AStr s, v)]).
      { unfold dupd. simpl. by apply dset_fresh. }
      rewrite Eu. rewrite IH; [by rewrite <- app_assoc|]. by rewrite <- app_assoc. }
    apply (G []). done.
  Qed.
End Facts.

Section Props.
  Context {N : NumOps} (pystr : attr -> string) (setord : list attr -> list attr) (rlimit : nat).
  Notation X := (val3 N).
  Notation d_fit := (d_fit pystr setord rlimit).
  Notation d_counted := (d_counted pystr setord rlimit).
  Notation dreachable := (dreachable pystr setord rlimit).

  Lemma fit_good cvP cvE (CL : cv_laws N cvP cvE) m q d (s : dst N) l i : Hist3 cvP (d_tb s) l -> d_counted m q d s = Ok i -> good3 i ->
    exists tb c k, d_fit m q d s = (Ok (d_id s), DSt (d_id s) tb c k) /\ Hist3 cvP tb (i :: l).
  Proof.
    intros Hh Hc Hg. unfold PropsDummy.d_counted in Hc. unfold Dummy.d_fit.
    destruct (d_prepare pystr setord rlimit m q d s) as [[d1|e] c]; [|discriminate Hc]. cbn [fst rbind] in Hc.
    rewrite (d_inc_hashed _ _ _ Hc). destruct (Hist3_inc cvP _ CL _ _ _ Hh Hg) as (tb & E & Hh').
    rewrite E. by do 3 eexists.
  Qed.

  Lemma run_hist_gen cvP cvE (CL : cv_laws N cvP cvE) evs (s : dst N) : dreachable evs s -> Forall d_good evs ->
    Hist3 cvP (d_tb s) (dhistory evs) /\ Forall (fun r => r = Ok (d_id s)) (dreturned evs).
  Proof.
    intros (ctr & Hr). remember (d_new ctr) as s0 eqn:E0. induction Hr as [s|s evs s1 e s2 Hr IH Hs]; subst; intros Hg.
    { split; [apply Hist3_empty|constructor]. }
    apply Forall_app in Hg as [Hg He]. inversion He as [|? ? He' _]; subst.
    destruct (IH eq_refl Hg) as [Hh Hret]. unfold dhistory, dreturned in *. rewrite !fold_left_app. cbn [fold_left].
    destruct Hs as [s m d q j r s' Hc Hf|s d r s' Hf|s k Hk|s].
    - destruct He' as (i & -> & Hi). destruct (fit_good cvP cvE CL m q d s _ i Hh Hc Hi) as (tb & c & k & E & Hh').
      rewrite E in Hf. injection Hf as <- <-. cbn [dhist_step dret_step d_tb d_id]. split.
      + eapply Hist3_perm; [exact CL|exact Hh'|]. apply Permutation_cons_append.
      + apply Forall_app. split; [done|]. by constructor.
    - injection Hf as <- <-. split; [done|]. cbn [dret_step]. apply Forall_app. split; [done|]. by constructor.
    - done.
    - split; [apply Hist3_empty|constructor].
  Qed.

  Definition run_hist evs s := run_hist_gen counts _ (counts_laws N) evs s.

  (** ** C59: categorize returns the root, which is the histogram of all
      instances; every earlier call returned the same concept. *)
  Theorem C59_histogram evs (s : dst N) d : dreachable evs s -> Forall d_good evs ->
    d_cat d s = (Ok (d_id s), s) /\
    (forall r, r ∈ dreturned evs -> r = Ok (d_id s)) /\
    n3_count (d_tb s) = List.length (dhistory evs) /\
    (forall a v, count_of (d_tb s) a v = occ3 (dhistory evs) a v) /\
    (forall a, match nums (dhistory evs) a with
               | [] => numeric_of (d_tb s) a = None
               | xs => exists c, numeric_of (d_tb s) a = Some c /\ cv_num c = List.length xs
               end).
  Proof.
    intros Hr Hg. destruct (run_hist evs s Hr Hg) as [Hh Hret]. split; [done|]. split.
    { by apply Forall_forall. }
    split; [by destruct Hh|]. split.
    - intros a v. by eapply hist_count.
    - intros a. by apply (hist_numeric counts).
  Qed.

  (** ifit of an instance that can be preprocessed and is sensible returns the
      root. *)
  Theorem C59_fit_returns evs (s : dst N) m q d i : dreachable evs s -> Forall d_good evs ->
    d_counted m q d s = Ok i -> good3 i -> exists s', d_fit m q d s = (Ok (d_id s), s') /\ d_id s' = d_id s.
  Proof.
    intros Hr Hg Hc Hi. destruct (run_hist evs s Hr Hg) as [Hh _].
    destruct (fit_good counts _ (counts_laws N) m q d s _ i Hh Hc Hi) as (tb & c & k & E & _). by eexists.
  Qed.

  (** Without mapping an instance without components is counted as it is. *)
  Theorem C59_plain_counted q d (s : dst N) : plain d ->
    exists i, d_counted false q d s = Ok i /\
      map (fun e => (fst e, Some (snd e))) i = map (fun e => (fst e, scalar (snd e))) d.
  Proof.
    intros Hp. unfold PropsDummy.d_counted, d_prepare.
    assert (E : exists h c, pipe_tr (d_stages pystr setord rlimit (d_tb s) (to_orc q)) (d_stage_list false) d new_objs (d_sym s) = (Ok d, h, c)).
    { unfold d_stage_list. cbn [pipe_tr].
      match goal with |- context [?h !! 2] => change (h !! 2) with (Some (@None (list (attr * attr)))) end.
      cbn [d_stages sub_proc pp_tr]. rewrite (plain_sub _ d Hp). rewrite lookup_insert_ne by done.
      match goal with |- context [?h !! 1] => change (h !! 1) with (Some (@None (list (attr * attr)))) end.
      cbn [d_stages flat_proc pp_tr]. rewrite (plain_flat d Hp). by do 2 eexists. }
    destruct E as (h & c & ->). cbn [fst rbind]. destruct Hp as [_ Hp]. clear -Hp.
    induction Hp as [|[a v] d [_ (x & Hx)] Hp IH]; [by exists []|]. destruct IH as (i & Hi & Em).
    simpl in Hx. unfold hashed in *. cbn [rmapM fst snd]. rewrite Hx. cbn [rbind]. rewrite Hi. cbn [rbind].
    eexists. split; [done|]. simpl. by rewrite Em, Hx.
  Qed.

  (** ** C81: asking for the probability of a number under an attribute that
      had numbers raises. *)
  Theorem C81_numeric_probability_raises evs (s : dst N) a y :
    dreachable evs s -> Forall d_good evs -> nums (dhistory evs) a <> [] ->
    (forall n, n <> 0 -> neqb N (nofnat N n) (nofnat N 0) = false) ->
    d_probability (d_tb s) a (Some (VNum y)) = Err AttributeError.
  Proof.
    intros Hr Hg Hn Hne. destruct (run_hist evs s Hr Hg) as [Hh _].
    pose proof (hist_numeric counts _ _ a Hh) as Hx. destruct (nums (dhistory evs) a) as [|x xs] eqn:En; [done|].
    destruct Hx as (c & Hc & _). unfold numeric_of in Hc. unfold d_probability.
    destruct (dget a (n3_av (d_tb s))) as [dd|]; [|discriminate Hc].
    destruct (dget cv_key dd) as [[k|c']|]; [done| |discriminate Hc].
    assert (Hz : n3_count (d_tb s) <> 0).
    { destruct Hh as [-> _]. intros E. apply nil_length_inv in E. rewrite E in En. discriminate En. }
    unfold pydiv. rewrite (Hne _ Hz). done.
  Qed.

  (** ** C82: what fails in the preprocessing leaves no trace in the counts. *)
  Theorem C82_preprocessing_failure m q d (s : dst N) e c :
    d_prepare pystr setord rlimit m q d s = (Err e, c) ->
    exists s', d_fit m q d s = (Err e, s') /\ d_tb s' = d_tb s /\ d_id s' = d_id s.
  Proof. intros E. unfold Dummy.d_fit. rewrite E. by eexists. Qed.

  (** Any other failure has counted the instance: the count is one more. *)
  Theorem C82_counting_failure m q d (s : dst N) d1 c e s' :
    d_prepare pystr setord rlimit m q d s = (Ok d1, c) -> d_fit m q d s = (Err e, s') ->
    n3_count (d_tb s') = S (n3_count (d_tb s)).
  Proof.
    intros E Hf. unfold Dummy.d_fit in Hf. rewrite E in Hf. unfold d_inc in Hf.
    destruct (sfold (on_attr inc_any) (n3_av (d_tb s)) d1) as [av x]. by injection Hf as _ <-.
  Qed.
End Props.

Print Assumptions C59_histogram.
Print Assumptions C59_fit_returns.
Print Assumptions C59_plain_counted.
Print Assumptions C81_numeric_probability_raises.
Print Assumptions C82_preprocessing_failure.
Print Assumptions C82_counting_failure.
