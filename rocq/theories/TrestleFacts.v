(** * A TrestleTree is a Cobweb3Tree of structure mapped instances *)
From stdpp Require Import base decidable list gmap strings.
From Coq Require Import Ascii String ZArith.
From Verif Require Import Base Num TreeModel Nominal Utils CV Cobweb3 Query Query3 PyVal Preproc Preproc2
  StructMap StructFacts PreStd Trestle SpecTree SpecTrestle TreeFun TreeScore TreeSorts TreeState TreeKeep.
Set Default Proof Using "Type".

(** ** Ambient state only grows *)
Section Mono.
  Context {N : NumOps} (rng : nat -> num N).
  Notation F := (num N).
  Context (ncmp : nom -> nom -> option bool) (normal : F -> F -> A F).
  Hypothesis Hnormal : forall m sd, amono (normal m sd).

  Lemma random_mono : amono (random_ rng).
  Proof. intros a. unfold ale. simpl. lia. Qed.
  Lemma choose_mono c l : amono (choose rng ncmp c l).
  Proof.
    destruct c; simpl.
    - unfold most_likely_choice. destruct l as [|p l]; [apply amono_raise|].
      destruct (existsb _ _); [apply amono_raise|]. apply amono_bind.
      + apply amono_mapM. intros v. apply amono_bind; [apply random_mono|]. intros. apply amono_ret.
      + intros ks. destruct (mclash _ ks); [apply amono_raise|].
        destruct (sort_desc (mkey_lt (ocmp ncmp)) ks) as [|[[? ?] ?] ?]; [apply amono_raise|apply amono_ret].
    - unfold weighted_choice, uniform. apply amono_bind; [|intros; apply amono_lift].
      apply amono_bind; [apply random_mono|]. intros. apply amono_ret.
  Qed.
  Lemma predict3_mono s a f b : amono (predict3 rng ncmp normal s a f b).
  Proof using Hnormal.
    unfold predict3. destruct (choose_fn f) as [c|]; [|apply amono_raise].
    destruct (dget a (n3_av s)) as [d|]; [|apply amono_ret].
    apply amono_bind; [apply amono_lift|]. intros l.
    apply amono_bind; [apply choose_mono|]. intros [w|]; [|apply amono_ret].
    destruct (decide (w = cv_key)); [|apply amono_ret].
    destruct (dget cv_key d) as [[n|cv]|]; [apply amono_raise| |apply amono_raise].
    destruct c; [apply amono_ret|]. apply amono_bind; [apply amono_lift|]. intros sd.
    apply amono_bind; [apply Hnormal|]. intros y. apply amono_ret.
  Qed.
End Mono.

(** ** Runs *)
Section Runs.
  Context {N : NumOps} (rng : nat -> num N).
  Notation F := (num N).
  Notation C := (Cobweb3Class N).
  Notation X := (val3 N).
  Context (ncmp : nom -> nom -> option bool) (normal : F -> F -> A F).
  Context (pystr : attr -> string) (setord : list attr -> list attr) (rlimit : nat).
  Hypothesis Hnormal : forall m sd, amono (normal m sd).
  Notation t_ready := (t_ready (N:=N) pystr setord rlimit).
  Notation t_prepare := (t_prepare (N:=N) pystr setord rlimit).
  Notation t_fit := (t_fit rng pystr setord rlimit).
  Notation t_cat := (t_cat rng pystr setord rlimit).
  Notation t_infer := (t_infer rng ncmp normal pystr setord rlimit).
  Notation trun := (trun rng ncmp normal pystr setord rlimit).
  Notation treachable := (treachable rng ncmp normal pystr setord rlimit).
  Notation tstep := (tstep rng ncmp normal pystr setord rlimit).

  (** Only node ids and random numbers were used. *)
  Definition grown (s s' : st C) : Prop :=
    st_heap s' = st_heap s /\ st_root s' = st_root s /\ st_ctx s' = st_ctx s /\
    ale (st_amb s) (st_amb s').
  Lemma grown_refl s : grown s s.
  Proof. repeat split; reflexivity. Qed.
  Lemma grown_trans s1 s2 s3 : grown s1 s2 -> grown s2 s3 -> grown s1 s3.
  Proof. intros (A1 & A2 & A3 & A4) (B1 & B2 & B3 & B4). repeat split; try congruence; destruct A4, B4; lia. Qed.
  Lemma grown_other x0 s s' : grown s s' -> step C rng x0 s EOther s'.
  Proof.
    destruct s as [h r [c p] x], s' as [h' r' [c' p'] x']. intros (E1 & E2 & E3 & [H1 H2]). simpl in *. subst.
    exact (step_other C rng x0 (St h r (Amb c p) x) c' p' H1 H2).
  Qed.
  Lemma bump_grown q s : grown s (bump q s).
  Proof. repeat split; simpl; lia. Qed.
  Lemma grown_ok s s' t : grown s s' -> state_ok C s t -> state_ok C s' t.
  Proof.
    intros (E1 & E2 & E3 & E4) H. pose proof (state_ok_amb C s t (st_amb s') H (proj1 E4)) as H'.
    destruct s'. simpl in *. by subst.
  Qed.

  Lemma prepare_grown q d s r h s' : t_prepare q d s = (r, h, s') -> grown (t_tree s) (t_tree s').
  Proof.
    unfold Trestle.t_prepare. destruct (st_heap (t_tree s) !! _).
    - destruct (pipe_tr _ _ _ _ _) as [[r1 h1] c1]. intros [= <- <- <-]. apply bump_grown.
    - intros [= <- <- <-]. apply grown_refl.
  Qed.
  Lemma ready_grown q d s r s' : t_ready q d s = (r, s') -> grown (t_tree s) (t_tree s').
  Proof.
    unfold Trestle.t_ready. destruct (t_prepare q d s) as [[r1 h1] s1] eqn:E. apply prepare_grown in E.
    destruct r1 as [d1|e]; [destruct (t_sane d1)|]; intros [= <- <-]; done.
  Qed.
  Lemma ready_sym q d s r s' : t_ready q d s = (r, s') ->
    exists r1 h1, t_prepare q d s = (r1, h1, s').
  Proof.
    unfold Trestle.t_ready. destruct (t_prepare q d s) as [[r1 h1] s1] eqn:E.
    destruct r1 as [d1|e]; [destruct (t_sane d1)|]; intros [= <- <-]; eauto.
  Qed.

  Lemma categorize_grown i s t r s' : state_ok C s t -> cobweb_categorize C rng i s = (r, s') -> grown s s'.
  Proof.
    intros Hok E. pose proof (categorize_runs C rng s t i Hok) as E2. cbv zeta in E2. rewrite E in E2.
    injection E2 as -> ->. split; [done|]. split; [done|]. split; [done|]. exact (fcat_mono C rng (cob_fuel C s) (st_ctx s) t i (st_amb s)).
  Qed.
  Lemma find_grown d s t r s' : state_ok C s t -> t_find rng d s = (r, s') -> grown s s'.
  Proof.
    intros Hok. unfold t_find. destruct (hashed d) as [j|e]; [by apply categorize_grown with t|].
    unfold mbind, mroot, mget. destruct (st_heap s !! st_root s) as [n|]; [|intros [= <- <-]; apply grown_refl].
    destruct (nd_children n); intros [= <- <-]; apply grown_refl.
  Qed.
  Lemma infer_loop_grown tb f b attrs : forall d s r s',
    t_infer_loop rng ncmp normal tb f b attrs d s = (r, s') -> grown s s'.
  Proof using Hnormal.
    induction attrs as [|a attrs IH]; intros d s r s' E; simpl in E.
    - injection E as _ <-. apply grown_refl.
    - destruct (dmem a d); [by eapply IH|]. unfold mbind, mamb in E.
      pose proof (predict3_mono rng ncmp normal Hnormal tb a f b (st_amb s)) as Hm.
      destruct (predict3 rng ncmp normal tb a f b (st_amb s)) as [[v|e] a1]; simpl in Hm.
      + eapply grown_trans; [|by eapply IH]. by repeat split; try apply Hm.
      + injection E as _ <-. by repeat split; try apply Hm.
  Qed.
  Lemma infer_grown q d f b (s : tst N) t r s' : state_ok C (t_tree s) t ->
    t_infer q d f b s = (r, s') ->
    grown (t_tree s) (t_tree s') /\ exists r1 h1 s1, t_prepare q d s = (r1, h1, s1) /\ t_sym s' = t_sym s1.
  Proof using Hnormal.
    intros Hok. unfold Trestle.t_infer. destruct (t_prepare q d s) as [[r1 h1] s1] eqn:E.
    pose proof (prepare_grown _ _ _ _ _ _ E) as Hg.
    destruct r1 as [d1|e]; [|intros [= <- <-]; eauto 6].
    unfold on_tree, mbind, mget.
    destruct (t_find rng d1 (t_tree s1)) as [rc s2] eqn:E2.
    assert (Hg2 : grown (t_tree s1) s2) by (eapply find_grown; [|exact E2]; by eapply grown_ok).
    destruct rc as [c|e].
    2:{ simpl. intros [= <- <-]. simpl. split; [by eapply grown_trans|eauto 6]. }
    destruct (st_heap s2 !! c) as [n|].
    2:{ simpl. intros [= <- <-]. simpl. split; [by eapply grown_trans|eauto 6]. }
    destruct (t_infer_loop _ _ _ _ _ _ _ _ s2) as [r3 s3] eqn:E3. apply infer_loop_grown in E3.
    simpl. destruct r3 as [d2|e]; intros [= <- <-]; simpl; (split; [|eauto 6]);
      (eapply grown_trans; [exact Hg|]; by eapply grown_trans).
  Qed.

  (** Every call has the effect of the corresponding Cobweb/3 calls. *)
  Lemma run_app x0 s1 evs1 s2 evs2 s3 :
    run C rng x0 s1 evs1 s2 -> run C rng x0 s2 evs2 s3 -> run C rng x0 s1 (evs1 ++ evs2) s3.
  Proof.
    intros H1 H2. induction H2 as [|s2 evs2 s2' e s3 H2 IH Hs]; [by rewrite app_nil_r|].
    rewrite app_assoc. econstructor; [by apply IH|done].
  Qed.
  Lemma run_one x0 s e s' : step C rng x0 s e s' -> run C rng x0 s [e] s'.
  Proof. intros H. apply (run_snoc C rng x0 s [] s e s'); [constructor|done]. Qed.

  Lemma tstep_calls x0 s e s' t : state_ok C (t_tree s) t -> tstep x0 s e s' ->
    run C rng x0 (t_tree s) (cobweb_calls e) (t_tree s').
  Proof using Hnormal.
    intros Hok Hs. destruct Hs as [s d q j r s' _ _ Ej E|s d q r s' _ _ E|s d f b q r s' _ _ E|s ctr rpos Hc Hp|s].
    - unfold Trestle.t_fit in E. destruct (t_ready q d s) as [r1 s1] eqn:Er. simpl in Ej. subst r1.
      pose proof (ready_grown _ _ _ _ _ Er) as Hg. destruct j as [j|e]; simpl.
      + unfold on_tree in E. destruct (cobweb C rng j (t_tree s1)) as [r2 s2] eqn:E2.
        injection E as <- <-. simpl. apply (run_snoc C rng x0 _ [EOther] (t_tree s1)).
        * by apply run_one, grown_other.
        * by apply step_fit.
      + injection E as <- <-. by apply run_one, grown_other.
    - simpl. apply run_one, grown_other. unfold Trestle.t_cat in E.
      destruct (t_ready q d s) as [[j|e] s1] eqn:Er; pose proof (ready_grown _ _ _ _ _ Er) as Hg.
      + unfold on_tree in E. destruct (cobweb_categorize C rng j (t_tree s1)) as [r2 s2] eqn:E2.
        injection E as <- <-. simpl. eapply grown_trans; [done|].
        eapply categorize_grown; [|done]. by eapply grown_ok.
      + injection E as <- <-. done.
    - simpl. apply run_one, grown_other. by eapply infer_grown.
    - simpl. apply run_one. by apply step_other.
    - simpl. apply run_one. apply step_clear. unfold t_clear. simpl.
      destruct (clear_runs C x0 (t_tree s)) as (s2 & E2 & _). by rewrite E2.
  Qed.

  Lemma trun_calls x0 s evs s' t : state_ok C (t_tree s) t -> trun x0 s evs s' ->
    run C rng x0 (t_tree s) (List.concat (map cobweb_calls evs)) (t_tree s').
  Proof using Hnormal.
    intros Hok. induction 1 as [s|s evs s1 e s2 H IH Hs]; [constructor|].
    rewrite map_app, concat_app. simpl. rewrite app_nil_r. eapply run_app; [by apply IH|].
    destruct (run_ok C rng x0 _ _ _ t (IH Hok) Hok) as (t1 & Hok1 & _). by eapply tstep_calls.
  Qed.

  Theorem treachable_calls x0 evs s : treachable x0 evs s ->
    reachable C rng x0 (List.concat (map cobweb_calls evs)) (t_tree s).
  Proof using Hnormal.
    intros (ctr & rpos & H). exists ctr, rpos.
    eapply (trun_calls _ (t_new ctr rpos x0)); [apply fresh_ok|done].
  Qed.

  Lemma history_calls (evs : list (tevent N)) : history (List.concat (map cobweb_calls evs)) = thistory evs.
  Proof.
    unfold history, thistory. induction evs as [|e evs IH] using rev_ind; [done|].
    rewrite map_app, concat_app, !fold_left_app, IH. simpl.
    by destruct e as [d q [j|e] r| | | |].
  Qed.
  Lemma all_ok_calls (evs : list (tevent N)) : Forall tfit_ok evs -> all_ok (List.concat (map cobweb_calls evs)).
  Proof.
    induction 1 as [|e evs He _ IH]; [constructor|]. simpl. apply Forall_app. split; [|done].
    destruct e as [d q [j|e] [r|e']| | | |]; simpl in *; repeat constructor; done.
  Qed.
  Lemma all_inst_calls P (evs : list (tevent N)) : Forall (tfit_inst P) evs ->
    all_inst (C:=C) P (List.concat (map cobweb_calls evs)).
  Proof.
    induction 1 as [|e evs He _ IH]; [constructor|]. simpl. apply Forall_app. split; [|done].
    destruct e as [d q [j|e] r| | | |]; simpl in *; repeat constructor; simpl; try done.
    by intros i ->.
  Qed.
End Runs.
