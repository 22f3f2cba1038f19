(** * Cobweb3: examples run on IEEE doubles, and what the code does not promise. *)
From stdpp Require Import base decidable list gmap strings.
From Coq Require Import Floats.
From Verif Require Import Base Num FloatNum TreeModel TreeGen SpecTree Nominal NominalFacts
  CV Cobweb3 C3Facts C3Scales C3Nominal C3Hidden Query3 PropsC3 Example.
Notation FC3 := (Cobweb3Class FloatOps).
Notation finst := (inst3 FloatOps).

Lemma good3_dec (i : finst) :
  bool_decide (NoDup (dkeys i)) = true -> forallb attr_ok (dkeys i) = true ->
  forallb (fun p : attr * val3 FloatOps => match snd p with VNom v => bool_decide (v <> cv_key) | _ => true end) i = true ->
  good3 i.
Proof.
  intros H1 H2 H3. split; [by apply bool_decide_eq_true in H1|]. split.
  - rewrite Forall_forall. rewrite forallb_forall in H2. intros a Ha. apply H2. by apply elem_of_list_In.
  - intros a E. apply dget_In, elem_of_list_In in E. rewrite forallb_forall in H3.
    specialize (H3 _ E). cbn [snd] in H3. by apply bool_decide_eq_true in H3.
Qed.

(** ** A run with nominal and numeric values, one attribute having both *)
Definition m3 (c : string) (x : float) (z : val3 FloatOps) : finst :=
  [(AStr "color", VNom (NStr c)); (AStr "size", @VNum FloatOps x);
   (ATup [AStr "x"; AStr "ob"], z); (AStr "_w", @VNum FloatOps x)].
Definition ex3_insts : list finst :=
  [m3 "red" 1 (@VNum FloatOps 2%float); m3 "red" 1 (@VNum FloatOps 2%float); m3 "blue" 4 (VNom (NStr "none"));
   m3 "blue" 5 (@VNum FloatOps 7%float); m3 "red" 2 (VNom (NStr "none"))]%float.
Definition ex3_calls : list (call FC3) :=
  map (@CFit _ FC3) ex3_insts ++ [@CCat _ FC3 (m3 "red" 3%float (VNom (NStr "none")))].
Definition ex3_ctx : ctx3 FloatOps := @new_ctx FloatOps (Some 0.5%float) true.
Definition ex3_run := exec FC3 ex_rng ex3_ctx ex3_calls (fresh FC3 0 0 ex3_ctx).
Definition ex3_state : st FC3 := snd ex3_run.
Definition ex3_events : list (event FC3) := zip_with event_of ex3_calls (fst ex3_run).

Lemma ex3_reachable : reachable FC3 ex_rng ex3_ctx ex3_events ex3_state.
Proof. apply exec_reachable. Qed.
Lemma ex3_results : fst ex3_run = [Ok 1; Ok 1; Ok 3; Ok 12; Ok 21; Ok 21].
Proof. vm_compute. reflexivity. Qed.
Lemma m3_good c x z : NStr c <> cv_key -> z <> VNom cv_key -> good3 (m3 c x z).
Proof.
  intros Hc Hz. split; [apply (bool_decide_unpack _); vm_compute; done|].
  split; [by repeat constructor|]. intros a E. apply dget_In, elem_of_list_In in E.
  simpl in E. destruct E as [E|[E|[E|[E|[]]]]]; try congruence.
Qed.
Lemma ex3_good : all_inst (C:=FC3) good3 ex3_events.
Proof.
  unfold ex3_events. rewrite ex3_results. unfold all_inst. simpl.
  repeat (apply Forall_cons_2; [intros i ->; apply m3_good; discriminate|]). apply Forall_nil_2.
Qed.
(** The root really mixes counts and summaries, and scales exist. *)
Lemma ex3_root : exists tb, table_of ex3_state (st_root ex3_state) tb /\ n3_count tb = 5 /\
  count_of tb (AStr "color") (NStr "red") = 3 /\
  count_of tb (ATup [AStr "x"; AStr "ob"]) (NStr "none") = 2 /\
  option_map cv_num (numeric_of tb (ATup [AStr "x"; AStr "ob"])) = Some 3 /\
  option_map cv_num (dget (AStr "x") (x_scales (st_ctx ex3_state))) = Some 3.
Proof.
  assert (H : match st_heap ex3_state !! st_root ex3_state with
    | Some n => n3_count (nd_sum n) = 5 /\
      count_of (nd_sum n) (AStr "color") (NStr "red") = 3 /\
      count_of (nd_sum n) (ATup [AStr "x"; AStr "ob"]) (NStr "none") = 2 /\
      option_map cv_num (numeric_of (nd_sum n) (ATup [AStr "x"; AStr "ob"])) = Some 3 /\
      option_map cv_num (dget (AStr "x") (x_scales (st_ctx ex3_state))) = Some 3
    | None => False end) by (vm_compute; tauto).
  unfold table_of. destruct (st_heap ex3_state !! st_root ex3_state) as [n|]; [|destruct H].
  exists (nd_sum n). split; [|exact H]. exists n. split; reflexivity.
Qed.

Lemma ex3_scales : (exists k, dget (AStr "size") (x_scales (st_ctx ex3_state)) = Some k /\ cv_num k = 5).
Proof.
  assert (H : option_map cv_num (dget (AStr "size") (x_scales (st_ctx ex3_state))) = Some 5)
    by (vm_compute; reflexivity).
  destruct (dget _ _) as [k|]; simplify_eq/=. by exists k.
Qed.

(** ** C36: the reserved string *)
Definition x_is (v : val3 FloatOps) : finst := [(AStr "x", v)].
(** Fitting the string "#ContinuousValue#" for an attribute that has had
    numbers raises TypeError although both instances pass the sanity check. *)
Theorem C36_reserved_string_refuted :
  exists (i j : finst),
    (forall p, p ∈ i ++ j -> attr_ok (fst p) = true) /\
    dget (AStr "x") i = Some (@VNum FloatOps 1%float) /\
    dget (AStr "x") j = Some (VNom (NStr "#ContinuousValue#")) /\
    fst (exec FC3 ex_rng ex3_ctx [@CFit _ FC3 i; @CFit _ FC3 j] (fresh FC3 0 0 ex3_ctx)) =
      [Ok 1; Err TypeError] /\
    fst (exec FC3 ex_rng ex3_ctx [@CFit _ FC3 j; @CFit _ FC3 i] (fresh FC3 0 0 ex3_ctx)) =
      [Ok 1; Err AttributeError].
Proof.
  exists (x_is (@VNum FloatOps 1%float)), (x_is (VNom (NStr "#ContinuousValue#"))).
  split; [|split; [done|split; [done|split; vm_compute; reflexivity]]].
  intros p Hp. apply elem_of_list_In in Hp. simpl in Hp. by destruct Hp as [<-|[<-|[]]].
Qed.
(** In a tree that has never seen a number, it raises as well. *)
Theorem C36_reserved_alone_refuted :
  exists (i j : finst),
    (forall p y, p ∈ i ++ j -> snd p <> VNum y) /\
    fst (exec FC3 ex_rng ex3_ctx [@CFit _ FC3 i; @CFit _ FC3 j] (fresh FC3 0 0 ex3_ctx)) =
      [Ok 1; Err ValueError].
Proof.
  exists (x_is (VNom (NStr "#ContinuousValue#"))), (x_is (VNom (NStr "a"))).
  split; [|vm_compute; reflexivity].
  intros p y Hp. apply elem_of_list_In in Hp. simpl in Hp. by destruct Hp as [<-|[<-|[]]].
Qed.

(** ** C37: categorize depends on units while all fitted numbers are equal *)
Definition xc (x : float) (c : string) : finst :=
  [(AStr "x", @VNum FloatOps x); (AStr "c", VNom (NStr c))].
Definition flat_fits : list (call FC3) :=
  map (@CFit _ FC3) [xc 0 "p"; xc 0 "q"; xc 0 "q"; xc 0 "q"; xc 0 "q"; xc 0 "q"; xc 0 "q"]%float.
(** All fitted numbers are 0, so the same in every unit; the categorized
    number is 2^-20 in one unit and 2^10 in another. *)
Theorem C37_categorize_units_refuted :
  exists (small factor : float),
    PrimFloat.mul factor small = 1024%float /\ PrimFloat.ltb 0 factor = true /\
    last (fst (exec FC3 ex_rng ex3_ctx (flat_fits ++ [@CCat _ FC3 (xc small "q")]) (fresh FC3 0 0 ex3_ctx))) <>
    last (fst (exec FC3 ex_rng ex3_ctx (flat_fits ++ [@CCat _ FC3 (xc (PrimFloat.mul factor small) "q")])
                (fresh FC3 0 0 ex3_ctx))).
Proof.
  exists 0x1p-20%float, 0x1p+30%float. split; [vm_compute; reflexivity|]. split; [vm_compute; reflexivity|].
  vm_compute. discriminate.
Qed.

(** ** C66: a hidden number can change the result *)
Definition hid (h x : float) (c : string) : finst :=
  [(AStr "_t", @VNum FloatOps h); (ATup [AStr "_t"; AStr "o"], @VNum FloatOps x);
   (AStr "c", VNom (NStr c))].
Definition hid_calls (h : float) : list (call FC3) :=
  map (@CFit _ FC3) [hid 0 0 "p"; hid h 10 "q"; hid h 10 "q"; hid 0 0 "p"; hid 0 0 "p"]%float ++
  [@CCat _ FC3 (hid 0 10 "p")]%float.
Theorem C66_hidden_scale_refuted :
  exists cs1 cs2 : list (call FC3),
    Forall2 (fun c1 c2 : call FC3 => match c1, c2 with
      | CFit i1, CFit i2 | CCat i1, CCat i2 =>
        good3 (i1 : finst) /\ good3 (i2 : finst) /\ dfilter visible (i1 : finst) = dfilter visible (i2 : finst)
      | _, _ => False end) cs1 cs2 /\
    fst (exec FC3 ex_rng ex3_ctx cs1 (fresh FC3 0 0 ex3_ctx)) <>
    fst (exec FC3 ex_rng ex3_ctx cs2 (fresh FC3 0 0 ex3_ctx)).
Proof.
  exists (hid_calls 0), (hid_calls 1000). split.
  - assert (Hg : forall h x c, NStr c <> cv_key -> good3 (hid h x c)).
    { intros h x c Hc. split; [apply (bool_decide_unpack _); vm_compute; done|].
      split; [by repeat constructor|]. intros a E. apply dget_In, elem_of_list_In in E.
      simpl in E. destruct E as [E|[E|[E|[]]]]; congruence. }
    unfold hid_calls. cbn [map app]. repeat (constructor; [split; [by apply Hg|split; [by apply Hg|done]]|]). constructor.
  - vm_compute. discriminate.
Qed.

(** ** Hypotheses are met *)
(** C66 holds with inner-attribute scaling off, or for runs such as [ex3_calls]
    in which the hidden "_w" has a scale of its own. *)
Definition ex3_used (a : attr) : Prop :=
  a ∈ [AStr "color"; AStr "size"; ATup [AStr "x"; AStr "ob"]].
Definition ex3_other (c : call FC3) : call FC3 :=
  match c with
  | CFit i => @CFit _ FC3 (dset (AStr "_w") (@VNum FloatOps 99%float) i)
  | CCat i => @CCat _ FC3 (dset (AStr "_w") (VNom (NStr "heavy")) i)
  | c => c
  end.
Lemma ex_C66 : Forall2 (same_but_hidden3 ex3_used true) ex3_calls (map ex3_other ex3_calls).
Proof.
  assert (Hap : forall (i : finst) v, apart ex3_used true i -> apart ex3_used true (dset (AStr "_w") v i)).
  { intros i v Hi a y b Hin Ha Hb.
    destruct (decide (a = AStr "_w")) as [->|Hne].
    - unfold ex3_used in Hb. apply elem_of_list_In in Hb. simpl in Hb.
      by destruct Hb as [<-|[<-|[<-|[]]]].
    - eapply Hi; [|done|done]. clear Hi. induction i as [|[c w] i IH]; simpl in *.
      + apply elem_of_list_singleton in Hin. congruence.
      + case_decide.
        * apply elem_of_cons in Hin as [Hin|Hin]; [congruence|]. by right.
        * apply elem_of_cons in Hin as [->|Hin]; [left|right; auto]. }
  assert (Hm : forall c x z, NStr c <> cv_key -> z <> VNom cv_key -> good3 (m3 c x z) /\
    (forall a, visible a = true -> a ∈ dkeys (m3 c x z) -> ex3_used a) /\ apart ex3_used true (m3 c x z)).
  { intros c x z Hc Hz. split; [by apply m3_good|]. split.
    - intros a Ha Hk. unfold ex3_used. apply elem_of_list_In in Hk. simpl in Hk.
      apply elem_of_list_In. simpl. destruct Hk as [<-|[<-|[<-|[<-|[]]]]]; auto. done.
    - intros a y b Hin Ha Hb. apply elem_of_list_In in Hin. simpl in Hin.
      unfold ex3_used in Hb. apply elem_of_list_In in Hb. simpl in Hb.
      destruct Hin as [[= <- _]|[[= <- _]|[[= <- _]|[[= <- _]|[]]]]]; try done.
      by destruct Hb as [<-|[<-|[<-|[]]]]. }
  assert (Hgood : forall c x z v, NStr c <> cv_key -> z <> VNom cv_key -> v <> VNom cv_key -> good3 (dset (AStr "_w") v (m3 c x z))).
  { intros c x z v Hc Hz Hv. split; [apply dset_wf; by apply m3_good|]. split; [by repeat constructor|].
    intros a. rewrite dget_dset. case_decide; [congruence|]. by apply m3_good. }
  unfold ex3_calls, ex3_insts. cbn [map app].
  repeat (constructor; [cbn [same_but_hidden3 ex3_other];
    (split; [apply m3_good; discriminate|]); (split; [apply Hgood; discriminate|]);
    (split; [by apply Hm|]); (split; [by apply Hm|]); (split; [by apply Hap, Hm|]); done|]).
  constructor.
Qed.
(** C64: an ordinary run of CobwebTree. *)
Lemma ex_C64 : Forall (call_avoids_key FloatOps) ex_calls.
Proof.
  unfold ex_calls, ex_insts. cbn [map app].
  repeat (apply Forall_cons_2; [intros a Ha; apply elem_of_list_In in Ha; simpl in Ha; naive_solver|]).
  apply Forall_nil_2.
Qed.
