(** * What output_json writes for the numbers of a concept (C109); exact arithmetic. *)
From Coq Require Import Reals Lra Lia.
From stdpp Require Import base decidable tactics gmap strings list.
From Verif Require Import Base Num TreeModel TreeFun TreeScore TreeRefine TreeSorts TreeInv SpecTree TreeState RSum
  Nominal CV CVFacts PropsCV Cobweb3 C3Facts C3R C3Total PropsC3 PropsC3R PropsTotal PropsC3E.
Set Default Proof Using "Type".
Open Scope list_scope.

(** ContinuousValue.output_json, continuous_value.py:219-224: the entries "mean",
    "std" and "n".  ([__repr__], 144-149, formats the same three.) *)
Definition cv_json {N : NumOps} (c : cval N) : res (num N * num N * nat) :=
  rbind (cv_unbiased_std c) (fun sd => Ok (cv_unbiased_mean c, sd, cv_num c)).

(** ** Specification *)
Definition mean_of (xs : list R) : R := (Rsum (fun x => x) xs / INR (length xs))%R.
(** The estimate of the standard deviation from a sample: 0 for a single number,
    otherwise the root of the sum of squares over [n - 1], divided by the
    constant c4 (what c4 is: C30). *)
Definition spread_of (xs : list R) (sd : R) : Prop :=
  if decide (length xs < 2)%nat then sd = 0%R
  else exists k, c4 ROps (Z.of_nat (length xs)) = Ok k /\ (0 < k <= 1)%R /\
    (sd * k = R_sqrt.sqrt (Rsum (fun x => (x - mean_of xs) * (x - mean_of xs)) xs / INR (length xs - 1)))%R.

Lemma summary_json (xs : list R) c : summary_of xs = Some c ->
  xs <> [] /\ exists sd, cv_json c = Ok (mean_of xs, sd, length xs) /\ spread_of xs sd /\ (0 <= sd)%R.
Proof.
  intros H. destruct xs as [|x xs]; [done|]. split; [done|]. injection H as <-.
  set (l := x :: xs) in *. fold (mean_of l).
  set (c := @CVal ROps (length l) (mean_of l) (Rsum (fun x => (x - mean_of l) * (x - mean_of l))%R l)).
  change (exists sd, cv_json c = Ok (mean_of l, sd, length l) /\ spread_of l sd /\ (0 <= sd)%R). clearbody l.
  assert (Hm : (0 <= cv_msq c)%R).
  { change (0 <= Rsum (fun x => (x - mean_of l) * (x - mean_of l))%R l)%R. apply Rsum_nonneg. intros y _. apply Rle_0_sqr. }
  destruct (ustd_ok c Hm) as [Hs Hp]. exists (ustd c). unfold cv_json. rewrite Hs. split; [done|]. split; [|done].
  unfold spread_of. destruct (decide (length l < 2)%nat) as [Hl|Hl].
  - unfold cv_unbiased_std in Hs. rewrite decide_True in Hs by done. by injection Hs as <-.
  - destruct (C30_c4_defined (Z.of_nat (length l))) as (k & Hk & Hk1); [lia|]. exists k. split; [done|]. split; [done|].
    unfold cv_unbiased_std in Hs. rewrite decide_False in Hs by done.
    change (cv_num c) with (length l) in Hs. rewrite Hk in Hs.
    destruct (pysqrt ROps _) as [q|e] eqn:Eq; [|done]. cbn [rbind] in Hs.
    assert (Hq : q = R_sqrt.sqrt (cv_msq c / INR (length l - 1))).
    { unfold pysqrt in Eq. destruct (nltb ROps _ _); [done|]. by injection Eq as <-. }
    unfold pydiv in Hs. destruct (neqb ROps k _); [done|]. injection Hs as <-. rewrite Hq. simpl. field. lra.
Qed.

Section Props.
  Context (rng : nat -> num ROps) (sc : option R) (inner : bool).
  Notation C := (Cobweb3Class ROps).
  Notation x0 := (@new_ctx ROps sc inner).
  Notation good := (good3 (N:=ROps)).

  (** At every concept: the statistics of numbers that were fitted under the
      attribute; it never raises. *)
  Theorem C109_json_numbers evs s id tb a c :
    reachable C rng x0 evs s -> all_inst (C:=C) good evs ->
    in_tree s id -> table_of s id tb -> numeric_of tb a = Some c ->
    exists l sd, (forall i, i ∈ l -> i ∈ history evs) /\ n3_count tb = length l /\ nums l a <> [] /\
      cv_json c = Ok (mean_of (nums l a), sd, length (nums l a)) /\ spread_of (nums l a) sd /\ (0 <= sd)%R.
  Proof.
    intros Hr Hg Hin Ht Hc. destruct (reach_hist rng sc inner evs s id tb Hr Hg Hin Ht) as (l & Hl & Hsub).
    rewrite (hist_summary tb l a Hl) in Hc. destruct (summary_json _ _ Hc) as (Hne & sd & H1 & H2 & H3).
    exists l, sd. split; [done|]. split; [by destruct Hl|]. done.
  Qed.

  (** At the root: of all numbers fitted since the last clear. *)
  Theorem C109_json_root evs s tb a :
    reachable C rng x0 evs s -> all_inst (C:=C) good evs -> all_ok evs -> table_of s (st_root s) tb ->
    match numeric_of tb a with
    | None => nums (history evs) a = []
    | Some c => exists sd, cv_json c = Ok (mean_of (nums (history evs) a), sd, length (nums (history evs) a)) /\
                  spread_of (nums (history evs) a) sd
    end.
  Proof.
    intros Hr Hg Hao Ht. destruct (C31_root_summaries rng sc inner evs s Hr Hg Hao) as (tb' & Ht' & _ & _ & Hn).
    rewrite (table_of_det _ _ _ _ _ Ht Ht'), Hn. destruct (summary_of _) as [c|] eqn:E.
    - destruct (summary_json _ _ E) as (_ & sd & H1 & H2 & _). by exists sd.
    - by destruct (nums (history evs) a).
  Qed.
End Props.

(** ** The hypotheses are met: the root of a tree with the numbers 1, 3, 1, 7. *)
Lemma ex_C109 : exists evs s tb c sd, reachable RC3 ex_draws (@new_ctx ROps (Some 0.5%R) true) evs s /\
  all_inst (C:=RC3) (good3 (N:=ROps)) evs /\ all_ok evs /\ in_tree s (st_root s) /\ table_of s (st_root s) tb /\
  numeric_of tb (AStr "x") = Some c /\ cv_json c = Ok (3%R, sd, 4%nat) /\ (0 < sd)%R.
Proof.
  destruct ex_C31 as (evs & s & Hr & Hg & Hok & Hh).
  assert (Hg' : all_inst (C:=RC3) (good3 (N:=ROps)) evs).
  { eapply Forall_impl; [exact Hg|]. intros e He i Hi. by apply He. }
  destruct (C31_root_summaries ex_draws (Some 0.5%R) true evs s Hr Hg' Hok) as (tb & Ht & _ & _ & Hn).
  specialize (Hn (AStr "x")). rewrite Hh in Hn.
  change (nums [xci 1 "p"; xci 3 "q"; xci 1 "p"; xci 7 "q"] (AStr "x")) with [1; 3; 1; 7]%R in Hn.
  destruct (summary_of [1; 3; 1; 7]%R) as [c|] eqn:Ec; [|done].
  destruct (summary_json _ _ Ec) as (_ & sd & Hj & Hs & Hp).
  assert (Hmean : mean_of [1; 3; 1; 7]%R = 3%R) by (unfold mean_of; simpl; field).
  exists evs, s, tb, c, sd. split; [done|]. split; [done|]. split; [done|]. split; [constructor|]. split; [done|].
  split; [done|]. rewrite Hmean in Hj. split; [done|].
  unfold spread_of in Hs. rewrite decide_False in Hs by (simpl; lia). destruct Hs as (k & _ & Hk & Hs).
  rewrite Hmean in Hs. destruct (Req_dec sd 0) as [E|E]; [|lra]. exfalso. rewrite E, Rmult_0_l in Hs.
  symmetry in Hs. apply R_sqrt.sqrt_eq_0 in Hs; simpl in *; lra.
Qed.
Print Assumptions C109_json_numbers.
