(** * Properties of the Tuplizer, NameStandardizer and Flattener: C41-C44. *)
From stdpp Require Import base decidable list strings pretty sets.
From Coq Require Import Ascii String ZArith.
From Verif Require Import Base PyVal Preproc PreFlat PreTuple PreStd.
Open Scope string_scope.
Open Scope list_scope.

(** ** C41: the Tuplizer *)

(** [pyfloat] is Python's [float()]; the theorem holds whatever it accepts.
    [tuplized] (PreTuple.v) is the grammar of canonical relations. *)
Theorem C41_tuplizer_round_trip : forall (pyfloat : string -> option Z) (V : Type)
    (d d' : list (attr * V)),
  dwf d ->
  Forall2 (fun e e' => tuplized pyfloat (fst e) (fst e') /\ snd e = snd e') d d' ->
  tuplizer_transform pyfloat d = Ok d' /\ tuplizer_undo d' = Ok d.
Proof. intros pyfloat V d d'. apply tuplizer_round_trip. Qed.

(** A number inside a relation: transform succeeds, undo raises. *)
Theorem C41_numeric_token_refuted : forall (pyfloat : string -> option Z) z,
  pyfloat "a" = None -> pyfloat "1" = Some z ->
  exists (d d' : list (attr * nat)),
    tuplizer_transform pyfloat d = Ok d' /\ tuplizer_undo d' = Err TypeError.
Proof.
  intros pyfloat z Ha H1. exists [(AStr "(a 1)", 0)], [(ATup [AStr "a"; ANum z], 0)].
  unfold tuplizer_transform, mapkM. cbn. rewrite Ha. cbn. rewrite H1. cbn. done.
Qed.

(** A relation that starts with a relation is misread: only one opening
    parenthesis is removed per word. *)
Theorem C41_leading_relation_refuted : forall (pyfloat : string -> option Z),
  exists (d : list (attr * nat)), tuplizer_transform pyfloat d = Err IndexError.
Proof. intros pyfloat. by exists [(AStr "((a b) c)", 0)]. Qed.

(** The empty relation, doubled spaces, the empty string. *)
Theorem C41_degenerate_refuted : forall (pyfloat : string -> option Z),
  Forall (fun s => tuplizer_transform pyfloat [(AStr s, 0)] = Err IndexError) ["()"; "(a  b)"; ""].
Proof.
  intros pyfloat. repeat constructor.
Qed.

(** The hypotheses are met: a nested relation beside a plain attribute. *)
Lemma ex_tuplized : forall pyfloat, (forall s, pyfloat s = None) ->
  Forall2 (fun e e' => tuplized pyfloat (fst e) (fst e') /\ snd e = snd e')
    [(AStr "(on (left ?x) ?y)", 1); (AStr "color", 2)]
    [(ATup [AStr "on"; ATup [AStr "left"; AStr "?x"]; AStr "?y"], 1); (AStr "color", 2)].
Proof.
  intros pyfloat Hf.
  assert (Ht : forall s, s <> "" -> no_space s = true -> head_is "("%char s = false ->
    last_is ")"%char s = false -> token pyfloat s) by (repeat split; auto).
  assert (Hx : canon pyfloat "(left ?x)" (ATup [AStr "left"; AStr "?x"])).
  { apply (ca_rel pyfloat "left" " ?x" [AStr "?x"]); [by apply Ht|].
    apply (cs_cons pyfloat "?x" "" (AStr "?x") []); [apply ca_word; by apply Ht|apply cs_nil]. }
  repeat constructor; simpl; try done.
  apply (ca_rel pyfloat "on" " (left ?x) ?y" [ATup [AStr "left"; AStr "?x"]; AStr "?y"]); [by apply Ht|].
  apply (cs_cons pyfloat "(left ?x)" " ?y" (ATup [AStr "left"; AStr "?x"]) [AStr "?y"]); [exact Hx|].
  apply (cs_cons pyfloat "?y" "" (AStr "?y") []); [apply ca_word; by apply Ht|apply cs_nil].
Qed.

Lemma ex_tuplizer_run : forall pyfloat, (forall s, pyfloat s = None) ->
  tuplizer_transform pyfloat [(AStr "(on (left ?x) ?y)", 1); (AStr "color", 2)] =
    Ok [(ATup [AStr "on"; ATup [AStr "left"; AStr "?x"]; AStr "?y"], 1); (AStr "color", 2)].
Proof.
  intros pyfloat Hf. apply C41_tuplizer_round_trip; [|by apply ex_tuplized].
  repeat constructor; set_solver.
Qed.

(** ** C42: the NameStandardizer *)

(** [pystr] is [str()], [setord] the order in which Python walks through a
    set: neither matters.  There is one renaming [f] of variables such that
    the result is the instance with every variable renamed by [f] (and nothing
    else changed); [f] gives each variable of the instance a generated name
    that was not handed out before, and different variables different
    names. *)
Theorem C42_standardize : forall (X : Type) (pystr : attr -> string) (setord : list attr -> list attr),
  (forall l x, x ∈ setord l <-> x ∈ l) ->
  forall (c : nat) (d : inst X), std_ok (PD d) ->
  exists d' rev c' (f : string -> string),
    ns_transform pystr setord c d = (Ok (d', rev), c') /\
    ieq d' (irename f d) /\
    (forall v, v ∈ ivars d -> exists n, f v = gensym_name n /\ c < n <= c') /\
    (forall u v, u ∈ ivars d -> v ∈ ivars d -> f u = f v -> u = v).
Proof.
  intros X pystr setord Hs c d Hok.
  destruct (ns_transform_ok pystr setord Hs c d Hok) as (d' & s & E & HG & Hdom & Hp).
  eexists d', _, (fst s), (fm (snd s)). split; [exact E|]. split; [done|]. split.
  - intros v Hv. apply Hdom in Hv. destruct (fm_good c s v HG Hv) as (n & H1 & H2). by exists n.
  - intros u v Hu Hv. apply (fm_inj c s); [done| |]; by apply Hdom.
Qed.

(** Undoing gives the original back, as Python compares dictionaries, when
    variables hold components or lists and relations hold plain values. *)
Theorem C42_undo_standardize : forall (X : Type) (pystr : attr -> string) (setord : list attr -> list attr),
  (forall l x, x ∈ setord l <-> x ∈ l) ->
  forall (c : nat) (d : inst X), std_ok (PD d) -> undo_ok (PD d) ->
  exists d' rev c', ns_transform pystr setord c d = (Ok (d', rev), c') /\
    ieq (ns_undo rev d') d.
Proof. intros X pystr setord Hs c d. by apply ns_round_trip. Qed.

(** A variable that holds a plain value keeps its generated name. *)
Theorem C42_plain_variable_refuted : forall (pystr : attr -> string) (setord : list attr -> list attr),
  exists (d d' : inst nat) rev c', std_ok (PD d) /\
    ns_transform pystr setord 0 d = (Ok (d', rev), c') /\
    ~ ieq (ns_undo rev d') d.
Proof.
  intros pystr setord. exists [(AStr "?x", PStr "v")]. eexists _, _, _. split; [|split].
  - repeat constructor; set_solver.
  - cbn. reflexivity.
  - cbn. intros H. inversion H as [| | |? l ? HF HP]; subst.
    inversion HF as [|? b ? l' [E _] HF']; subst. inversion HF'; subst.
    apply Permutation_length_1 in HP. subst. discriminate E.
Qed.

(** A relation that holds a component keeps the generated names. *)
Theorem C42_component_relation_refuted :
  exists (d d' : inst nat) rev c', std_ok (PD d) /\
    ns_transform (fun _ => "") (fun l => l) 0 d = (Ok (d', rev), c') /\
    ~ ieq (ns_undo rev d') d.
Proof.
  exists [(ATup [AStr "on"; AStr "?x"], PD [(AStr "a", PStr "v")])].
  eexists _, _, _. split; [|split].
  - constructor; [repeat constructor; set_solver|repeat constructor|].
    repeat constructor; set_solver.
  - cbn. reflexivity.
  - cbn. intros H. inversion H as [| | |? l ? HF HP]; subst.
    inversion HF as [|? b ? l' [E _] HF']; subst. inversion HF'; subst.
    apply Permutation_length_1 in HP. subst. discriminate E.
Qed.

(** The hypotheses are met: two components, one inside the other, a list with
    a component, and a relation between them. *)
Definition std_inst : inst nat :=
  [ (ATup [AStr "on"; AStr "?y"; AStr "?x"], PStr "yes");
    (AStr "?x", PD [(AStr "?y", PD [(AStr "size", PX 3)])]);
    (AStr "items", PL [PD [(AStr "?z", PD [(AStr "a", PX 1)])]; PStr "?y"]) ].

Lemma ex_std_ok : std_ok (PD std_inst) /\ undo_ok (PD std_inst).
Proof.
  split.
  - constructor; [repeat constructor; set_solver|by repeat constructor|].
    repeat constructor; simpl; try set_solver.
  - repeat constructor; simpl; try done.
Qed.

Lemma ex_std_run :
  ns_transform (fun _ => "") (fun l => l) 4 std_inst =
   (Ok ([ (AStr "?o6", PD [(AStr "?o5", PD [(AStr "size", PX 3)])]);
          (AStr "items", PL [PD [(AStr "?o7", PD [(AStr "a", PX 1)])]; PStr "?y"]);
          (ATup [AStr "on"; AStr "?o5"; AStr "?o6"], PStr "yes") ],
        [(AStr "?o5", AStr "?y"); (AStr "?o6", AStr "?x"); (AStr "?o7", AStr "?z")]), 7).
Proof. vm_compute. reflexivity. Qed.

(** ** C43: the Flattener *)

(** Flattening yields exactly one entry per leaf, named after its path; paths
    get different names; undoing gives the very same dictionary. *)
Theorem C43_flattener : forall (X : Type) (d : inst X), flat_ok d ->
  exists f, flatten d = Ok f /\ structurize f = Ok d /\
    f = map (fun q => (enc_top (fst q), snd q)) (ileaves d) /\
    forall p q v w, (p, v) ∈ ileaves d -> (q, w) ∈ ileaves d -> enc_top p = enc_top q -> p = q /\ v = w.
Proof.
  intros X d Hd. destruct (structurize_flatten d Hd) as (f & E1 & E2).
  exists f. split; [done|]. split; [done|].
  rewrite (flatten_ok d Hd) in E1. injection E1 as <-. split; [done|].
  intros p q v w Hp Hq E. pose proof (enc_top_nodup d Hd) as Hnd.
  revert Hnd Hp Hq. generalize (ileaves d). intros l Hnd Hp Hq.
  induction l as [|[r x] l IH]; [by apply elem_of_nil in Hp|].
  simpl in Hnd. apply NoDup_cons in Hnd as [Hn Hnd].
  apply elem_of_cons in Hp as [Hp|Hp]; apply elem_of_cons in Hq as [Hq|Hq].
  - split; congruence.
  - injection Hp as -> ->. exfalso. apply Hn. apply elem_of_list_fmap. exists (q, w). by simpl.
  - injection Hq as -> ->. exfalso. apply Hn. apply elem_of_list_fmap. exists (p, v). by simpl.
  - by apply IH.
Qed.

(** An empty component disappears. *)
Theorem C43_empty_component_refuted : exists (d f : inst nat),
  flatten d = Ok f /\ structurize f = Ok [] /\ d <> [].
Proof. exists [(AStr "a", PD [])], []. done. Qed.

(** An attribute named ['_'] inside a component moves out of it. *)
Theorem C43_underscore_refuted : exists (d f d' : inst nat),
  flatten d = Ok f /\ structurize f = Ok d' /\ d' <> d.
Proof.
  exists [(AStr "c", PD [(AStr "_", PX 1)])].
  eexists _, _. split; [reflexivity|]. split; [reflexivity|]. discriminate.
Qed.

(** A two-place tuple at the top level is taken apart. *)
Theorem C43_top_pair_refuted : exists (d f d' : inst nat),
  flatten d = Ok f /\ structurize f = Ok d' /\ d' <> d.
Proof.
  exists [(ATup [AStr "ready"; AStr "?x"], PX 1)].
  eexists _, _. split; [reflexivity|]. split; [reflexivity|]. discriminate.
Qed.

Definition flat_inst : inst nat :=
  [ (AStr "?x", PD [(AStr "size", PX 3); (AStr "?y", PD [(AStr "_id", PStr "n"); (AStr "b", PX 2)])]);
    (ATup [AStr "on"; AStr "?y"; AStr "?x"], PStr "yes") ].
Lemma ex_flat_ok : flat_ok flat_inst.
Proof.
  split; [repeat constructor; set_solver|]. split; [by repeat constructor|].
  repeat constructor; simpl; try done; try set_solver.
Qed.
Lemma ex_flat_run : flatten flat_inst = Ok
  [ (ATup [AStr "size"; AStr "?x"], PX 3);
    (ATup [AStr "_"; ATup [AStr "_id"; ATup [AStr "?y"; AStr "?x"]]], PStr "n");
    (ATup [AStr "b"; ATup [AStr "?y"; AStr "?x"]], PX 2);
    (ATup [AStr "on"; AStr "?y"; AStr "?x"], PStr "yes") ].
Proof. reflexivity. Qed.

(** ** C44: hidden components *)

(** The attributes of a hidden component become visible. *)
Theorem C44_hidden_component_refuted : exists (d f : inst nat) (a b k : attr) (v : pv nat),
  hidden a = true /\ d = [(a, PD [(b, v)])] /\ flatten d = Ok f /\
  (k, v) ∈ f /\ hidden k = false.
Proof.
  exists [(AStr "_x", PD [(AStr "a", PX 1)])]. eexists _, (AStr "_x"), (AStr "a"), _, (PX 1).
  split; [done|]. split; [done|]. split; [reflexivity|]. split; [left|done].
Qed.

(** What does hold: inside components, an attribute is hidden after
    flattening exactly when its own name is hidden. *)
Theorem C44_hidden_leaves : forall (X : Type) (d f : inst X) (p : list attr) (a : attr) (v : pv X),
  flat_ok d -> flatten d = Ok f -> (p ++ [a], v) ∈ ileaves d ->
  exists k, (k, v) ∈ f /\ hidden k = hidden a.
Proof.
  intros X d f p a v Hd E Hin. rewrite (flatten_ok d Hd) in E. injection E as <-.
  exists (enc_top (p ++ [a])). split.
  { apply elem_of_list_fmap. by exists (p ++ [a], v). }
  destruct p as [|b p]; [done|]. simpl. rewrite hidden_enc.
  pose proof (ileaves_names d Hd) as Hn. rewrite Forall_forall in Hn.
  destruct (Hn _ Hin) as (b' & q & E & Hb & Hq). simpl in E. injection E as <- <-.
  apply Forall_app in Hq as [_ Hq]. apply Forall_cons in Hq as [[_ Hq] _].
  by rewrite bool_decide_false.
Qed.

Lemma ex_hidden_leaf : (([AStr "?x"; AStr "?y"] ++ [AStr "_id"]), PStr "n") ∈ ileaves flat_inst
  /\ hidden (AStr "_id") = true.
Proof. split; [|done]. simpl. set_solver. Qed.

Print Assumptions C41_tuplizer_round_trip.
Print Assumptions C42_standardize.
Print Assumptions C42_undo_standardize.
Print Assumptions C42_component_relation_refuted.
Print Assumptions C43_flattener.
Print Assumptions C44_hidden_leaves.
