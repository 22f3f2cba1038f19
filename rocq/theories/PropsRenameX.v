(** * Names of components: a case, and what does matter. *)
From stdpp Require Import base decidable list gmap strings sets.
From Coq Require Import Floats String ZArith.
From Verif Require Import Base Num FloatNum TreeModel SpecTree Nominal CV Cobweb3 Query Query3 PyVal Preproc Preproc2 PreStd
  StructMap StructFacts Trestle SpecTrestle Example PropsTrestleX PropsRename.
Set Default Proof Using "Type".
Open Scope list_scope.

Definition rx_f (s : string) : string :=
  if String.eqb s "?x" then "?left" else if String.eqb s "?y" then "?right" else s.
(** The same two blocks as [tx_inst "?x" "?y"], written down differently. *)
Definition rx_inst (x : float) (c : string) : inst FX :=
  [ (ATup [AStr "on"; AStr "?left"; AStr "?right"], sv "yes");
    (AStr "?right", PD [(AStr "color", sv c)]);
    (AStr "?left", PD [(AStr "size", fv x); (AStr "color", sv "red")]) ].

Ltac rx_keys := let a := fresh "a" in let b := fresh "b" in let Ha := fresh "Ha" in let Hb := fresh "Hb" in
  intros a b Ha Hb;
  repeat (apply elem_of_cons in Ha as [->|Ha]); try (by apply elem_of_nil in Ha);
  repeat (apply elem_of_cons in Hb as [->|Hb]); try (by apply elem_of_nil in Hb);
  (split; [reflexivity|]); first [reflexivity|discriminate].
Lemma tx_std_ok u v x c : u <> v -> std_ok (PD (tx_inst u v x c)).
Proof.
  intros Hn. constructor; [|repeat constructor|].
  - repeat (constructor || (intros Hin; repeat (apply elem_of_cons in Hin as [Hin|Hin]); try done; try by apply elem_of_nil in Hin)).
    by injection Hin.
  - repeat (constructor || (intros Hin; repeat (apply elem_of_cons in Hin as [Hin|Hin]); try done; try by apply elem_of_nil in Hin)).
Qed.
Lemma rx_renames x c : renames id rx_f (fun v => v ∈ ivars (tx_inst "?x" "?y" x c)).
Proof.
  assert (H : forall v, v ∈ ivars (tx_inst "?x" "?y" x c) -> v = "?x" \/ v = "?y").
  { intros v Hv. unfold ivars in Hv. simpl in Hv.
    repeat (apply elem_of_cons in Hv as [->|Hv]; [by auto|]). by apply elem_of_nil in Hv. }
  split; [|split; [|done]].
  - by intros v [-> | ->]%H.
  - by intros u v [-> | ->]%H [-> | ->]%H.
Qed.
Lemma ex_C101 x c : respelled tx_str id rx_f (tx_inst "?x" "?y" x c) (rx_inst x c).
Proof.
  split; [apply rx_renames|]. split; [by apply tx_std_ok|]. split.
  - constructor; [rx_keys|].
    apply Forall_cons_2; [|apply Forall_cons_2; [|apply Forall_cons_2; [|apply Forall_nil_2]]].
    + constructor; [rx_keys|]. repeat constructor.
    + constructor; [rx_keys|]. repeat constructor.
    + constructor.
  - econstructor.
    + repeat (apply Forall2_cons_2 || apply Forall2_nil_2).
      * instantiate (1 := (AStr "?left", PD [(AStr "size", fv x); (AStr "color", sv "red")])). split; [done|]. econstructor.
        -- repeat (apply Forall2_cons_2 || apply Forall2_nil_2).
           ++ instantiate (1 := (AStr "color", sv "red")). split; [done|constructor].
           ++ instantiate (1 := (AStr "size", fv x)). split; [done|constructor].
        -- apply Permutation_swap.
      * instantiate (1 := (AStr "?right", PD [(AStr "color", sv c)])). split; [done|]. econstructor; [|done].
        repeat (apply Forall2_cons_2 || apply Forall2_nil_2). by split; [|constructor].
      * instantiate (1 := (ATup [AStr "on"; AStr "?left"; AStr "?right"], sv "yes")). split; [done|constructor].
    + unfold rx_inst. apply (Permutation_rev [_; _; _]).
Qed.
(** The concepts and the root, with either. *)
Lemma ex_C101_fit :
  let o := t_fit ex_rng tx_str id 100 tx_orc (rx_inst 1 "red") tx_state in
  o = t_fit ex_rng tx_str id 100 tx_orc (tx_inst "?x" "?y" 1 "red") tx_state /\
  (fst o, tx_root (snd o), t_sym (snd o)) =
    (Ok 53, Some (4, [ATup [AStr "color"; AStr "?o1"]; ATup [AStr "size"; AStr "?o1"]; ATup [AStr "color"; AStr "?o2"];
               ATup [AStr "on"; AStr "?o1"; AStr "?o2"]]), 10).
Proof.
  split; [|vm_compute; reflexivity].
  exact (proj1 (C101_fit_cat ex_rng tx_str id 100 (fun l x => conj (fun H => H) (fun H => H)) rx_f tx_orc _ _ tx_state (ex_C101 1 "red"))).
Qed.

(** ** The alphabetical order of the names matters *)
(** Swapping two names: the components are numbered the other way round, and
    the first instance that a tree sees is stored under these numbers. *)
Definition rx_swap (s : string) : string :=
  if String.eqb s "?x" then "?y" else if String.eqb s "?y" then "?x" else s.
Definition rx_two (u v : string) : inst FX :=
  [ (AStr u, PD [(AStr "color", sv "red")]); (AStr v, PD [(AStr "taste", sv "sweet")]) ].
Theorem C101_order_refuted :
  exists (f : string -> string) (d d' : inst FX),
    renames id f (fun v => v ∈ ivars d) /\ std_ok (PD d) /\ recast f (PD d) (PD d') /\
    tx_root (snd (t_fit ex_rng tx_str id 100 tx_orc d (t_new 0 0 tx0))) <>
    tx_root (snd (t_fit ex_rng tx_str id 100 tx_orc d' (t_new 0 0 tx0))).
Proof.
  exists rx_swap, (rx_two "?x" "?y"), (rx_two "?y" "?x"). split; [|split; [|split]].
  - assert (H : forall v, v ∈ ivars (rx_two "?x" "?y") -> v = "?x" \/ v = "?y").
    { intros v Hv. unfold ivars in Hv. simpl in Hv.
      repeat (apply elem_of_cons in Hv as [->|Hv]; [by auto|]). by apply elem_of_nil in Hv. }
    split; [|split; [|done]].
    + by intros v [-> | ->]%H.
    + by intros u v [-> | ->]%H [-> | ->]%H.
  - repeat (constructor || (intros Hin; repeat (apply elem_of_cons in Hin as [Hin|Hin]); try done; try by apply elem_of_nil in Hin)).
  - econstructor; [|reflexivity]. apply Forall2_cons_2; [|apply Forall2_cons_2; [|apply Forall2_nil_2]];
      (split; [reflexivity|]; econstructor; [|reflexivity]; apply Forall2_cons_2; [|apply Forall2_nil_2];
       split; [reflexivity|constructor]).
  - vm_compute. congruence.
Qed.

(** ** The order in which Python goes through a set matters *)
(** A relation is sorted before the components it mentions ("(" comes before
    "?"), so the order of the set of its variables, which depends on the seed
    of Python's string hashes, decides which of them is numbered first. *)
Theorem C101_set_order_refuted :
  exists (so so' : list attr -> list attr) (d : inst FX),
    (forall l x, x ∈ so l <-> x ∈ l) /\ (forall l x, x ∈ so' l <-> x ∈ l) /\ std_ok (PD d) /\
    tx_root (snd (t_fit ex_rng tx_str so 100 tx_orc d (t_new 0 0 tx0))) <>
    tx_root (snd (t_fit ex_rng tx_str so' 100 tx_orc d (t_new 0 0 tx0))).
Proof.
  exists id, (@rev attr), (tx_inst "?x" "?y" 1 "red"). split; [done|]. split; [|split].
  - intros l x. rewrite !elem_of_list_In. symmetry. apply in_rev.
  - by apply tx_std_ok.
  - vm_compute. congruence.
Qed.
