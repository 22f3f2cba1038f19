(** * Renamings that meet the hypotheses, and one that does not. *)
From Coq Require Import Floats.
From stdpp Require Import base decidable list gmap strings.
From Verif Require Import Base Num FloatNum TreeModel Nominal NominalFacts SpecTree Example CV Cobweb3
  PropsTotal PropsNames PropsNames3 PropsNamesI.

Notation CF := (CobwebClass FloatOps).

(** The run of Example.v in German. *)
Definition german (a : attr) : attr :=
  if decide (a = AStr "color") then AStr "Farbe" else if decide (a = AStr "shape") then AStr "Form" else a.
Definition german_value (a : attr) (v : nom) : nom :=
  if decide (a = AStr "color") then
    if decide (v = NStr "red") then NStr "rot" else if decide (v = NStr "blue") then NStr "blau" else v
  else if decide (v = NStr "square") then NStr "eckig" else if decide (v = NStr "round") then NStr "rund" else v.
Definition ex_attrs : list attr := [AStr "color"; AStr "shape"; AStr "_id"].
Definition ex_values (a : attr) : list nom :=
  if decide (a = AStr "color") then [NStr "red"; NStr "blue"]
  else if decide (a = AStr "shape") then [NStr "square"; NStr "round"] else map NAtom (seq 1 7).

Lemma german_renaming : renaming (fun a => a ∈ ex_attrs) (fun a v => v ∈ ex_values a) german german_value.
Proof.
  assert (H1 : forallb (fun a => forallb (fun b => bool_decide (german a = german b -> a = b)) ex_attrs) ex_attrs = true)
    by (vm_compute; reflexivity).
  assert (H2 : forallb (fun a => bool_decide (hidden (german a) = hidden a)) ex_attrs = true)
    by (vm_compute; reflexivity).
  assert (H3 : forallb (fun a => forallb (fun v => forallb (fun w =>
      bool_decide (german_value a v = german_value a w -> v = w)) (ex_values a)) (ex_values a)) ex_attrs = true)
    by (vm_compute; reflexivity).
  rewrite forallb_forall in H1, H2, H3. split.
  - intros a b Ha%elem_of_list_In Hb%elem_of_list_In. specialize (H1 a Ha). rewrite forallb_forall in H1.
    specialize (H1 b Hb). by apply bool_decide_eq_true in H1.
  - intros a Ha%elem_of_list_In. by apply H2, bool_decide_eq_true in Ha.
  - intros a v w Ha%elem_of_list_In Hv%elem_of_list_In Hw%elem_of_list_In. specialize (H3 a Ha).
    rewrite forallb_forall in H3. specialize (H3 v Hv). rewrite forallb_forall in H3. specialize (H3 w Hw).
    by apply bool_decide_eq_true in H3.
Qed.

Definition german_calls : list (call CF) :=
  map (fun c : call CF => match c with
                | CFit i => CFit (C:=CF) (renamed german german_value i)
                | CCat i => CCat (C:=CF) (renamed german german_value i)
                | c => c end) ex_calls.

Lemma ex_C103 : Forall2 (renamed_call (N:=FloatOps) (fun a => a ∈ ex_attrs) (fun a v => v ∈ ex_values a) german german_value)
    ex_calls german_calls /\ ex_calls <> german_calls.
Proof.
  split; [|done].
  assert (H : Forall (occurs (fun a => a ∈ ex_attrs) (fun a v => v ∈ ex_values a)) (ex_insts ++ [mk "blue" "round" 7])).
  { unfold ex_insts, mk, occurs. cbn [app].
    repeat (apply Forall_cons_2; [repeat (apply Forall_cons_2; [split; apply (bool_decide_unpack _); vm_compute; done|]); apply Forall_nil_2|]).
    apply Forall_nil_2. }
  unfold german_calls, ex_calls, ex_insts. cbn [map app]. unfold ex_insts in H. cbn [app] in H.
  repeat (apply Forall_cons in H as [? H]; apply Forall2_cons_2; [split; [assumption|done]|]).
  apply Forall2_nil_2.
Qed.

(** Giving an attribute a hidden name is not a renaming in this sense: it
    changes the tree. *)
Definition hide_color (a : attr) : attr := if decide (a = AStr "color") then AStr "_color" else a.
Theorem C103_hidden_refuted : exists cs1 cs2 : list (call CF),
  Forall2 (renamed_call (fun a => a ∈ ex_attrs) (fun a v => v ∈ ex_values a) hide_color (fun _ v => v)) cs1 cs2 /\
  fst (exec CF ex_rng tt cs1 (fresh CF 0 0 tt)) <> fst (exec CF ex_rng tt cs2 (fresh CF 0 0 tt)).
Proof.
  exists ex_calls, (map (fun c : call CF => match c with
                | CFit i => CFit (C:=CF) (renamed hide_color (fun _ v => v) i)
                | CCat i => CCat (C:=CF) (renamed hide_color (fun _ v => v) i)
                | c => c end) ex_calls).
  split.
  - assert (H : Forall (occurs (fun a => a ∈ ex_attrs) (fun a v => v ∈ ex_values a)) (ex_insts ++ [mk "blue" "round" 7])).
    { unfold ex_insts, mk, occurs. cbn [app].
      repeat (apply Forall_cons_2; [repeat (apply Forall_cons_2; [split; apply (bool_decide_unpack _); vm_compute; done|]); apply Forall_nil_2|]).
      apply Forall_nil_2. }
    unfold ex_calls, ex_insts. cbn [map app]. unfold ex_insts in H. cbn [app] in H.
    repeat (apply Forall_cons in H as [? H]; apply Forall2_cons_2; [split; [assumption|done]|]).
    apply Forall2_nil_2.
  - intros E. vm_compute in E. done.
Qed.

(** With inner_attr_scaling: the position and the size of two parts, whose
    numbers share a scale, with new names for the measures. *)
Definition measures : list attr :=
  [ATup [AStr "x"; AStr "p"]; ATup [AStr "x"; AStr "q"]; AStr "x"; AStr "kind"].
Definition respell (a : attr) : attr :=
  if decide (a = ATup [AStr "x"; AStr "p"]) then ATup [AStr "pos"; AStr "p"]
  else if decide (a = ATup [AStr "x"; AStr "q"]) then ATup [AStr "pos"; AStr "q"]
  else if decide (a = AStr "x") then AStr "pos" else a.
Definition kinds (a : attr) : list nom := [cv_key; NStr "b"; NStr "c"].
Definition rekind (a : attr) (v : nom) : nom := if decide (v = NStr "b") then NStr "d" else v.

Lemma ex_C103_3 : renaming3 true (fun a => a ∈ measures) (fun a v => v ∈ kinds a) respell rekind /\
  occurs3 (N:=FloatOps) (fun a => a ∈ measures) (fun a v => v ∈ kinds a)
    [(ATup [AStr "x"; AStr "p"], VNum (N:=FloatOps) 1%float); (AStr "kind", VNom (NStr "b"));
     (ATup [AStr "x"; AStr "q"], VNum (N:=FloatOps) 2%float)].
Proof.
  split.
  - split; [split|..].
    + assert (H1 : forallb (fun a => forallb (fun b => bool_decide (respell a = respell b -> a = b)) measures) measures = true)
        by (vm_compute; reflexivity).
      rewrite forallb_forall in H1. intros a b Ha%elem_of_list_In Hb%elem_of_list_In.
      specialize (H1 a Ha). rewrite forallb_forall in H1. specialize (H1 b Hb). by apply bool_decide_eq_true in H1.
    + assert (H1 : forallb (fun a => bool_decide (hidden (respell a) = hidden a)) measures = true) by (vm_compute; reflexivity).
      rewrite forallb_forall in H1. intros a Ha%elem_of_list_In. by apply H1, bool_decide_eq_true in Ha.
    + intros a v w _ Hv Hw. unfold kinds in Hv, Hw. unfold rekind.
      rewrite !elem_of_cons, elem_of_nil in Hv, Hw.
      destruct Hv as [->|[->|[->|[]]]], Hw as [->|[->|[->|[]]]]; vm_compute; done.
    + intros a _. split; [left|done].
    + assert (H1 : forallb (fun a => bool_decide (inner_name true a ∈ measures /\
        inner_name true (respell a) = respell (inner_name true a))) measures = true) by (vm_compute; reflexivity).
      rewrite forallb_forall in H1. intros a Ha%elem_of_list_In. by apply H1, bool_decide_eq_true in Ha.
  - unfold occurs3.
    repeat (apply Forall_cons_2; [cbn [fst snd]; split; [apply (bool_decide_unpack _); vm_compute; done|
      intros v; try discriminate; intros [= <-]; right; left]|]).
    apply Forall_nil_2.
Qed.

(** The hypotheses of [C103_infer] together: the German run, draws that never
    coincide, and an instance whose shape is to be inferred. *)
Lemma ex_C103_infer :
  distinct_draws ex_draws /\
  occurs (fun a => a ∈ ex_attrs) (fun a v => v ∈ ex_values a) [(AStr "color", NStr "red")] /\
  Forall2 (renamed_call (N:=ROps) (fun a => a ∈ ex_attrs) (fun a v => v ∈ ex_values a) german german_value)
    (map (CFit (C:=CobwebClass ROps)) ex_insts)
    (map (fun i => CFit (C:=CobwebClass ROps) (renamed german german_value i)) ex_insts).
Proof.
  split; [exact ex_draws_distinct|]. split.
  - apply Forall_cons_2; [split; apply (bool_decide_unpack _); vm_compute; done|apply Forall_nil_2].
  - assert (H : Forall (occurs (fun a => a ∈ ex_attrs) (fun a v => v ∈ ex_values a)) ex_insts).
    { unfold ex_insts, mk, occurs.
      repeat (apply Forall_cons_2; [repeat (apply Forall_cons_2; [split; apply (bool_decide_unpack _); vm_compute; done|]); apply Forall_nil_2|]).
      apply Forall_nil_2. }
    clear -H. induction H as [|i l Hi Hl IH]; [apply Forall2_nil_2|]. by apply Forall2_cons_2.
Qed.

(** The same for [C103_infer3]: a history of numbers and nominal values with
    shared scales, and draws that never coincide. *)
Definition part (N : NumOps) (x y : nat) (k : string) : inst3 N :=
  [(ATup [AStr "x"; AStr "p"], VNum (nofnat N x)); (AStr "kind", VNom (NStr k));
   (ATup [AStr "x"; AStr "q"], VNum (nofnat N y))].
Lemma ex_C103_infer3 :
  renaming3 true (fun a => a ∈ measures) (fun a v => v ∈ kinds a) respell rekind /\ distinct_draws ex_draws /\
  occurs3 (N:=ROps) (fun a => a ∈ measures) (fun a v => v ∈ kinds a) [(ATup [AStr "x"; AStr "p"], VNum (nofnat ROps 2))] /\
  Forall2 (renamed_call3 (N:=ROps) (fun a => a ∈ measures) (fun a v => v ∈ kinds a) respell rekind)
    (map (CFit (C:=Cobweb3Class ROps)) [part ROps 1 2 "b"; part ROps 3 5 "c"; part ROps 1 4 "b"])
    (map (fun i => CFit (C:=Cobweb3Class ROps) (renamed3 respell rekind i))
       [part ROps 1 2 "b"; part ROps 3 5 "c"; part ROps 1 4 "b"]).
Proof.
  split; [apply ex_C103_3|]. split; [exact ex_draws_distinct|]. split.
  - apply Forall_cons_2; [|apply Forall_nil_2]. split; [apply (bool_decide_unpack _); vm_compute; done|done].
  - assert (H : Forall (occurs3 (N:=ROps) (fun a => a ∈ measures) (fun a v => v ∈ kinds a))
      [part ROps 1 2 "b"; part ROps 3 5 "c"; part ROps 1 4 "b"]).
    { repeat (apply Forall_cons_2; [unfold occurs3, part;
        repeat (apply Forall_cons_2; [cbn [fst snd]; split; [apply (bool_decide_unpack _); vm_compute; done|
          intros v; try discriminate; intros [= <-]; apply (bool_decide_unpack _); vm_compute; done]|]);
        apply Forall_nil_2|]). apply Forall_nil_2. }
    clear -H. induction H as [|i l Hi Hl IH]; [apply Forall2_nil_2|]. by apply Forall2_cons_2.
Qed.
