(** * The hypotheses of PropsFit.v are met: runs on IEEE doubles (C24). *)
From stdpp Require Import base decidable list gmap strings sets.
From Coq Require Import Ascii String ZArith Floats.
From Verif Require Import Base Num FloatNum TreeModel TreeFun TreeScore TreeRefine TreeSorts TreeInv SpecTree TreeState TreeTotal TreeKeep
  Nominal NominalFacts Query Query3 CV Cobweb3 C3Facts PropsC3 PropsC3X
  PyVal Preproc Preproc2 StructMap StructFacts PropsStruct Trestle SpecTrestle TrestleFacts TrestleFresh TrestleRaise TrestleVals TrestleTotal
  PropsTrestle Example PropsTrestleX Fit PropsFit PropsTSize PropsRawX.
Open Scope list_scope.

(** Shuffling by turning the list round. *)
Definition turn {I} (k : nat) (l : list I) : list I := rev l.
Lemma turn_perm {I} k (l : list I) : Permutation (turn k l) l.
Proof. symmetry. apply Permutation_rev. Qed.

Definition red1 : raw := [(AStr "color", PVal (NStr "red"))].
Lemma ex_C24_fit_adds : reachable (CobwebClass FloatOps) ex_rng tt ex_events ex_state /\
  all_inst (C:=CobwebClass FloatOps) NominalFacts.good ex_events /\ all_ok ex_events /\
  Forall (fun i : raw => dwf i) [raw1; red1] /\
  fst (fit (N:=FloatOps) ex_rng turn 2 true [raw1; red1] ex_state) = Ok tt /\
  tally (gives (AStr "color") (NStr "blue")) [raw1; red1] = 1.
Proof.
  split; [apply ex_reachable|]. split; [apply ex_good|]. split; [apply ex_ok|].
  split; [repeat (apply Forall_cons_2; [apply (bool_decide_unpack _); vm_compute; done|]); apply Forall_nil_2|].
  split; vm_compute; reflexivity.
Qed.

Definition raw3y : raw3 FloatOps := [(AStr "color", PVal3 (VNom (NStr "blue"))); (AStr "size", PVal3 (@VNum FloatOps 5%float))].
Lemma ex_C24_fit3 : reachable FC3 ex_rng ex3_ctx ex3_events ex3_state /\
  all_inst (C:=FC3) good3 ex3_events /\ all_ok ex3_events /\ Forall proper3 [raw3x; raw3y] /\
  fst (fit_any (fun _ => ifit3 ex_rng) turn 2 false [raw3x; raw3y] ex3_state) = Ok tt /\
  tally (gives_num (AStr "size")) [raw3x; raw3y] = 2.
Proof.
  split; [apply ex3_reachable|]. split; [apply ex3_good|]. split; [apply ex_C62_accepted|]. split.
  - apply Forall_cons_2; [|apply Forall_cons_2; [|apply Forall_nil_2]];
      (split; [apply (bool_decide_unpack _); vm_compute; done|]); intros a Ha; apply dget_In in Ha;
      unfold raw3x, raw3y in Ha; rewrite !elem_of_cons, elem_of_nil in Ha; destruct Ha as [[=]|[[=]|[]]].
  - split; vm_compute; reflexivity.
Qed.

(** A rejected instance ends the fit: the tree has got the instances before
    it. *)
Lemma ex_C24_stops :
  let o := fit_any (fun _ => ifit3 ex_rng) turn 2 false [raw3x; [(AStr "color", PNone3)]; raw3y] ex3_state in
  fst o = Err ValueError /\ option_map (fun n : node FC3 => n3_count (N:=FloatOps) (nd_sum n)) (st_heap (snd o) !! st_root (snd o)) = Some 6.
Proof. split; vm_compute; reflexivity. Qed.

Definition tx_more : list (inst FX) := [tx_inst "?p" "?q" 1.5 "blue"; tx_inst "?r" "?s" 4 "green"].
Lemma ex_C24_trestle : Forall t_clean (tx_events tx_calls (t_new 0 0 tx0)) /\ Forall tfit_ok (tx_events tx_calls (t_new 0 0 tx0)) /\
  (forall n : nat, oracle_ok (to_orc ((fun _ => tx_orc) n))) /\
  Forall (fun d : inst FX => pwf (PD d) /\ pV (clean (N:=FloatOps)) (PD d)) tx_more /\
  fst (fit_any (fun n => t_fit ex_rng tx_str id 100 tx_orc) turn 2 true tx_more tx_state) = Ok tt.
Proof.
  split; [apply tx_clean|]. split; [apply ex_C106_trestle|]. split; [intros _; apply id_oracle_ok|]. split.
  - repeat (apply Forall_cons_2; [split; [by apply tx_inst_wf|by apply tx_inst_clean]|]). apply Forall_nil_2.
  - vm_compute. reflexivity.
Qed.
