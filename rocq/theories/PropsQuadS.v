(** * Random quadrupeds: the size of every part of every kind (C90). *)
From Coq Require Import Reals Lra.
From stdpp Require Import base decidable list gmap strings sets.
From Coq Require Import String ZArith.
From Verif Require Import Base Num Nominal CV Cobweb3 PyVal Quadruped PropsQuad.
Set Default Proof Using "Type".
Open Scope list_scope.
Open Scope R_scope.

(** ** The specification: between which numbers the measures of a part lie. *)
Definition is_leg (p : string) : bool := existsb (String.eqb p) ["leg1"; "leg2"; "leg3"; "leg4"].
Definition dog_size (p : string) : (R * R) * (R * R) :=
  if String.eqb p "torso" then ((22, 28), (11/2, 15/2)) else
  if is_leg p then ((10, 15), (4/5, 6/5)) else
  if String.eqb p "neck" then ((5, 6), (2, 3)) else
  if String.eqb p "head" then ((10, 13), (5/2, 7/2)) else ((6, 8), (1/5, 2/5)).
Definition cat_size (p : string) : (R * R) * (R * R) :=
  if String.eqb p "torso" then ((15, 22), (5/2, 9/2)) else
  if is_leg p then ((4, 9), (2/5, 4/5)) else
  if String.eqb p "neck" then ((2, 4), (3/2, 5/2)) else
  if String.eqb p "head" then ((3, 5), (3/2, 5/2)) else ((10, 18), (3/10, 7/10)).
Definition horse_size (p : string) : (R * R) * (R * R) :=
  if String.eqb p "torso" then ((50, 60), (10, 29/2)) else
  if is_leg p then ((36, 44), (2, 7/2)) else
  if String.eqb p "neck" then ((12, 16), (5, 7)) else
  if String.eqb p "head" then ((18, 22), (4, 6)) else ((26, 33), (1, 2)).
Definition giraffe_size (p : string) : (R * R) * (R * R) :=
  if String.eqb p "torso" then ((60, 72), (25/2, 17)) else
  if is_leg p then ((58, 70), (2, 4)) else
  if String.eqb p "neck" then ((45, 55), (5, 9)) else
  if String.eqb p "head" then ((18, 22), (7/2, 11/2)) else ((20, 25), (1/2, 1)).
Definition size (s : string) : string -> (R * R) * (R * R) :=
  if String.eqb s "dog" then dog_size else if String.eqb s "cat" then cat_size
  else if String.eqb s "horse" then horse_size else giraffe_size.
(** Dogs and cats stretch the first and the last leg further, hold their heads
    up, and may lift their tails. *)
Definition small (s : string) : bool := existsb (String.eqb s) ["dog"; "cat"].
Definition axis (s p a : string) : R * R :=
  if String.eqb a "axisX" then
    (if String.eqb p "torso" then (1, 1) else if String.eqb p "neck" then (1, 1) else if String.eqb p "head" then (1, 1)
     else if String.eqb p "tail" then (-1, -1) else if String.eqb p "leg1" then (0, if small s then 1 else 1/2)
     else if String.eqb p "leg4" then (0, if small s then 1 else 1/2) else (0, 0))
  else if String.eqb a "axisY" then
    (if String.eqb p "head" then (-1, 1) else if String.eqb p "tail" then (-1, 1) else (0, 0))
  else
    (if String.eqb p "torso" then (0, 0) else if String.eqb p "neck" then (1, 1)
     else if String.eqb p "head" then (if small s then (1, 1) else (0, 0))
     else if String.eqb p "tail" then (-1, if small s then 1 else 0) else (-1, -1)).
Definition range (s p a : string) : R * R :=
  if String.eqb a "height" then fst (size s p) else if String.eqb a "radius" then snd (size s p)
  else if String.eqb a "texture" then (170, 180) else axis s p a.
Definition sized : list string := ["axisX"; "axisY"; "axisZ"; "height"; "radius"; "texture"].

(** ** The proof *)
Ltac cases H := repeat (apply elem_of_cons in H as [->|H]); [..|by apply elem_of_nil in H].
Ltac evalv := repeat match goal with |- context [val ?d ?p ?a] =>
    let w := eval hnf in (at_ d p a) in match w with Some ?v => change (val d p a) with v end end.
Ltac ranges := cbv [range size dog_size cat_size horse_size giraffe_size axis is_leg small existsb String.eqb Ascii.eqb Bool.eqb orb k_name dog cat horse giraffe fst snd].

Lemma inr_n (n : nat) : INR n = IZR (Z.of_nat n).
Proof. apply INR_IZR_INZ. Qed.
Ltac zs := repeat match goal with
  | H : context [Z.of_nat ?n] |- _ => let z := eval vm_compute in (Z.of_nat n) in change (Z.of_nat n) with z in H
  | |- context [Z.of_nat ?n] => let z := eval vm_compute in (Z.of_nat n) in change (Z.of_nat n) with z
  end.
Ltac numbers := cbn [k_torso_h k_torso_r k_leg_h k_leg_axis k_leg_r k_neck_h k_neck_r k_head_axis k_head_h k_head_r k_tail_h k_tail_axis k_tail_r
      dog cat horse giraffe fst snd nn dd m1 n1 n0 nneg nofnat ndec nsub nadd ndiv texture ROps] in *;
  unfold n0, n1, m1, nneg in *; cbn [nofnat nsub ROps] in *;
  rewrite ?inr_n in *; zs.

Lemma generate_sizes draw fuel q k d k' : q ∈ kinds (N:=ROps) -> generate (N:=ROps) draw fuel q k = (Ok d, k') ->
  forall p a, p ∈ part_names -> a ∈ sized -> within (range (k_name q) p a) (val d p a).
Proof.
  intros Hq H p a Hp Ha. unfold Quadruped.generate in H. cbv zeta in H.
  repeat (let x := fresh "x" in let k1 := fresh "k" in let Hb := fresh "Hb" in
          apply gbind_ok in H as (x & k1 & Hb & H); apply bell_within in Hb).
  injection H as H _. subst d. unfold within in *.
  cases Hq; numbers; cases Hp; cases Ha; evalv; ranges; numbers; lra.
Qed.

(** Each measure of an animal lies between the two numbers for its kind. *)
Theorem C90_sizes d s p a : generated d -> type_of d = Some (PStr s) -> p ∈ part_names -> a ∈ sized ->
  fst (range s p a) <= val d p a <= snd (range s p a).
Proof.
  intros (draw & pick & fuel & k & k' & H) Es Hp Ha. apply random_ok in H as (q & Hq & H).
  pose proof (kinds_ok q Hq) as Hk. destruct (generate_inv draw _ _ _ _ _ Hk H) as (_ & E1 & _).
  rewrite E1 in Es. injection Es as <-. exact (generate_sizes _ _ _ _ _ _ Hq H p a Hp Ha).
Qed.

(** ... and each such size occurs: for every fraction [u] there is an animal
    whose measures all lie at that fraction between the two numbers. *)
Definition fraction (u : R) (r : R * R) : R := fst r + u * (snd r - fst r).
Theorem C90_sizes_reached s u : s ∈ ["dog"; "cat"; "horse"; "giraffe"] -> 0 <= u <= 1 ->
  exists d, generated d /\ type_of d = Some (PStr s) /\
    forall p a, p ∈ part_names -> a ∈ sized -> val d p a = fraction u (range s p a).
Proof.
  intros Hs Hu.
  assert (Hpos : forall k : nat, -1 <= (fun _ => 2 * u - 1) k <= 1) by (intros; simpl; lra).
  assert (Hk : exists n q, kinds (N:=ROps) !! n = Some q /\ k_name q = s).
  { cases Hs; [exists 0%nat|exists 1%nat|exists 2%nat|exists 3%nat]; by eexists. }
  destruct Hk as (n & q & Hn & <-). assert (Hq : q ∈ kinds (N:=ROps)) by (by eapply elem_of_list_lookup_2).
  pose proof (kinds_le q Hq) as Hl.
  repeat match goal with Hf : Forall _ (_ :: _) |- _ => let G := fresh "G" in apply Forall_cons in Hf as [G Hf] end.
  assert (Gt : fst (texture (N:=ROps)) <= snd (texture (N:=ROps))).
  { unfold texture, nn. cbn [fst snd nofnat ROps]. rewrite !INR_IZR_INZ. vm_compute Z.of_nat. lra. }
  assert (Gm : fst (@m1 ROps, @n1 ROps) <= snd (@m1 ROps, @n1 ROps)).
  { unfold m1, n1, nneg. cbn [fst snd nofnat nsub ROps]. simpl. lra. }
  eexists. split; [|split].
  - exists (placed (fun _ => 2 * u - 1)), (fun _ => n), 1%nat, 0%nat. eexists. unfold generate_random_animal. rewrite Hn.
    unfold generate. cbv zeta. do 26 (etransitivity; [apply gbind_bell; assumption|]; cbv beta). reflexivity.
  - reflexivity.
  - intros p a Hp Ha. clear -Hq Hp Ha. cases Hq; cases Hp; cases Ha; evalv; unfold fraction, mix; ranges; numbers; lra.
Qed.
Print Assumptions C90_sizes.
Print Assumptions C90_sizes_reached.
