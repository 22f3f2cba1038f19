(** * Model of concept_formation/data_files/generate_quadruped.py

    The module random is represented by two streams: [draw k mu sd] is what
    the k-th call of the module answers when it is normalvariate(mu, sd), and
    [pick k] is the index that it answers when it is choice([...]).  Integers
    and floats are one kind of number, as everywhere in the model. *)
From stdpp Require Import base decidable list gmap strings.
From Coq Require Import String ZArith.
From Verif Require Import Base Num Nominal PyVal CV Cobweb3.
Set Default Proof Using "Type".
Open Scope list_scope.

Section Quadruped.
  Context {N : NumOps}.
  Notation F := (num N).
  Notation X := (val3 N).
  Context (draw : nat -> F -> F -> F) (pick : nat -> nat).

  (** A computation reads the streams from a position on. *)
  Definition G (A : Type) : Type := nat -> res A * nat.
  Definition gret {A} (x : A) : G A := fun k => (Ok x, k).
  Definition gbind {A B} (m : G A) (f : A -> G B) : G B := fun k =>
    match m k with (Ok x, k') => f x k' | (Err e, k') => (Err e, k') end.
  Notation "x <~ m ; f" := (gbind m (fun x => f)) (at level 100, m at next level, right associativity).

  (** ** bellrand (5-16)
      The loop starts with [sample = inf], so it draws at least once. *)
  Fixpoint bell_loop (fuel : nat) (lo hi mu sd : F) : G F := fun k =>
    match fuel with
    | O => (Err OutOfFuel, k)
    | S fuel =>
        let sample := draw k mu sd in
        if nltb N sample lo || nltb N hi sample then bell_loop fuel lo hi mu sd (S k) else (Ok sample, S k)
    end.
  Definition two : F := nofnat N 2.
  Definition bellrand (fuel : nat) (r : F * F) : G F :=
    let '(lo, hi) := r in
    let mu := nadd N lo (ndiv N (nsub N hi lo) two) in
    let sd := ndiv N (nsub N hi lo) two in
    bell_loop fuel lo hi mu sd.

  (** ** One component: [dog[torso] = {}; dog[torso]['_type'] = ...] *)
  Definition num_ (x : F) : pv X := PX (VNum x).
  Definition part (name : string) (lx ly lz ax ay az h r t : F) : attr * pv X :=
    (AStr name, PD [ (AStr "_type", PStr name); (AStr "locationX", num_ lx); (AStr "locationY", num_ ly);
       (AStr "locationZ", num_ lz); (AStr "axisX", num_ ax); (AStr "axisY", num_ ay); (AStr "axisZ", num_ az);
       (AStr "height", num_ h); (AStr "radius", num_ r); (AStr "texture", num_ t) ]).

  (** The numbers that generate_dog (29-143), generate_cat (146-260),
      generate_horse (263-379) and generate_giraffe (382-500) put into
      otherwise equal statements. *)
  Record kind := Kind {
    k_name : string;
    k_torso_h : F * F; k_torso_r : F * F;
    k_leg_h : F * F; k_leg_axis : F * F; k_leg_r : F * F;
    k_neck_h : F * F; k_neck_r : F * F;
    k_slope : bool;                       (* horse, giraffe: neck_height / 2.828, / 1.414 also upwards *)
    k_head_axis : F; k_head_h : F * F; k_head_r : F * F;
    k_tail_h : F * F; k_tail_axis : F * F; k_tail_r : F * F;
  }.
  Definition n0 : F := nofnat N 0.
  Definition n1 : F := nofnat N 1.
  Definition m1 : F := nneg N n1.
  Definition nn (a b : nat) : F * F := (nofnat N a, nofnat N b).
  Definition dd (a b : Z) : F * F := (ndec N a 1, ndec N b 1).
  Definition dog : kind := Kind "dog" (dd 220 280) (dd 55 75) (nn 10 15) (nn 0 1) (dd 8 12)
    (dd 50 60) (dd 20 30) false n1 (nn 10 13) (dd 25 35) (nn 6 8) (m1, n1) (dd 2 4).
  Definition cat : kind := Kind "cat" (dd 150 220) (dd 25 45) (nn 4 9) (nn 0 1) (dd 4 8)
    (nn 2 4) (dd 15 25) false n1 (nn 3 5) (dd 15 25) (nn 10 18) (m1, n1) (dd 3 7).
  Definition horse : kind := Kind "horse" (nn 50 60) (nofnat N 10, ndec N 145 1) (nn 36 44) (nofnat N 0, ndec N 5 1) (nofnat N 2, ndec N 35 1)
    (nn 12 16) (nn 5 7) true n0 (nn 18 22) (nn 4 6) (nn 26 33) (m1, n0) (nn 1 2).
  Definition giraffe : kind := Kind "giraffe" (nn 60 72) (ndec N 125 1, nofnat N 17) (nn 58 70) (nofnat N 0, ndec N 5 1) (nn 2 4)
    (nn 45 55) (nn 5 9) true n0 (nn 18 22) (dd 35 55) (nn 20 25) (m1, n0) (dd 5 10).

  Definition texture : F * F := nn 170 180.
  (** The body of the four functions (29-500). *)
  Definition generate (fuel : nat) (q : kind) : G (inst X) :=
    let bell := bellrand fuel in
    th <~ bell (k_torso_h q); tr <~ bell (k_torso_r q); tt <~ bell texture;
    leg <~ bell (k_leg_h q);
    let front := ndiv N th two in
    let back := ndiv N (nneg N th) two in
    let right_ := nneg N tr in
    let low := nsub N (nneg N tr) (ndiv N leg two) in
    a1 <~ bell (k_leg_axis q); r1 <~ bell (k_leg_r q); t1 <~ bell texture;
    r2 <~ bell (k_leg_r q); t2 <~ bell texture;
    r3 <~ bell (k_leg_r q); t3 <~ bell texture;
    a4 <~ bell (k_leg_axis q); r4 <~ bell (k_leg_r q); t4 <~ bell texture;
    nh <~ bell (k_neck_h q);
    nr <~ bell (k_neck_r q); nt <~ bell texture;
    let nx := if k_slope q then nadd N front (ndiv N nh (ndec N 2828 3)) else nadd N front (ndiv N nh two) in
    let nz := if k_slope q then nadd N tr (ndiv N nh (ndec N 2828 3)) else tr in
    let hx := if k_slope q then nadd N front (ndiv N nh (ndec N 1414 3)) else nadd N front nh in
    let hz := if k_slope q then nadd N tr (ndiv N nh (ndec N 1414 3)) else tr in
    ha <~ bell (m1, n1); hh <~ bell (k_head_h q); hr <~ bell (k_head_r q); ht <~ bell texture;
    lh <~ bell (k_tail_h q);
    ly <~ bell (m1, n1); lz <~ bell (k_tail_axis q); lr <~ bell (k_tail_r q); lt <~ bell texture;
    gret [ (AStr "_type", PStr (k_name q));
      part "torso" n0 n0 n0 n1 n0 n0 th tr tt;
      part "leg1" front tr low a1 n0 m1 leg r1 t1;
      part "leg2" front right_ low n0 n0 m1 leg r2 t2;
      part "leg3" back tr low n0 n0 m1 leg r3 t3;
      part "leg4" back right_ low a4 n0 m1 leg r4 t4;
      part "neck" nx n0 nz n1 n0 n1 nh nr nt;
      part "head" hx n0 hz n1 ha (k_head_axis q) hh hr ht;
      part "tail" (nadd N (nneg N th) lh) n0 n0 m1 ly lz lh lr lt ].

  (** ** generate_random_animal (23-26): [choice] of four functions *)
  Definition kinds : list kind := [dog; cat; horse; giraffe].
  Definition generate_random_animal (fuel : nat) : G (inst X) := fun k =>
    match kinds !! (pick k) with
    | Some q => generate fuel q (S k)
    | None => (Err IndexError, S k)
    end.
  (** ** generate_animals (19-20), load_quadruped (datasets.py 284-386) *)
  Fixpoint generate_animals (fuel n : nat) : G (list (inst X)) :=
    match n with
    | O => gret []
    | S n => d <~ generate_random_animal fuel; ds <~ generate_animals fuel n; gret (d :: ds)
    end.
End Quadruped.
