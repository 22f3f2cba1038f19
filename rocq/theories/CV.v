(** * concept_formation/continuous_value.py and the c4 table of utils.py. *)
From stdpp Require Import base decidable list strings.
From Coq Require Import ZArith.
From Verif Require Import Base Num.

(** c4n_table, utils.py:18-45: numerators over 10^16. *)
Definition c4_digits : list (nat * Z) :=
  [(2, 7978845608028654%Z); (3, 8862269254527580%Z); (4, 9213177319235613%Z);
   (5, 9399856029866254%Z); (6, 9515328619481445%Z); (7, 9593687886998328%Z);
   (8, 9650304561473722%Z); (9, 9693106997139539%Z); (10, 9726592741215884%Z);
   (11, 9753500771452293%Z); (12, 9775593518547722%Z); (13, 9794056043142177%Z);
   (14, 9809714367555161%Z); (15, 9823161771626504%Z); (16, 9834835316158412%Z);
   (17, 9845064054718315%Z); (18, 9854100438080790%Z); (19, 9862141368601935%Z);
   (20, 9869342675246552%Z); (21, 9875829288261562%Z); (22, 9881702533158311%Z);
   (23, 9887045452339990%Z); (24, 9891926749585048%Z); (25, 9896403755857028%Z);
   (26, 9900524688409107%Z); (27, 9904330392094480%Z); (28, 9907855696217323%Z);
   (29, 9911130482419843%Z)].

Section CV.
  Context (N : NumOps).
  Notation F := (num N).
  Notation nat0 := (nofnat N 0).
  Notation one := (nofnat N 1).

  (** c4, utils.py:48-60, for an integer [n]. *)
  Definition c4 (n : Z) : res F :=
    if decide (n <= 1)%Z then Err ValueError
    else if decide (n < 30)%Z then
      match dget (Z.to_nat n) c4_digits with
      | Some m => Ok (ndec N m 16)
      | None => Err KeyError
      end
    else Ok one.

  (** ContinuousValue, continuous_value.py:23-27.  [num] is a float in Python
      that only ever holds whole numbers. *)
  Record cval := CVal { cv_num : nat; cv_mean : F; cv_msq : F }.
  Definition cv_new : cval := CVal 0 nat0 nat0.

  (** update, continuous_value.py:161-175.  The divisor is at least 1. *)
  Definition cv_update (c : cval) (x : F) : cval :=
    let n := S (cv_num c) in
    let delta := nsub N x (cv_mean c) in
    let mean := nadd N (cv_mean c) (ndiv N delta (nofnat N n)) in
    CVal n mean (nadd N (cv_msq c) (nmul N delta (nsub N x mean))).

  (** update_batch, continuous_value.py:151-159 *)
  Definition cv_update_batch (c : cval) (l : list F) : cval := fold_left cv_update l c.

  (** combine, continuous_value.py:177-196, with another ContinuousValue.  The
      products num * num and num * mean are float products. *)
  Definition cv_combine (c o : cval) : res cval :=
    let n := cv_num c + cv_num o in
    if decide (n = 0) then Err ZeroDivisionError
    else
      let n1 := nofnat N (cv_num c) in
      let n2 := nofnat N (cv_num o) in
      let delta := nsub N (cv_mean o) (cv_mean c) in
      Ok (CVal n
           (ndiv N (nadd N (nmul N n1 (cv_mean c)) (nmul N n2 (cv_mean o))) (nofnat N n))
           (nadd N (nadd N (cv_msq c) (cv_msq o))
                   (nmul N (nmul N delta delta) (ndiv N (nmul N n1 n2) (nofnat N n))))).

  (** unbiased_mean, continuous_value.py:45-52 *)
  Definition cv_unbiased_mean (c : cval) : F := cv_mean c.

  (** [if scale <= 0: scale = 1]: lines 68-69, 113-114, 132-133. *)
  Definition fix_scale (s : F) : F := if nltb N s nat0 || neqb N s nat0 then one else s.

  (** scaled_unbiased_mean, continuous_value.py:54-70 *)
  Definition cv_scaled_unbiased_mean (c : cval) (shift scale : F) : res F :=
    pydiv N (nsub N (cv_mean c) shift) (fix_scale scale).

  (** biased_std, continuous_value.py:72-79 *)
  Definition cv_biased_std (c : cval) : res F :=
    if decide (cv_num c = 0) then Err ZeroDivisionError
    else pysqrt N (ndiv N (cv_msq c) (nofnat N (cv_num c))).

  (** unbiased_std, continuous_value.py:81-96.  num - 1 is at least 1 in the
      division. *)
  Definition cv_unbiased_std (c : cval) : res F :=
    if decide (cv_num c < 2) then Ok nat0
    else
      rbind (pysqrt N (ndiv N (cv_msq c) (nofnat N (cv_num c - 1)))) (fun s =>
      rbind (c4 (Z.of_nat (cv_num c))) (fun k => pydiv N s k)).

  (** scaled_biased_std, continuous_value.py:98-115 *)
  Definition cv_scaled_biased_std (c : cval) (scale : F) : res F :=
    rbind (cv_biased_std c) (fun s => pydiv N s (fix_scale scale)).
  (** scaled_unbiased_std, continuous_value.py:117-134 *)
  Definition cv_scaled_unbiased_std (c : cval) (scale : F) : res F :=
    rbind (cv_unbiased_std c) (fun s => pydiv N s (fix_scale scale)).

  (** integral_of_gaussian_product, continuous_value.py:198-217 *)
  Definition cv_integral (c o : cval) : res F :=
    let mu1 := cv_unbiased_mean c in
    let mu2 := cv_unbiased_mean o in
    rbind (cv_unbiased_std c) (fun sd1 =>
    rbind (cv_unbiased_std o) (fun sd2 =>
    rbind (pydiv N one (nmul N (nofnat N 4) (npi N))) (fun noise =>
    rbind (pysqrt N (nadd N (nmul N sd1 sd1) noise)) (fun sd1 =>
    rbind (pysqrt N (nadd N (nmul N sd2 sd2) noise)) (fun sd2 =>
    let v := nadd N (nmul N sd1 sd1) (nmul N sd2 sd2) in
    rbind (pysqrt N (nmul N (nmul N (nofnat N 2) (npi N)) v)) (fun d =>
    rbind (pydiv N one d) (fun k =>
    rbind (pydiv N (nmul N (nmul N (nneg N one) (nsub N mu1 mu2)) (nsub N mu1 mu2))
                   (nmul N (nofnat N 2) v)) (fun e =>
    Ok (nmul N k (nexp N e)))))))))).
End CV.
Global Arguments CVal {N}. Global Arguments cv_num {N}. Global Arguments cv_mean {N}.
Global Arguments cv_msq {N}. Global Arguments cv_update {N}. Global Arguments cv_update_batch {N}.
Global Arguments cv_combine {N}. Global Arguments cv_biased_std {N}.
Global Arguments cv_unbiased_std {N}. Global Arguments cv_scaled_biased_std {N}.
Global Arguments cv_scaled_unbiased_std {N}. Global Arguments cv_scaled_unbiased_mean {N}.
Global Arguments cv_integral {N}. Global Arguments cv_unbiased_mean {N}.
