(** * The number system of IEEE doubles, used to run the model in examples. *)
From stdpp Require Import base tactics.
From Coq Require Import Floats Uint63 ZArith.
From Verif Require Import Base Num.

(** ** IEEE binary64 (Coq primitive floats), used to run the model.

    [nexp] and [nln] are not needed by the executed examples and have no
    primitive counterpart; they are given the dummy value [nan]. *)
Fixpoint float_of_nat (n : nat) : float :=
  match n with
  | O => 0%float
  | S n => PrimFloat.add (float_of_nat n) 1%float
  end.

(** m * 10^-e for 0 <= m, 10^e < 2^53: the quotient of two exact doubles, so
    the double nearest to the decimal literal. *)
Definition float_dec (m : Z) (e : nat) : float :=
  PrimFloat.div (PrimFloat.of_uint63 (Uint63.of_Z m))
                (PrimFloat.of_uint63 (Uint63.of_Z (10 ^ Z.of_nat e))).

Definition FloatOps : NumOps := {|
  num := float;
  nadd := PrimFloat.add; nsub := PrimFloat.sub;
  nmul := PrimFloat.mul; ndiv := PrimFloat.div;
  nltb := PrimFloat.ltb; neqb := PrimFloat.eqb; nofnat := float_of_nat;
  nsqrt := PrimFloat.sqrt; npi := 0x1.921fb54442d18p+1%float;
  nexp := fun _ => PrimFloat.nan; nln := fun _ => PrimFloat.nan;
  ndec := float_dec;
|}.
