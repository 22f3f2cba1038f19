(** * Number systems.

    Python's float arithmetic is modelled by an arbitrary record of
    operations, with no laws.  Theorems that do not need arithmetic facts are
    proved for every such record, so in particular for IEEE doubles. *)
From stdpp Require Import base tactics.
From Coq Require Import Reals.
From Verif Require Import Base.

Record NumOps := {
  num : Type;
  nadd : num -> num -> num;
  nsub : num -> num -> num;
  nmul : num -> num -> num;
  ndiv : num -> num -> num;
  nltb : num -> num -> bool;      (* a < b *)
  neqb : num -> num -> bool;      (* a == b *)
  nofnat : nat -> num;            (* int -> float *)
  nsqrt : num -> num;
  npi : num;
  nexp : num -> num;
  nln : num -> num;
  ndec : Z -> nat -> num;         (* the literal m * 10^-e *)
}.

Section Ops.
  Context (N : NumOps).

  (** Python division: dividing by anything equal to zero raises
      ZeroDivisionError, for ints and floats alike. *)
  Definition pydiv (a b : num N) : res (num N) :=
    if neqb N b (nofnat N 0) then Err ZeroDivisionError else Ok (ndiv N a b).

  (** [math.sqrt]: ValueError on negative arguments. *)
  Definition pysqrt (a : num N) : res (num N) :=
    if nltb N a (nofnat N 0) then Err ValueError else Ok (nsqrt N a).

  (** [math.log]: ValueError on arguments <= 0. *)
  Definition pylog (a : num N) : res (num N) :=
    if nltb N (nofnat N 0) a then Ok (nln N a) else Err ValueError.

  Definition nneg (a : num N) : num N := nsub N (nofnat N 0) a.
End Ops.

(** ** Exact real arithmetic *)
Definition Rltb (x y : R) : bool := if Rlt_dec x y then true else false.
Definition Reqb (x y : R) : bool := if Req_EM_T x y then true else false.

Definition ROps : NumOps := {|
  num := R;
  nadd := Rplus; nsub := Rminus; nmul := Rmult; ndiv := Rdiv;
  nltb := Rltb; neqb := Reqb; nofnat := INR;
  nsqrt := sqrt; npi := PI; nexp := exp; nln := ln;
  ndec := fun m e => (IZR m / 10 ^ e)%R;
|}.

Lemma Rltb_true x y : Rltb x y = true <-> (x < y)%R.
Proof. unfold Rltb. destruct (Rlt_dec x y); split; intros; congruence || done. Qed.
Lemma Rltb_false x y : Rltb x y = false <-> (y <= x)%R.
Proof.
  unfold Rltb. destruct (Rlt_dec x y); split; intros H; try done.
  - exfalso. eapply Rlt_not_le; eauto.
  - by apply Rnot_lt_le.
Qed.
Lemma Reqb_true x y : Reqb x y = true <-> x = y.
Proof. unfold Reqb. destruct (Req_EM_T x y); split; intros; congruence || done. Qed.
Lemma Reqb_false x y : Reqb x y = false <-> x <> y.
Proof. unfold Reqb. destruct (Req_EM_T x y); split; intros; congruence || done. Qed.

