(** * Finite sums of reals. *)
From Coq Require Import Reals Lra.
From stdpp Require Import base decidable tactics list.
Local Open Scope R_scope.

Fixpoint Rsum {A} (f : A -> R) (l : list A) : R :=
  match l with [] => 0 | a :: l => f a + Rsum f l end.

Section Facts.
  Context {A : Type}.
  Implicit Types (f g : A -> R) (l : list A).

  Lemma Rsum_app f l1 l2 : Rsum f (l1 ++ l2) = Rsum f l1 + Rsum f l2.
  Proof. induction l1; simpl; lra. Qed.

  Lemma Rsum_perm f l1 l2 : Permutation l1 l2 -> Rsum f l1 = Rsum f l2.
  Proof. induction 1; simpl; lra. Qed.

  Lemma Rsum_ext f g l : (forall a, a ∈ l -> f a = g a) -> Rsum f l = Rsum g l.
  Proof.
    induction l as [|a l IH]; simpl; intros Hfg; [done|].
    rewrite (Hfg a) by left. rewrite IH; [done|]. intros b Hb. apply Hfg. by right.
  Qed.

  Lemma Rsum_le f g l : (forall a, a ∈ l -> f a <= g a) -> Rsum f l <= Rsum g l.
  Proof.
    induction l as [|a l IH]; simpl; intros Hfg; [lra|].
    apply Rplus_le_compat; [apply Hfg; left|]. apply IH. intros b Hb. apply Hfg. by right.
  Qed.

  Lemma Rsum_nonneg f l : (forall a, a ∈ l -> 0 <= f a) -> 0 <= Rsum f l.
  Proof.
    induction l as [|a l IH]; simpl; intros Hf; [lra|].
    assert (0 <= f a) by (apply Hf; left). assert (0 <= Rsum f l); [|lra].
    apply IH. intros b Hb. apply Hf. by right.
  Qed.

  Lemma Rsum_pos f l : l <> [] -> (forall a, a ∈ l -> 0 < f a) -> 0 < Rsum f l.
  Proof.
    destruct l as [|a l]; [done|]. intros _ Hf. simpl.
    assert (0 < f a) by (apply Hf; left). assert (0 <= Rsum f l); [|lra].
    apply Rsum_nonneg. intros b Hb. left. apply Hf. by right.
  Qed.

  (** Sums of non-negative terms that reach their bounds. *)
  Lemma Rsum_le_eq f g l : (forall a, a ∈ l -> f a <= g a) -> Rsum f l = Rsum g l ->
    forall a, a ∈ l -> f a = g a.
  Proof.
    induction l as [|b l IH]; simpl; intros Hfg Heq a Ha; [inversion Ha|].
    assert (H1 : f b <= g b) by (apply Hfg; left).
    assert (H2 : Rsum f l <= Rsum g l) by (apply Rsum_le; intros c Hc; apply Hfg; by right).
    apply elem_of_cons in Ha as [->|Ha]; [lra|].
    apply IH; [intros c Hc; apply Hfg; by right|lra|done].
  Qed.

  Lemma Rsum_scal k f l : Rsum (fun a => k * f a) l = k * Rsum f l.
  Proof. induction l; simpl; lra. Qed.

  Lemma Rsum_plus f g l : Rsum (fun a => f a + g a) l = Rsum f l + Rsum g l.
  Proof. induction l; simpl; lra. Qed.

  Lemma Rsum_const k l : Rsum (fun _ => k) l = INR (length l) * k.
  Proof.
    induction l as [|a l IH]; [simpl; lra|].
    change (length (a :: l)) with (S (length l)). rewrite S_INR. simpl. rewrite IH. lra.
  Qed.

  Lemma Rsum_zero f l : (forall a, a ∈ l -> f a = 0) -> Rsum f l = 0.
  Proof.
    intros Hf. rewrite (Rsum_ext f (fun _ => 0)) by done. rewrite Rsum_const. lra.
  Qed.

  Lemma Rsum_superset f l L : NoDup l -> (forall a, a ∈ l -> a ∈ L) -> NoDup L ->
    (forall a, a ∈ L -> a ∉ l -> f a = 0) -> Rsum f L = Rsum f l.
  Proof.
    revert L. induction l as [|a l IH]; intros L Hnd Hsub HndL Hz.
    - apply Rsum_zero. intros a Ha. apply Hz; [done|]. intros Hin. inversion Hin.
    - apply NoDup_cons in Hnd as [Hni Hnd].
      assert (HaL : a ∈ L) by (apply Hsub; left).
      apply elem_of_list_split in HaL as (L1 & L2 & ->).
      assert (Hp : Permutation (L1 ++ a :: L2) (a :: (L1 ++ L2))) by (symmetry; apply Permutation_middle).
      rewrite Hp in HndL. apply NoDup_cons in HndL as [Hna HndL].
      rewrite (Rsum_perm f _ _ Hp). simpl. f_equal. apply IH; [done| |done|].
      + intros b Hb. assert (Hb' : b ∈ L1 ++ a :: L2) by (apply Hsub; by right).
        rewrite Hp in Hb'. apply elem_of_cons in Hb' as [->|?]; done.
      + intros b Hb Hbl. apply Hz.
        * rewrite Hp. by right.
        * rewrite not_elem_of_cons. split; [|done]. intros ->. done.
  Qed.
End Facts.

Lemma Rsum_map {A B} (h : A -> B) (f : B -> R) l : Rsum f (map h l) = Rsum (fun a => f (h a)) l.
Proof. induction l; simpl; [done|]. by rewrite IHl. Qed.

Lemma Rsum_concat {A B} (h : A -> list B) (f : B -> R) l :
  Rsum f (concat (map h l)) = Rsum (fun a => Rsum f (h a)) l.
Proof. induction l; simpl; [done|]. by rewrite Rsum_app, IHl. Qed.

Lemma Rsum_swap {A B} (f : A -> B -> R) l m :
  Rsum (fun a => Rsum (f a) m) l = Rsum (fun b => Rsum (fun a => f a b) l) m.
Proof.
  induction l as [|a l IH]; simpl.
  - induction m; simpl; lra.
  - rewrite IH. by rewrite <- Rsum_plus.
Qed.

(** Jensen for the square: the square of a weighted mean is at most the
    weighted mean of the squares. *)
Lemma jensen_sq {A} (w p : A -> R) l : (forall a, a ∈ l -> 0 <= w a) -> Rsum w l = 1 ->
  (Rsum (fun a => w a * p a) l) ^ 2 <= Rsum (fun a => w a * (p a) ^ 2) l.
Proof.
  intros Hw H1. set (m := Rsum (fun a => w a * p a) l).
  assert (Hv : 0 <= Rsum (fun a => w a * (p a - m) ^ 2) l).
  { apply Rsum_nonneg. intros a Ha. apply Rmult_le_pos; [by apply Hw|]. apply pow2_ge_0. }
  assert (He : Rsum (fun a => w a * (p a - m) ^ 2) l =
               Rsum (fun a => w a * (p a) ^ 2) l - m ^ 2).
  { rewrite (Rsum_ext _ (fun a => (w a * p a ^ 2 + (- 2 * m) * (w a * p a)) + m ^ 2 * w a)).
    - rewrite Rsum_plus, Rsum_plus, Rsum_scal, Rsum_scal, H1. fold m. simpl. lra.
    - intros a _. simpl. lra. }
  lra.
Qed.

Lemma INR_sumn_Rsum {A} (f : A -> nat) l : INR (foldr (fun a n => (f a + n)%nat) 0%nat l) = Rsum (fun a => INR (f a)) l.
Proof. induction l as [|a l IH]; simpl; [done|]. rewrite plus_INR, IH. done. Qed.
