(** * Cobweb3Node tables and Cobweb3Tree.

    Models concept_formation/cobweb3.py: the methods Cobweb3Node overrides on
    (count, av_counts), the attribute scales of Cobweb3Tree, and the public
    entry points.  Everything else is inherited from cobweb.py and is the
    generic program of TreeModel.v. *)
From stdpp Require Import base decidable list gmap strings.
From Verif Require Import Base Num TreeModel Nominal CV.

(** cv_key, cobweb3.py:24.  An ordinary string, so a nominal value can be
    equal to it. *)
Definition cv_key : nom := NStr "#ContinuousValue#".

(** A loop that mutates: stops at the first exception and keeps what was done. *)
Fixpoint sfold {S X} (f : S -> X -> S * option exn) (s : S) (l : list X) : S * option exn :=
  match l with
  | [] => (s, None)
  | x :: l => match f s x with
              | (s', None) => sfold f s' l
              | (s', Some e) => (s', Some e)
              end
  end.

Section C3.
  Context (N : NumOps).
  Notation F := (num N).

  (** Values after the sanity check: numbers in the sense of isNumber
      (utils.py:63-68: neither bool nor nan), everything else is nominal. *)
  Inductive val3 := VNom (v : nom) | VNum (x : F).
  Definition inst3 := list (attr * val3).

  (** What av_counts[attr] maps values to: a count or a ContinuousValue.
      Every ContinuousValue belongs to one node only: combine and update write
      to objects created by the same node (cobweb3.py:177, 203). *)
  Inductive cell := Cnt (n : nat) | CVc (c : cval N).
  Record nsum3 := NSum3 {
    n3_count : nat;
    n3_av : list (attr * list (nom * cell));
  }.

  (** The body of the loop of increment_counts after line 173,
      cobweb3.py:175-181.  [cell + int] and [int.update] raise. *)
  Definition inc1 (d : list (nom * cell)) (v : val3) : list (nom * cell) * option exn :=
    match v with
    | VNum x =>
      match dget cv_key d with
      | None => (dset cv_key (CVc (cv_update (cv_new N) x)) d, None)
      | Some (CVc c) => (dset cv_key (CVc (cv_update c x)) d, None)
      | Some (Cnt _) => (d, Some AttributeError)
      end
    | VNom v =>
      match dget v d with
      | None => (dset v (Cnt 1) d, None)
      | Some (Cnt n) => (dset v (Cnt (n + 1)) d, None)
      | Some (CVc _) => (d, Some TypeError)
      end
    end.

  (** Line 173/199: [av_counts[attr] = av_counts.setdefault(attr, {})], then
      work on that dict. *)
  Definition on_attr {X} (f : list (nom * cell) -> X -> list (nom * cell) * option exn)
      (av : list (attr * list (nom * cell))) (p : attr * X) :=
    let '(d, e) := f (default [] (dget (fst p) av)) (snd p) in (dset (fst p) d av, e).

  (** increment_counts, cobweb3.py:147-181 *)
  Definition n3_inc (s : nsum3) (i : inst3) : nsum3 * option exn :=
    let '(av, e) := sfold (on_attr inc1) (n3_av s) i in (NSum3 (S (n3_count s)) av, e).

  (** One value of another node, cobweb3.py:200-209. *)
  Definition add1 (d : list (nom * cell)) (q : nom * cell) : list (nom * cell) * option exn :=
    if decide (fst q = cv_key) then
      match default (CVc (cv_new N)) (dget cv_key d) with
      | Cnt _ => (d, Some AttributeError)
      | CVc c =>
        match snd q with
        | Cnt _ => (dset cv_key (CVc c) d, Some ValueError)
        | CVc o =>
          match cv_combine c o with
          | Ok c' => (dset cv_key (CVc c') d, None)
          | Err e => (dset cv_key (CVc c) d, Some e)
          end
        end
      end
    else
      match default (Cnt 0) (dget (fst q) d), snd q with
      | Cnt n, Cnt m => (dset (fst q) (Cnt (n + m)) d, None)
      | _, _ => (d, Some TypeError)
      end.

  (** update_counts_from_node, cobweb3.py:183-209 *)
  Definition n3_add (s o : nsum3) : nsum3 * option exn :=
    let '(av, e) := sfold (on_attr (sfold add1)) (n3_av s) (n3_av o) in
    (NSum3 (n3_count s + n3_count o) av, e).

  (** The part of the tree object that scoring reads, cobweb3.py:66-68.
      [scaling] is None, False or a number. *)
  Record ctx3 := Ctx3 {
    x_scaling : option F;
    x_inner : bool;
    x_scales : list (attr * cval N);
  }.

  (** [self.tree.scaling] as a truth value *)
  Definition scaling_on (x : ctx3) : option F :=
    match x_scaling x with
    | Some k => if neqb N k (nofnat N 0) then None else Some k
    | None => None
    end.

  (** get_inner_attr, cobweb3.py:78-93.  (The empty tuple is not a valid
      attribute.) *)
  Definition inner_attr (x : ctx3) (a : attr) : attr :=
    match a with
    | ATup (b :: _) => if x_inner x then b else a
    | _ => a
    end.

  (** update_scales, cobweb3.py:95-105 *)
  Definition update_scales (x : ctx3) (i : inst3) : ctx3 :=
    Ctx3 (x_scaling x) (x_inner x)
      (fold_left (fun sc (p : attr * val3) =>
         match snd p with
         | VNum y => let b := inner_attr x (fst p) in
                     dset b (cv_update (default (cv_new N) (dget b sc)) y) sc
         | VNom _ => sc
         end) i (x_scales x)).

  (** The scale of an attribute, cobweb3.py:265-271. *)
  Definition ecg_scale (x : ctx3) (a : attr) : res F :=
    match scaling_on x with
    | None => Ok (nofnat N 1)
    | Some k =>
      match dget (inner_attr x a) (x_scales x) with
      | None => Ok (nofnat N 1)
      | Some inner =>
        rbind (pydiv N (nofnat N 1) k) (fun q =>
        rbind (cv_unbiased_std inner) (fun u => Ok (nmul N q u)))
      end
    end.

  (** What one value contributes, cobweb3.py:264-285. *)
  Definition ecg_value (x : ctx3) (count : nat) (a : attr) (q : nom * cell) : res F :=
    if decide (fst q = cv_key) then
      rbind (ecg_scale x a) (fun scale =>
      match snd q with
      | Cnt _ => Err AttributeError
      | CVc c =>
        rbind (cv_scaled_unbiased_std c scale) (fun s =>
        rbind (pydiv N (nofnat N 1) (nmul N (nofnat N 4) (npi N))) (fun noise =>
        rbind (pysqrt N (nadd N (nmul N s s) noise)) (fun std =>
        rbind (pydiv N (nofnat N (cv_num c)) (nofnat N count)) (fun p =>
        rbind (pysqrt N (npi N)) (fun rpi =>
        rbind (pydiv N (nofnat N 1) (nmul N (nmul N (nofnat N 2) rpi) std)) (fun h =>
        Ok (nmul N (nmul N p p) h)))))))
      end)
    else
      match snd q with
      | Cnt n => rbind (pydiv N (nofnat N n) (nofnat N count)) (fun p => Ok (nmul N p p))
      | CVc _ => Err TypeError
      end.

  (** expected_correct_guesses, cobweb3.py:211-287 *)
  Definition n3_ecg (x : ctx3) (s : nsum3) : res F :=
    let vis := dfilter visible (n3_av s) in
    rbind (rfold (fun acc p =>
             rfold (fun acc q =>
               rbind (ecg_value x (n3_count s) (fst p) q) (fun g => Ok (nadd N acc g)))
               acc (snd p)) (nofnat N 0) vis) (fun g =>
    pydiv N g (nofnat N (length vis))).

  (** The body of the loop of is_exact_match, cobweb3.py:534-558: whether the
      loop goes on. *)
  Definition exact1 (s : nsum3) (i : inst3) (a : attr) : res bool :=
    if hidden a then Ok true
    else
      match dget a i, dget a (n3_av s) with
      | Some v, Some d =>
        match v with
        | VNum y =>
          match dget cv_key d with
          | None => Ok false
          | Some c =>
            if negb (length d =? 1)%nat then Ok false
            else
              match c with
              | Cnt _ => Err AttributeError
              | CVc c =>
                if negb (cv_num c =? n3_count s)%nat then Ok false
                else rbind (cv_unbiased_std c) (fun u =>
                     if negb (neqb N u (nofnat N 0)) then Ok false
                     else Ok (neqb N (cv_unbiased_mean c) y))
              end
          end
        | VNom v =>
          match dget v d with
          | None => Ok false
          | Some (Cnt n) => Ok (n =? n3_count s)%nat
          | Some (CVc _) => Ok false  (* a ContinuousValue is never == a number *)
          end
        end
      | None, None => Ok true
      | _, _ => Ok false
      end.

  Fixpoint rall {X} (f : X -> res bool) (l : list X) : res bool :=
    match l with
    | [] => Ok true
    | x :: l => rbind (f x) (fun b => if b then rall f l else Ok false)
    end.

  (** is_exact_match, cobweb3.py:522-559.  Python visits the attributes in hash
      order; the order only matters for a table in which the check of some
      attribute raises. *)
  Definition n3_exact (s : nsum3) (i : inst3) : res bool :=
    rall (exact1 s i) (dkeys i ++ List.filter visible (dkeys (n3_av s))).

  Definition Cobweb3Class : NodeClass N := {|
    nc_sum := nsum3;
    nc_inst := inst3;
    nc_ctx := ctx3;
    nc_empty := NSum3 0 [];
    nc_count := n3_count;
    nc_inc := n3_inc;
    nc_add := n3_add;
    nc_ecg := n3_ecg;
    nc_exact := n3_exact;
    nc_pre := update_scales;
  |}.

  (** Cobweb3Tree(scaling, inner_attr_scaling), cobweb3.py:60-68; clear keeps
      both parameters and drops the scales, cobweb3.py:70-76. *)
  Definition new_ctx (scaling : option F) (inner : bool) : ctx3 := Ctx3 scaling inner [].

  (** Raw instances and the inherited sanity check, cobweb.py:41-64. *)
  Inductive pval3 := PVal3 (v : val3) | PNone3 | PUnhashable3.
  Definition raw3 := list (attr * pval3).
  Fixpoint sanity3 (i : raw3) : res inst3 :=
    match i with
    | [] => Ok []
    | (a, v) :: i =>
      if attr_ok a then
        match v with
        | PVal3 v => rbind (sanity3 i) (fun j => Ok ((a, v) :: j))
        | PNone3 => Err ValueError
        | PUnhashable3 => Err ValueError
        end
      else Err ValueError
    end.

  (** ifit, cobweb3.py:115-131 *)
  Definition ifit3 (rng : nat -> F) (i : raw3) : M Cobweb3Class nat :=
    match sanity3 i with
    | Ok j => cobweb Cobweb3Class rng j
    | Err e => mraise Cobweb3Class e
    end.
  (** categorize, cobweb.py:253-272 *)
  Definition categorize3 (rng : nat -> F) (i : raw3) : M Cobweb3Class nat :=
    match sanity3 i with
    | Ok j => cobweb_categorize Cobweb3Class rng j
    | Err e => mraise Cobweb3Class e
    end.
End C3.
Global Arguments VNom {N}. Global Arguments VNum {N}.
Global Arguments Cnt {N}. Global Arguments CVc {N}.
Global Arguments NSum3 {N}. Global Arguments n3_count {N}. Global Arguments n3_av {N}.
Global Arguments Ctx3 {N}. Global Arguments x_scaling {N}. Global Arguments x_inner {N}.
Global Arguments x_scales {N}. Global Arguments inner_attr {N}. Global Arguments scaling_on {N}.
Global Arguments inc1 {N}. Global Arguments add1 {N}. Global Arguments on_attr {N X}.
Global Arguments n3_inc {N}. Global Arguments n3_add {N}. Global Arguments n3_ecg {N}.
Global Arguments n3_exact {N}. Global Arguments exact1 {N}. Global Arguments rall {X}.
Global Arguments update_scales {N}. Global Arguments ecg_scale {N}. Global Arguments ecg_value {N}.
Global Arguments new_ctx {N}. Global Arguments PVal3 {N}. Global Arguments PNone3 {N}.
Global Arguments PUnhashable3 {N}. Global Arguments sanity3 {N}.
Global Arguments ifit3 {N}. Global Arguments categorize3 {N}.
