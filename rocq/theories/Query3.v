(** * Read-only questions to Cobweb3 concepts.

    Cobweb3Node.get_weighted_values, predict, probability, log_likelihood
    (cobweb3.py:323-520) and infer_missing on a Cobweb3Tree
    (cobweb.py:219-251). *)
From stdpp Require Import base decidable list gmap strings.
From Verif Require Import Base Num TreeModel Nominal Utils CV Cobweb3 Query.

Section Node3.
  Context {N : NumOps} (rng : nat -> num N).
  Notation F := (num N).
  (** Python's [<] on the values of the data (see [Utils.v]). *)
  Context (ncmp : nom -> nom -> option bool).
  (** random.normalvariate(mu, sigma), not modelled further: any computation
      that uses random numbers and may raise. *)
  Context (normal : F -> F -> A F).
  Local Open Scope amb_scope.

  (** [.num] of a ContinuousValue, or a count: cobweb3.py:350-353, 443-446. *)
  Definition cell_count (q : nom * cell N) : res nat :=
    if decide (fst q = cv_key) then
      match snd q with CVc c => Ok (cv_num c) | Cnt _ => Err AttributeError end
    else
      match snd q with Cnt n => Ok n | CVc _ => Err TypeError end.

  (** get_weighted_values, cobweb3.py:323-360.  [Some cv_key] stands for "some
      number".  (A ContinuousValue under another key would raise TypeError in
      the division, as modelled by [cell_count].) *)
  Definition get_weighted_values3 (s : nsum3 N) (a : attr) (allow_none : bool)
    : res (list (option nom * F)) :=
    match dget a (n3_av s) with
    | None => Ok [(None, nofnat N 1)]
    | Some d =>
      rbind (rmapM (fun q : nom * cell N =>
               rbind (cell_count q) (fun c =>
               rbind (pydiv N (nofnat N c) (nofnat N (n3_count s))) (fun p =>
               Ok (fst q, c, p)))) d) (fun l =>
      let choices := map (fun y : nom * nat * F => (Some (fst (fst y)), snd y)) l in
      let total := sumn (map (fun y : nom * nat * F => snd (fst y)) l) in
      if allow_none then
        rbind (pydiv N (nsub N (nofnat N (n3_count s)) (nofnat N total))
                       (nofnat N (n3_count s))) (fun p =>
        Ok (choices ++ [(None, p)]))
      else Ok choices)
    end.

  (** The scale and shift of probability, cobweb3.py:453-465. *)
  Definition prob_scale (x : ctx3 N) (a : attr) : res (F * F) :=
    match scaling_on x with
    | None => Ok (nofnat N 1, nofnat N 0)
    | Some k =>
      rbind (pydiv N (nofnat N 1) k) (fun q =>
      match dget (inner_attr x a) (x_scales x) with
      | None => Err KeyError
      | Some inner =>
        rbind (cv_unbiased_std inner) (fun u =>
        let scale := nmul N q u in
        let scale := if neqb N scale (nofnat N 0) then nofnat N 1 else scale in
        Ok (scale, cv_mean inner))
      end)
    end.

  (** The numeric case of probability, cobweb3.py:449-474.  Without scaling
      line 461 is skipped: [val] is not divided. *)
  Definition prob_num (x : ctx3 N) (count : nat) (a : attr) (c : cval N) (y : F) : res F :=
    rbind (pydiv N (nofnat N (cv_num c)) (nofnat N count)) (fun prob_attr =>
    rbind (prob_scale x a) (fun '(scale, shift) =>
    rbind (match scaling_on x with
           | None => Ok y
           | Some _ => pydiv N (nsub N y shift) scale
           end) (fun y =>
    rbind (pydiv N (nsub N (cv_mean c) shift) scale) (fun mean =>
    rbind (cv_scaled_unbiased_std c scale) (fun ostd =>
    rbind (pydiv N (nofnat N 1) (nmul N (nofnat N 2) (npi N))) (fun noise =>
    rbind (pysqrt N (nadd N (nmul N ostd ostd) noise)) (fun std =>
    rbind (pysqrt N (nmul N (nofnat N 2) (npi N))) (fun r2pi =>
    rbind (pydiv N (nofnat N 1) (nmul N r2pi std)) (fun h =>
    rbind (pydiv N (nneg N (nmul N (nsub N y mean) (nsub N y mean)))
                   (nmul N (nmul N (nofnat N 2) std) std)) (fun e =>
    Ok (nmul N (nmul N prob_attr h) (nexp N e)))))))))))).

  (** probability, cobweb3.py:409-479 *)
  Definition probability3 (x : ctx3 N) (s : nsum3 N) (a : attr) (v : option (val3 N)) : res F :=
    match v with
    | None =>
      rbind (match dget a (n3_av s) with
             | Some d => rbind (rmapM cell_count d) (fun l => Ok (sumn l))
             | None => Ok 0
             end) (fun c =>
      pydiv N (nsub N (nofnat N (n3_count s)) (nofnat N c)) (nofnat N (n3_count s)))
    | Some (VNum y) =>
      match dget a (n3_av s) with
      | None => Ok (nofnat N 0)
      | Some d =>
        match dget cv_key d with
        | None => Ok (nofnat N 0)
        | Some (Cnt _) => Err AttributeError
        | Some (CVc c) => prob_num x (n3_count s) a c y
        end
      end
    | Some (VNom w) =>
      match dget a (n3_av s) with
      | None => Ok (nofnat N 0)
      | Some d =>
        match dget w d with
        | None => Ok (nofnat N 0)
        | Some (Cnt n) => pydiv N (nofnat N n) (nofnat N (n3_count s))
        | Some (CVc _) => Err TypeError
        end
      end
    end.

  (** predict, cobweb3.py:362-407 *)
  Definition predict3 (s : nsum3 N) (a : attr) (f : string) (allow_none : bool)
    : A (option (val3 N)) :=
    match choose_fn f with
    | None => araise OtherException
    | Some c =>
      match dget a (n3_av s) with
      | None => aret None
      | Some d =>
        l <~ alift (get_weighted_values3 s a allow_none);
        v <~ choose rng ncmp c l;
        match v with
        | None => aret None
        | Some w =>
          if decide (w = cv_key) then
            match dget cv_key d, c with
            | Some (CVc cv), MostLikely => aret (Some (VNum (cv_mean cv)))
            | Some (CVc cv), Sampled =>
              sd <~ alift (cv_unbiased_std cv);
              y <~ normal (cv_unbiased_mean cv) sd;
              aret (Some (VNum y))
            | Some (Cnt _), _ => araise AttributeError
            | None, _ => araise KeyError
            end
          else aret (Some (VNom w))
        end
      end
    end.

  (** log_likelihood, cobweb3.py:481-520; [attrs] and [vals] as in
      [Query.log_likelihood]. *)
  Definition log_likelihood3 (x : ctx3 N) (attrs : list attr) (vals : attr -> list (option nom))
      (s leaf : nsum3 N) : res F :=
    rfold (fun ll a =>
      rfold (fun ll v =>
        if decide (v = Some cv_key) then
          match dget cv_key (default [] (dget a (n3_av s))), dget cv_key (default [] (dget a (n3_av leaf))) with
          | Some (CVc n1), Some (CVc n2) =>
            rbind (pydiv N (nofnat N (cv_num n1)) (nofnat N (n3_count s))) (fun pn1 =>
            rbind (pydiv N (nofnat N (cv_num n2)) (nofnat N (n3_count leaf))) (fun pn2 =>
            rbind (cv_integral n1 n2) (fun g =>
            let p := nmul N (nmul N pn1 pn2) g in
            if nltb N (nofnat N 0) p then rbind (pylog N p) (fun l => Ok (nadd N ll l))
            else Err OtherException)))
          | Some _, Some _ => Err AttributeError
          | _, _ => Ok ll
          end
        else
          let w := option_map VNom v in
          rbind (probability3 x leaf a w) (fun op =>
          if nltb N (nofnat N 0) op then
            rbind (probability3 x s a w) (fun q =>
            let p := nmul N q op in
            if nltb N (nofnat N 0) p then rbind (pylog N p) (fun l => Ok (nadd N ll l))
            else Err OtherException)
          else Ok ll)) ll (vals a)) (nofnat N 0) attrs.

  Definition vals_of3 (s : nsum3 N) (a : attr) : list nom :=
    match dget a (n3_av s) with Some d => dkeys d | None => [] end.
  (** The two sets of cobweb3.py:489-494. *)
  Record ll_order3 (s leaf : nsum3 N) (attrs : list attr) (vals : attr -> list (option nom)) : Prop := {
    lo3_attrs : NoDup attrs /\ forall a, a ∈ attrs <->
      visible a = true /\ (a ∈ dkeys (n3_av s) \/ a ∈ dkeys (n3_av leaf));
    lo3_vals : forall a, NoDup (vals a) /\ forall v, v ∈ vals a <->
      v = None \/ exists w, v = Some w /\ (w ∈ vals_of3 s a \/ w ∈ vals_of3 leaf a);
  }.

  Definition Cobweb3Query : NodeQuery (Cobweb3Class N) :=
    Build_NodeQuery N (Cobweb3Class N)
      (val3 N)
      (fun s : nsum3 N => dkeys (n3_av s))
      (fun _ (s : nsum3 N) a f b => predict3 s a f b)
      (fun (i : inst3 N) a => dmem a i)
      (fun (i : inst3 N) a v => dset a v i).

  (** infer_missing, cobweb.py:219-251 *)
  Definition infer_missing3 (i : raw3 N) (f : string) (allow_none : bool) : M (Cobweb3Class N) (inst3 N) :=
    match sanity3 i with
    | Ok j => infer_checked (Cobweb3Class N) rng Cobweb3Query j f allow_none
    | Err e => mraise (Cobweb3Class N) e
    end.
End Node3.
