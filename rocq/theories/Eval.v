(** * Model of concept_formation/evaluation.py

    For trees of one node class; for TrestleTree and component values see
    [TEval.v].  Instances have passed the sanity check. *)
From stdpp Require Import base decidable list gmap strings.
From Verif Require Import Base Num TreeModel Nominal Utils CV Cobweb3 Query Query3.
Set Default Proof Using "Type".
Open Scope list_scope.

(** [{a: instance[a] for a in instance if not a == attr}] (47, 99) *)
Definition without {V} (a : attr) (i : list (attr * V)) : list (attr * V) := filter (fun p => fst p <> a) i.

(** What the scoring functions use of a node class. *)
Record NodeEval {N : NumOps} (C : NodeClass N) := {
  ne_val : Type;
  ne_get : nc_inst C -> attr -> option ne_val;
  ne_del : attr -> nc_inst C -> nc_inst C;
  ne_prob : nc_ctx C -> nc_sum C -> attr -> option ne_val -> res (num N);
  (** [concept.predict(attr)] *)
  ne_pred : nc_ctx C -> nc_sum C -> attr -> A (option ne_val);
  (** [isNumber] *)
  ne_num : ne_val -> option (num N);
  (** What [x - val] computes with: numbers and booleans; TypeError for others. *)
  ne_arith : ne_val -> option (num N);
  ne_eqb : ne_val -> ne_val -> bool;
}.
Global Arguments ne_val {N C}. Global Arguments ne_get {N C}. Global Arguments ne_del {N C}.
Global Arguments ne_prob {N C}. Global Arguments ne_pred {N C}. Global Arguments ne_num {N C}. Global Arguments ne_arith {N C}. Global Arguments ne_eqb {N C}.

Section Scores.
  Context {N : NumOps} (C : NodeClass N) (rng : nat -> num N) (E : NodeEval C).
  Notation F := (num N).
  Notation I := (nc_inst C).
  Notation "x <-- m ; k" := (mbind C m (fun x => k))
    (at level 100, m at next level, right associativity).
  Notation "m ;;! k" := (mbind C m (fun _ => k))
    (at level 100, right associativity).

  (** The first lines of probability and error (46-48, 98-101). *)
  Definition hide (i : I) (a : attr) : I :=
    match ne_get E i a with Some _ => ne_del E a i | None => i end.
  Definition concept_for (i : I) (a : attr) : M C (nc_sum C) :=
    c <-- cobweb_categorize C rng (hide i a);
    n <-- mget C c;
    mret C (nd_sum n).

  (** probability (18-65); a value that is a component is not modelled. *)
  Definition score_probability (i : I) (a : attr) (v : option (ne_val E)) : M C F :=
    tb <-- concept_for i a;
    mamb C (fun x => alift (ne_prob E x tb a v)).

  (** error (68-120), after the prediction.  [val - prediction] raises
      TypeError for a prediction that is neither number nor boolean. *)
  Definition error_of (v p : option (ne_val E)) : res F :=
    match v with
    | Some w =>
        match ne_num E w with
        | Some x =>
            match p with
            | None => Err OtherException
            | Some q => match ne_arith E q with Some y => Ok (nsub N x y) | None => Err TypeError end
            end
        | None => Ok (match p with Some q => if ne_eqb E w q then nofnat N 0 else nofnat N 1 | None => nofnat N 1 end)
        end
    | None =>
        match p with
        | None => Ok (nofnat N 0)
        | Some q => match ne_num E q with Some _ => Err OtherException | None => Ok (nofnat N 1) end
        end
    end.
  Definition score_error (i : I) (a : attr) (v : option (ne_val E)) : M C F :=
    tb <-- concept_for i a;
    p <-- mamb C (fun x => ne_pred E x tb a);
    fun s => (error_of v p, s).
  (** absolute_error (123-144); abs may differ in the sign of zero. *)
  Definition nabs (e : F) : F := if nltb N e (nofnat N 0) then nneg N e else e.
  Definition score_absolute_error (i : I) (a : attr) (v : option (ne_val E)) : M C F :=
    e <-- score_error i a v; mret C (nabs e).
  (** squared_error (147-169) *)
  Definition score_squared_error (i : I) (a : attr) (v : option (ne_val E)) : M C F :=
    e <-- score_error i a v; mret C (nmul N e e).

  (** ** incremental_evaluation (187-247) *)
  Variable x0 : nc_ctx C.
  Variable score : I -> attr -> option (ne_val E) -> M C F.
  (** The [r]-th call of shuffle. *)
  Variable shuffled : nat -> list I -> list I.

  (** [for i, instance in enumerate(instances[:run_length+2])] (238-245) *)
  Fixpoint eval_row (a : attr) (l : list I) : M C (list F) :=
    match l with
    | [] => mret C []
    | i :: l =>
        y <-- score i a (ne_get E i a);
        cobweb C rng i ;;!
        ys <-- eval_row a l;
        mret C (y :: ys)
    end.
  (** [for r in range(runs)] (228-246), [n] runs from the [r]-th one; the second
      component is the caller's list, which is shuffled in place. *)
  Fixpoint eval_runs (a : attr) (run_length n r : nat) (randomize_first : bool) (l : list I) : M C (list (list F) * list I) :=
    match n with
    | O => mret C ([], l)
    | S n =>
        mclear C x0 ;;!
        (let l' := if randomize_first || (0 <? r)%nat then shuffled r l else l in
        row <-- eval_row a (take (run_length + 2) l');
        res <-- eval_runs a run_length n (S r) randomize_first l';
        mret C (row :: fst res, snd res))
    end.
  Definition incremental_evaluation (l : list I) (a : attr) (run_length runs : nat) (randomize_first : bool)
      : M C (list (list F) * list I) :=
    eval_runs a run_length runs 0 randomize_first l.
End Scores.

(** ** CobwebTree and Cobweb3Tree *)
(** [num_of v]: v is a Python number (not a bool, not nan), as a float;
    [arith_of v]: v is a number or a boolean. *)
Definition CobwebEval {N : NumOps} (rng : nat -> num N) (ncmp : nom -> nom -> option bool) (num_of arith_of : nom -> option (num N))
    : NodeEval (CobwebClass N) :=
  Build_NodeEval N (CobwebClass N) nom
    (fun (i : inst) a => dget a i)
    (fun a (i : inst) => without a i)
    (fun _ (s : nsum) a v => probability s a v)
    (fun _ (s : nsum) a => predict rng ncmp s a "most likely" true)
    num_of
    arith_of
    (fun v w => bool_decide (v = w)).
(** [arith_of v]: v is a boolean, as a float ([True == 1.0] in Python). *)
Definition Cobweb3Eval {N : NumOps} (rng : nat -> num N) (ncmp : nom -> nom -> option bool) (normal : num N -> num N -> A (num N))
    (arith_of : nom -> option (num N)) : NodeEval (Cobweb3Class N) :=
  Build_NodeEval N (Cobweb3Class N) (val3 N)
    (fun (i : inst3 N) a => dget a i)
    (fun a (i : inst3 N) => without a i)
    (fun x (s : nsum3 N) a v => probability3 x s a v)
    (fun _ (s : nsum3 N) a => predict3 rng ncmp normal s a "most likely" true)
    (fun v => match v with VNum y => Some y | VNom _ => None end)
    (fun v => match v with VNum y => Some y | VNom w => arith_of w end)
    (fun v w => match v, w with
                | VNom v, VNom w => bool_decide (v = w)
                | VNum x, VNum y => neqb N x y
                | VNom v, VNum y | VNum y, VNom v => match arith_of v with Some x => neqb N x y | None => false end
                end).
