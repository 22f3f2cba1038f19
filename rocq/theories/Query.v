(** * Read-only questions to concepts and trees.

    CobwebNode.get_weighted_values, predict, probability, log_likelihood,
    depth, is_parent, num_concepts (cobweb.py:986-1182) and
    CobwebTree.infer_missing (cobweb.py:219-251). *)
From stdpp Require Import base decidable list gmap strings.
From Verif Require Import Base Num TreeModel Nominal Utils.

(** The table summary of one attribute: Σ av_counts[attr][v]. *)
Definition vcount (d : list (nom * nat)) : nat := sumn (map snd d).

Section Node.
  Context {N : NumOps} (rng : nat -> num N).
  Notation F := (num N).
  (** Python's [<] on the values of the data (see [Utils.v]). *)
  Context (ncmp : nom -> nom -> option bool).
  Local Open Scope amb_scope.

  (** [<] on values and None. *)
  Definition ocmp (a b : option nom) : option bool :=
    match a, b with
    | None, None => Some false
    | Some v, Some w => if decide (v = w) then Some false else ncmp v w
    | _, _ => None
    end.

  (** get_weighted_values, cobweb.py:1060-1094.  (The divisions happen in
      the loop; all have the same divisor.) *)
  Definition get_weighted_values (s : nsum) (a : attr) (allow_none : bool)
    : res (list (option nom * F)) :=
    match dget a (ns_av s) with
    | None => Ok [(None, nofnat N 1)]
    | Some d =>
      rbind (rmapM (fun q : nom * nat =>
               rbind (pydiv N (nofnat N (snd q)) (nofnat N (ns_count s))) (fun p =>
               Ok (Some (fst q), p))) d) (fun choices =>
      if allow_none then
        rbind (pydiv N (nsub N (nofnat N (ns_count s)) (nofnat N (vcount d)))
                       (nofnat N (ns_count s))) (fun p =>
        Ok (choices ++ [(None, p)]))
      else Ok choices)
    end.

  (** probability, cobweb.py:1128-1155 *)
  Definition probability (s : nsum) (a : attr) (v : option nom) : res F :=
    match v with
    | None =>
      let c := match dget a (ns_av s) with Some d => vcount d | None => 0 end in
      pydiv N (nsub N (nofnat N (ns_count s)) (nofnat N c)) (nofnat N (ns_count s))
    | Some w =>
      match dget a (ns_av s) with
      | Some d => match dget w d with
                  | Some c => pydiv N (nofnat N c) (nofnat N (ns_count s))
                  | None => Ok (nofnat N 0)
                  end
      | None => Ok (nofnat N 0)
      end
    end.

  (** The choice function named by a string, cobweb.py:1113-1119. *)
  Inductive chooser := MostLikely | Sampled.
  Definition choose_fn (f : string) : option chooser :=
    if decide (f = "most likely" \/ f = "m")%string then Some MostLikely
    else if decide (f = "sampled" \/ f = "s")%string then Some Sampled
    else None.
  Definition choose (c : chooser) (l : list (option nom * F)) : A (option nom) :=
    match c with
    | MostLikely => most_likely_choice rng ocmp l
    | Sampled => weighted_choice rng l
    end.

  (** predict, cobweb.py:1096-1126 *)
  Definition predict (s : nsum) (a : attr) (f : string) (allow_none : bool)
    : A (option nom) :=
    match choose_fn f with
    | None => araise OtherException
    | Some c =>
      match dget a (ns_av s) with
      | None => aret None
      | Some _ => l <~ alift (get_weighted_values s a allow_none); choose c l
      end
    end.

  (** log_likelihood, cobweb.py:1157-1182.  Python visits the attributes and
      values of two sets, in hash order: [attrs] and [vals a] are the orders
      in which they are visited ([ll_order] says which lists qualify). *)
  Definition log_likelihood (attrs : list attr) (vals : attr -> list (option nom))
      (s leaf : nsum) : res F :=
    rfold (fun ll a =>
      rfold (fun ll v =>
        rbind (probability leaf a v) (fun op =>
        if nltb N (nofnat N 0) op then
          rbind (probability s a v) (fun q =>
          let p := nmul N q op in
          if nltb N p (nofnat N 0) then Err OtherException
          else rbind (pylog N p) (fun l => Ok (nadd N ll l)))
        else Ok ll)) ll (vals a)) (nofnat N 0) attrs.

  Definition vals_of (s : nsum) (a : attr) : list nom :=
    match dget a (ns_av s) with Some d => dkeys d | None => [] end.
  (** The two sets of cobweb.py:1166-1171. *)
  Record ll_order (s leaf : nsum) (attrs : list attr) (vals : attr -> list (option nom)) : Prop := {
    lo_attrs : NoDup attrs /\ forall a, a ∈ attrs <->
      visible a = true /\ (a ∈ dkeys (ns_av s) \/ a ∈ dkeys (ns_av leaf));
    lo_vals : forall a, NoDup (vals a) /\ forall v, v ∈ vals a <->
      v = None \/ exists w, v = Some w /\ (w ∈ vals_of s a \/ w ∈ vals_of leaf a);
  }.
End Node.

(** ** Methods that follow links *)
Section Links.
  Context {N : NumOps} (C : NodeClass N).
  Notation "x <-- m ; k" := (mbind C m (fun x => k))
    (at level 100, m at next level, right associativity).

  (** depth, cobweb.py:986-996 *)
  Fixpoint mdepth (fuel : nat) (id : nat) : M C nat :=
    match fuel with
    | O => mraise C OutOfFuel
    | S fuel =>
      n <-- mget C id;
      match nd_parent n with
      | Some p => d <-- mdepth fuel p; mret C (1 + d)
      | None => mret C 0
      end
    end.
  Definition depth (id : nat) : M C nat := k <-- mheap_size C; mdepth (S k) id.

  (** is_parent, cobweb.py:998-1015 (node equality is object identity) *)
  Fixpoint mis_parent (fuel : nat) (self temp : nat) : M C bool :=
    match fuel with
    | O => mraise C OutOfFuel
    | S fuel =>
      if decide (temp = self) then mret C true
      else
        n <-- mget C temp;
        match nd_parent n with
        | Some p => mis_parent fuel self p
        | None => mret C false
        end
    end.
  Definition is_parent (self other : nat) : M C bool :=
    k <-- mheap_size C; mis_parent (S k) self other.

  (** num_concepts, cobweb.py:1017-1031 *)
  Fixpoint mnum_concepts (fuel : nat) (id : nat) : M C nat :=
    match fuel with
    | O => mraise C OutOfFuel
    | S fuel =>
      n <-- mget C id;
      c <-- (fix go (l : list nat) : M C nat :=
               match l with
               | [] => mret C 0
               | k :: l => x <-- mnum_concepts fuel k; y <-- go l; mret C (x + y)
               end) (nd_children n);
      mret C (1 + c)
    end.
  Definition num_concepts (id : nat) : M C nat := k <-- mheap_size C; mnum_concepts (S k) id.
End Links.

(** ** infer_missing *)

(** What infer_missing uses of a node class: node.attrs('all'), node.predict
    (overridden by Cobweb3Node), and instances as dicts. *)
Record NodeQuery {N : NumOps} (C : NodeClass N) := {
  nq_val : Type;
  nq_attrs : nc_sum C -> list attr;
  nq_predict : nc_ctx C -> nc_sum C -> attr -> string -> bool -> A (option nq_val);
  nq_has : nc_inst C -> attr -> bool;
  nq_set : nc_inst C -> attr -> nq_val -> nc_inst C;
}.
Global Arguments nq_val {N C}. Global Arguments nq_attrs {N C}.
Global Arguments nq_predict {N C}. Global Arguments nq_has {N C}.
Global Arguments nq_set {N C}.

Section Infer.
  Context {N : NumOps} (C : NodeClass N) (rng : nat -> num N) (Q : NodeQuery C).
  Notation "x <-- m ; k" := (mbind C m (fun x => k))
    (at level 100, m at next level, right associativity).

  (** The loop, cobweb.py:244-249. *)
  Fixpoint infer_loop (tb : nc_sum C) (f : string) (allow_none : bool)
      (attrs : list attr) (i : nc_inst C) : M C (nc_inst C) :=
    match attrs with
    | [] => mret C i
    | a :: attrs =>
      if nq_has Q i a then infer_loop tb f allow_none attrs i
      else
        v <-- mamb C (fun x => nq_predict Q x tb a f allow_none);
        infer_loop tb f allow_none attrs (match v with Some v => nq_set Q i a v | None => i end)
    end.

  (** infer_missing after the sanity check, cobweb.py:241-251.  Line 241
      copies the instance, so the caller's dict is not written to. *)
  Definition infer_checked (i : nc_inst C) (f : string) (allow_none : bool) : M C (nc_inst C) :=
    c <-- cobweb_categorize C rng i;
    n <-- mget C c;
    infer_loop (nd_sum n) f allow_none (nq_attrs Q (nd_sum n)) i.
End Infer.

Section InferNominal.
  Context {N : NumOps} (rng : nat -> num N) (ncmp : nom -> nom -> option bool).

  Definition CobwebQuery : NodeQuery (CobwebClass N) :=
    Build_NodeQuery N (CobwebClass N)
      nom
      (fun s : nsum => dkeys (ns_av s))
      (fun _ (s : nsum) a f b => predict rng ncmp s a f b)
      (fun (i : inst) a => dmem a i)
      (fun (i : inst) a v => dset a v i).

  (** infer_missing, cobweb.py:219-251 *)
  Definition infer_missing (i : raw) (f : string) (allow_none : bool) : M (CobwebClass N) inst :=
    match sanity i with
    | Ok j => infer_checked (CobwebClass N) rng CobwebQuery j f allow_none
    | Err e => mraise (CobwebClass N) e
    end.
End InferNominal.
