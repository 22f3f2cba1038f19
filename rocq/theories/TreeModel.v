(** * The Cobweb tree algorithm as a heap program.

    Models concept_formation/cobweb.py, classes CobwebTree and CobwebNode.
    The methods that subclasses override (increment_counts,
    update_counts_from_node, expected_correct_guesses, is_exact_match) are the
    fields of the record [NodeClass]; everything else is defined here once, as
    in the Python class hierarchy. *)
From stdpp Require Import base decidable list gmap strings.
From Verif Require Import Base Num.

(** What a node class provides.  [nc_sum] is the pair (count, av_counts) of a
    node; [nc_inst] an instance; [nc_ctx] the data of the tree object that
    expected_correct_guesses reads (nothing for CobwebTree, the scales for
    Cobweb3Tree).  A mutating method that raises half-way returns the partly
    updated table together with the exception. *)
Record NodeClass (N : NumOps) := {
  nc_sum : Type;
  nc_inst : Type;
  nc_ctx : Type;
  nc_empty : nc_sum;                                (* cobweb.py:300-301 *)
  nc_count : nc_sum -> nat;                         (* .count *)
  nc_inc : nc_sum -> nc_inst -> nc_sum * option exn;  (* increment_counts *)
  nc_add : nc_sum -> nc_sum -> nc_sum * option exn;   (* update_counts_from_node *)
  nc_ecg : nc_ctx -> nc_sum -> res (num N);         (* expected_correct_guesses *)
  nc_exact : nc_sum -> nc_inst -> res bool;         (* is_exact_match *)
  nc_pre : nc_ctx -> nc_inst -> nc_ctx;             (* what cobweb() does to the
       tree object before the loop: nothing for CobwebTree, update_scales for
       Cobweb3Tree (cobweb3.py:112) *)
}.
Global Arguments nc_sum {_}. Global Arguments nc_inst {_}. Global Arguments nc_ctx {_}.
Global Arguments nc_empty {_}. Global Arguments nc_count {_}. Global Arguments nc_inc {_}.
Global Arguments nc_add {_}. Global Arguments nc_ecg {_}. Global Arguments nc_exact {_}.
Global Arguments nc_pre {_}.

(** The four operations of get_best_operation, cobweb.py:448. *)
Inductive op := OpBest | OpNew | OpMerge | OpSplit.
Global Instance op_eq_dec : EqDecision op.
Proof. solve_decision. Defined.

(** Rank of the operation names "best" < "merge" < "new" < "split" under
    Python string comparison (used when cu and random() both tie). *)
Definition op_rank (o : op) : nat :=
  match o with OpBest => 0 | OpMerge => 1 | OpNew => 2 | OpSplit => 3 end.

(** Mutable ambient data: the class counter CobwebNode._counter
    (cobweb.py:295) and the number of values taken so far from random(). *)
Record amb := Amb { am_ctr : nat; am_rpos : nat }.

(** Pure code that may read random numbers, create ids, and raise. *)
Definition A (X : Type) := amb -> res X * amb.
Definition aret {X} (x : X) : A X := fun a => (Ok x, a).
Definition araise {X} (e : exn) : A X := fun a => (Err e, a).
Definition abind {X Y} (m : A X) (f : X -> A Y) : A Y :=
  fun a => match m a with
           | (Ok x, a') => f x a'
           | (Err e, a') => (Err e, a')
           end.
Definition alift {X} (r : res X) : A X := fun a => (r, a).
(** [n] temporary nodes are created and dropped: only the counter moves
    (cobweb.py:299, 945-955).  When an exception interrupts the computation
    that creates the temporaries, the model has already counted all of them;
    so after an exception the counter may be ahead of Python's. *)
Definition atemps (n : nat) : A unit :=
  fun a => (Ok tt, Amb (am_ctr a + n) (am_rpos a)).

Declare Scope amb_scope.
Delimit Scope amb_scope with amb.
Notation "x <~ m ; k" := (abind m (fun x => k))
  (at level 100, m at next level, right associativity) : amb_scope.
Notation "m ;;~ k" := (abind m (fun _ => k))
  (at level 100, right associativity) : amb_scope.

Fixpoint amapM {X Y} (f : X -> A Y) (l : list X) : A (list Y) :=
  match l with
  | [] => aret []
  | x :: l => abind (f x) (fun y => abind (amapM f l) (fun ys => aret (y :: ys)))
  end.

Section Sorting.
  Context {X : Type} (lt : X -> X -> bool).
  (** [list.sort(reverse=True)]: stable, descending.  Insertion sort; for a
      total order every stable sort gives this result. *)
  Fixpoint insert_desc (x : X) (l : list X) : list X :=
    match l with
    | [] => [x]
    | y :: l => if lt x y then y :: insert_desc x l else x :: y :: l
    end.
  Definition sort_desc (l : list X) : list X := foldr insert_desc [] l.
End Sorting.

Section Scoring.
  Context {N : NumOps} (C : NodeClass N) (rng : nat -> num N).
  Notation S' := (nc_sum C).
  Notation I := (nc_inst C).
  Notation F := (num N).
  Local Open Scope amb_scope.

  (** random() *)
  Definition arandom : A F :=
    fun a => (Ok (rng (am_rpos a)), Amb (am_ctr a) (S (am_rpos a))).

  (** Temporary nodes: increment_counts / update_counts_from_node on an object
      that is dropped afterwards; only the exception matters. *)
  Definition tinc (s : S') (i : I) : res S' :=
    match nc_inc C s i with (s', None) => Ok s' | (_, Some e) => Err e end.
  Definition tadd (s s2 : S') : res S' :=
    match nc_add C s s2 with (s', None) => Ok s' | (_, Some e) => Err e end.
  (** shallow_copy, cobweb.py:314-327 *)
  Definition tcopy (s : S') : res S' := tadd (nc_empty C) s.

  Variable x : nc_ctx C.
  Notation ecg := (nc_ecg C x).
  Notation cnt s := (nofnat N (nc_count C s)).
  Notation "0" := (nofnat N 0).

  (** category_utility, cobweb.py:404-445; [kids] are the tables of
      self.children. *)
  Definition category_utility (s : S') (kids : list S') : res F :=
    match kids with
    | [] => Ok 0
    | _ =>
      rbind (rfold (fun acc k =>
               rbind (pydiv N (cnt k) (cnt s)) (fun p =>
               rbind (ecg k) (fun e =>
               Ok (nadd N acc (nmul N p e))))) 0 kids) (fun acc =>
      rbind (ecg s) (fun e =>
      pydiv N (nsub N acc e) (nofnat N (length kids))))
    end.

  (** relative_cu_for_insert, cobweb.py:613-665 *)
  Definition relative_cu_for_insert (child : S') (i : I) : res F :=
    rbind (tcopy child) (fun t =>
    rbind (tinc t i) (fun t =>
    rbind (ecg t) (fun e1 =>
    rbind (ecg child) (fun e2 =>
    Ok (nsub N (nmul N (nofnat N (nc_count C child + 1)) e1)
               (nmul N (cnt child) e2)))))).

  (** compute_relative_CU_const, cobweb.py:576-611 *)
  Definition compute_relative_CU_const (s : S') (kids : list S') (i : I) : res F :=
    rbind (tcopy s) (fun t =>
    rbind (tinc t i) (fun t =>
    rbind (ecg t) (fun ec_root_u =>
    rbind (rfold (fun acc c =>
             rbind (pydiv N (cnt c) (nofnat N (nc_count C s + 1))) (fun p =>
             rbind (ecg c) (fun e =>
             Ok (nadd N acc (nmul N p e))))) 0 kids) (fun const =>
    pydiv N (nsub N const ec_root_u) (nofnat N (length kids)))))).

  (** cu_for_insert, cobweb.py:667-698.  [kids] carry their ids; [child] is the
      id of the child that receives the instance. *)
  Definition cu_for_insert (s : S') (kids : list (nat * S')) (child : nat) (i : I)
    : res F :=
    rbind (tcopy s) (fun t =>
    rbind (tinc t i) (fun t =>
    rbind (rmapM (fun c =>
             rbind (tcopy (snd c)) (fun tc =>
             if decide (fst c = child) then tinc tc i else Ok tc)) kids) (fun tk =>
    category_utility t tk))).

  (** cu_for_new_child, cobweb.py:738-762 *)
  Definition cu_for_new_child (s : S') (kids : list S') (i : I) : res F :=
    rbind (tcopy s) (fun t =>
    rbind (rmapM tcopy kids) (fun tk =>
    rbind (tinc t i) (fun t =>
    rbind (tinc (nc_empty C) i) (fun new =>
    category_utility t (tk ++ [new]))))).

  (** cu_for_merge, cobweb.py:799-838 *)
  Definition cu_for_merge (s : S') (kids : list (nat * S')) (b1 b2 : nat * S') (i : I)
    : res F :=
    rbind (tcopy s) (fun t =>
    rbind (tinc t i) (fun t =>
    rbind (tadd (nc_empty C) (snd b1)) (fun m =>
    rbind (tadd m (snd b2)) (fun m =>
    rbind (tinc m i) (fun m =>
    rbind (rmapM (fun c => tcopy (snd c))
             (List.filter (fun c => negb (bool_decide (fst c = fst b1)) &&
                                    negb (bool_decide (fst c = fst b2))) kids)) (fun tk =>
    category_utility t (m :: tk))))))).

  (** cu_for_split, cobweb.py:885-911; [bkids] are best.children. *)
  Definition cu_for_split (s : S') (kids : list (nat * S')) (best : nat)
      (bkids : list (nat * S')) : res F :=
    rbind (tcopy s) (fun t =>
    rbind (rmapM (fun c => tcopy (snd c))
             (List.filter (fun c => negb (bool_decide (fst c = best))) (kids ++ bkids)))
      (fun tk => category_utility t tk)).

  (** cu_for_fringe_split, cobweb.py:858-883 (with
      create_child_with_current_counts, cobweb.py:720-736, on a childless
      temporary). *)
  Definition cu_for_fringe_split (s : S') (i : I) : res F :=
    rbind (tcopy s) (fun t =>
    rbind (if decide (0 < nc_count C t)%nat
           then rbind (tcopy t) (fun k => Ok [k]) else Ok []) (fun ks =>
    rbind (tinc t i) (fun t =>
    rbind (tinc (nc_empty C) i) (fun new =>
    category_utility t (ks ++ [new]))))).

  (** Sort keys of two_best_children: (relative_cu, count, random(), child). *)
  Definition ckey : Type := F * nat * F * nat.
  (** Python tuple comparison [a < b] on the first three components. *)
  Definition ckey_lt (a b : ckey) : bool :=
    let '(u, c, r, _) := a in
    let '(u', c', r', _) := b in
    if neqb N u u' then
      if (c =? c')%nat then nltb N r r' else (c <? c')%nat
    else nltb N u u'.
  Definition ckey_tied (a b : ckey) : bool :=
    let '(u, c, r, _) := a in
    let '(u', c', r', _) := b in
    neqb N u u' && (c =? c')%nat && neqb N r r'.
  (** Two entries equal in the first three components: the comparison reaches
      the node objects, which have no order, and Python raises TypeError.
      Entries that are equal are adjacent in the sorted order, so every
      comparison sort must compare two of them. *)
  Fixpoint has_tie (l : list ckey) : bool :=
    match l with
    | [] => false
    | k :: l => existsb (ckey_tied k) l || has_tie l
    end.

  (** two_best_children, cobweb.py:540-574.  Returns (best1_cu, best1, best2). *)
  Definition two_best_children (s : S') (kids : list (nat * S')) (i : I)
    : A (F * nat * option nat) :=
    match kids with
    | [] => araise OtherException
    | _ =>
      l <~ amapM (fun c =>
             atemps 1 ;;~
             u <~ alift (relative_cu_for_insert (snd c) i);
             r <~ arandom;
             aret (u, nc_count C (snd c), r, fst c)) kids;
      (if has_tie l then araise TypeError else aret tt) ;;~
      atemps 1 ;;~
      const <~ alift (compute_relative_CU_const s (map snd kids) i);
      match sort_desc ckey_lt l with
      | [] => araise OtherException
      | (rel, _, _, b1) :: rest =>
        q <~ alift (pydiv N rel (nofnat N (nc_count C s + 1)));
        q <~ alift (pydiv N q (nofnat N (length kids)));
        aret (nadd N q const, b1,
              match rest with [] => None | (_, _, _, b2) :: _ => Some b2 end)
      end
    end.

  (** Sort keys of get_best_operation: (cu, random(), name). *)
  Definition okey : Type := F * F * op.
  Definition okey_lt (a b : okey) : bool :=
    let '(u, r, o) := a in
    let '(u', r', o') := b in
    if neqb N u u' then
      if neqb N r r' then (op_rank o <? op_rank o')%nat else nltb N r r'
    else nltb N u u'.

  (** get_best_operation, cobweb.py:447-538.  [b1], [b2] carry their tables;
      [b1kids] are best1.children. *)
  Definition get_best_operation (s : S') (kids : list (nat * S')) (i : I)
      (b1 : nat * S') (b2 : option (nat * S')) (b1kids : list (nat * S'))
      (best1_cu : F) (possible : list op) : A (F * op) :=
    o1 <~ (if decide (OpBest ∈ possible)
           then r <~ arandom; aret [(best1_cu, r, OpBest)] else aret []);
    o2 <~ (if decide (OpNew ∈ possible)
           then atemps (2 + length kids) ;;~
                u <~ alift (cu_for_new_child s (map snd kids) i);
                r <~ arandom; aret [(u, r, OpNew)]
           else aret []);
    o3 <~ match b2 with
          | Some b2 =>
            if decide (OpMerge ∈ possible /\ (2 < length kids)%nat)
            then atemps (length kids) ;;~
                 u <~ alift (cu_for_merge s kids b1 b2 i);
                 r <~ arandom; aret [(u, r, OpMerge)]
            else aret []
          | None => aret []
          end;
    o4 <~ (if decide (OpSplit ∈ possible /\ (0 < length b1kids)%nat)
           then atemps (length kids + length b1kids) ;;~
                u <~ alift (cu_for_split s kids (fst b1) b1kids);
                r <~ arandom; aret [(u, r, OpSplit)]
           else aret []);
    match sort_desc okey_lt (o1 ++ o2 ++ o3 ++ o4) with
    | [] => araise IndexError
    | (u, _, o) :: _ => aret (u, o)
    end.
End Scoring.

(** ** The heap program *)
Section Heap.
  Context {N : NumOps} (C : NodeClass N) (rng : nat -> num N).
  Notation S' := (nc_sum C).
  Notation I := (nc_inst C).

  (** A CobwebNode object: table, parent, children (cobweb.py:297-312). *)
  Record node := Node {
    nd_sum : S';
    nd_parent : option nat;
    nd_children : list nat;
  }.

  (** A CobwebTree object together with all nodes ever allocated. *)
  Record st := St {
    st_heap : gmap nat node;
    st_root : nat;
    st_amb : amb;
    st_ctx : nc_ctx C;
  }.

  (** Stateful code; the state is kept when an exception is raised. *)
  Definition M (X : Type) := st -> res X * st.
  Definition mret {X} (v : X) : M X := fun s => (Ok v, s).
  Definition mraise {X} (e : exn) : M X := fun s => (Err e, s).
  Definition mbind {X Y} (m : M X) (f : X -> M Y) : M Y :=
    fun s => match m s with
             | (Ok v, s') => f v s'
             | (Err e, s') => (Err e, s')
             end.
  (** Run ambient code. *)
  Definition mamb {X} (m : nc_ctx C -> A X) : M X :=
    fun s => let '(r, a) := m (st_ctx s) (st_amb s) in
             (r, St (st_heap s) (st_root s) a (st_ctx s)).

  Notation "x <-- m ; k" := (mbind m (fun x => k))
    (at level 100, m at next level, right associativity).
  Notation "m ;;! k" := (mbind m (fun _ => k))
    (at level 100, right associativity).

  (** Read / write an object. *)
  Definition mget (i : nat) : M node :=
    fun s => match st_heap s !! i with
             | Some n => (Ok n, s)
             | None => (Err Dangling, s)
             end.
  Definition mput (i : nat) (n : node) : M unit :=
    fun s => (Ok tt, St (<[i := n]> (st_heap s)) (st_root s) (st_amb s) (st_ctx s)).
  Definition mset_root (i : nat) : M unit :=
    fun s => (Ok tt, St (st_heap s) i (st_amb s) (st_ctx s)).

  (** gensym, cobweb.py:945-955 *)
  Definition mgensym : M nat :=
    fun s => let a := st_amb s in
             let a' := Amb (S (am_ctr a)) (am_rpos a) in
             (Ok (S (am_ctr a)), St (st_heap s) (st_root s) a' (st_ctx s)).

  Definition with_sum (s : S') (n : node) : node :=
    Node s (nd_parent n) (nd_children n).
  Definition with_parent (p : option nat) (n : node) : node :=
    Node (nd_sum n) p (nd_children n).
  Definition with_children (l : list nat) (n : node) : node :=
    Node (nd_sum n) (nd_parent n) l.

  (** node.increment_counts(instance) on a node of the tree *)
  Definition mincrement (id : nat) (i : I) : M unit :=
    n <-- mget id;
    let '(s', e) := nc_inc C (nd_sum n) i in
    mput id (with_sum s' n) ;;!
    match e with None => mret tt | Some e => mraise e end.

  (** node.update_counts_from_node(other) *)
  Definition mupdate_from (id : nat) (other : nat) : M unit :=
    n <-- mget id;
    o <-- mget other;
    let '(s', e) := nc_add C (nd_sum n) (nd_sum o) in
    mput id (with_sum s' n) ;;!
    match e with None => mret tt | Some e => mraise e end.

  (** create_new_child, cobweb.py:700-718 *)
  Definition mcreate_new_child (self : nat) (i : I) : M nat :=
    new <-- mgensym;
    mput new (Node (nc_empty C) (Some self) []) ;;!
    mincrement new i ;;!
    n <-- mget self;
    mput self (with_children (nd_children n ++ [new]) n) ;;!
    mret new.

  (** The fringe-split branch of cobweb(), cobweb.py:162-176, including the
      copy constructor (cobweb.py:297-312) applied to the childless [cur]. *)
  Definition mfringe_split (cur : nat) (i : I) : M nat :=
    new <-- mgensym;
    n <-- mget cur;
    mput new (Node (nc_empty C) (nd_parent n) []) ;;!
    mupdate_from new cur ;;!
    mput cur (with_parent (Some new) n) ;;!
    nn <-- mget new;
    mput new (with_children [cur] nn) ;;!
    match nd_parent n with
    | Some p =>
      np <-- mget p;
      mput p (with_children (remove1 cur (nd_children np) ++ [new]) np)
    | None => mset_root new
    end ;;!
    mincrement new i ;;!
    mcreate_new_child new i.

  (** merge, cobweb.py:764-797 *)
  Definition mmerge (self b1 b2 : nat) : M nat :=
    new <-- mgensym;
    mput new (Node (nc_empty C) (Some self) []) ;;!
    mupdate_from new b1 ;;!
    mupdate_from new b2 ;;!
    n1 <-- mget b1;
    mput b1 (with_parent (Some new) n1) ;;!
    n2 <-- mget b2;
    mput b2 (with_parent (Some new) n2) ;;!
    nn <-- mget new;
    mput new (with_children (nd_children nn ++ [b1; b2]) nn) ;;!
    n <-- mget self;
    mput self (with_children (remove1 b2 (remove1 b1 (nd_children n)) ++ [new]) n) ;;!
    mret new.

  (** Reparent a list of nodes (the loop of split, cobweb.py:853-855). *)
  Fixpoint mreparent (p : nat) (l : list nat) : M unit :=
    match l with
    | [] => mret tt
    | c :: l =>
      n <-- mget c;
      mput c (with_parent (Some p) n) ;;!
      mreparent p l
    end.

  (** split, cobweb.py:840-856 *)
  Definition msplit (self best : nat) : M unit :=
    n <-- mget self;
    mput self (with_children (remove1 best (nd_children n)) n) ;;!
    nb <-- mget best;
    mreparent self (nd_children nb) ;;!
    n <-- mget self;
    mput self (with_children (nd_children n ++ nd_children nb) n).

  (** Read the tables of a list of nodes. *)
  Fixpoint mtables (l : list nat) : M (list (nat * S')) :=
    match l with
    | [] => mret []
    | c :: l => n <-- mget c; r <-- mtables l; mret ((c, nd_sum n) :: r)
    end.

  Definition all_ops : list op := [OpBest; OpNew; OpMerge; OpSplit].

  (** node.two_best_children(instance) *)
  Definition mtwo_best (cur : nat) (i : I) : M (num N * nat * option nat) :=
    n <-- mget cur;
    kids <-- mtables (nd_children n);
    mamb (fun x => two_best_children C rng x (nd_sum n) kids i).

  (** node.get_best_operation(instance, best1, best2, best1_cu) *)
  Definition mbest_op (cur : nat) (i : I) (b1 : nat) (b2 : option nat)
      (cu : num N) : M (num N * op) :=
    n <-- mget cur;
    kids <-- mtables (nd_children n);
    n1 <-- mget b1;
    b1kids <-- mtables (nd_children n1);
    o2 <-- match b2 with
          | None => mret None
          | Some b2 => n2 <-- mget b2; mret (Some (b2, nd_sum n2))
          end;
    mamb (fun x => get_best_operation C rng x (nd_sum n) kids i
                     (b1, nd_sum n1) o2 b1kids cu all_ops).

  (** The loop of CobwebTree.cobweb, cobweb.py:152-202. *)
  Fixpoint mcobweb (fuel : nat) (cur : nat) (i : I) : M nat :=
    match fuel with
    | O => mraise OutOfFuel
    | S fuel =>
      n <-- mget cur;
      match nd_children n with
      | [] =>
        ex <-- (fun s => (nc_exact C (nd_sum n) i, s));
        if ex || (nc_count C (nd_sum n) =? 0)%nat
        then mincrement cur i ;;! mret cur
        else mfringe_split cur i
      | _ =>
        b <-- mtwo_best cur i;
        let '(cu, b1, b2) := b in
        o <-- mbest_op cur i b1 b2 cu;
        match snd o with
        | OpBest => mincrement cur i ;;! mcobweb fuel b1 i
        | OpNew => mincrement cur i ;;! mcreate_new_child cur i
        | OpMerge =>
          match b2 with
          | Some b2 => mincrement cur i ;;!
                       m <-- mmerge cur b1 b2; mcobweb fuel m i
          | None => mraise OtherException
          end
        | OpSplit => msplit cur b1 ;;! mcobweb fuel cur i
        end
      end
    end.

  Definition mheap_size : M nat := fun s => (Ok (size (st_heap s)), s).
  Definition mroot : M nat := fun s => (Ok (st_root s), s).
  Definition mpre (i : I) : M unit :=
    fun s => (Ok tt, St (st_heap s) (st_root s) (st_amb s) (nc_pre C (st_ctx s) i)).

  (** CobwebTree.cobweb (cobweb.py:115-202), Cobweb3Tree.cobweb
      (cobweb3.py:107-113).  The loop bound is the number of allocated nodes
      plus one. *)
  Definition cobweb (i : I) : M nat :=
    mpre i ;;!
    r <-- mroot;
    k <-- mheap_size;
    mcobweb (S k) r i.

  (** _cobweb_categorize, cobweb.py:204-217 *)
  Fixpoint mcategorize (fuel : nat) (cur : nat) (i : I) : M nat :=
    match fuel with
    | O => mraise OutOfFuel
    | S fuel =>
      n <-- mget cur;
      match nd_children n with
      | [] => mret cur
      | _ =>
        b <-- mtwo_best cur i;
        let '(_, b1, _) := b in mcategorize fuel b1 i
      end
    end.

  Definition cobweb_categorize (i : I) : M nat :=
    r <-- mroot;
    k <-- mheap_size;
    mcategorize (S k) r i.

  (** CobwebTree.__init__ / clear, cobweb.py:24-36: a new root node. *)
  Definition mclear (x0 : nc_ctx C) : M unit :=
    new <-- mgensym;
    mput new (Node (nc_empty C) None []) ;;!
    mset_root new ;;!
    (fun s => (Ok tt, St (st_heap s) (st_root s) (st_amb s) x0)).

  (** A newly constructed tree when the class counter stands at [ctr] and
      [rpos] random numbers have been consumed. *)
  Definition fresh (ctr rpos : nat) (x0 : nc_ctx C) : st :=
    St {[ S ctr := Node (nc_empty C) None [] ]} (S ctr) (Amb (S ctr) rpos) x0.
End Heap.

Global Arguments Node {N C}. Global Arguments nd_sum {N C}.
Global Arguments nd_parent {N C}. Global Arguments nd_children {N C}.
Global Arguments St {N C}. Global Arguments st_heap {N C}.
Global Arguments st_root {N C}. Global Arguments st_amb {N C}.
Global Arguments st_ctx {N C}.
