(** * Model of concept_formation/cluster.py

    A concept is its id; the label "Concept" + str(concept_id) and the node
    stand for the same id, so the flag [labels] has no counterpart.
    [copy.deepcopy(tree)] copies the heap: the functions below work on a state
    of their own, and [cluster_iter] tells what becomes of the caller's. *)
From stdpp Require Import base decidable list gmap strings.
From Verif Require Import Base Num TreeModel SpecTree Nominal Utils Query.
Set Default Proof Using "Type".
Open Scope list_scope.

Section Cluster.
  Context {N : NumOps} (C : NodeClass N) (rng : nat -> num N).
  Notation F := (num N).
  Notation I := (nc_inst C).
  (** Iteration over [set(list_of_nodes)]. *)
  Context (setord : list nat -> list nat).
  Notation "x <-- m ; k" := (mbind C m (fun x => k))
    (at level 100, m at next level, right associativity).
  Notation "m ;;! k" := (mbind C m (fun _ => k))
    (at level 100, right associativity).

  Fixpoint mmapM {X Y} (f : X -> M C Y) (l : list X) : M C (list Y) :=
    match l with
    | [] => mret C []
    | x :: l => y <-- f x; ys <-- mmapM f l; mret C (y :: ys)
    end.

  (** [tree.ifit(instance)] or [tree.categorize(instance)] (117-120, 422-425) *)
  Definition sort_in (mod_ : bool) (i : I) : M C nat :=
    if mod_ then cobweb C rng i else cobweb_categorize C rng i.

  (** ** depth_labels (91-149) *)
  (** The labels from a concept up to the root (124-134).  Nodes are always
      true in Python. *)
  Fixpoint mpath (fuel : nat) (c : nat) : M C (list nat) :=
    match fuel with
    | O => mraise C OutOfFuel
    | S fuel =>
        n <-- mget C c;
        match nd_parent n with
        | None => mret C [c]
        | Some p => l <-- mpath fuel p; mret C (c :: l)
        end
    end.
  Definition path (c : nat) : M C (list nat) := k <-- mheap_size C; mpath (S k) c.
  (** [f.reverse()], then the last label is repeated (136-140). *)
  Definition padded (maxd : nat) (labs : list nat) : list nat :=
    let f := rev labs in
    f ++ match last f with Some x => repeat x (maxd - length f) | None => [] end.
  (** [max_depth] (123, 133-134) *)
  Definition max_len (l : list (list nat)) : nat := foldl (fun (m : nat) f => if (m <? length f)%nat then length f else m) 0 l.
  (** The rows (142-149); [instance_labels[0]] raises IndexError for no
      instances. *)
  Definition rows (l : list (list nat)) : res (list (list nat)) :=
    match l with
    | [] => Err IndexError
    | f :: _ => rmapM (fun d => rmapM (fun g => match g !! d with Some x => Ok x | None => Err IndexError end) l)
                  (seq 0 (length f))
    end.
  Definition depth_labels (mod_ : bool) (instances : list I) : M C (list (list nat)) :=
    temp <-- mmapM (sort_in mod_) instances;
    paths <-- mmapM path temp;
    fun s => (rows (map (padded (max_len paths)) paths), s).

  (** ** cluster_iter (398-467) *)
  (** [while (c.parent and c.parent.parent): child = c; c = c.parent]
      (435-437) *)
  Fixpoint mtop (fuel : nat) (c : nat) (child : option nat) : M C (nat * option nat) :=
    match fuel with
    | O => mraise C OutOfFuel
    | S fuel =>
        n <-- mget C c;
        match nd_parent n with
        | None => mret C (c, child)
        | Some p =>
            np <-- mget C p;
            match nd_parent np with
            | None => mret C (c, child)
            | Some _ => mtop fuel p (Some c)
            end
        end
    end.
  (** [cluster_assign] and [child_cluster_assign] (430-443) *)
  Definition assign (temp : list nat) : M C (list (nat * option nat)) :=
    mmapM (fun c => k <-- mheap_size C; mtop (S k) c None) temp.

  (** A heuristic is called with a list of concepts and the list of leaves. *)
  Variable heur : list nat -> list nat -> M C F.

  (** One round of the loop over [set(cluster_assign)] (448-453).  A None among
      the labels makes every heuristic raise AttributeError. *)
  Definition try_split (asg : list (nat * option nat)) (temp : list nat) (target : nat) : M C (list (F * nat)) :=
    n <-- mget C target;
    match nd_children n with
    | [] => mret C []
    | _ =>
        match mapM (fun a => if decide (fst a = target) then snd a else Some (fst a)) asg with
        | None => mraise C AttributeError
        | Some c_labels => h <-- heur c_labels temp; mret C [(h, target)]
        end
    end.
  (** [sorted(split_cus)[0][2]] (455-463): tuples (h, i, target) with different
      [i], given in the order of [i].  (With NaNs, sorted could put another one
      first.) *)
  Definition least (c : F * nat) (l : list (F * nat)) : F * nat :=
    foldl (fun b x => if nltb N (fst x) (fst b) then x else b) c l.

  (** The loop (427-467), [n] rounds from the [nth] one: the pairs that it
      yields, how it ends, and the state. *)
  Fixpoint cl_loop (n nth minsplit : nat) (temp : list nat) (s : st C)
      : list (list nat * F) * res unit * st C :=
    match n with
    | O => ([], Ok tt, s)
    | S n =>
        let first := (minsplit <=? nth)%nat in
        let '(r, s1) := (if first then assign temp else mret C []) s in
        match r with
        | Err e => ([], Err e, s1)
        | Ok asg =>
            let '(r, s2) := (if first then h <-- heur (map fst asg) temp; mret C [(map fst asg, h)] else mret C []) s1 in
            match r with
            | Err e => ([], Err e, s2)
            | Ok y =>
                let '(r, s3) := mmapM (try_split asg temp) (setord (map fst asg)) s2 in
                match r with
                | Err e => (y, Err e, s3)
                | Ok cus =>
                    match concat cus with
                    | [] => (y, Ok tt, s3)
                    | c :: l =>
                        let '(r, s4) := (rt <-- mroot C; msplit C rt (snd (least c l))) s3 in
                        match r with
                        | Err e => (y, Err e, s4)
                        | Ok _ => let '(ys, r, s5) := cl_loop n (S nth) minsplit temp s4 in (y ++ ys, r, s5)
                        end
                    end
                end
            end
        end
    end.

  (** The checks (404-409) and the start (421-425).  (Naming a heuristic by a
      string, 410-420, is not modelled.)  The last component is the caller's
      tree: only the class counter and the random generator have moved. *)
  Definition cluster_iter (minsplit maxsplit : nat) (mod_ : bool) (instances : list I) (s : st C)
      : list (list nat * F) * res unit * st C :=
    if (minsplit <? 1)%nat then ([], Err ValueError, s)
    else if (maxsplit <? minsplit)%nat then ([], Err ValueError, s)
    else match instances with
    | [] => ([], Err ValueError, s)
    | _ =>
        let back s' := St (st_heap s) (st_root s) (st_amb s') (st_ctx s) in
        match mmapM (sort_in mod_) instances s with
        | (Err e, s1) => ([], Err e, back s1)
        | (Ok temp, s1) => let '(ys, r, s2) := cl_loop maxsplit 1 minsplit temp s1 in (ys, r, back s2)
        end
    end.

  (** The default of maxsplit (48-88 and 398-399). *)
  Definition max_rounds : nat := 100 * 1000.
  (** k_cluster (48-88).  The loop variable [c] is the pair (clusters, value);
      [set(c)] hashes the list [clusters]. *)
  Definition k_cluster (k : nat) (mod_ : bool) (instances : list I) (s : st C) : res (list nat) * st C :=
    if (k <? 2)%nat then (Err ValueError, s)
    else
      let '(ys, r, s') := cluster_iter 1 max_rounds mod_ instances s in
      match ys with
      | _ :: _ => (Err TypeError, s')
      | [] => (match r with Err e => Err e | Ok _ => Ok (map (fun _ => st_root s) instances) end, s')
      end.

  (** cluster_split_search (343-395); [finite h] is [h < float('inf')]. *)
  Definition cluster_split_search (finite : F -> bool) (minsplit maxsplit : nat) (mod_ : bool)
      (instances : list I) (s : st C) : res (list nat) * st C :=
    let '(ys, r, s') := cluster_iter minsplit maxsplit mod_ instances s in
    (match r with
     | Err e => Err e
     | Ok _ =>
         Ok (match foldl (fun (b : option (list nat * F)) y =>
                      match b with
                      | None => if finite (snd y) then Some y else None
                      | Some b' => if nltb N (snd y) (snd b') then Some y else b
                      end) None ys with
             | None => map (fun _ => st_root s) instances
             | Some y => fst y
             end)
     end, s').
End Cluster.

(** ** CU (152-187) *)
Section CU.
  Context {N : NumOps} (C : NodeClass N) (setord : list nat -> list nat).
  Notation F := (num N).
  Notation "x <-- m ; k" := (mbind C m (fun x => k))
    (at level 100, m at next level, right associativity).
  Notation "m ;;! k" := (mbind C m (fun _ => k))
    (at level 100, right associativity).
  Definition mlift {X} (r : res X) : M C X := fun s => (r, s).

  (** [for leaf in leaves: if c.is_parent(leaf): temp_child.update_counts_from_node(leaf)] *)
  Fixpoint collect (c : nat) (leaves : list nat) (t : nc_sum C) : M C (nc_sum C) :=
    match leaves with
    | [] => mret C t
    | l :: leaves =>
        b <-- is_parent C c l;
        if (b : bool) then n <-- mget C l; t <-- mlift (tadd C t (nd_sum n)); collect c leaves t
        else collect c leaves t
    end.
  Definition CU (clusters leaves : list nat) : M C F :=
    match clusters with
    | [] => mraise C IndexError
    | _ =>
        mamb C (fun _ => atemps 1) ;;!
        kids <-- mmapM C (fun c => mamb C (fun _ => atemps 1) ;;! collect c leaves (nc_empty C)) (setord clusters);
        root <-- mlift (rfold (tadd C) (nc_empty C) kids);
        u <-- mamb C (fun x => alift (category_utility C x root kids));
        mret C (nneg N u)
    end.
  (** [cluster] (16-45): the labels only. *)
  Definition cluster (rng : nat -> F) (minsplit maxsplit : nat) (mod_ : bool) (instances : list (nc_inst C))
      (s : st C) : list (list nat) * res unit * st C :=
    let '(ys, r, s') := cluster_iter C rng setord CU minsplit maxsplit mod_ instances s in
    (map fst ys, r, s').
End CU.
