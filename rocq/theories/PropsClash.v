(** * C48: what rename_flat (structure_mapper.py:73-103) does when two attributes
    get the same name. *)
From stdpp Require Import base decidable list strings.
From Coq Require Import String ZArith.
From Verif Require Import Base PyVal Preproc StructMap.
Set Default Proof Using "Type".
Open Scope string_scope.
Open Scope list_scope.

(** The name of an attribute after renaming, seen on an instance that has no
    other attribute. *)
Definition becomes (m : list (attr * attr)) (a k : attr) : Prop := rename_flat m [(a, tt)] = [(k, tt)].

Lemma becomes_name m a k : becomes m a k <-> flat_name m a = k.
Proof. unfold becomes, rename_flat. cbn. split; [by intros [= ->]|by intros ->]. Qed.

Lemma rename_flat_snoc {V} m (d : list (attr * V)) a v : rename_flat m (d ++ [(a, v)]) = dset (flat_name m a) v (rename_flat m d).
Proof. unfold rename_flat. by rewrite fold_left_app. Qed.

(** The value stored under a name is that of the last attribute that gets it;
    a name that no attribute gets is absent. *)
Theorem C48_last_attribute_wins {V} m (d : list (attr * V)) k v :
  dget k (rename_flat m d) = Some v <->
  exists pre a post, d = pre ++ (a, v) :: post /\ becomes m a k /\ forall b w, (b, w) ∈ post -> ~ becomes m b k.
Proof.
  induction d as [|[a w] d IH] using rev_ind.
  - split; [done|]. intros (pre & b & post & E & _). by destruct pre.
  - rewrite rename_flat_snoc, dget_dset. destruct (decide (k = flat_name m a)) as [->|Hk].
    + split.
      * intros [= ->]. exists d, a, []. split; [done|]. split; [by apply becomes_name|]. intros b x H. by apply elem_of_nil in H.
      * intros (pre & b & post & E & Hb & Hp). destruct post as [|e post _] using rev_ind.
        { by apply app_inj_tail in E as [_ [= _ ->]]. }
        exfalso. rewrite app_comm_cons, app_assoc in E. apply app_inj_tail in E as [_ <-].
        apply (Hp a w); [|by apply becomes_name]. apply elem_of_app. right. left.
    + rewrite IH. split.
      * intros (pre & b & post & -> & Hb & Hp). exists pre, b, (post ++ [(a, w)]). rewrite <- app_assoc. split; [done|]. split; [done|].
        intros c x H. apply elem_of_app in H as [H|H]; [by eapply Hp|]. apply elem_of_list_singleton in H. injection H as -> ->.
        intros H. apply becomes_name in H. by subst k.
      * intros (pre & b & post & E & Hb & Hp). destruct post as [|e post _] using rev_ind.
        { apply app_inj_tail in E as [_ E]. injection E as -> ->. apply becomes_name in Hb. by subst k. }
        rewrite app_comm_cons, app_assoc in E. apply app_inj_tail in E as [-> _].
        exists pre, b, post. split; [done|]. split; [done|]. intros c x H. apply (Hp c x). apply elem_of_app. by left.
Qed.

(** Two components mapped to one: the second colour replaces the first. *)
Lemma ex_last_attribute_wins :
  rename_flat [(AStr "?a", AStr "?o"); (AStr "?b", AStr "?o")]
    [(ATup [AStr "color"; AStr "?a"], 1); (ATup [AStr "color"; AStr "?b"], 2)] = [(ATup [AStr "color"; AStr "?o"], 2)].
Proof. vm_compute. done. Qed.
