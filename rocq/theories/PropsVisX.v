(** * C58 on a concrete tree of doubles: clusters given as nodes. *)
From stdpp Require Import base decidable list gmap strings pretty.
From Coq Require Import Floats.
From Verif Require Import Base Num FloatNum TreeModel SpecTree Nominal Example Vis PropsVis.
Set Default Proof Using "Type".
Open Scope list_scope.
Notation CX := (CobwebClass FloatOps).

Fixpoint shape {S} (j : json S) : list (nat * list nat) :=
  match j with J id _ kids => (id, map jid kids) :: concat (map shape kids) end.
Definition vx_shape (m : M CX (json (nc_sum CX))) : res (list (nat * list nat)) :=
  match fst (m ex_state) with Ok j => Ok (shape j) | Err e => Err e end.
Definition vx_kids (id : nat) : option (list nat) := nd_children <$> st_heap ex_state !! id.


(** The tree: 2 above 1, 11, 20; 11 above 3, 12. *)
Lemma ex_C58_whole : vx_shape (output_json CX 2) =
  Ok [(2, [1; 11; 20]); (1, []); (11, [3; 12]); (3, []); (12, []); (20, [])].
Proof. vm_compute. reflexivity. Qed.
Lemma ex_C58_one_cut : vx_shape (visualize_no_leaves CX 1) = Ok [(2, [11]); (11, [])].
Proof. vm_compute. reflexivity. Qed.
Lemma ex_C58_two_cuts : vx_shape (visualize_no_leaves CX 2) = Ok [(2, [])].
Proof. vm_compute. reflexivity. Qed.
Lemma ex_C58_labels : vx_shape (visualize_clusters CX [CLabel "Concept1"; CLabel "Concept11"; CLabel "Concept20"]) =
  Ok [(2, [1; 11; 20]); (1, []); (11, []); (20, [])].
Proof. vm_compute. reflexivity. Qed.
Lemma ex_C58_nodes : vx_shape (visualize_clusters CX (map CNode [1; 11; 20])) =
  Ok [(2, [1; 11; 20]); (1, []); (11, [3; 12]); (3, []); (12, []); (20, [])].
Proof. vm_compute. reflexivity. Qed.

Lemma vx_root : st_root ex_state = 2.
Proof. vm_compute. reflexivity. Qed.
Lemma vx_kids_2 : vx_kids 2 = Some [1; 11; 20].
Proof. vm_compute. reflexivity. Qed.
Lemma vx_kids_11 : vx_kids 11 = Some [3; 12].
Proof. vm_compute. reflexivity. Qed.
Lemma vx_children id l : vx_kids id = Some l -> children_of ex_state id l.
Proof.
  unfold vx_kids. intros H. apply fmap_Some in H as (n & Hn & ->). exists n. split; [exact Hn|reflexivity].
Qed.
Lemma vx_child id l c : vx_kids id = Some l -> child_of ex_state id c -> c ∈ l.
Proof.
  intros H (l' & (n & Hn & <-) & Hc). unfold vx_kids in H. rewrite Hn in H. injection H as <-. exact Hc.
Qed.
Lemma vx_kept id : kept ex_state (fun i => CNode i ∈ map CNode [1; 11; 20]) id -> id ∈ [2; 1; 11; 20].
Proof.
  induction 1 as [|p c Hp IH Hn Hc].
  - rewrite vx_root. left.
  - apply elem_of_cons in IH as [->|IH].
    + right. exact (vx_child 2 _ c vx_kids_2 Hc).
    + exfalso. apply Hn. apply elem_of_list_fmap. exists p. split; [reflexivity|exact IH].
Qed.
Lemma vx_in_3 : in_tree ex_state 3.
Proof.
  unfold in_tree. rewrite vx_root. apply (desc_child CX ex_state 2 11).
  - apply (desc_child CX ex_state 2 2); [apply desc_refl|]. exists [1; 11; 20]. split; [exact (vx_children _ _ vx_kids_2)|]. right. left.
  - exists [3; 12]. split; [exact (vx_children _ _ vx_kids_11)|]. left.
Qed.

(** C58: "the exported tree stops at the given concepts" fails for nodes. *)
Theorem C58_nodes_refuted : exists evs s cl j,
  reachable CX ex_rng tt evs s /\ (forall id, CNode id ∈ cl -> in_tree s id) /\
  visualize_clusters CX cl s = (Ok j, s) /\
  ~ shows s (kept s (fun id => CNode id ∈ cl)) j.
Proof.
  destruct (C58_nodes_not_trimmed CX ex_rng tt ex_events ex_state 1 [11; 20] ex_reachable) as (j & Hj & Hs).
  exists ex_events, ex_state, (map CNode [1; 11; 20]), j. split; [exact ex_reachable|]. split; [|split; [exact Hj|]].
  - intros id Hid. apply elem_of_list_fmap in Hid as (x & [= ->] & Hx). unfold in_tree. rewrite vx_root.
    apply (desc_child CX ex_state 2 2); [apply desc_refl|]. exists [1; 11; 20]. split; [exact (vx_children _ _ vx_kids_2)|exact Hx].
  - intros Hk. pose proof (proj2 (sh_ids _ _ _ Hs 3) vx_in_3) as H3. apply (sh_ids _ _ _ Hk) in H3.
    apply vx_kept in H3. repeat (apply elem_of_cons in H3 as [H3|H3]; [discriminate H3|]). exact (not_elem_of_nil _ H3).
Qed.

Print Assumptions C58_nodes_refuted.
