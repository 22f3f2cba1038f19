(** * depth_labels: the paths from the root. *)
From stdpp Require Import base decidable list gmap strings.
From Verif Require Import Base Num TreeModel TreeFun TreeScore TreeRefine TreeSorts TreeInv
  SpecTree SpecCluster TreeState TreeLeaf Nominal Utils Query QueryLinks Cluster ClusterFacts.
Set Default Proof Using "Type".
Open Scope list_scope.

Section Depth.
  Context {N : NumOps} (C : NodeClass N).
  Notation tree := (tree C).
  Notation st := (st C).

  Lemma mpath_ok (s : st) t u n : state_ok C s t -> subd C t u n -> forall fuel, n < fuel ->
    exists p, mpath C fuel (tid u) s = (Ok p, s) /\ length p = S n /\ rev p !! n = Some (tid u) /\
      forall k, k <= n -> exists v, rev p !! k = Some (tid v) /\ subd C t v k /\ sub C u v.
  Proof.
    intros Hok Hu. induction Hu as [|v w n Hv IH Hw]; intros [|fuel] Hf; try lia; cbn [mpath].
    - destruct (root_parent C s t Hok) as (nd & Hn & Hp). rewrite (so_root _ _ _ Hok) in Hn.
      rewrite (mbind_ok C _ _ _ _ _ (mget_ok C _ s nd Hn)), Hp. exists [tid t]. split; [done|]. split; [done|]. split; [done|].
      intros k Hk. assert (k = 0) as -> by lia. exists t. split; [done|]. split; [constructor|apply sub_refl].
    - destruct (sub_parent C s t v w Hok (subd_sub _ _ _ _ Hv) Hw) as (nd & Hn & Hp).
      rewrite (mbind_ok C _ _ _ _ _ (mget_ok C _ s nd Hn)), Hp. destruct (IH fuel) as (p & E & Hl & Hh & Hk); [lia|].
      rewrite (mbind_ok C _ _ _ _ _ E). exists (tid w :: p). split; [done|]. cbn [length rev].
      assert (Hlen : length (rev p) = S n) by (by rewrite rev_length).
      split; [lia|]. split; [rewrite lookup_app_r by lia; by rewrite Hlen, Nat.sub_diag|].
      intros k Hkn. destruct (decide (k = S n)) as [->|Hne].
      + exists w. rewrite lookup_app_r by lia. rewrite Hlen, Nat.sub_diag. split; [done|]. split; [by eapply subd_kid|apply sub_refl].
      + destruct (Hk k) as (x & Hx & Hd & Hs); [lia|]. exists x. rewrite lookup_app_l by lia. split; [done|]. split; [done|].
        eapply sub_trans; [|exact Hs]. destruct v. eapply sub_kid; [done|apply sub_refl].
  Qed.

  (** [p] leads from the leaf [j] to the root. *)
  Definition is_path (s : st) (t : tree) (j : nat) (p : list nat) : Prop :=
    exists n tb, subd C t (T j tb []) n /\ length p = S n /\ rev p !! n = Some j /\
      forall k, k <= n -> exists v, rev p !! k = Some (tid v) /\ subd C t v k /\ sub C (T j tb []) v.

  Lemma paths_ok (s : st) t temp : state_ok C s t -> Forall (leaf_in C t) temp ->
    exists ps, mmapM C (path C) temp s = (Ok ps, s) /\ Forall2 (is_path s t) temp ps.
  Proof.
    intros Hok. induction 1 as [|j l (tb & Hj) Hl (ps & E & IH)]; [by exists []|]. cbn [mmapM].
    destruct (sub_subd C _ _ Hj) as (n & Hn).
    destruct (mpath_ok s t _ n Hok Hn (S (size (st_heap s)))) as (p & Ep & H1 & H2 & H3).
    { pose proof (subd_size _ _ _ _ Hn). pose proof (tsize_heap C _ _ _ (so_rep _ _ _ Hok) (so_nodup _ _ _ Hok)). lia. }
    exists (p :: ps). split; [|constructor; [by exists n, tb|done]].
    assert (Epath : path C j s = (Ok p, s)) by exact Ep.
    rewrite (mbind_ok C _ _ _ _ _ Epath), (mbind_ok C _ _ _ _ _ E). done.
  Qed.

  Lemma max_len_ge l : (forall p, p ∈ l -> length p <= max_len l) /\ (l <> [] -> exists p, p ∈ l /\ length p = max_len l).
  Proof.
    unfold max_len.
    assert (G : forall m, (forall p, p ∈ l -> length p <= foldl (fun (m : nat) f => if (m <? length f)%nat then length f else m) m l) /\
      m <= foldl (fun (m : nat) f => if (m <? length f)%nat then length f else m) m l /\
      (foldl (fun (m : nat) f => if (m <? length f)%nat then length f else m) m l = m \/
       exists p, p ∈ l /\ length p = foldl (fun (m : nat) f => if (m <? length f)%nat then length f else m) m l)).
    { induction l as [|f l IH]; intros m; simpl; [split; [intros p Hp; by apply elem_of_nil in Hp|auto]|].
      destruct (IH (if (m <? length f)%nat then length f else m)) as (G1 & G2 & G3).
      assert (length f <= (if (m <? length f)%nat then length f else m) /\ m <= (if (m <? length f)%nat then length f else m)) as [H1 H2].
      { destruct (Nat.ltb_spec m (length f)); lia. }
      split; [|split; [lia|]].
      - intros p [->|Hp]%elem_of_cons; [lia|by apply G1].
      - destruct G3 as [G3|(p & Hp & G3)]; [|right; exists p; split; [by right|done]].
        rewrite G3. destruct (Nat.ltb_spec m (length f)); [right; exists f; split; [left|done]|by left]. }
    destruct (G 0) as (G1 & _ & G3). split; [done|]. intros Hne. destruct G3 as [G3|G3]; [|done].
    destruct l as [|f l]; [done|]. exists f. split; [left|]. specialize (G1 f ltac:(left)). rewrite G3 in G1 |- *. lia.
  Qed.

  Lemma repeat_lookup {X} (x : X) n k : k < n -> repeat x n !! k = Some x.
  Proof. revert k. induction n as [|n IH]; intros [|k] Hk; simpl; try lia; [done|]. apply IH. lia. Qed.

  Lemma padded_lookup maxd p n j : length p = S n -> rev p !! n = Some j -> S n <= maxd ->
    length (padded maxd p) = maxd /\ forall d, d < maxd -> padded maxd p !! d = rev p !! (Nat.min d n).
  Proof.
    intros Hl Hj Hm. unfold padded. assert (Hr : length (rev p) = S n) by (by rewrite rev_length).
    assert (Hlast : last (rev p) = Some j) by (rewrite last_lookup, Hr; done). rewrite Hlast.
    split; [rewrite app_length, repeat_length; lia|]. intros d Hd. destruct (decide (d <= n)) as [H|H].
    - rewrite lookup_app_l by lia. f_equal. lia.
    - rewrite lookup_app_r by lia. rewrite (Nat.min_r d n) by lia. rewrite Hj.
      apply repeat_lookup. lia.
  Qed.

  Lemma rmapM_all {A B} (f : A -> res B) (g : A -> B) l : (forall a, a ∈ l -> f a = Ok (g a)) -> rmapM f l = Ok (map g l).
  Proof.
    induction l as [|a l IH]; intros H; [done|]. simpl. rewrite (H a) by left. simpl.
    rewrite IH; [done|]. intros x Hx. apply H. by right.
  Qed.

  (** A table with all rows of the same length, transposed. *)
  Lemma rows_ok l m : l <> [] -> Forall (fun f => length f = m) l ->
    rows l = Ok (map (fun d => map (fun g => default 0 (g !! d)) l) (seq 0 m)).
  Proof.
    intros Hne Hl. unfold rows. destruct l as [|f l]; [done|]. assert (length f = m) as -> by (by inversion Hl).
    apply rmapM_all. intros d Hd. apply elem_of_seq in Hd. apply rmapM_all. intros g Hg.
    rewrite Forall_forall in Hl. specialize (Hl g Hg).
    destruct (g !! d) eqn:E; [done|]. apply lookup_ge_None in E. lia.
  Qed.
End Depth.
