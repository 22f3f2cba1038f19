(** * The information criteria of cluster.py (AICc 190-242, AIC 245-290,
      BIC 293-340) and the trees that cluster_iter hands to them. *)
From stdpp Require Import base decidable list gmap strings.
From Verif Require Import Base Num TreeModel TreeFun TreeScore TreeRefine TreeSorts TreeInv
  SpecTree SpecCluster TreeState TreeLeaf Nominal Utils Query QueryLinks CV Cobweb3 Query3 Cluster ClusterFacts ClusterLoop ClusterCU.
Set Default Proof Using "Type".
Open Scope list_scope.

(** What the criteria use of a concept: [log_likelihood(leaf)], and what one
    concept adds to [k] (225-231, 279-285, 329-335). *)
Record NodeInfo {N : NumOps} (C : NodeClass N) := {
  ni_ll : nc_ctx C -> nc_sum C -> nc_sum C -> res (num N);
  ni_params : nc_sum C -> nat;
}.
Global Arguments ni_ll {N C}. Global Arguments ni_params {N C}.

(** [for attr in conc.attrs(): for val in conc.av_counts[attr]: k += 2 if val
    == cv_key else 1]; attrs() gives the visible attributes (cobweb.py:329-343). *)
Definition params_of {V} (av : list (attr * list (nom * V))) : nat :=
  sumn (map (fun p => if visible (fst p)
                      then sumn (map (fun q => if decide (fst q = cv_key) then 2 else 1) (snd p)) else 0) av).

(** [ord]: the orders in which log_likelihood visits its two sets. *)
Definition CobwebInfo (N : NumOps) (ord : nsum -> nsum -> list attr * (attr -> list (option nom))) : NodeInfo (CobwebClass N) :=
  Build_NodeInfo N (CobwebClass N)
    (fun _ (s leaf : nsum) => log_likelihood (N:=N) (fst (ord s leaf)) (snd (ord s leaf)) s leaf)
    (fun s : nsum => params_of (ns_av s)).
Definition Cobweb3Info (N : NumOps) (ord : nsum3 N -> nsum3 N -> list attr * (attr -> list (option nom))) : NodeInfo (Cobweb3Class N) :=
  Build_NodeInfo N (Cobweb3Class N)
    (fun x (s leaf : nsum3 N) => log_likelihood3 x (fst (ord s leaf)) (snd (ord s leaf)) s leaf)
    (fun s : nsum3 N => params_of (n3_av s)).

Section Info.
  Context {N : NumOps} (C : NodeClass N) (ni : NodeInfo C) (setord : list nat -> list nat).
  Notation F := (num N).
  Notation "x <-- m ; k" := (mbind C m (fun x => k))
    (at level 100, m at next level, right associativity).

  (** [for i, conc in enumerate(clusters): ll += conc.log_likelihood(leaves[i])] *)
  Fixpoint ll_sum (clusters leaves : list nat) (ll : F) : M C F :=
    match clusters with
    | [] => mret C ll
    | c :: cs =>
        match leaves with
        | [] => mraise C IndexError
        | l :: ls =>
            nc <-- mget C c; nl <-- mget C l;
            x <-- mamb C (fun x => alift (ni_ll ni x (nd_sum nc) (nd_sum nl)));
            ll_sum cs ls (nadd N ll x)
        end
    end.
  (** [for conc in set(clusters): ...] *)
  Definition params (clusters : list nat) : M C nat :=
    ks <-- mmapM C (fun c => n <-- mget C c; mret C (ni_params ni (nd_sum n))) (setord clusters);
    mret C (sumn ks).

  (** AIC, 245-290 *)
  Definition AIC (clusters leaves : list nat) : M C F :=
    ll <-- ll_sum clusters leaves (nofnat N 0);
    k <-- params clusters;
    mret C (nsub N (nofnat N (2 * k)) (nmul N (nofnat N 2) ll)).
  (** AICc, 190-242; [inf] is [float('inf')].  All of [n], [k] are integers. *)
  Definition AICc (inf : F) (clusters leaves : list nat) : M C F :=
    ll <-- ll_sum clusters leaves (nofnat N 0);
    k <-- params clusters;
    let n := length leaves in
    if (n <=? k + 1)%nat then mret C inf
    else
      q <-- mlift C (pydiv N (nofnat N (2 * k * (k + 1))) (nofnat N (n - k - 1)));
      mret C (nadd N (nsub N (nofnat N (2 * k)) (nmul N (nofnat N 2) ll)) q).
  (** BIC, 293-340; [log(0)] raises ValueError. *)
  Definition BIC (clusters leaves : list nat) : M C F :=
    ll <-- ll_sum clusters leaves (nofnat N 0);
    k <-- params clusters;
    l <-- mlift C (pylog N (nofnat N (length leaves)));
    mret C (nadd N (nmul N (nneg N (nofnat N 2)) ll) (nmul N (nofnat N k) l)).

  (** ** They only read the tree *)
  Lemma reads_ll_sum clusters : forall leaves ll, reads C (ll_sum clusters leaves ll).
  Proof.
    induction clusters as [|c cs IH]; intros leaves ll; simpl; [apply reads_ret|].
    destruct leaves as [|l ls]; [apply reads_raise|].
    apply reads_bind; [apply reads_get|]. intros nc. apply reads_bind; [apply reads_get|]. intros nl.
    apply reads_bind; [|intros; apply IH]. apply reads_amb. intros x. apply amono_lift.
  Qed.
  Lemma reads_params clusters : reads C (params clusters).
  Proof.
    apply reads_bind; [|intros; apply reads_ret]. apply reads_mapM. intros c.
    apply reads_bind; [apply reads_get|]. intros; apply reads_ret.
  Qed.
  Theorem AIC_reads : reads_only C AIC.
  Proof.
    intros cl leaves. change (reads C (AIC cl leaves)). apply reads_bind; [apply reads_ll_sum|]. intros ll.
    apply reads_bind; [apply reads_params|]. intros; apply reads_ret.
  Qed.
  Theorem AICc_reads inf : reads_only C (AICc inf).
  Proof.
    intros cl leaves. change (reads C (AICc inf cl leaves)). apply reads_bind; [apply reads_ll_sum|]. intros ll.
    apply reads_bind; [apply reads_params|]. intros k. cbv zeta. destruct (_ <=? _)%nat; [apply reads_ret|].
    apply reads_bind; [apply reads_lift|]. intros; apply reads_ret.
  Qed.
  Theorem BIC_reads : reads_only C BIC.
  Proof.
    intros cl leaves. change (reads C (BIC cl leaves)). apply reads_bind; [apply reads_ll_sum|]. intros ll.
    apply reads_bind; [apply reads_params|]. intros k. apply reads_bind; [apply reads_lift|]. intros; apply reads_ret.
  Qed.

  (** ** Their steps *)
  (** [x] is what log_likelihood says for a cluster and the leaf. *)
  Definition ll_of (s : st C) (p : nat * nat) (x : F) : Prop :=
    exists tl tb, table_of s (fst p) tl /\ table_of s (snd p) tb /\ ni_ll ni (st_ctx s) tb tl = Ok x.
  Lemma ll_sum_value s clusters : forall leaves xs ll, length leaves = length clusters ->
    Forall2 (ll_of s) (zip leaves clusters) xs ->
    ll_sum clusters leaves ll s = (Ok (foldl (nadd N) ll xs), s).
  Proof.
    induction clusters as [|c cs IH]; intros [|l ls] xs ll Hlen HF; try done; [by inversion HF|].
    apply Forall2_cons_inv_l in HF as (x & xs' & (tl & tb & (nl & Hl & El) & (nc & Hc & Ec) & Ex) & HF & ->). cbn [fst snd] in *.
    cbn [ll_sum]. rewrite (mbind_ok C _ _ _ _ _ (mget_ok C _ s nc Hc)), (mbind_ok C _ _ _ _ _ (mget_ok C _ s nl Hl)).
    unfold mbind at 1, mamb at 1, alift at 1. rewrite Ec, El, Ex.
    assert (Es : St (st_heap s) (st_root s) (st_amb s) (st_ctx s) = s) by (by destruct s).
    rewrite Es. cbn [foldl]. apply IH; [simpl in Hlen; lia|done].
  Qed.
  Lemma params_value s clusters ks :
    Forall2 (fun c k => exists tb, table_of s c tb /\ k = ni_params ni tb) (setord clusters) ks ->
    params clusters s = (Ok (sumn ks), s).
  Proof.
    intros HF. unfold params.
    assert (E : mmapM C (fun c => n <-- mget C c; mret C (ni_params ni (nd_sum n))) (setord clusters) s = (Ok ks, s)).
    { induction HF as [|c k cs ks (tb & (n & Hn & En) & ->) HF IH]; [done|]. cbn [mmapM].
      unfold mbind at 1. rewrite (mbind_ok C _ _ _ _ _ (mget_ok C _ s n Hn)). unfold mret at 1.
      rewrite (mbind_ok C _ _ _ _ _ IH), En. done. }
    by rewrite (mbind_ok C _ _ _ _ _ E).
  Qed.
  Lemma table_of_amb (s : st C) a id tb : table_of (St (st_heap s) (st_root s) a (st_ctx s)) id tb <-> table_of s id tb.
  Proof. done. Qed.
End Info.

(** ** Splits only remove concepts *)
Section Back.
  Context {N : NumOps} (C : NodeClass N).
  Notation tree := (tree C).
  Notation st := (st C).

  Lemma split_from_sub s0 t0 s : state_ok C s0 t0 -> split_from C s0 s ->
    st_ctx s = st_ctx s0 /\ exists t, state_ok C s t /\ tid t = tid t0 /\ tsum t = tsum t0 /\
      forall k, k ∈ tkids t -> exists k0, k0 ∈ tkids t0 /\ sub C k k0.
  Proof.
    intros Hok Hs. induction Hs as [|s a Hs (IHx & t & Ht & IH) Ha|s x s' Hs (IHx & t & Ht & E1 & E2 & IH) Hx E].
    - split; [done|]. exists t0. split; [done|]. split; [done|]. split; [done|]. intros k Hk. exists k. split; [done|]. apply sub_refl.
    - split; [done|]. exists t. split; [|done]. by apply state_ok_amb.
    - destruct Hx as (l & Hl & Hx). rewrite (so_root _ _ _ Ht) in Hl.
      rewrite (children_of_det _ _ _ _ _ Hl (sub_children C s t t Ht (sub_refl _ _))) in Hx.
      apply elem_of_list_fmap in Hx as (k & -> & Hk).
      destruct (split_spec C s t k Ht Hk) as (s1 & E3 & Hok1 & _ & Ex). unfold mbind, mroot in E3. rewrite E3 in E. injection E as <-.
      split; [congruence|]. exists (split_tree C t k). split; [done|]. split; [done|]. split; [done|].
      intros k' Hk'. apply (split_kids C t k k' (so_nodup _ _ _ Ht) Hk) in Hk' as [[Hk' _]|Hk']; [by apply IH|].
      destruct (IH k Hk) as (k0 & Hk0 & Hsub). exists k0. split; [done|]. eapply sub_trans; [|exact Hsub].
      destruct k as [i1 s1' ks]. eapply sub_kid; [exact Hk'|apply sub_refl].
  Qed.

  (** What is below a concept, and what it has counted, was so before. *)
  Lemma split_from_back s0 t0 s a b : state_ok C s0 t0 -> split_from C s0 s -> in_tree s a -> desc s a b ->
    in_tree s0 a /\ desc s0 a b /\ exists tb, table_of s a tb /\ table_of s0 a tb.
  Proof.
    intros Hok Hs Ha Hd. destruct (split_from_sub s0 t0 s Hok Hs) as (_ & t & Ht & E1 & E2 & Hk).
    destruct (proj1 (in_tree_sub C s t a Ht) Ha) as (v & Hv & <-).
    destruct (desc_sub C s t v b Ht Hv Hd) as (w & Hw & <-).
    pose proof (sub_table C s t v Ht Hv) as Htb.
    assert (Hsubk : forall u, sub C u t -> u = t \/ exists k0, k0 ∈ tkids t0 /\ sub C u k0).
    { intros u Hu. destruct t as [i1 s1 ks]. apply sub_inv in Hu as [->|(k & Hk1 & Hu)]; [by left|]. right.
      destruct (Hk k Hk1) as (k0 & Hk0 & Hsub). exists k0. split; [done|]. by eapply sub_trans. }
    assert (Hin0 : forall u k0, k0 ∈ tkids t0 -> sub C u k0 -> sub C u t0).
    { intros u k0 Hk0 Hu. destruct t0 as [i1 s1 ks]. by eapply sub_kid. }
    assert (Hdesc : forall u u', sub C u t0 -> sub C u' u -> desc s0 (tid u) (tid u')).
    { intros u u' Hu Hu'. by apply (sub_desc C s0 t0). }
    destruct (Hsubk v Hv) as [->|(k0 & Hk0 & Hvk)].
    - rewrite E1. split; [unfold in_tree; rewrite (so_root _ _ _ Hok); constructor|]. split.
      + destruct (Hsubk w Hw) as [->|(k0 & Hk0 & Hwk)]; [rewrite E1; constructor|].
        apply Hdesc; [apply sub_refl|]. by eapply Hin0.
      + exists (tsum t). rewrite <- E1 at 1. split; [done|]. rewrite E2. apply (sub_table C s0 t0 t0 Hok). apply sub_refl.
    - assert (Hv0 : sub C v t0) by (by eapply Hin0). split; [apply (in_tree_sub C s0 t0 _ Hok); eauto|].
      split; [by apply Hdesc|]. exists (tsum v). split; [done|]. by apply (sub_table C s0 t0 v Hok).
  Qed.
  Lemma split_from_table s0 t0 s a tb : state_ok C s0 t0 -> split_from C s0 s -> in_tree s a -> table_of s a tb -> table_of s0 a tb.
  Proof.
    intros Hok Hs Ha Htb. destruct (split_from_back s0 t0 s a a Hok Hs Ha ltac:(constructor)) as (_ & _ & tb' & H1 & H2).
    by rewrite (table_of_det _ _ _ _ _ Htb H1).
  Qed.
End Back.
