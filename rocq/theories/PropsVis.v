(** * C57, C58: loading a data set; the exported tree and its trimming. *)
From stdpp Require Import base decidable list gmap strings pretty.
From Verif Require Import Base Num TreeModel TreeFun TreeScore TreeRefine TreeSorts TreeInv
  SpecTree TreeState Vis.
Set Default Proof Using "Type".

(** ** Specification *)

(** [u] is [j] or an object below it. *)
Inductive jsub {S} (u : json S) : json S -> Prop :=
| jsub_refl : jsub u u
| jsub_kid id tb kids k : k ∈ kids -> jsub u k -> jsub u (J id tb kids).

(** The exported object [j] shows exactly the concepts in [K], starting at the
    root, each with its own table, and under each concept its children that
    are in [K], in their order and once. *)
Record shows {N : NumOps} {C : NodeClass N} (s : st C) (K : nat -> Prop) (j : json (nc_sum C)) : Prop := {
  sh_root : jid j = st_root s;
  sh_ids : forall id, (exists u, jsub u j /\ jid u = id) <-> K id;
  sh_table : forall u, jsub u j -> table_of s (jid u) (jtb u);
  sh_kids : forall u, jsub u j -> exists l, children_of s (jid u) l /\
              map jid (jkids u) `sublist_of` l /\
              forall c, c ∈ l -> c ∈ map jid (jkids u) <-> K c;
}.

(** [n] child links lead down from [id]. *)
Inductive deep {N : NumOps} {C : NodeClass N} (s : st C) : nat -> nat -> Prop :=
| deep_0 id : deep s 0 id
| deep_S n id c : child_of s id c -> deep s n c -> deep s (S n) id.

(** Concepts reached from the root without going below one in [P]. *)
Inductive kept {N : NumOps} {C : NodeClass N} (s : st C) (P : nat -> Prop) : nat -> Prop :=
| kept_root : kept s P (st_root s)
| kept_child p c : kept s P p -> ~ P p -> child_of s p c -> kept s P c.

Section json_ind.
  Context {S : Type} (P : json S -> Prop)
    (H : forall id tb kids, Forall P kids -> P (J id tb kids)).
  Fixpoint json_ind' (j : json S) : P j :=
    match j with
    | J id tb kids => H id tb kids ((fix go (l : list (json S)) : Forall P l :=
        match l with [] => Forall_nil_2 P | k :: l => Forall_cons_2 P k l (json_ind' k) (go l) end) kids)
    end.
End json_ind.

Section Out.
  Context {N : NumOps} (C : NodeClass N).
  Notation tree := (tree C).
  Notation st := (st C).
  Notation json := (json (nc_sum C)).

  Fixpoint jt (t : tree) : json :=
    match t with T id sm kids => J id sm (map jt kids) end.

  Lemma moutput_sub (s : st) t u : state_ok C s t -> sub C u t ->
    forall fuel, tsize u <= fuel -> moutput_json C fuel (tid u) s = (Ok (jt u), s).
  Proof.
    intros Hok. induction u as [id sm kids IH] using (tree_ind' C). intros Hu [|fuel] Hf.
    { simpl in Hf. lia. }
    destruct (rep_sub _ _ _ _ _ (so_rep _ _ _ Hok) Hu) as (q & Hq & _).
    inversion Hq as [? ? ? ? Hl HF]; subst. cbn [moutput_json tid].
    rewrite (mbind_ok C _ _ _ _ _ (mget_ok C _ s _ Hl)). cbn [nd_children nd_sum].
    match goal with |- mbind C (?f _) _ _ = _ => set (go := f) end.
    assert (Hgo : forall ks, (forall k, k ∈ ks -> k ∈ kids) -> go (map tid ks) s = (Ok (map jt ks), s)).
    { induction ks as [|k ks IHk]; intros Hks; [done|].
      change (go (map tid (k :: ks))) with
        (mbind C (moutput_json C fuel (tid k)) (fun x => mbind C (go (map tid ks)) (fun y => mret C (x :: y)))).
      assert (Hk : k ∈ kids) by (apply Hks; left).
      rewrite Forall_forall in IH.
      assert (Ek : moutput_json C fuel (tid k) s = (Ok (jt k), s)).
      { apply IH; [done| |].
        - eapply sub_trans; [|exact Hu]. eapply sub_kid; [done|apply sub_refl].
        - pose proof (kid_size C k id sm kids Hk). lia. }
      rewrite (mbind_ok C _ _ _ _ _ Ek). erewrite mbind_ok; [|apply IHk; intros; apply Hks; by right]. done. }
    erewrite mbind_ok; [|apply Hgo; auto]. done.
  Qed.

  Lemma output_json_ok (s : st) t : state_ok C s t -> output_json C (st_root s) s = (Ok (jt t), s).
  Proof.
    intros Hok. rewrite (so_root _ _ _ Hok). unfold output_json, mheap_size. unfold mbind at 1.
    eapply moutput_sub; [done|apply sub_refl|].
    pose proof (tsize_heap C _ _ _ (so_rep _ _ _ Hok) (so_nodup _ _ _ Hok)). lia.
  Qed.

  (** [j] is [t] with, at each level, the children in [K]. *)
  Inductive pruned (K : tree -> Prop) : tree -> json -> Prop :=
  | pruned_node id sm kids ks js : ks `sublist_of` kids ->
      (forall k, k ∈ kids -> k ∈ ks <-> K k) -> Forall2 (pruned K) ks js ->
      pruned K (T id sm kids) (J id sm js).

  Lemma pruned_id K t j : pruned K t j -> jid j = tid t /\ jtb j = tsum t.
  Proof. by destruct 1. Qed.

  (** Down a path of concepts in [K]. *)
  Inductive kpath (K : tree -> Prop) (t : tree) : tree -> Prop :=
  | kp_refl : kpath K t t
  | kp_kid v k : kpath K t v -> k ∈ tkids v -> K k -> kpath K t k.

  Lemma jsub_trans (u v w : json) : jsub u v -> jsub v w -> jsub u w.
  Proof. intros H1 H2. induction H2; [done|]. by eapply jsub_kid. Qed.

  Lemma pruned_path K t v : kpath K t v -> forall j, pruned K t j -> exists u, jsub u j /\ pruned K v u.
  Proof.
    induction 1 as [|v k Hv IH Hk HK]; intros j Hj.
    - exists j. split; [apply jsub_refl|done].
    - destruct (IH _ Hj) as (u & Hu & Hp). inversion Hp as [id sm kids ks js Hs HKs HF]; subst.
      simpl in Hk. apply HKs in HK; [|done]. apply elem_of_list_lookup in HK as [i Hi].
      destruct (Forall2_lookup_l _ _ _ _ _ HF Hi) as (j' & Hj' & Hp').
      exists j'. split; [|done]. eapply jsub_trans; [|exact Hu].
      eapply jsub_kid; [by eapply elem_of_list_lookup_2|apply jsub_refl].
  Qed.

  Lemma pruned_kids K ks js : Forall2 (pruned K) ks js -> map jid js = map tid ks.
  Proof.
    clear. induction 1 as [|t j ks js Hp HF IH]; [done|]. simpl. rewrite IH.
    by rewrite (proj1 (pruned_id _ _ _ Hp)).
  Qed.

  Lemma sublist_map {X Y} (f : X -> Y) l l' : l `sublist_of` l' -> map f l `sublist_of` map f l'.
  Proof. induction 1; simpl; by constructor. Qed.

  Lemma sublist_in {X} (x : X) l l' : l `sublist_of` l' -> x ∈ l -> x ∈ l'.
  Proof. intros H Hx. eapply elem_of_submseteq; [exact Hx|]. by apply sublist_submseteq. Qed.

  (** From pruned trees to the heap. *)
  Lemma pruned_shows (s : st) t (K : tree -> Prop) (P : nat -> Prop) j : state_ok C s t -> pruned K t j ->
    (forall id, P id <-> exists v, kpath K t v /\ tid v = id) ->
    (forall v k, sub C v t -> k ∈ tkids v -> P (tid k) -> K k) ->
    shows s P j.
  Proof.
    intros Hok Hp HP HPK.
    assert (Hpath : forall u, jsub u j -> exists v, sub C v t /\ pruned K v u /\ kpath K t v).
    { intros u Hu.
      assert (G : forall t, pruned K t j -> exists v, sub C v t /\ pruned K v u /\ kpath K t v).
      { clear t Hok Hp HP HPK. induction Hu as [|id tb kids k Hk Hu IH]; intros t Ht.
        - exists t. split; [apply sub_refl|]. split; [done|apply kp_refl].
        - inversion Ht as [? ? kids' ks js Hs HK HF]; subst.
          apply elem_of_list_lookup in Hk as [i Hi].
          destruct (Forall2_lookup_r _ _ _ _ _ HF Hi) as (t' & Ht' & Hp).
          apply elem_of_list_lookup_2 in Ht'. assert (Hin : t' ∈ kids').
          { eapply elem_of_submseteq; [exact Ht'|]. by apply sublist_submseteq. }
          destruct (IH _ Hp) as (v & Hv & Hpv & Hkv). exists v. split; [by eapply sub_kid|]. split; [done|].
          assert (K t') by (by apply HK). clear -Hkv Hin H.
          induction Hkv as [|v k Hv IH Hk HK].
          + eapply kp_kid; [apply kp_refl|done|done].
          + by eapply kp_kid. }
      by apply G. }
    constructor.
    - destruct (pruned_id _ _ _ Hp) as [-> _]. symmetry. apply (so_root _ _ _ Hok).
    - intros id. rewrite HP. split.
      + intros (u & Hu & <-). destruct (Hpath u Hu) as (v & Hv & Hpv & Hkv). exists v. split; [done|].
        by rewrite (proj1 (pruned_id _ _ _ Hpv)).
      + intros (v & Hv & <-). destruct (pruned_path _ _ _ Hv _ Hp) as (u & Hu & Hpu). exists u. split; [done|].
        by rewrite (proj1 (pruned_id _ _ _ Hpu)).
    - intros u Hu. destruct (Hpath u Hu) as (v & Hv & Hpv & _). destruct (pruned_id _ _ _ Hpv) as [-> ->].
      by eapply sub_table.
    - intros u Hu. destruct (Hpath u Hu) as (v & Hv & Hpv & Hkv).
      destruct (sub_children _ _ _ _ Hok Hv) as (nd & Hn & Hc).
      exists (map tid (tkids v)). split.
      { exists nd. split; [|done]. by rewrite (proj1 (pruned_id _ _ _ Hpv)). }
      inversion Hpv as [id sm kids ks js Hs HK HF]; subst. simpl.
      rewrite (pruned_kids K ks js HF).
      split; [by apply sublist_map|].
      intros c Hc'. apply elem_of_list_fmap in Hc' as (k & -> & Hk). split.
      + intros Hin. apply elem_of_list_fmap in Hin as (k' & E & Hk'). rewrite E.
        assert (k' ∈ kids). { eapply elem_of_submseteq; [exact Hk'|]. by apply sublist_submseteq. }
        apply HP. exists k'. split; [|done]. eapply kp_kid; [exact Hkv|done|]. by apply HK.
      + intros HPk. apply elem_of_list_fmap. exists k. split; [done|]. apply HK; [done|].
        by eapply (HPK (T id sm kids)).
  Qed.

  (** *** Nothing trimmed *)
  Lemma jt_pruned (K : tree -> Prop) t : (forall v, sub C v t -> K v) -> pruned K t (jt t).
  Proof.
    induction t as [id sm kids IH] using (tree_ind' C). intros HK. simpl.
    rewrite Forall_forall in IH. apply (pruned_node K id sm kids kids); [done| |].
    - intros k Hk. split; [|done]. intros _. apply HK. eapply sub_kid; [done|apply sub_refl].
    - assert (G : forall ks, (forall k, k ∈ ks -> k ∈ kids) -> Forall2 (pruned K) ks (map jt ks)).
      { induction ks as [|k ks IHk]; intros Hks; simpl; constructor.
        - apply IH; [apply Hks; left|]. intros v Hv. apply HK. eapply sub_kid; [apply Hks; left|done].
        - apply IHk. intros; apply Hks; by right. }
      by apply G.
  Qed.

  Lemma kpath_sub K t v : kpath K t v -> sub C v t.
  Proof.
    induction 1 as [|v k Hv IH Hk HK]; [apply sub_refl|]. exact (sub_kid_of C k t v IH Hk).
  Qed.

  Lemma kpath_down (K : tree -> Prop) t k v : k ∈ tkids t -> K k -> kpath K k v -> kpath K t v.
  Proof.
    intros Hk HK. induction 1 as [|v k' Hv IH Hk' HK'].
    - eapply kp_kid; [apply kp_refl|done|done].
    - by eapply kp_kid.
  Qed.

  Lemma sub_kpath (K : tree -> Prop) t v : (forall w, sub C v w -> sub C w t -> w = t \/ K w) -> sub C v t -> kpath K t v.
  Proof.
    intros HK Hv. induction Hv as [|id sm kids k Hk Hv IH]; [apply kp_refl|].
    assert (Hkt : sub C k (T id sm kids)) by (eapply sub_kid; [done|apply sub_refl]).
    eapply (kpath_down K _ k); [done| |].
    - destruct (HK k Hv Hkt) as [E|]; [|done].
      pose proof (kid_size C k id sm kids Hk). rewrite E in H. lia.
    - apply IH. intros w Hw Hwk. destruct (HK w Hw) as [->|]; [|right|by right].
      + eapply sub_trans; [exact Hwk|exact Hkt].
      + pose proof (kid_size C k id sm kids Hk). apply sub_size in Hwk. lia.
  Qed.

  Lemma whole_shows (s : st) t : state_ok C s t -> shows s (in_tree s) (jt t).
  Proof.
    intros Hok. apply (pruned_shows s t (fun _ => True)); [done|by apply jt_pruned| |done].
    intros id. rewrite (in_tree_sub C s t id Hok). split; intros (v & Hv & <-); exists v; (split; [|done]).
    - apply sub_kpath; auto.
    - by eapply kpath_sub.
  Qed.

  (** *** Leaves trimmed *)
  Fixpoint deepT (n : nat) (v : tree) : Prop :=
    match n with O => True | S n => exists k, k ∈ tkids v /\ deepT n k end.

  Lemma deepT_S n v : deepT (S n) v -> deepT n v.
  Proof.
    revert v. induction n as [|n IH]; intros v; [done|]. intros (k & Hk & Hd). exists k. split; [done|]. by apply IH.
  Qed.

  Lemma pruned_nonempty K v j : pruned K v j -> jkids j = [] <-> ~ exists k, k ∈ tkids v /\ K k.
  Proof.
    destruct 1 as [id sm kids ks js Hs HK HF]. simpl. split.
    - intros -> (k & Hk & Hkk). apply Forall2_nil_inv_r in HF as ->. apply HK in Hkk; [|done]. by apply elem_of_nil in Hkk.
    - intros Hn. destruct HF as [|k j ks js Hp HF]; [done|]. exfalso. apply Hn. exists k.
      assert (k ∈ kids) by (eapply sublist_in; [exact Hs|left]). split; [done|]. apply HK; [done|left].
  Qed.

  Lemma trim_pruned n t : forall j, pruned (deepT n) t j -> pruned (deepT (S n)) t (trim_leaves j).
  Proof.
    induction t as [id sm kids IH] using (tree_ind' C). intros j Hj.
    inversion Hj as [? ? ? ks js Hs HK HF]; subst. cbn [trim_leaves].
    match goal with |- pruned _ _ (J _ _ (?f _)) => set (go := f) end.
    assert (G : forall ks js, Forall2 (pruned (deepT n)) ks js -> (forall k, k ∈ ks -> k ∈ kids) ->
              exists ks', ks' `sublist_of` ks /\ (forall k, k ∈ ks -> k ∈ ks' <-> deepT (S n) k) /\
                Forall2 (pruned (deepT (S n))) ks' (go js)).
    { clear Hj Hs HK HF js ks. rewrite Forall_forall in IH. induction 1 as [|k j ks js Hp HF IHF]; intros Hks.
      - exists []. split; [done|]. split; [|constructor]. intros k Hk. by apply elem_of_nil in Hk.
      - destruct IHF as (ks' & Hs' & HK' & HF'); [intros; apply Hks; by right|].
        assert (Hk : k ∈ kids) by (apply Hks; left).
        pose proof (pruned_nonempty _ _ _ Hp) as Hne.
        destruct (jkids j) as [|j' js'] eqn:Ej.
        + exists ks'. assert (Hno : ~ deepT (S n) k) by (by apply Hne). split; [by constructor|]. split.
          * intros k' Hk'. apply elem_of_cons in Hk' as [->|Hk']; [|by apply HK'].
            split; [|done]. intros Hin. exfalso. apply Hno. apply HK'; [|done]. by eapply sublist_in.
          * assert (Eg : go (j :: js) = go js) by (cbn; by rewrite Ej). rewrite Eg. done.
        + exists (k :: ks'). split; [by constructor|]. 
          assert (Hd : deepT (S n) k).
          { clear -Hp Ej. destruct Hp as [id sm kids ks js Hs HK HF]. simpl in Ej. subst js.
            inversion HF as [|k0 ? ks0 ? Hp' HF']; subst. assert (k0 ∈ kids) by (eapply sublist_in; [exact Hs|left]).
            exists k0. split; [done|]. apply HK; [done|left]. }
          split.
          * intros k' Hk'. apply elem_of_cons in Hk' as [->|Hk']; [split; [done|left]|].
            rewrite elem_of_cons. rewrite (HK' k' Hk'). split; [intros [->|]; done|by right].
          * assert (Eg : go (j :: js) = trim_leaves j :: go js) by (cbn; by rewrite Ej). rewrite Eg.
            constructor; [|done]. by apply IH. }
    destruct (G ks js HF) as (ks' & Hs' & HK' & HF').
    { intros k Hk. by eapply sublist_in. }
    apply (pruned_node _ id sm kids ks'); [by etrans| |done].
    intros k Hk. split.
    - intros Hin. apply HK'; [|done]. by eapply sublist_in.
    - intros Hd. apply HK'; [|done]. apply HK; [done|]. by apply deepT_S.
  Qed.

  Lemma trim_times_pruned n t : pruned (deepT n) t (trim_times n (jt t)).
  Proof.
    induction n as [|n IH]; [by apply jt_pruned|]. by apply trim_pruned.
  Qed.

  Lemma child_sub (s : st) t v c : state_ok C s t -> sub C v t ->
    child_of s (tid v) c <-> exists k, k ∈ tkids v /\ tid k = c.
  Proof.
    intros Hok Hv. destruct (sub_children _ _ _ _ Hok Hv) as (nd & Hn & Hc). split.
    - intros (l & (nd' & Hn' & Hl) & Hin). rewrite Hn in Hn'. injection Hn' as <-. rewrite Hc in Hl. subst l.
      apply elem_of_list_fmap in Hin as (k & -> & Hk). by exists k.
    - intros (k & Hk & <-). exists (map tid (tkids v)). split; [by exists nd|]. apply elem_of_list_fmap. by exists k.
  Qed.

  Lemma deep_sub (s : st) t n : state_ok C s t -> forall v, sub C v t -> deep s n (tid v) <-> deepT n v.
  Proof.
    intros Hok. induction n as [|n IH]; intros v Hv.
    - split; [done|]. intros _. constructor.
    - split.
      + inversion 1 as [|? ? c Hc Hd]; subst. apply (child_sub s t v c Hok Hv) in Hc as (k & Hk & <-).
        exists k. split; [done|]. apply IH; [|done]. exact (sub_kid_of C k t v Hv Hk).
      + intros (k & Hk & Hd). apply (deep_S s n (tid v) (tid k)); [apply (child_sub s t v _ Hok Hv); eauto|].
        apply IH; [|done]. exact (sub_kid_of C k t v Hv Hk).
  Qed.

  Lemma deepT_up n v w : sub C v w -> deepT n v -> deepT n w.
  Proof.
    induction 1 as [|id sm kids k Hk Hv IH]; [done|]. intros Hd. apply deepT_S. exists k. split; [done|]. by apply IH.
  Qed.

  Lemma trim_shows (s : st) t n : state_ok C s t ->
    shows s (fun id => in_tree s id /\ (id = st_root s \/ deep s n id)) (trim_times n (jt t)).
  Proof.
    intros Hok. apply (pruned_shows s t (deepT n)); [done|apply trim_times_pruned| |].
    - intros id. rewrite (in_tree_sub C s t id Hok), (so_root _ _ _ Hok). split.
      + intros [(v & Hv & <-) Hd]. exists v. split; [|done]. apply sub_kpath; [|done].
        intros w Hw Hwt. destruct Hd as [E|Hd].
        * left. assert (v = t) as -> by (eapply sub_unique; [by apply so_nodup in Hok|done|apply sub_refl|done]).
          apply sub_size in Hw as H1. destruct Hwt as [|id sm kids k Hk Hwk]; [done|].
          pose proof (kid_size C k id sm kids Hk). apply sub_size in Hwk. lia.
        * right. apply (deep_sub s t n Hok v Hv) in Hd. by eapply deepT_up.
      + intros (v & Hv & <-). pose proof (kpath_sub _ _ _ Hv) as Hs. split; [by exists v|].
        destruct Hv as [|v k Hv Hk HK]; [by left|]. right. by apply (deep_sub s t n Hok k Hs).
    - intros v k Hv Hk [_ [E|Hd]].
      + exfalso. pose proof (sub_kid_of C k t v Hv Hk) as Hkt. rewrite (so_root _ _ _ Hok) in E.
        assert (k = t) as -> by (eapply sub_unique; [by apply so_nodup in Hok|done|apply sub_refl|done]).
        apply sub_size in Hv. destruct v as [id sm kids]. pose proof (kid_size C _ id sm kids Hk). lia.
      + apply (deep_sub s t n Hok k); [|done]. exact (sub_kid_of C k t v Hv Hk).
  Qed.

  (** *** Trimmed to clusters *)
  Lemma kept_in (s : st) P id : kept s P id -> in_tree s id.
  Proof. induction 1 as [|p c Hp IH Hn Hc]; [constructor|]. by eapply desc_child. Qed.

  Lemma kept_kid (s : st) t P v k : state_ok C s t -> sub C v t -> k ∈ tkids v ->
    kept s P (tid k) -> kept s P (tid v) /\ ~ P (tid v).
  Proof.
    intros Hok Hv Hk Hkept. pose proof (sub_kid_of C k t v Hv Hk) as Hkt. inversion Hkept as [E|p c Hp Hn Hc E].
    - exfalso. rewrite (so_root _ _ _ Hok) in E. symmetry in E.
      assert (k = t) as -> by (eapply sub_unique; [by apply so_nodup in Hok|done|apply sub_refl|done]).
      apply sub_size in Hv. destruct v as [id sm kids]. pose proof (kid_size C _ id sm kids Hk). lia.
    - subst c. apply kept_in in Hp as Hin. apply (in_tree_sub C s t p Hok) in Hin as (w & Hw & <-).
      apply (child_sub s t w _ Hok Hw) in Hc as (k' & Hk' & E').
      assert (k' = k) as -> by (eapply sub_unique; [by apply so_nodup in Hok|exact (sub_kid_of C k' t w Hw Hk')|done|done]).
      assert (E2 : tid w = tid v).
      { destruct (rep_sub _ _ _ _ _ (so_rep _ _ _ Hok) Hw) as (q1 & H1 & _).
        destruct (rep_sub _ _ _ _ _ (so_rep _ _ _ Hok) Hv) as (q2 & H2 & _).
        destruct w as [iw sw kw], v as [iv sv kv]. simpl in *.
        pose proof (rep_inv _ _ _ _ _ _ H1) as [_ F1]. pose proof (rep_inv _ _ _ _ _ _ H2) as [_ F2].
        rewrite Forall_forall in F1, F2. specialize (F1 k Hk'). specialize (F2 k Hk).
        destruct k as [ik sk kk]. pose proof (rep_inv _ _ _ _ _ _ F1) as [L1 _]. pose proof (rep_inv _ _ _ _ _ _ F2) as [L2 _].
        rewrite L1 in L2. by injection L2. }
      rewrite <- E2. done.
  Qed.

  Lemma clusters_pruned (s : st) t names u : state_ok C s t -> sub C u t ->
    kept s (fun id => concept_name id ∈ names) (tid u) ->
    pruned (fun k => kept s (fun id => concept_name id ∈ names) (tid k)) u (trim_to_clusters names (jt u)).
  Proof.
    intros Hok. set (P := fun id => concept_name id ∈ names).
    induction u as [id sm kids IH] using (tree_ind' C). intros Hu Hkept. cbn [jt trim_to_clusters].
    rewrite Forall_forall in IH. case_bool_decide as HP.
    - apply (pruned_node _ id sm kids []); [apply sublist_nil_l| |constructor].
      intros k Hk. split; [intros H; by apply elem_of_nil in H|]. intros Hkk.
      by destruct (kept_kid s t P (T id sm kids) k Hok Hu Hk Hkk) as [_ []].
    - assert (Hkids : forall k, k ∈ kids -> kept s P (tid k)).
      { intros k Hk. apply (kept_child s P id); [done|done|].
        apply (child_sub s t (T id sm kids) _ Hok Hu). by exists k. }
      apply (pruned_node _ id sm kids kids); [done| |].
      + intros k Hk. split; [|done]. intros _. by apply Hkids.
      + assert (G : forall ks, (forall k, k ∈ ks -> k ∈ kids) ->
          Forall2 (pruned (fun k => kept s P (tid k))) ks (map (trim_to_clusters names) (map jt ks))).
        { induction ks as [|k ks IHk]; intros Hks; simpl; constructor.
          - assert (Hk : k ∈ kids) by (apply Hks; left). apply IH; [done| |by apply Hkids].
            exact (sub_kid_of C k t (T id sm kids) Hu Hk).
          - apply IHk. intros; apply Hks; by right. }
        by apply G.
  Qed.

  Lemma clusters_shows (s : st) t names : state_ok C s t ->
    shows s (kept s (fun id => concept_name id ∈ names)) (trim_to_clusters names (jt t)).
  Proof.
    intros Hok. set (P := fun id => concept_name id ∈ names).
    apply (pruned_shows s t (fun k => kept s P (tid k))); [done| | |].
    - apply (clusters_pruned s t); [done|apply sub_refl|]. rewrite <- (so_root _ _ _ Hok). apply kept_root.
    - intros id. split.
      + induction 1 as [|p c Hp IH Hn Hc].
        * exists t. split; [apply kp_refl|]. symmetry. apply (so_root _ _ _ Hok).
        * destruct IH as (v & Hv & <-). pose proof (kpath_sub _ _ _ Hv) as Hs.
          pose proof (proj1 (child_sub s t v c Hok Hs) Hc) as (k & Hk & <-). exists k. split; [|done].
          eapply kp_kid; [done|done|]. by eapply kept_child.
      + intros (v & Hv & <-). destruct Hv as [|v k Hv Hk HK]; [|done]. rewrite <- (so_root _ _ _ Hok). apply kept_root.
    - done.
  Qed.
End Out.

Lemma pretty_ne_concept (n : nat) s : pretty n <> "Concept" +:+ s.
Proof.
  assert (G : forall x s', s' <> "Concept" +:+ s -> pretty_N_go x s' <> "Concept" +:+ s).
  { intros x. induction (N.lt_wf_0 x) as [x _ IH]; intros s' Hs.
    assert (x = 0 \/ 0 < x)%N as [->|?] by lia.
    - by rewrite pretty_N_go_0.
    - rewrite pretty_N_go_step by done. apply IH; [by apply N.div_lt|].
      unfold pretty_N_char. by repeat case_match. }
  unfold pretty, pretty_nat, pretty, pretty_N. case_decide; [done|]. by apply G.
Qed.

Section C58.
  Context {N : NumOps} (C : NodeClass N) (rng : nat -> num N).
  Notation st := (st C).

  (** C58: output_json shows the whole tree. *)
  Theorem C58_output_json x0 evs (s : st) : reachable C rng x0 evs s ->
    exists j, output_json C (st_root s) s = (Ok j, s) /\ shows s (in_tree s) j.
  Proof.
    intros Hr. destruct (reachable_ok C rng x0 evs s Hr) as (t & Hok).
    exists (jt C t). split; [by apply output_json_ok|by apply whole_shows].
  Qed.

  (** C58: [cuts] trimmings leave the root and the concepts at least [cuts]
      levels above some leaf. *)
  Theorem C58_no_leaves x0 evs (s : st) cuts : reachable C rng x0 evs s ->
    exists j, visualize_no_leaves C cuts s = (Ok j, s) /\
      shows s (fun id => in_tree s id /\ (id = st_root s \/ deep s cuts id)) j.
  Proof.
    intros Hr. destruct (reachable_ok C rng x0 evs s Hr) as (t & Hok).
    exists (trim_times cuts (jt C t)). split; [|by apply trim_shows].
    unfold visualize_no_leaves. unfold mroot. unfold mbind at 1.
    by rewrite (mbind_ok C _ _ _ _ _ (output_json_ok C s t Hok)).
  Qed.

  (** One trimming leaves exactly the root and the concepts that are not leaves. *)
  Theorem C58_one_cut x0 evs (s : st) : reachable C rng x0 evs s ->
    exists j, visualize_no_leaves C 1 s = (Ok j, s) /\
      shows s (fun id => in_tree s id /\ (id = st_root s \/ ~ is_leaf s id)) j.
  Proof.
    intros Hr. destruct (reachable_ok C rng x0 evs s Hr) as (t & Hok).
    destruct (C58_no_leaves x0 evs s 1 Hr) as (j & Hj & [H1 H2 H3 H4]). exists j. split; [done|].
    assert (E : forall id, (in_tree s id /\ (id = st_root s \/ deep s 1 id)) <->
      (in_tree s id /\ (id = st_root s \/ ~ is_leaf s id))).
    { intros id. split; intros [Hin [->|H]]; (split; [done|]); [by left|right|by left|right].
      - intros [_ Hl]. inversion H as [|? ? c Hc _]; subst. destruct Hc as (l & Hl' & Hc).
        rewrite (children_of_det C s id l [] Hl' Hl) in Hc. by apply elem_of_nil in Hc.
      - apply (in_tree_sub C s t id Hok) in Hin as Hv. destruct Hv as (v & Hv & <-).
        destruct (tkids v) as [|k ks] eqn:Ek.
        + exfalso. apply H. split; [done|]. destruct (sub_children _ _ _ _ Hok Hv) as (nd & Hn & Hc).
          exists nd. split; [done|]. by rewrite Hc, Ek.
        + apply (deep_S s 0 _ (tid k)); [|constructor]. apply (child_sub C s t v _ Hok Hv). exists k. split; [rewrite Ek; left|done]. }
    constructor; [done| |done|].
    - intros id. by rewrite H2, E.
    - intros u Hu. destruct (H4 u Hu) as (l & Hl & Hs & HK). exists l. split; [done|]. split; [done|].
      intros c Hc. by rewrite <- E, HK.
  Qed.

  (** C58, labels: the exported tree stops at the concepts of the clustering. *)
  Theorem C58_labels x0 evs (s : st) l cl : reachable C rng x0 evs s ->
    exists j, visualize_clusters C (CLabel l :: cl) s = (Ok j, s) /\
      shows s (kept s (fun id => CLabel (concept_name id) ∈ CLabel l :: cl)) j.
  Proof.
    intros Hr. destruct (reachable_ok C rng x0 evs s Hr) as (t & Hok).
    set (names := omap (fun c => match c with CLabel l => Some l | CNode _ => None end) (CLabel l :: cl)).
    assert (E : forall id, concept_name id ∈ names <-> CLabel (concept_name id) ∈ CLabel l :: cl).
    { intros id. unfold names. rewrite elem_of_list_omap. split.
      - intros ([l'|] & Hin & [= ->]); done.
      - intros Hin. by exists (CLabel (concept_name id)). }
    exists (trim_to_clusters names (jt C t)). split.
    - unfold visualize_clusters, cluster_names. fold names. unfold mroot. unfold mbind at 1.
      by rewrite (mbind_ok C _ _ _ _ _ (output_json_ok C s t Hok)).
    - destruct (clusters_shows C s t names Hok) as [H1 H2 H3 H4].
      assert (E2 : forall id, kept s (fun id => concept_name id ∈ names) id <->
        kept s (fun id => CLabel (concept_name id) ∈ CLabel l :: cl) id).
      { intros id. split; (induction 1 as [|p c Hp IH Hn Hc]; [apply kept_root|]);
          (eapply kept_child; [exact IH| |done]); intros HP; apply Hn; by apply E. }
      constructor; [done| |done|].
      + intros id. by rewrite H2, E2.
      + intros u Hu. destruct (H4 u Hu) as (l' & Hl & Hs & HK). exists l'. split; [done|]. split; [done|].
        intros c Hc. by rewrite <- E2, HK.
  Qed.

  (** C58, nodes: nothing is trimmed. *)
  Theorem C58_nodes_not_trimmed x0 evs (s : st) n ns : reachable C rng x0 evs s ->
    exists j, visualize_clusters C (map CNode (n :: ns)) s = (Ok j, s) /\ shows s (in_tree s) j.
  Proof.
    intros Hr. destruct (reachable_ok C rng x0 evs s Hr) as (t & Hok). exists (jt C t). split; [|by apply whole_shows].
    assert (E : cluster_names (map CNode (n :: ns)) = Ok (map pretty (n :: ns))).
    { unfold cluster_names. simpl map at 1. generalize (n :: ns) as l. intros l.
      induction l as [|m l IH]; [done|]. simpl in *. by rewrite IH. }
    unfold visualize_clusters. rewrite E. unfold mroot. unfold mbind at 1.
    rewrite (mbind_ok C _ _ _ _ _ (output_json_ok C s t Hok)). unfold mret. do 2 f_equal.
    generalize (n :: ns) as l. clear. intros l. induction t as [id sm kids IH] using (tree_ind' C). simpl.
    rewrite bool_decide_false.
    - f_equal. rewrite map_map. apply map_ext_in. intros k Hk. rewrite Forall_forall in IH. apply IH. by apply elem_of_list_In.
    - intros Hin. apply elem_of_list_fmap in Hin as (m & Hm & _). symmetry in Hm. by apply pretty_ne_concept in Hm.
  Qed.

  (** An empty clustering raises IndexError. *)
  Theorem C58_empty (s : st) : visualize_clusters C [] s = (Err IndexError, s).
  Proof. done. Qed.
End C58.

(** ** C57 *)

(** What is loaded: the first n + 1 lines (n not negative); all without n. *)
Theorem C57_loads_one_more {X} (parse : string -> res X) n lines :
  load_json parse (Some (Z.of_nat n)) lines = rmapM parse (take (S n) lines).
Proof.
  unfold load_json. assert (G : forall lines k, (k <= S n)%nat ->
    load_lines parse (Some (Z.of_nat n)) (Z.of_nat k) lines = rmapM parse (take (S n - k) lines)).
  { clear lines. induction lines as [|l lines IH]; intros k Hk; [by rewrite take_nil|].
    cbn [load_lines]. destruct (Z.ltb_spec (Z.of_nat n) (Z.of_nat k)) as [Hlt|Hge].
    - replace (S n - k)%nat with 0%nat by lia. done.
    - replace (S n - k)%nat with (S (S n - S k)) by lia. cbn [take rmapM].
      replace (Z.of_nat k + 1)%Z with (Z.of_nat (S k)) by lia. rewrite IH by lia. done. }
  change 0%Z with (Z.of_nat 0). rewrite (G lines 0%nat) by lia. by rewrite Nat.sub_0_r.
Qed.

Theorem C57_loads_all {X} (parse : string -> res X) lines : load_json parse None lines = rmapM parse lines.
Proof.
  unfold load_json. generalize 0%Z. induction lines as [|l lines IH]; intros z; [done|].
  cbn [load_lines rmapM]. by rewrite IH.
Qed.

(** C57: "at most num_instances are returned" fails. *)
Theorem C57_num_instances_refuted : exists (parse : string -> res string) n lines l,
  load_json parse (Some (Z.of_nat n)) lines = Ok l /\ ~ (length l <= n)%nat.
Proof.
  exists Ok, 1%nat, ["{}"; "{}"; "{}"], ["{}"; "{}"]. split; [done|]. simpl. lia.
Qed.

Print Assumptions C58_output_json.
Print Assumptions C58_no_leaves.
Print Assumptions C58_one_cut.
Print Assumptions C58_labels.
Print Assumptions C58_nodes_not_trimmed.
Print Assumptions C57_loads_one_more.
Print Assumptions C57_num_instances_refuted.
