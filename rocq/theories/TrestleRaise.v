(** * The exception for shared names is not raised by anything but the check
    for shared names. *)
From stdpp Require Import base decidable list gmap sets strings.
From Coq Require Import Ascii String ZArith.
From Verif Require Import Base Num TreeModel Nominal CV Cobweb3 Query3 PyVal Preproc Preproc2 PreSub
  PreStd StructMap StructFacts Trestle.
Set Default Proof Using "Type".
Open Scope list_scope.
Open Scope res_scope.

Definition nox {A} (r : res A) : Prop := r <> Err OtherException.
Definition noe (e : option exn) : Prop := e <> Some OtherException.

Lemma nox_err {A B} e : nox (Err e : res A) -> nox (Err e : res B).
Proof. intros H [= ->]. by apply H. Qed.
Lemma nox_bind {A B} (r : res A) (f : A -> res B) : nox r -> (forall x, r = Ok x -> nox (f x)) -> nox (rbind r f).
Proof. destruct r as [x|e]; simpl; [by auto|]. intros H _ [= ->]. by apply H. Qed.
Lemma nox_rmapM {A B} (f : A -> res B) l : (forall x, x ∈ l -> nox (f x)) -> nox (rmapM f l).
Proof.
  induction l as [|x l IH]; intros H; simpl; [done|]. apply nox_bind; [apply H; by left|]. intros y _.
  apply nox_bind; [apply IH; intros z Hz; apply H; by right|]. done.
Qed.
Lemma nox_rfold {A B} (f : A -> B -> res A) l : forall a, (forall a x, nox (f a x)) -> nox (rfold f a l).
Proof.
  induction l as [|x l IH]; intros a H; simpl; [done|].
  apply nox_bind; [apply H|]. intros y _. by apply IH.
Qed.
Lemma noe_sfold {S X} (f : S -> X -> S * option exn) l : forall s, (forall s x, noe (snd (f s x))) -> noe (snd (sfold f s l)).
Proof.
  induction l as [|x l IH]; intros s H; simpl; [done|]. pose proof (H s x) as H1.
  destruct (f s x) as [s' [e|]]; [done|]. by apply IH.
Qed.

Lemma nox_attr_comps a : nox (attr_comps a).
Proof.
  induction a as [s|l IH|z] using attr_ind'; [by destruct s| |done].
  induction l as [|x l IHl]; [done|]. inversion IH as [|? ? Hx Hl]; subst. simpl. apply nox_bind.
  - destruct x; [done|exact Hx|done].
  - intros c _. apply nox_bind; [exact (IHl Hl)|done].
Qed.
Lemma nox_comp_names keys : nox (comp_names keys).
Proof. apply nox_bind; [|done]. apply nox_rmapM. intros a _. apply nox_attr_comps. Qed.

Section Std.
  Context {X : Type} (pystr : attr -> string) (setord : list attr -> list attr).
  Definition nact (f : nstate -> res (pv X) * nstate) : Prop := forall s, nox (fst (f s)).
  Lemma nox_std_entries l : forall acc s, Forall (fun e => nact (snd e)) l -> nox (fst (std_entries setord l acc s)).
  Proof.
    induction l as [|[a f] l IH]; intros acc s H; simpl; [done|]. inversion H as [|? ? Hf Hl]; subst.
    unfold std_entry. simpl. destruct (std_name a s) as [name s1]. specialize (Hf s1). simpl in Hf.
    destruct (f s1) as [[v|x] s2]; simpl in Hf; [|exact (nox_err _ Hf)].
    destruct name; [by apply IH| |by apply IH].
    match goal with |- context [attr_comps ?b] => pose proof (nox_attr_comps b) as Hn; destruct (attr_comps b) as [cs|x] end.
    - by apply IH.
    - intros [= ->]. by apply Hn.
  Qed.
  Lemma nox_std_dict l s : Forall (fun e => nact (snd e)) l -> nox (fst (std_dict pystr setord l s)).
  Proof.
    intros H. unfold std_dict.
    assert (Hs : Forall (fun e => nact (snd e)) (sort_by pystr l)).
    { rewrite Forall_forall in H |- *. intros e He. apply H. by rewrite (sort_by_perm pystr l) in He. }
    pose proof (nox_std_entries (sort_by pystr l) ([], []) s Hs) as Hn.
    destruct (std_entries setord (sort_by pystr l) ([], []) s) as [[[new rels]|x] s']; [done|exact (nox_err _ Hn)].
  Qed.
  Lemma nox_std_val v : nact (std_val pystr setord v).
  Proof.
    induction v as [s0|x|l IH|d IH] using pv_ind'; intros s; [done|done| |].
    - simpl. match goal with |- context [(fix go l s {struct l} := _) l s] => set (go := fix go (l : list (pv X)) (s : nstate) := _) end.
      assert (Hgo : forall s, nox (fst (go l s))).
      { clear s. induction l as [|e l IHl]; intros s; [done|]. inversion IH as [|? ? He Hl]; subst.
        assert (H1 : nox (fst (match e with PD _ => std_val pystr setord e s | _ => (Ok e, s) end))).
        { by destruct e. }
        cbn. destruct (match e with PD _ => std_val pystr setord e s | _ => (Ok e, s) end) as [[e'|x] s1]; [|exact (nox_err _ H1)].
        specialize (IHl Hl s1).
        destruct (go l s1) as [[l'|x] s2]; [done|exact (nox_err _ IHl)]. }
      specialize (Hgo s). destruct (go l s) as [[l'|x] s1]; [done|]. exact (nox_err _ Hgo).
    - simpl. pose proof (nox_std_dict (map (fun e => (fst e, std_val pystr setord (snd e))) d) s) as H.
      destruct (std_dict _ _ _ _) as [[d'|x] s']; [done|]. eapply nox_err, H.
      apply Forall_forall. intros e He. apply elem_of_list_fmap in He as (e' & -> & He'). simpl.
      rewrite Forall_forall in IH. apply (IH e' He').
  Qed.
  Lemma nox_ns_transform c (d : inst X) : nox (fst (ns_transform pystr setord c d)).
  Proof.
    unfold ns_transform. pose proof (nox_std_dict (map (fun e => (fst e, std_val pystr setord (snd e))) d) (c, [])) as H.
    match goal with |- context [match ?o with (_, _) => _ end] => change o with (std_dict pystr setord (map (fun e => (fst e, std_val pystr setord (snd e))) d) (c, [])) end.
    destruct (std_dict _ _ _ _) as [[d'|x] s']; [done|]. eapply nox_err, H.
    apply Forall_forall. intros e He. apply elem_of_list_fmap in He as (e' & -> & He'). apply nox_std_val.
  Qed.

  Lemma nox_flat_key o a : nox (flat_key o a).
  Proof. unfold flat_key. destruct o; [|done]. destruct (attr_ok a); [done|]. by destruct a. Qed.
  Lemma nox_flat_val (v : pv X) : forall k, nox (flat_val k v).
  Proof.
    induction v as [s0|x|l IH|d IH] using pv_ind'; intros k; [done|done|done|]. simpl.
    generalize (@nil (attr * pv X)) as acc. induction d as [|[a w] d IHd]; intros acc; [done|].
    inversion IH as [|? ? Hw Hd]; subst. apply nox_bind; [exact (nox_flat_key (Some k) a)|]. intros k' _.
    apply nox_bind; [apply Hw|]. intros so _. by apply IHd.
  Qed.
  Lemma nox_flatten (d : inst X) : nox (flatten d).
  Proof. apply nox_rfold. intros acc e. apply nox_bind; [apply nox_flat_val|done]. Qed.
End Std.

Section Match.
  Context {F : Type} (cost : list (attr * attr) -> res F) (Hcost : forall m, nox (cost m)).
  Lemma nox_climb path : forall s, nox (climb cost path s).
  Proof using Hcost.
    induction path as [|k path IH]; intros s; simpl; [done|]. apply nox_bind; [by apply nox_rmapM|].
    intros _ _. destruct (successors s !! k); [apply IH|done].
  Qed.
  Lemma nox_hungarian orc inn cn : nox (hungarian_mapping cost orc inn cn).
  Proof using Hcost.
    apply nox_bind.
    - apply nox_rmapM. intros o _. apply nox_bind; [by apply nox_rmapM|]. intros r _. by apply nox_bind.
    - intros rows _. apply nox_rfold. intros m [r c]. unfold hungarian_entry. simpl.
      destruct (_ !! r); [|done]. destruct (_ <=? c)%nat; [done|]. by destruct (_ !! c).
  Qed.
  (** Without a shared component the exception is not raised. *)
  Lemma nox_sm_transform {V} orc bkeys (d : list (attr * V)) :
    (forall v, kvars (dkeys d) v -> ~ kvars bkeys v) -> nox (sm_transform cost orc None bkeys d).
  Proof using Hcost.
    intros Hd. apply nox_bind; [|done]. unfold flat_match. apply nox_bind; [apply nox_comp_names|]. intros inn Ei.
    apply nox_bind; [apply nox_comp_names|]. intros cn Ec. destruct (_ || _); [done|].
    replace (existsb _ inn) with false.
    2:{ symmetry. apply not_true_is_false. intros (o & Ho & Hc)%existsb_exists. apply bool_decide_eq_true in Hc.
        apply elem_of_list_In in Ho. apply (comp_names_spec _ _ Ei) in Ho as (v & -> & Hv).
        apply (comp_names_spec _ _ Ec) in Hc as (v' & [= <-] & Hv'). by apply (Hd v). }
    apply nox_bind; [apply nox_hungarian|]. intros m _. apply nox_bind; [done|]. intros _ _.
    apply nox_bind; [apply nox_climb|done].
  Qed.
End Match.

Section Cost.
  Context {N : NumOps}.
  Notation C := (Cobweb3Class N).
  Ltac nx := repeat first [done | apply nox_bind; [|intros ? _] | progress case_decide | progress case_match].
  Lemma nox_pydiv (a b : num N) : nox (pydiv N a b).
  Proof. unfold pydiv. nx. Qed.
  Lemma nox_pysqrt (a : num N) : nox (pysqrt N a).
  Proof. unfold pysqrt. nx. Qed.
  Lemma nox_c4 z : nox (c4 N z).
  Proof. unfold c4. case_decide; [done|]. case_decide; [|done]. by destruct (dget _ _). Qed.
  Lemma nox_std (c : cval N) : nox (cv_unbiased_std c).
  Proof. unfold cv_unbiased_std. case_decide; [done|]. apply nox_bind; [apply nox_pysqrt|]. intros s _. apply nox_bind; [apply nox_c4|]. intros k _. apply nox_pydiv. Qed.
  Lemma nox_scaled_std (c : cval N) s : nox (cv_scaled_unbiased_std c s).
  Proof. apply nox_bind; [apply nox_std|]. intros k _. apply nox_pydiv. Qed.
  Lemma nox_scale (x : ctx3 N) a : nox (ecg_scale x a).
  Proof.
    unfold ecg_scale. destruct (scaling_on x); [|done]. destruct (dget _ _); [|done].
    apply nox_bind; [apply nox_pydiv|]. intros q _. apply nox_bind; [apply nox_std|done].
  Qed.
  Lemma nox_ecg_value (x : ctx3 N) n a q : nox (ecg_value x n a q).
  Proof.
    unfold ecg_value. case_decide.
    - apply nox_bind; [apply nox_scale|]. intros s _. destruct (snd q); [done|].
      repeat first [done | apply nox_bind; [first [apply nox_pydiv|apply nox_pysqrt|apply nox_scaled_std]|intros ? _]].
    - destruct (snd q); [|done]. apply nox_bind; [apply nox_pydiv|done].
  Qed.
  Lemma nox_ecg (x : ctx3 N) s : nox (n3_ecg x s).
  Proof.
    apply nox_bind; [|intros g _; apply nox_pydiv]. apply nox_rfold. intros acc p. apply nox_rfold. intros acc' q.
    apply nox_bind; [apply nox_ecg_value|done].
  Qed.
  Lemma noe_on_attr {X} (f : list (nom * cell N) -> X -> list (nom * cell N) * option exn) av p :
    (forall d x, noe (snd (f d x))) -> noe (snd (on_attr f av p)).
  Proof. intros H. unfold on_attr. specialize (H (default [] (dget p.1 av)) p.2). by destruct (f _ _) as [d e]. Qed.
  Lemma nox_tinc (s : nsum3 N) i : nox (tinc C s i).
  Proof.
    unfold tinc. simpl. unfold n3_inc.
    assert (H : noe (snd (sfold (on_attr inc1) (n3_av s) i))).
    { apply noe_sfold. intros av p. apply noe_on_attr. intros d v. unfold inc1. destruct v; by repeat case_match. }
    destruct (sfold _ _ _) as [av [e|]]; [|done]. intros [= ->]. by apply H.
  Qed.
  Lemma nox_tcopy (s : nsum3 N) : nox (tcopy C s).
  Proof.
    unfold tcopy, tadd. simpl. unfold n3_add. simpl.
    assert (H : noe (snd (sfold (on_attr (sfold add1)) [] (n3_av s)))).
    { apply noe_sfold. intros av p. apply noe_on_attr. intros d v. apply noe_sfold. intros d' [k c]. unfold add1. simpl.
      case_decide.
      - destruct (default _ _); [done|]. destruct c as [|o]; [done|]. unfold cv_combine. by case_decide.
      - destruct (default _ _); [|done]. by destruct c. }
    destruct (sfold _ _ _) as [av [e|]]; [|done]. intros [= ->]. by apply H.
  Qed.
  Lemma nox_hashed (d : inst (val3 N)) : nox (hashed d).
  Proof. apply nox_rmapM. intros [a v] _. simpl. by destruct (scalar v). Qed.
  Lemma nox_mapping_cost (x : ctx3 N) base d m : nox (mapping_cost x base d m).
  Proof.
    apply nox_bind; [apply nox_tcopy|]. intros t _. apply nox_bind; [apply nox_hashed|]. intros i _.
    apply nox_bind; [apply nox_tinc|]. intros t' _. apply nox_bind; [apply nox_ecg|done].
  Qed.
End Cost.

(** ** Sub-components *)
Lemma nox_comp_loop a : forall st, nox (comp_loop a st).
Proof.
  induction a as [s|l IH|z] using attr_ind'; intros st; [|destruct l as [|x [|y [|]]]; try done|done].
  - destruct s as [|c1 [|c2 [|]]]; try done. simpl. by destruct (comp_step _ _ st).
  - simpl. destruct (comp_step x y st) as [r st']. apply nox_bind; [|done].
    apply Forall_cons in IH as [_ [IH _]%Forall_cons]. apply IH.
Qed.
Lemma nox_has_components a : nox (has_components a).
Proof.
  induction a as [s|l IH|z] using attr_ind'; [done| |done].
  assert (Hgo : nox ((fix go (l : list attr) : res (list attr) :=
         match l with
         | [] => Ok []
         | x :: l => let? r := has_components x in let? r' := go l in Ok (r ++ r')
         end) l)).
  { induction l as [|x l IHl]; [done|]. apply Forall_cons in IH as [Hx Hl]. apply nox_bind; [exact Hx|].
    intros r _. apply nox_bind; [exact (IHl Hl)|done]. }
  destruct l as [|x [|y [|]]]; [exact Hgo|exact Hgo| |exact Hgo]. exact (nox_comp_loop (ATup [x; y]) None).
Qed.
Lemma nox_sub_transform {V} (vt : V) d : nox (sub_transform vt d).
Proof. apply nox_rfold. intros acc e. apply nox_bind; [apply nox_has_components|done]. Qed.
