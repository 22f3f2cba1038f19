(** * On purely nominal data Cobweb3Tree does exactly what CobwebTree does. *)
From stdpp Require Import base decidable list gmap strings.
From Verif Require Import Base Num TreeModel TreeFun TreeScore TreeRefine TreeSorts TreeInv
  SpecTree TreeState TreeRel TreeSim Nominal NominalFacts CV Cobweb3 C3Facts.

Section Nom.
  Context (N : NumOps).
  Notation C1 := (CobwebClass N).
  Notation C3 := (Cobweb3Class N).

  Definition nom_inst (i : inst) : inst3 N := map (fun p => (fst p, VNom (snd p))) i.
  Definition nom_dict (d : list (nom * nat)) : list (nom * cell N) := map (fun q => (fst q, Cnt (snd q))) d.
  Definition nom_av (av : list (attr * list (nom * nat))) : list (attr * list (nom * cell N)) :=
    map (fun p => (fst p, nom_dict (snd p))) av.
  Definition nom_table (s : nsum) : nsum3 N := NSum3 (ns_count s) (nom_av (ns_av s)).

  Lemma dget_map {K V W} `{EqDecision K} (f : V -> W) k (d : list (K * V)) :
    dget k (map (fun q => (fst q, f (snd q))) d) = option_map f (dget k d).
  Proof. induction d as [|[k' v] d IH]; simpl; [done|]. by case_decide. Qed.
  Lemma dset_map {K V W} `{EqDecision K} (f : V -> W) k v (d : list (K * V)) :
    dset k (f v) (map (fun q => (fst q, f (snd q))) d) = map (fun q => (fst q, f (snd q))) (dset k v d).
  Proof. induction d as [|[k' w] d IH]; simpl; [done|]. case_decide; simpl; [done|]. by rewrite IH. Qed.
  Lemma dget_nom_av a av : default [] (dget a (nom_av av)) = nom_dict (default [] (dget a av)).
  Proof. unfold nom_av. rewrite (dget_map nom_dict). by destruct (dget a av). Qed.
  Lemma dset_nom_av a d av : dset a (nom_dict d) (nom_av av) = nom_av (dset a d av).
  Proof. apply (dset_map nom_dict). Qed.
  Lemma dget_nom_dict v d : dget v (nom_dict d) = option_map Cnt (dget v d).
  Proof. apply (dget_map (@Cnt N)). Qed.
  Lemma dset_nom_dict v n d : dset v (Cnt n) (nom_dict d) = nom_dict (dset v n d).
  Proof. apply (dset_map (@Cnt N)). Qed.

  (** The reserved string does not occur. *)
  Definition clean_dict (d : list (nom * nat)) : Prop := Forall (fun q => fst q <> cv_key) d.
  Definition clean_av (av : list (attr * list (nom * nat))) : Prop := Forall (fun p => clean_dict (snd p)) av.
  Definition clean_inst (i : inst) : Prop := Forall (fun p => snd p <> cv_key) i.

  Lemma clean_get a av : clean_av av -> clean_dict (default [] (dget a av)).
  Proof.
    intros H. destruct (dget a av) as [d|] eqn:E; simpl; [|apply Forall_nil_2].
    apply dget_In in E. unfold clean_av in H. rewrite Forall_forall in H. exact (H _ E).
  Qed.
  Lemma clean_set_dict v n d : v <> cv_key -> clean_dict d -> clean_dict (dset v n d).
  Proof.
    intros Hv. induction d as [|[w m] d IH]; simpl; intros H.
    - by apply Forall_cons_2.
    - apply Forall_cons in H as [H1 H2]. case_decide; apply Forall_cons_2; simpl in *; try done; by apply IH.
  Qed.
  Lemma clean_set a d av : clean_dict d -> clean_av av -> clean_av (dset a d av).
  Proof.
    intros Hd. induction av as [|[b e] av IH]; simpl; intros H.
    - by apply Forall_cons_2.
    - apply Forall_cons in H as [H1 H2]. case_decide; apply Forall_cons_2; simpl in *; try done; by apply IH.
  Qed.

  Definition nom_tables (s : nsum) (s3 : nsum3 N) : Prop := clean_av (ns_av s) /\ s3 = nom_table s.
  Definition nom_insts (i : inst) (i3 : inst3 N) : Prop := clean_inst i /\ i3 = nom_inst i.

  Lemma inc_nom i : clean_inst i -> forall av, clean_av av ->
    sfold (on_attr (inc1 (N:=N))) (nom_av av) (nom_inst i) =
      (nom_av (fold_left (fun av p => avadd (fst p) (snd p) 1 av) i av), None) /\
    clean_av (fold_left (fun av p => avadd (fst p) (snd p) 1 av) i av).
  Proof.
    induction 1 as [|[a v] i Hv Hi IH]; intros av Hav; [done|].
    cbn [nom_inst map sfold fold_left fst snd]. fold (nom_inst i).
    assert (E : on_attr (inc1 (N:=N)) (nom_av av) (a, VNom v) = (nom_av (avadd a v 1 av), None)).
    { unfold on_attr. cbn [fst snd]. rewrite dget_nom_av. unfold inc1. rewrite dget_nom_dict.
      unfold avadd, dadd. destruct (dget v (default [] (dget a av))) as [n|]; cbn [option_map default];
        simpl; by rewrite dset_nom_dict, dset_nom_av. }
    rewrite E. apply IH. unfold avadd, dadd. apply clean_set; [|done].
    apply clean_set_dict; [done|]. by apply clean_get.
  Qed.

  Lemma add_dict_nom o : clean_dict o -> forall d, clean_dict d ->
    sfold (add1 (N:=N)) (nom_dict d) (nom_dict o) =
      (nom_dict (fold_left (fun d q => dadd (fst q) (snd q) d) o d), None) /\
    clean_dict (fold_left (fun d q => dadd (fst q) (snd q) d) o d).
  Proof.
    induction 1 as [|[v n] o Hv Ho IH]; intros d Hd; [done|].
    cbn [nom_dict map sfold fold_left fst snd]. fold (nom_dict o). fold (nom_dict d).
    assert (E : add1 (N:=N) (nom_dict d) (v, Cnt n) = (nom_dict (dadd v n d), None)).
    { unfold add1. cbn [fst snd] in *. rewrite decide_False by done. rewrite dget_nom_dict.
      unfold dadd. destruct (dget v d) as [m|]; simpl; by rewrite dset_nom_dict. }
    rewrite E. apply IH. unfold dadd. by apply clean_set_dict.
  Qed.

  Lemma add_nom o : clean_av o -> forall av, clean_av av ->
    sfold (on_attr (sfold (add1 (N:=N)))) (nom_av av) (nom_av o) =
      (nom_av (fold_left avmerge1 o av), None) /\ clean_av (fold_left avmerge1 o av).
  Proof.
    induction 1 as [|[a d] o Hd Ho IH]; intros av Hav; [done|].
    cbn [nom_av map sfold fold_left fst snd] in *. fold (nom_av o). fold (nom_av av).
    destruct (add_dict_nom d Hd (default [] (dget a av)) (clean_get a av Hav)) as [E Hc].
    assert (E' : on_attr (sfold (add1 (N:=N))) (nom_av av) (a, nom_dict d) = (nom_av (avmerge1 av (a, d)), None)).
    { unfold on_attr. cbn [fst snd]. rewrite dget_nom_av, E. by rewrite dset_nom_av. }
    rewrite E'. apply IH. unfold avmerge1. cbn [fst snd]. by apply clean_set.
  Qed.

  Lemma vis_nom av : dfilter visible (nom_av av) = nom_av (dfilter visible av).
  Proof.
    induction av as [|[a d] av IH]; [done|]. unfold dfilter, nom_av in *. simpl. rewrite IH.
    by destruct (visible a).
  Qed.
  Lemma keys_nom av : dkeys (nom_av av) = dkeys av.
  Proof. unfold dkeys, nom_av. by rewrite map_map. Qed.
  Lemma keys_nom_inst i : dkeys (nom_inst i) = dkeys i.
  Proof. unfold dkeys, nom_inst. by rewrite map_map. Qed.

  Lemma ecg_nom x s : clean_av (ns_av s) -> n3_ecg x (nom_table s) = ns_ecg N s.
  Proof.
    intros Hc. unfold n3_ecg, ns_ecg, nom_table. cbn [n3_av n3_count]. rewrite vis_nom.
    assert (Hlen : length (nom_av (dfilter visible (ns_av s))) = length (dfilter visible (ns_av s))).
    { unfold nom_av. by rewrite map_length. }
    rewrite Hlen. f_equal.
    assert (Hv : clean_av (dfilter visible (ns_av s))).
    { unfold clean_av. rewrite Forall_forall. intros p Hp. apply elem_of_filterb in Hp as [Hp _].
      unfold clean_av in Hc. rewrite Forall_forall in Hc. by apply Hc. }
    generalize (nofnat N 0). clear Hc Hlen. induction Hv as [|[a d] av Hd Hav IH]; intros acc; [done|].
    cbn [nom_av map rfold fst snd] in *. fold (nom_av av).
    assert (E : forall acc,
      rfold (fun acc q => rbind (ecg_value x (ns_count s) a q) (fun g => Ok (nadd N acc g))) acc (nom_dict d) =
      rfold (fun acc q => rbind (pydiv N (nofnat N (snd q)) (nofnat N (ns_count s)))
        (fun pr => Ok (nadd N acc (nmul N pr pr)))) acc d).
    { clear -Hd. induction Hd as [|[v n] d Hv Hd IH]; intros acc; [done|].
      cbn [nom_dict map rfold fst snd] in *. fold (nom_dict d). unfold ecg_value at 1. cbn [fst snd].
      rewrite decide_False by done.
      destruct (pydiv N (nofnat N n) (nofnat N (ns_count s))) as [pr|e]; simpl; [|done]. apply IH. }
    rewrite E. destruct (rfold _ acc d) as [acc'|e]; simpl; [|done]. apply IH.
  Qed.

  Lemma exact_nom s i : clean_inst i -> n3_exact (nom_table s) (nom_inst i) = Ok (ns_exact s i).
  Proof.
    intros Hi. unfold n3_exact, ns_exact. cbn [n3_av nom_table]. rewrite keys_nom, keys_nom_inst.
    induction (dkeys i ++ List.filter visible (dkeys (ns_av s))) as [|a l IH]; [done|].
    cbn [rall forallb].
    assert (E : exact1 (nom_table s) (nom_inst i) a = Ok (hidden a ||
      match dget a i, dget a (ns_av s) with
      | Some v, Some d => match dget v d with Some c => (c =? ns_count s)%nat | None => false end
      | None, None => true
      | _, _ => false
      end)).
    { unfold exact1. destruct (hidden a); [done|]. cbn [n3_av nom_table orb].
      unfold nom_inst, nom_av. rewrite (dget_map (@VNom N)), (dget_map nom_dict).
      destruct (dget a i) as [v|], (dget a (ns_av s)) as [d|]; cbn [option_map]; try done.
      rewrite dget_nom_dict. by destruct (dget v d). }
    rewrite E. cbn [rbind]. destruct (hidden a || _); cbn [andb]; done.
  Qed.

  Lemma nominal_sim : simulation C1 C3 nom_tables nom_insts (fun _ _ => True).
  Proof.
    split; [split|done].
    - split; [apply Forall_nil_2|done].
    - by intros s1 s3 [_ ->].
    - intros s1 s3 i1 i3 [Hs ->] [Hi ->]. simpl. unfold n3_inc. cbn [n3_av n3_count nom_table].
      destruct (inc_nom i1 Hi (ns_av s1) Hs) as [-> Hc]. simpl. split; [|done]. split; done.
    - intros s1 s3 o1 o3 [Hs ->] [Ho ->]. simpl. unfold n3_add. cbn [n3_av n3_count nom_table].
      destruct (add_nom (ns_av o1) Ho (ns_av s1) Hs) as [-> Hc]. simpl. split; [|done]. split; done.
    - intros x1 x3 s1 s3 _ [Hs ->]. simpl. symmetry. by apply ecg_nom.
    - intros s1 s3 i1 i3 [Hs ->] [Hi ->]. simpl. symmetry. by apply exact_nom.
  Qed.

  (** ** C64 *)
  (** The same call, on a Cobweb3Tree. *)
  Definition nom_call (c : call C1) : call C3 :=
    match c with
    | CFit i => @CFit _ C3 (nom_inst i)
    | CCat i => @CCat _ C3 (nom_inst i)
    | COther a b => @COther _ C3 a b
    | CClear => @CClear _ C3
    end.
  Definition call_avoids_key (c : call C1) : Prop :=
    match c with
    | CFit i | CCat i => forall a, (a, cv_key) ∉ i
    | _ => True
    end.

  Theorem C64_cobweb3_extends_cobweb (rng : nat -> num N) sc inner cs ctr rpos :
    Forall call_avoids_key cs ->
    let '(r, s) := exec C1 rng tt cs (fresh C1 ctr rpos tt) in
    let '(r3, s3) := exec C3 rng (new_ctx sc inner) (map nom_call cs)
                       (fresh C3 ctr rpos (new_ctx sc inner)) in
    r = r3 /\
    same_view (C1:=C1) (C2:=C3) (fun tb tb3 => n3_count tb3 = ns_count tb /\
      n3_av tb3 = map (fun p => (fst p, map (fun q => (fst q, Cnt (snd q))) (snd p))) (ns_av tb)) s s3.
  Proof.
    intros Hcs.
    assert (Hcalls : Forall2 (crel C1 C3 nom_insts) cs (map nom_call cs)).
    { induction Hcs as [|c cs Hc Hcs IH]; [constructor|]. constructor; [|done].
      assert (Hcl : forall i, (forall a, (a, cv_key) ∉ i) -> clean_inst i).
      { intros i Hi. unfold clean_inst. rewrite Forall_forall. intros [a v] Hp E. simpl in E. subst v.
        by apply (Hi a). }
      destruct c as [i|i|a b|]; simpl in *; try done; (split; [by apply Hcl|done]). }
    destruct (exec_rel C1 C3 rng nom_tables nom_insts (fun _ _ => True) nominal_sim (cobweb3_real N)
      tt (new_ctx sc inner) cs (map nom_call cs) (fresh C1 ctr rpos tt) (fresh C3 ctr rpos (new_ctx sc inner))
      I Hcalls (srel_fresh C1 C3 _ _ _ nominal_sim ctr rpos tt (new_ctx sc inner) I)) as [Hr Hs].
    destruct (exec C1 rng tt cs _) as [r s], (exec C3 rng _ (map nom_call cs) _) as [r3 s3].
    cbn [fst snd] in *. split; [done|].
    destruct (srel_view _ _ _ _ _ _ Hs) as [V1 V2 V3 V4 V5]. split; try done.
    intros id tb tb3 Hin H1 H2. by destruct (V5 id tb tb3 Hin H1 H2) as [_ ->].
  Qed.
End Nom.
