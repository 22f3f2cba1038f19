(** * C96, continued: what CobwebTree prints determines the tree; not so for Cobweb3Tree. *)
From stdpp Require Import base decidable list gmap strings pretty.
From Coq Require Import Ascii.
From Verif Require Import Base Num TreeModel TreeFun TreeScore TreeRefine TreeSorts TreeInv
  SpecTree TreeState Nominal NominalFacts NominalTree CV Cobweb3 Print PropsPrint.
Set Default Proof Using "Type".
Local Open Scope string_scope.
Local Arguments String.append !_ _ / : simpl nomatch.

(** ** Specification *)

(** Values made of strings, integers and booleans *)
Definition plain_nom (v : nom) : Prop := match v with NAtom _ => False | _ => True end.
Definition plain_inst (i : inst) : Prop := forall a v, dget a i = Some v -> plain_nom v.

(** ** Reading a text: the value and the rest are determined. *)
Definition reads {A} (P : A -> Prop) (Q : string -> Prop) (show : A -> string) : Prop :=
  forall a b x y, P a -> P b -> Q x -> Q y -> show a +:+ x = show b +:+ y -> a = b /\ x = y.
Definition starts (cs : list ascii) (x : string) : Prop := exists c y, x = String c y /\ c ∈ cs.

Lemma esc_inj q c d x y : q = sq \/ q = dq -> esc q c +:+ x = esc q d +:+ y -> c = d /\ x = y.
Proof.
  (* a decoder for one character *)
  set (unhex := fun h => let n := nat_of_ascii h in if Nat.ltb n 58 then (n - 48)%nat else (n - 87)%nat).
  set (dec := fun s => match s with
    | String b (String e r) =>
      if Ascii.eqb b backslash then
        if Ascii.eqb e "t" then Some (ascii_of_nat 9, r)
        else if Ascii.eqb e "n" then Some (ascii_of_nat 10, r)
        else if Ascii.eqb e "r" then Some (ascii_of_nat 13, r)
        else if Ascii.eqb e "x" then match r with String h (String l r) => Some (ascii_of_nat (16 * unhex h + unhex l), r) | _ => None end
        else Some (e, r)
      else Some (b, String e r)
    | String b "" => Some (b, "")
    | "" => None
    end).
  assert (H : forall q c x, q = sq \/ q = dq -> dec (esc q c +:+ x) = Some (c, x)).
  { clear. intros q c x [-> | ->]; destruct c as [[] [] [] [] [] [] [] []]; (reflexivity || destruct x; reflexivity). }
  intros Hq E. pose proof (H q c x Hq) as H1. rewrite E, (H q d y Hq) in H1. by injection H1 as -> ->.
Qed.

Lemma esc_quote q c x y : q = sq \/ q = dq -> esc q c +:+ x <> String q y.
Proof.
  intros [-> | ->]; destruct c as [[] [] [] [] [] [] [] []]; vm_compute; intros E; discriminate E.
Qed.

Lemma escs_inj q s t x y : q = sq \/ q = dq ->
  escs q s +:+ String q x = escs q t +:+ String q y -> s = t /\ x = y.
Proof.
  intros Hq. revert t. induction s as [|c s IH]; intros [|d t] E; cbn [escs] in E.
  - split; [done|]. by injection E.
  - exfalso. rewrite sapp_assoc in E. symmetry in E. by apply esc_quote in E.
  - exfalso. rewrite sapp_assoc in E. by apply esc_quote in E.
  - rewrite !sapp_assoc in E. apply esc_inj in E as [-> E]; [|done]. apply IH in E as [-> ->]. done.
Qed.

Lemma quote_of_or s : quote_of s = sq \/ quote_of s = dq.
Proof. unfold quote_of. destruct (_ && _); auto. Qed.

Lemma repr_str_reads x y s t : repr_str s +:+ x = repr_str t +:+ y -> s = t /\ x = y.
Proof.
  unfold repr_str. intros E. cbn [String.append] in E. injection E as Eq E. rewrite Eq in E.
  rewrite !sapp_assoc in E. cbn [String.append] in E.
  apply escs_inj in E as [-> ->]; [done|apply quote_of_or].
Qed.

(** *** Numbers *)
Definition digit (c : ascii) : Prop := (48 <= nat_of_ascii c <= 57)%nat \/ nat_of_ascii c = 45%nat.
Lemma pretty_char_digit n : (n < 10)%N -> digit (pretty_N_char n).
Proof.
  intros Hn. assert (n = 0 \/ n = 1 \/ n = 2 \/ n = 3 \/ n = 4 \/ n = 5 \/ n = 6 \/ n = 7 \/ n = 8 \/ n = 9)%N as H by lia.
  left. destruct H as [->|[->|[->|[->|[->|[->|[->|[->|[->| ->]]]]]]]]]; vm_compute; lia.
Qed.
Lemma pretty_go_digits n s : every digit s -> every digit (pretty_N_go n s).
Proof.
  revert s. induction (N.lt_wf_0 n) as [n _ IH]. intros s Hs.
  destruct (decide (0 < n)%N) as [Hn|Hn].
  - rewrite pretty_N_go_step by done. apply IH; [apply N.div_lt; lia|]. split; [|done].
    apply pretty_char_digit. apply N.mod_lt. lia.
  - assert (n = 0%N) as -> by lia. by rewrite pretty_N_go_0.
Qed.
Lemma pretty_N_digits (n : N) : every digit (pretty n).
Proof.
  unfold pretty, pretty_N. destruct (decide (n = 0%N)); [|by apply pretty_go_digits].
  split; [|done]. left. vm_compute. lia.
Qed.
Lemma pretty_nat_digits (n : nat) : every digit (pretty n).
Proof. apply pretty_N_digits. Qed.
Lemma pretty_Z_digits (z : Z) : every digit (pretty z).
Proof.
  unfold pretty, pretty_Z. destruct z; [apply (pretty_N_digits 0)|apply (pretty_N_digits (Npos p))|].
  split; [right; done|]. apply (pretty_N_digits (Npos p)).
Qed.

Lemma starts_not_digit cs x : Forall (fun c => ~ digit c) cs -> starts cs x -> exists c y, x = String c y /\ ~ digit c.
Proof. intros HF (c & y & -> & Hc). exists c, y. split; [done|]. by eapply Forall_forall in HF. Qed.

Lemma digits_reads (a b x y : string) cs : every digit a -> every digit b ->
  Forall (fun c => ~ digit c) cs -> starts cs x -> starts cs y -> a +:+ x = b +:+ y -> a = b /\ x = y.
Proof.
  intros Ha Hb HF Hx Hy E. apply starts_not_digit in Hx as (c & x' & -> & Hc); [|done].
  apply starts_not_digit in Hy as (d & y' & -> & Hd); [|done].
  apply (cut digit) in E as (-> & -> & ->); done.
Qed.

(** What follows an entry *)
Definition stops : list ascii := [","%char; ":"%char; ")"%char; "}"%char].
Lemma stops_digit : Forall (fun c => ~ digit c) stops.
Proof. repeat (apply Forall_cons_2; [unfold digit; vm_compute; lia|]). apply Forall_nil_2. Qed.

(** *** First characters *)
Lemma pretty_head (z : Z) : exists c r, pretty z = String c r /\ digit c.
Proof.
  pose proof (pretty_Z_digits z) as H. destruct (pretty z) as [|c r] eqn:E.
  - exfalso. destruct z as [|p|p]; [discriminate| |discriminate].
    change (pretty (Zpos p)) with (pretty (Npos p)) in E. unfold pretty, pretty_N in E.
    destruct (decide _) in E; [discriminate|].
    assert (G : forall n s, s <> "" -> pretty_N_go n s <> "").
    { clear. intros n. induction (N.lt_wf_0 n) as [n _ IH]. intros s Hs.
      destruct (decide (0 < n)%N) as [Hn|Hn].
      - rewrite pretty_N_go_step by done. apply IH; [apply N.div_lt; lia|done].
      - assert (n = 0%N) as -> by lia. by rewrite pretty_N_go_0. }
    rewrite pretty_N_go_step in E by lia. by eapply G in E.
  - destruct H. eauto.
Qed.

Definition quote_char (c : ascii) : Prop := c = sq \/ c = dq.
Lemma attr_head a : exists c r, repr_attr a = String c r /\ (match a with AStr _ => quote_char c | ANum _ => digit c | ATup _ => c = "("%char end).
Proof.
  destruct a as [s|l|z].
  - eexists _, _. split; [reflexivity|]. apply quote_of_or.
  - eexists _, _. split; [reflexivity|done].
  - apply pretty_head.
Qed.

(** *** Tuples *)
Fixpoint rest (l : list attr) : string :=
  match l with [] => ")" | y :: l => ", " +:+ repr_attr y +:+ rest l end.
Lemma repr_tup2 a b l : repr_attr (ATup (a :: b :: l)) = "(" +:+ repr_attr a +:+ rest (b :: l).
Proof.
  assert (H : forall l, (fix go (l : list attr) : string :=
                match l with [] => ")" | y :: l => ", " +:+ repr_attr y +:+ go l end) l = rest l)
    by (intros k; induction k as [|c k IH]; [done|]; cbn [rest]; by rewrite <- IH).
  rewrite <- H. done.
Qed.

Lemma digit_quote c : digit c -> quote_char c -> False.
Proof. unfold digit, quote_char. intros Hd [-> | ->]; vm_compute in Hd; lia. Qed.
Lemma digit_paren : digit "(" -> False.
Proof. unfold digit. intros Hd; vm_compute in Hd; lia. Qed.
Lemma digit_close : digit ")" -> False.
Proof. unfold digit. intros Hd; vm_compute in Hd; lia. Qed.
Lemma quote_paren : quote_char "(" -> False.
Proof. unfold quote_char. intros [H|H]; discriminate H. Qed.
Lemma quote_close : quote_char ")" -> False.
Proof. unfold quote_char. intros [H|H]; discriminate H. Qed.

Lemma attr_not_close a x y : repr_attr a +:+ x <> String ")" y.
Proof.
  destruct (attr_head a) as (c & r & -> & Hc). intros E. injection E as -> _. destruct a.
  - by apply quote_close.
  - done.
  - by apply digit_close.
Qed.

Ltac stop := simpl; eexists _, _; split; [reflexivity|unfold stops; repeat first [apply elem_of_list_here|apply elem_of_list_further]].
Lemma starts_rest l x : starts stops (rest l +:+ x).
Proof. destruct l as [|a l]; simpl; (eexists _, _; split; [reflexivity|unfold stops; repeat first [apply elem_of_list_here|apply elem_of_list_further]]). Qed.

Lemma attr_reads : reads (fun _ => True) (starts stops) repr_attr.
Proof.
  intros a b x y _ _. revert b x y. induction a as [s|l IH|z] using attr_ind'; intros [t|l'|z'] x y Hx Hy E.
  - apply repr_str_reads in E as [-> ->]. done.
  - exfalso. destruct (attr_head (AStr s)) as (c & r & Ec & Hc). rewrite Ec in E.
    destruct (attr_head (ATup l')) as (c' & r' & Ec' & ->). rewrite Ec' in E. injection E as -> _. by apply quote_paren.
  - exfalso. destruct (attr_head (AStr s)) as (c & r & Ec & Hc). rewrite Ec in E.
    destruct (attr_head (ANum z')) as (c' & r' & Ec' & Hc'). rewrite Ec' in E. injection E as -> _. by eapply digit_quote.
  - exfalso. destruct (attr_head (AStr t)) as (c & r & Ec & Hc). rewrite Ec in E.
    destruct (attr_head (ATup l)) as (c' & r' & Ec' & ->). rewrite Ec' in E. injection E as <- _. by apply quote_paren.
  - rewrite Forall_forall in IH.
    assert (Hrest : forall k k' x y, (forall a, a ∈ k -> a ∈ l) -> rest k +:+ x = rest k' +:+ y -> k = k' /\ x = y).
    { clear E Hx Hy x y. induction k as [|a k IHk]; intros [|b k'] x y Hk E; cbn [rest] in E.
      - split; [done|]. by injection E.
      - discriminate E.
      - discriminate E.
      - rewrite !sapp_assoc in E. cbn [String.append] in E. injection E as E.
        apply IH in E as [-> E]; [|apply Hk; left|apply starts_rest|apply starts_rest].
        apply IHk in E as [-> ->]; [done|]. intros; apply Hk; by right. }
    assert (Hsingle : forall z, starts stops (",)" +:+ z)).
    { intros w. simpl. eexists _, _. split; [reflexivity|unfold stops; repeat first [apply elem_of_list_here|apply elem_of_list_further]]. }
    destruct l as [|a [|a2 l]], l' as [|b [|b2 l']].
    + split; [done|]. by injection E.
    + exfalso. cbn [repr_attr] in E. rewrite !sapp_assoc in E. cbn [String.append] in E. injection E as E. symmetry in E. by apply attr_not_close in E.
    + exfalso. rewrite repr_tup2 in E. rewrite !sapp_assoc in E. cbn [repr_attr String.append] in E. injection E as E. symmetry in E. by apply attr_not_close in E.
    + exfalso. cbn [repr_attr] in E. rewrite !sapp_assoc in E. cbn [String.append] in E. injection E as E. by apply attr_not_close in E.
    + cbn [repr_attr] in E. rewrite !sapp_assoc in E. change ("(" +:+ ?z) with (String "(" z) in E. injection E as E.
      apply IH in E as [-> E]; [|left|stop|stop]. split; [done|]. by injection E.
    + exfalso. rewrite repr_tup2 in E. cbn [repr_attr] in E. rewrite !sapp_assoc in E. change ("(" +:+ ?z) with (String "(" z) in E. injection E as E.
      apply IH in E as [-> E]; [|left|stop|stop]. discriminate E.
    + exfalso. rewrite repr_tup2 in E. rewrite !sapp_assoc in E. cbn [repr_attr String.append] in E. injection E as E. by apply attr_not_close in E.
    + exfalso. rewrite repr_tup2 in E. cbn [repr_attr] in E. rewrite !sapp_assoc in E. change ("(" +:+ ?z) with (String "(" z) in E. injection E as E.
      apply IH in E as [-> E]; [|left|stop|stop]. discriminate E.
    + rewrite !repr_tup2 in E. rewrite !sapp_assoc in E. change ("(" +:+ ?z) with (String "(" z) in E. injection E as E.
      apply IH in E as [-> E]; [|left|stop|stop].
      destruct (Hrest (a2 :: l) (b2 :: l') x y) as [[= -> ->] ->]; [intros; by right|exact E|done].
  - exfalso. destruct (attr_head (ATup l)) as (c & r & Ec & ->). rewrite Ec in E.
    destruct (attr_head (ANum z')) as (c' & r' & Ec' & Hc'). rewrite Ec' in E. injection E as <- _. by apply digit_paren.
  - exfalso. destruct (attr_head (AStr t)) as (c & r & Ec & Hc). rewrite Ec in E.
    destruct (attr_head (ANum z)) as (c' & r' & Ec' & Hc'). rewrite Ec' in E. injection E as <- _. by eapply digit_quote.
  - exfalso. destruct (attr_head (ATup l')) as (c & r & Ec & ->). rewrite Ec in E.
    destruct (attr_head (ANum z)) as (c' & r' & Ec' & Hc'). rewrite Ec' in E. injection E as -> _. by apply digit_paren.
  - cbn [repr_attr] in E. apply (digits_reads _ _ _ _ stops) in E as [E ->]; [|apply pretty_Z_digits|apply pretty_Z_digits|apply stops_digit|done|done].
    apply (inj pretty) in E as ->. done.
Qed.

Lemma nom_reads reprX : reads plain_nom (starts stops) (repr_nom reprX).
Proof.
  intros [s|b|z|n] [t|b'|z'|n'] x y Hp Hp' Hx Hy E; try done; cbn [repr_nom] in E.
  - apply repr_str_reads in E as [-> ->]. done.
  - exfalso. unfold repr_str in E. cbn [String.append] in E. destruct (quote_of_or s) as [Q|Q], b'; rewrite Q in E; discriminate E.
  - exfalso. destruct (pretty_head z') as (c & r & Ec & Hc). rewrite Ec in E. injection E as Eq _. 
    eapply digit_quote; [exact Hc|]. rewrite <- Eq. apply quote_of_or.
  - exfalso. unfold repr_str in E. cbn [String.append] in E. destruct (quote_of_or t) as [Q|Q], b; rewrite Q in E; discriminate E.
  - destruct b, b'; try discriminate E; injection E as ->; done.
  - exfalso. destruct (pretty_head z') as (c & r & Ec & Hc). rewrite Ec in E.
    destruct b; injection E as <- _; unfold digit in Hc; vm_compute in Hc; lia.
  - exfalso. destruct (pretty_head z) as (c & r & Ec & Hc). rewrite Ec in E. injection E as Eq _. 
    eapply digit_quote; [exact Hc|]. rewrite Eq. apply quote_of_or.
  - exfalso. destruct (pretty_head z) as (c & r & Ec & Hc). rewrite Ec in E.
    destruct b'; injection E as -> _; unfold digit in Hc; vm_compute in Hc; lia.
  - apply (digits_reads _ _ _ _ stops) in E as [E ->]; [|apply pretty_Z_digits|apply pretty_Z_digits|apply stops_digit|done|done].
    apply (inj pretty) in E as ->. done.
Qed.

Lemma nat_reads : reads (fun _ => True) (starts stops) (fun n : nat => pretty n).
Proof.
  intros n m x y _ _ Hx Hy E.
  apply (digits_reads _ _ _ _ stops) in E as [E ->]; [|apply pretty_nat_digits|apply pretty_nat_digits|apply stops_digit|done|done].
  apply (inj pretty) in E as ->. done.
Qed.

(** *** Dictionaries *)
Section Dict.
  Context {A B : Type} (PA : A -> Prop) (PB : B -> Prop) (showk : A -> string) (showv : B -> string).
  Context (HA : reads PA (starts stops) showk) (HB : reads PB (starts stops) showv).
  Context (Hopen : forall a x y, PA a -> showk a +:+ x <> String "}" y).
  Let entry (e : A * B) : string := showk (fst e) +:+ ": " +:+ showv (snd e).
  Fixpoint drest (d : list (A * B)) : string :=
    match d with [] => "}" | e :: d => ", " +:+ entry e +:+ drest d end.
  Lemma show_dict_cons e d : show_dict showk showv (e :: d) = "{" +:+ entry e +:+ drest d.
  Proof.
    unfold show_dict. f_equal. revert e. induction d as [|e' d IH]; intros e; [done|].
    change (String.concat ", " (map (fun e => showk (fst e) +:+ ": " +:+ showv (snd e)) (e :: e' :: d)))
      with (entry e +:+ ", " +:+ String.concat ", " (map (fun e => showk (fst e) +:+ ": " +:+ showv (snd e)) (e' :: d))).
    rewrite !sapp_assoc. rewrite IH. done.
  Qed.
  Lemma starts_drest d x : starts stops (drest d +:+ x).
  Proof. destruct d as [|a d]; simpl; (eexists _, _; split; [reflexivity|unfold stops; repeat first [apply elem_of_list_here|apply elem_of_list_further]]). Qed.
  Lemma starts_colon x : starts stops (": " +:+ x).
  Proof. simpl; (eexists _, _; split; [reflexivity|unfold stops; repeat first [apply elem_of_list_here|apply elem_of_list_further]]). Qed.

  Definition dall (d : list (A * B)) : Prop := Forall (fun e => PA (fst e) /\ PB (snd e)) d.
  Lemma entry_reads e e' d d' x y : PA (fst e) -> PB (snd e) -> PA (fst e') -> PB (snd e') ->
    entry e +:+ drest d +:+ x = entry e' +:+ drest d' +:+ y -> e = e' /\ drest d +:+ x = drest d' +:+ y.
  Proof using HA HB.
    destruct e as [a b], e' as [a' b']. unfold entry. cbn [fst snd]. intros H1 H2 H3 H4 E. rewrite !sapp_assoc in E.
    apply HA in E as [-> E]; [|done|done|apply starts_colon|apply starts_colon].
    cbn [String.append] in E. injection E as E.
    apply HB in E as [-> E]; [done|done|done|apply starts_drest|apply starts_drest].
  Qed.
  Lemma drest_reads d d' x y : dall d -> dall d' -> drest d +:+ x = drest d' +:+ y -> d = d' /\ x = y.
  Proof using HA HB.
    revert d'. induction d as [|e d IH]; intros [|e' d'] Hd Hd' E; cbn [drest] in E.
    - split; [done|]. by injection E.
    - discriminate E.
    - discriminate E.
    - rewrite !sapp_assoc in E. change (", " +:+ ?z) with (String "," (String " " z)) in E. injection E as E.
      apply Forall_cons in Hd as [[H1 H2] Hd]. apply Forall_cons in Hd' as [[H3 H4] Hd'].
      apply entry_reads in E as [-> E]; [|done..]. apply IH in E as [-> ->]; done.
  Qed.
  Lemma dict_reads Q : reads dall Q (show_dict showk showv).
  Proof using HA HB Hopen.
    intros [|e d] [|e' d'] x y Hd Hd' _ _ E.
    - split; [done|]. by injection E.
    - exfalso. rewrite show_dict_cons in E. rewrite !sapp_assoc in E. change ("{" +:+ ?z) with (String "{" z) in E.
      injection E as E. symmetry in E. unfold entry in E. rewrite sapp_assoc in E. apply Hopen in E; [done|].
      by apply Forall_cons in Hd' as [[? _] _].
    - exfalso. rewrite show_dict_cons in E. rewrite !sapp_assoc in E. change ("{" +:+ ?z) with (String "{" z) in E.
      injection E as E. unfold entry in E. rewrite sapp_assoc in E. apply Hopen in E; [done|].
      by apply Forall_cons in Hd as [[? _] _].
    - rewrite !show_dict_cons, !sapp_assoc in E. change ("{" +:+ ?z) with (String "{" z) in E. injection E as E.
      apply Forall_cons in Hd as [[H1 H2] Hd]. apply Forall_cons in Hd' as [[H3 H4] Hd'].
      apply entry_reads in E as [-> E]; [|done..]. apply drest_reads in E as [-> ->]; done.
  Qed.
End Dict.

(** *** The whole line *)
Definition plain_table (s : nsum) : Prop :=
  forall a d v n, (a, d) ∈ ns_av s -> (v, n) ∈ d -> plain_nom v.

Lemma nom_not_brace reprX a x y : plain_nom a -> repr_nom reprX a +:+ x <> String "}" y.
Proof.
  intros Hp. destruct a as [s|b|z|n]; [| | |done]; cbn [repr_nom].
  - unfold repr_str. cbn [String.append]. destruct (quote_of_or s) as [-> | ->]; discriminate.
  - destruct b; discriminate.
  - destruct (pretty_head z) as (c & r & -> & Hc). intros E. injection E as -> _. unfold digit in Hc; vm_compute in Hc; lia.
Qed.
Lemma attr_not_brace a x y : repr_attr a +:+ x <> String "}" y.
Proof.
  destruct (attr_head a) as (c & r & -> & Hc). intros E. injection E as -> _. destruct a.
  - destruct Hc as [Hc|Hc]; discriminate Hc.
  - discriminate Hc.
  - unfold digit in Hc; vm_compute in Hc; lia.
Qed.

Lemma cobweb_label_inj reprX s t : plain_table s -> plain_table t ->
  cobweb_label repr_attr (repr_nom reprX) s = cobweb_label repr_attr (repr_nom reprX) t -> s = t.
Proof.
  intros Hs Ht E. unfold cobweb_label in E.
  assert (Hin : reads (dall plain_nom (fun _ : nat => True)) (starts stops) (show_dict (repr_nom reprX) (fun n : nat => pretty n))).
  { apply dict_reads; [apply nom_reads|apply nat_reads|apply nom_not_brace]. }
  assert (Hall : forall s, plain_table s -> dall (fun _ : attr => True) (dall plain_nom (fun _ : nat => True)) (ns_av s)).
  { clear. intros s Hs. apply Forall_forall. intros [a d] Ha. split; [done|]. apply Forall_forall. intros [v n] Hv. split; [|done].
    by eapply Hs. }
  pose proof (dict_reads (fun _ => True) _ repr_attr _ attr_reads Hin (fun a x y _ => attr_not_brace a x y) (fun _ => True)) as Hd.
  apply Hd in E as [E1 E2]; [|by apply Hall|by apply Hall|done|done].
  injection E2 as E2. apply (inj pretty) in E2. destruct s, t; simpl in *. by subst.
Qed.

(** *** No line break *)
Notation ok_char := (fun c => c <> newline_char).
Lemma digits_ok x : every digit x -> every ok_char x.
Proof.
  induction x as [|c x IH]; [done|]. intros [Hc Hx]. split; [|by apply IH].
  intros ->. unfold digit in Hc. vm_compute in Hc. lia.
Qed.
Lemma esc_ok q c : q = sq \/ q = dq -> every ok_char (esc q c).
Proof.
  intros [-> | ->]; destruct c as [[] [] [] [] [] [] [] []]; vm_compute; repeat split; intros E; discriminate E.
Qed.
Lemma quote_ok s : ok_char (quote_of s).
Proof. destruct (quote_of_or s) as [-> | ->]; discriminate. Qed.
Lemma repr_str_ok s : every ok_char (repr_str s).
Proof.
  unfold repr_str. split; [apply quote_ok|]. apply every_app. split; [|split; [apply quote_ok|done]].
  generalize (quote_of_or s). generalize (quote_of s). intros q Hq. induction s as [|c s IH]; [done|].
  cbn [escs]. apply every_app. split; [by apply esc_ok|done].
Qed.
Ltac okc := repeat (split; [discriminate|]); done.
Lemma repr_attr_ok a : every ok_char (repr_attr a).
Proof.
  induction a as [s|l IH|z] using attr_ind'.
  - apply repr_str_ok.
  - assert (Hr : forall k, (forall a, a ∈ k -> a ∈ l) -> every ok_char (rest k)).
    { rewrite Forall_forall in IH. induction k as [|a k IHk]; intros Hk; [okc|]. cbn [rest].
      apply every_app. split; [okc|]. apply every_app. split; [apply IH, Hk; left|apply IHk; intros; apply Hk; by right]. }
    destruct l as [|a [|b l]].
    + okc.
    + cbn [repr_attr]. apply Forall_cons in IH as [Ha _]. apply every_app. split; [okc|]. apply every_app. split; [done|okc].
    + rewrite repr_tup2. apply Forall_cons in IH as [Ha _]. apply every_app. split; [okc|]. apply every_app. split; [done|].
      apply Hr. intros; by right.
  - apply digits_ok, pretty_Z_digits.
Qed.
Lemma repr_nom_ok reprX v : plain_nom v -> every ok_char (repr_nom reprX v).
Proof.
  intros Hv. destruct v as [s|b|z|n]; [apply repr_str_ok|destruct b; okc|apply digits_ok, pretty_Z_digits|done].
Qed.
Lemma show_dict_ok {A B} (showk : A -> string) (showv : B -> string) d :
  Forall (fun e => every ok_char (showk (fst e)) /\ every ok_char (showv (snd e))) d -> every ok_char (show_dict showk showv d).
Proof.
  intros H. destruct d as [|e d]; [okc|]. rewrite show_dict_cons.
  apply Forall_cons in H as [[H1 H2] H]. apply every_app. split; [okc|]. apply every_app. split.
  - apply every_app. split; [done|]. apply every_app. split; [okc|done].
  - induction H as [|e' d [H3 H4] H IH]; [okc|]. cbn [drest]. apply every_app. split; [okc|]. apply every_app. split; [|done].
    apply every_app. split; [done|]. apply every_app. split; [okc|done].
Qed.
Lemma cobweb_label_line reprX s : plain_table s -> one_line (cobweb_label repr_attr (repr_nom reprX) s).
Proof.
  intros Hs. apply one_line_every. unfold cobweb_label. apply every_app. split; [|apply every_app; split; [okc|]].
  - apply show_dict_ok, Forall_forall. intros [a d] Ha. split; [apply repr_attr_ok|].
    apply show_dict_ok, Forall_forall. intros [v n] Hv. split; [apply repr_nom_ok; by eapply Hs|apply digits_ok, pretty_nat_digits].
  - apply digits_ok, pretty_nat_digits.
Qed.

(** ** CobwebTree *)
Lemma matches_mono {N : NumOps} {C : NodeClass N} (R R' : nc_sum C -> nc_sum C -> Prop) (s1 s2 : st C) a b :
  (forall id1 id2 x y, table_of s1 id1 x -> table_of s2 id2 y -> in_tree s1 id1 -> in_tree s2 id2 -> R x y -> R' x y) ->
  in_tree s1 a -> in_tree s2 b -> matches R s1 s2 a b -> matches R' s1 s2 a b.
Proof.
  intros HR Ha Hb HM. revert a b HM Ha Hb.
  fix IH 3. intros a b [id1 id2 tb1 tb2 l1 l2 T1 T2 HRt C1 C2 HF] Ha Hb.
  apply (matches_node R' s1 s2 id1 id2 tb1 tb2 l1 l2); [exact T1|exact T2|exact (HR _ _ _ _ T1 T2 Ha Hb HRt)|exact C1|exact C2|].
  assert (H1 : forall c, c ∈ l1 -> in_tree s1 c) by (intros c Hc; eapply desc_child; [exact Ha|by exists l1]).
  assert (H2 : forall c, c ∈ l2 -> in_tree s2 c) by (intros c Hc; eapply desc_child; [exact Hb|by exists l2]).
  clear C1 C2. induction HF as [|x y l1 l2 Hxy HF IHF]; constructor.
  - apply IH; [exact Hxy|apply H1; left|apply H2; left].
  - apply IHF; intros; [apply H1|apply H2]; by right.
Qed.

Section Cobweb.
  Context {N : NumOps}.
  Notation C := (CobwebClass N).

  Lemma tables_plain rng evs (s : st C) id tb :
    reachable C rng tt evs s -> all_inst (C:=C) good evs -> all_ok evs -> Forall plain_inst (history evs) ->
    in_tree s id -> table_of s id tb -> plain_table tb.
  Proof.
    intros Hr Hg Hao Hp Hin Htb.
    destruct (reachable_tinv C rng Hist LeafV good (hist_laws N) tt evs s Hr Hg Hao) as (t & Hok & Ht).
    apply (in_tree_sub _ _ _ _ Hok) in Hin as (u & Hu & <-).
    destruct (tinv_sub C Hist LeafV good (hist_laws N) t _ u Ht Hu) as (lu & Htu & Hl & _).
    apply tinv_summ in Htu. pose proof (sub_table C s t u Hok Hu) as (n1 & E1 & E2).
    destruct Htb as (n2 & E3 & E4). rewrite E1 in E3. injection E3 as <-. rewrite E2 in E4. subst tb.
    destruct Htu as (_ & [Hd Hw] & He). intros a d v n Ha Hv.
    apply In_dget in Ha; [|done]. destruct (Hw a d Ha) as (Hdd & _ & Hpos). apply In_dget in Hv; [|done].
    specialize (Hpos v n Hv). specialize (He a v). unfold entry in He. rewrite Ha, Hv in He. simpl in He.
    assert (Ho : 0 < occ lu a v) by lia. apply occ_pos in Ho as (i & Hi & Ei).
    rewrite Forall_forall in Hp. by eapply Hp; [apply Hl|].
  Qed.

  (** Two CobwebTrees built from strings, integers and booleans that print the
      same text have the same shape with the same tables. *)
  Theorem C96_text_determines_tree reprX rng1 rng2 evs1 s1 evs2 s2 x :
    reachable C rng1 tt evs1 s1 -> all_inst (C:=C) good evs1 -> all_ok evs1 -> Forall plain_inst (history evs1) ->
    reachable C rng2 tt evs2 s2 -> all_inst (C:=C) good evs2 -> all_ok evs2 -> Forall plain_inst (history evs2) ->
    pretty_print C (cobweb_label repr_attr (repr_nom reprX)) 0 (st_root s1) s1 = (Ok x, s1) ->
    pretty_print C (cobweb_label repr_attr (repr_nom reprX)) 0 (st_root s2) s2 = (Ok x, s2) ->
    matches (C:=C) eq s1 s2 (st_root s1) (st_root s2).
  Proof.
    intros R1 G1 A1 P1 R2 G2 A2 P2 E1 E2.
    eapply (matches_mono (C:=C) (fun a b => cobweb_label repr_attr (repr_nom reprX) a = cobweb_label repr_attr (repr_nom reprX) b) eq).
    - intros id1 id2 a b T1 T2 I1 I2. intros El.
      assert (Q1 : plain_table a) by exact (tables_plain rng1 evs1 s1 id1 a R1 G1 A1 P1 I1 T1).
      assert (Q2 : plain_table b) by exact (tables_plain rng2 evs2 s2 id2 b R2 G2 A2 P2 I2 T2).
      exact (cobweb_label_inj reprX a b Q1 Q2 El).
    - constructor.
    - constructor.
    - eapply C96_read_back; [exact R1|exact R2| | |exact E1|exact E2].
      + intros id tb I T. apply cobweb_label_line. exact (tables_plain rng1 evs1 s1 id tb R1 G1 A1 P1 I T).
      + intros id tb I T. apply cobweb_label_line. exact (tables_plain rng2 evs2 s2 id tb R2 G2 A2 P2 I T).
  Qed.
End Cobweb.
