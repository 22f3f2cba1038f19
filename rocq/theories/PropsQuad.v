(** * Random quadrupeds: what load_quadruped returns (C90). *)
From Coq Require Import Reals Lra.
From stdpp Require Import base decidable list gmap strings sets.
From Coq Require Import String ZArith.
From Verif Require Import Base Num TreeModel TreeFun TreeScore TreeRefine TreeSorts TreeInv SpecTree TreeState PropsTotal Nominal CV Cobweb3 C3Facts Query3
  PyVal Preproc StructMap StructFacts Trestle SpecTrestle TrestleVals TrestleTotal TrestleRun PropsStruct PropsTrestleR Quadruped.
Set Default Proof Using "Type".
Open Scope list_scope.
Open Scope R_scope.

(** ** The specification *)
Notation X := (val3 ROps).
Definition part_names : list string := ["torso"; "leg1"; "leg2"; "leg3"; "leg4"; "neck"; "head"; "tail"].
Definition measures : list string :=
  ["locationX"; "locationY"; "locationZ"; "axisX"; "axisY"; "axisZ"; "height"; "radius"; "texture"].
(** The number at [d[p][a]]. *)
Definition at_ (d : inst X) (p a : string) : option R :=
  match dget (AStr p) d with
  | Some (PD pd) => match dget (AStr a) pd with Some (PX (VNum x)) => Some x | _ => None end
  | _ => None
  end.
Definition val (d : inst X) (p a : string) : R := match at_ d p a with Some x => x | None => 0 end.
Definition type_of (d : inst X) : option (pv X) := dget (AStr "_type") d.

Record quadruped (d : inst X) : Prop := {
  (* an animal is one of four kinds and has eight parts *)
  qd_keys : dkeys d = map AStr ("_type" :: part_names);
  qd_kind : exists s, type_of d = Some (PStr s) /\ s ∈ ["dog"; "cat"; "horse"; "giraffe"];
  (* each part carries its own type and nine numbers *)
  qd_part : forall p, p ∈ part_names -> exists pd, dget (AStr p) d = Some (PD pd) /\
    dkeys pd = map AStr ("_type" :: measures) /\ dget (AStr "_type") pd = Some (PStr p);
  qd_nums : forall p a, p ∈ part_names -> a ∈ measures -> exists x, at_ d p a = Some x;
  (* sizes are positive, axes within the unit cube, textures between 170 and 180 *)
  qd_size : forall p, p ∈ part_names -> 0 < val d p "height" /\ 0 < val d p "radius";
  qd_axes : forall p a, p ∈ part_names -> a ∈ ["axisX"; "axisY"; "axisZ"] -> -1 <= val d p a <= 1;
  qd_texture : forall p, p ∈ part_names -> 170 <= val d p "texture" <= 180;
  (* the torso is at the origin; the legs stand under its four corners, reach
     exactly to its lower side, and are equally long *)
  qd_torso : val d "torso" "locationX" = 0 /\ val d "torso" "locationY" = 0 /\ val d "torso" "locationZ" = 0;
  qd_corners : let h := val d "torso" "height" in let r := val d "torso" "radius" in
    val d "leg1" "locationX" = h / 2 /\ val d "leg1" "locationY" = r /\
    val d "leg2" "locationX" = h / 2 /\ val d "leg2" "locationY" = - r /\
    val d "leg3" "locationX" = - (h / 2) /\ val d "leg3" "locationY" = r /\
    val d "leg4" "locationX" = - (h / 2) /\ val d "leg4" "locationY" = - r;
  qd_legs : forall p, p ∈ ["leg1"; "leg2"; "leg3"; "leg4"] ->
    val d p "locationZ" + val d p "height" / 2 = - val d "torso" "radius" /\ val d p "height" = val d "leg1" "height";
  (* the neck begins at the front of the torso, the head sits at its end *)
  qd_neck : val d "torso" "height" / 2 < val d "neck" "locationX" /\
    val d "head" "locationX" - val d "torso" "height" / 2 = 2 * (val d "neck" "locationX" - val d "torso" "height" / 2) /\
    val d "head" "locationZ" - val d "torso" "radius" = 2 * (val d "neck" "locationZ" - val d "torso" "radius");
}.

(** An animal that can be generated, by some draws. *)
Definition generated (d : inst X) : Prop :=
  exists draw pick fuel k k', generate_random_animal (N:=ROps) draw pick fuel k = (Ok d, k').

Section Quad.
  Context (draw : nat -> R -> R -> R) (pick : nat -> nat).
  Notation bellrand := (bellrand (N:=ROps) draw).
  Notation bell_loop := (bell_loop (N:=ROps) draw).
  Notation generate := (generate (N:=ROps) draw).
  Notation generate_random_animal := (generate_random_animal (N:=ROps) draw pick).
  Notation generate_animals := (generate_animals (N:=ROps) draw pick).

  Lemma bell_loop_ok fuel lo hi mu sd : forall k x k', bell_loop fuel lo hi mu sd k = (Ok x, k') -> lo <= x <= hi.
  Proof.
    induction fuel as [|fuel IH]; intros k x k'; cbn [Quadruped.bell_loop]; [done|].
    destruct (nltb ROps (draw k mu sd) lo || nltb ROps hi (draw k mu sd)) eqn:E; [apply IH|].
    apply orb_false_iff in E as [E1%Rltb_false E2%Rltb_false]. by intros [= <- <-].
  Qed.
  Lemma bellrand_ok fuel lo hi k x k' : bellrand fuel (lo, hi) k = (Ok x, k') -> lo <= x <= hi.
  Proof. apply bell_loop_ok. Qed.
  Lemma gbind_ok {A B} (m : G A) (f : A -> G B) k y k' : gbind m f k = (Ok y, k') ->
    exists x k1, m k = (Ok x, k1) /\ f x k1 = (Ok y, k').
  Proof. unfold gbind. destruct (m k) as [[x|e] k1] eqn:E; [eauto|done]. Qed.

  Definition within (r : R * R) (x : R) : Prop := fst r <= x <= snd r.
  Lemma bell_within fuel r k x k' : bellrand fuel r k = (Ok x, k') -> within r x.
  Proof. destruct r. apply bellrand_ok. Qed.

  Record kind_ok (q : kind (N:=ROps)) : Prop := {
    ko_name : k_name q ∈ ["dog"; "cat"; "horse"; "giraffe"];
    ko_pos : Forall (fun r : R * R => 0 < fst r) [k_torso_h q; k_torso_r q; k_leg_h q; k_leg_r q; k_neck_h q; k_neck_r q;
      k_head_h q; k_head_r q; k_tail_h q; k_tail_r q];
    ko_axes : Forall (fun r : R * R => -1 <= fst r /\ snd r <= 1) [k_leg_axis q; k_tail_axis q];
    ko_head : -1 <= k_head_axis q <= 1;
  }.
  Lemma kinds_ok q : q ∈ kinds (N:=ROps) -> kind_ok q.
  Proof.
    intros Hq. repeat (apply elem_of_cons in Hq as [->|Hq]); [..|by apply elem_of_nil in Hq];
    (split; [cbn [k_name dog cat horse giraffe]; set_solver| | |]);
    repeat (apply Forall_cons_2 || apply Forall_nil_2);
    cbn [k_torso_h k_torso_r k_leg_h k_leg_axis k_leg_r k_neck_h k_neck_r k_head_axis k_head_h k_head_r k_tail_h k_tail_axis k_tail_r dog cat horse giraffe
      fst snd nn dd m1 n1 n0 nneg nofnat ndec nsub ROps]; simpl; lra.
  Qed.

  Ltac evalv := repeat match goal with |- context [val ?d ?p ?a] =>
      let w := eval hnf in (at_ d p a) in match w with Some ?v => change (val d p a) with v end end;
    unfold n0, m1, n1, two, nneg; cbn [nofnat nsub nadd ndiv ndec ROps];
    rewrite ?(eq_refl : INR 0 = 0), ?(eq_refl : INR 1 = 1), ?(eq_refl : INR 2 = 2).

  (** An animal as a table of its numbers. *)
  Definition animal (name : string) (M : string -> string -> R) : inst X :=
    (AStr "_type", PStr name) :: map (fun p => part (N:=ROps) p (M p "locationX") (M p "locationY") (M p "locationZ")
      (M p "axisX") (M p "axisY") (M p "axisZ") (M p "height") (M p "radius") (M p "texture")) part_names.
  Lemma animal_at name M p a : p ∈ part_names -> a ∈ measures -> at_ (animal name M) p a = Some (M p a).
  Proof.
    intros Hp Ha. repeat (apply elem_of_cons in Hp as [->|Hp]); [..|by apply elem_of_nil in Hp];
    (repeat (apply elem_of_cons in Ha as [->|Ha]); [..|by apply elem_of_nil in Ha]); reflexivity.
  Qed.
  Lemma animal_val name M p a : p ∈ part_names -> a ∈ measures -> val (animal name M) p a = M p a.
  Proof. intros Hp Ha. unfold val. by rewrite animal_at. Qed.
  Lemma animal_part name M p : p ∈ part_names -> exists pd, dget (AStr p) (animal name M) = Some (PD pd) /\
    dkeys pd = map AStr ("_type" :: measures) /\ dget (AStr "_type") pd = Some (PStr p).
  Proof.
    intros Hp. repeat (apply elem_of_cons in Hp as [->|Hp]); [..|by apply elem_of_nil in Hp]; eexists; repeat split; reflexivity.
  Qed.

  Lemma generate_inv fuel q k d k' : kind_ok q -> generate fuel q k = (Ok d, k') ->
    quadruped d /\ type_of d = Some (PStr (k_name q)) /\
    within (k_neck_h q) (val d "neck" "height") /\ within (k_leg_h q) (val d "leg1" "height") /\
    within (k_torso_h q) (val d "torso" "height") /\ within (k_tail_h q) (val d "tail" "height") /\
    val d "tail" "locationX" = - val d "torso" "height" + val d "tail" "height" /\ exists M, d = animal (k_name q) M.
  Proof.
    intros Hk H. unfold Quadruped.generate in H. cbv zeta in H.
    repeat (let x := fresh "x" in let k1 := fresh "k" in let Hb := fresh "Hb" in
            apply gbind_ok in H as (x & k1 & Hb & H); apply bell_within in Hb).
    injection H as H _.
    assert (E : d = animal (k_name q) (val d)) by (rewrite <- H; reflexivity).
    destruct Hk as [Hn Hp Ha Hh].
    repeat match goal with Hf : Forall _ (_ :: _) |- _ => let G := fresh "G" in apply Forall_cons in Hf as [G Hf] end.
    unfold within in *. unfold texture, nn, m1, n1 in *. cbn [fst snd nofnat nneg nsub ROps] in *.
    assert (I170 : INR 170 = 170) by (rewrite INR_IZR_INZ; reflexivity).
    assert (I180 : INR 180 = 180) by (rewrite INR_IZR_INZ; reflexivity).
    assert (I0 : INR 0 = 0) by reflexivity. assert (I1 : INR 1 = 1) by reflexivity. assert (I2 : INR 2 = 2) by (simpl; lra).
    rewrite ?I170, ?I180, ?I0, ?I1 in *.
    assert (Q : quadruped d).
    { split.
      - by rewrite E.
      - exists (k_name q). split; [by rewrite E|done].
      - intros p Hp'. rewrite E. by apply animal_part.
      - intros p a Hp' Ha'. rewrite E. eexists. by apply animal_at.
      - intros p Hp'. clear E. subst d.
        repeat (apply elem_of_cons in Hp' as [->|Hp']); [..|by apply elem_of_nil in Hp']; evalv; lra.
      - intros p a Hp' Ha'. clear E. subst d.
        repeat (apply elem_of_cons in Hp' as [->|Hp']); [..|by apply elem_of_nil in Hp'];
        (repeat (apply elem_of_cons in Ha' as [->|Ha']); [..|by apply elem_of_nil in Ha']); evalv; lra.
      - intros p Hp'. clear E. subst d.
        repeat (apply elem_of_cons in Hp' as [->|Hp']); [..|by apply elem_of_nil in Hp']; evalv; lra.
      - clear E. subst d. evalv. lra.
      - clear E. subst d. evalv. lra.
      - intros p Hp'. clear E. subst d.
        repeat (apply elem_of_cons in Hp' as [->|Hp']); [..|by apply elem_of_nil in Hp']; evalv; lra.
      - clear E. subst d. evalv. destruct (k_slope q); simpl; lra. }
    split; [exact Q|]. split; [by rewrite E|]. subst d. split; [evalv; lra|]. split; [evalv; lra|].
    split; [evalv; lra|]. split; [evalv; lra|]. split; [evalv; lra|]. by eexists.
  Qed.

  Lemma random_ok fuel k d k' : generate_random_animal fuel k = (Ok d, k') -> exists q, q ∈ kinds (N:=ROps) /\ generate fuel q (S k) = (Ok d, k').
  Proof.
    unfold Quadruped.generate_random_animal. destruct (kinds !! pick k) as [q|] eqn:E; [|done].
    intros H. exists q. split; [by eapply elem_of_list_lookup_2|done].
  Qed.
End Quad.

Lemma generated_inv d : generated d -> exists q, q ∈ kinds (N:=ROps) /\ kind_ok q /\ quadruped d /\
  type_of d = Some (PStr (k_name q)) /\
  within (k_neck_h q) (val d "neck" "height") /\ within (k_leg_h q) (val d "leg1" "height") /\
  within (k_torso_h q) (val d "torso" "height") /\ within (k_tail_h q) (val d "tail" "height") /\
  val d "tail" "locationX" = - val d "torso" "height" + val d "tail" "height" /\ exists M, d = animal (k_name q) M.
Proof.
  intros (draw & pick & fuel & k & k' & H). apply random_ok in H as (q & Hq & H). pose proof (kinds_ok q Hq) as Hk.
  exists q. split; [done|]. split; [done|]. exact (generate_inv _ _ _ _ _ _ Hk H).
Qed.

(** ** C90: load_quadruped(n) gives n quadrupeds. *)
Theorem C90_animals draw pick fuel n : forall k ds k', generate_animals (N:=ROps) draw pick fuel n k = (Ok ds, k') ->
  List.length ds = n /\ Forall quadruped ds /\ Forall generated ds.
Proof.
  induction n as [|n IH]; intros k ds k' H.
  - injection H as <- _. by split_and!.
  - apply gbind_ok in H as (d & k1 & H1 & H). apply gbind_ok in H as (ds' & k2 & H2 & H). injection H as <- _.
    destruct (IH _ _ _ H2) as (L1 & L2 & L3). assert (Hg : generated d) by (by exists draw, pick, fuel, k, k1).
    destruct (generated_inv d Hg) as (q & _ & _ & Hq & _). simpl. split; [by rewrite L1|]. split; by constructor.
Qed.

Ltac inrs := repeat match goal with H : context [INR ?n] |- _ =>
  rewrite (INR_IZR_INZ n) in H; let z := eval vm_compute in (Z.of_nat n) in change (Z.of_nat n) with z in H end.
(** The neck (or a leg) alone tells the four kinds apart, although the kind is
    hidden from the learner: cats are the smallest, then dogs, horses and
    giraffes. *)
Definition rank (s : string) : nat :=
  if decide (s = "cat") then 0 else if decide (s = "dog") then 1 else if decide (s = "horse") then 2 else 3.
Theorem C90_kinds d e s t : generated d -> generated e -> type_of d = Some (PStr s) -> type_of e = Some (PStr t) ->
  ((rank s < rank t)%nat <-> s <> t /\ val d "neck" "height" <= val e "neck" "height") /\
  ((rank s < rank t)%nat <-> s <> t /\ val d "leg1" "height" <= val e "leg1" "height").
Proof.
  intros Hd He Es Et. destruct (generated_inv d Hd) as (q & Hq & _ & _ & E1 & B1 & B2 & _).
  destruct (generated_inv e He) as (r & Hr & _ & _ & E2 & B3 & B4 & _).
  rewrite E1 in Es. injection Es as <-. rewrite E2 in Et. injection Et as <-. clear E1 E2 Hd He.
  repeat (apply elem_of_cons in Hq as [->|Hq]); [..|by apply elem_of_nil in Hq];
  (repeat (apply elem_of_cons in Hr as [->|Hr]); [..|by apply elem_of_nil in Hr]);
  unfold within in *; cbn [k_neck_h k_leg_h k_name dog cat horse giraffe nn dd fst snd nofnat ndec ROps] in *;
  inrs; simpl in *.
  all: (split; (split; [intros Hlt; first [exfalso; vm_compute in Hlt; lia|split; [discriminate|lra]]
                  |intros [Hne Hle]; first [by destruct Hne|vm_compute; lia|exfalso; lra]])).
Qed.

(** The tail of a dog or a giraffe is behind the torso... *)
Theorem C90_tail d s : generated d -> type_of d = Some (PStr s) -> s ∈ ["dog"; "giraffe"] ->
  val d "tail" "locationX" < - (val d "torso" "height" / 2).
Proof.
  intros Hd Es Hs. destruct (generated_inv d Hd) as (q & Hq & _ & _ & E1 & _ & _ & B1 & B2 & -> & _).
  rewrite E1 in Es. injection Es as <-. clear E1.
  repeat (apply elem_of_cons in Hq as [->|Hq]); [..|by apply elem_of_nil in Hq];
  unfold within in *; cbn [k_torso_h k_tail_h k_name dog cat horse giraffe nn dd fst snd nofnat ndec ROps] in *;
  inrs; simpl in *; first [lra|exfalso; set_solver].
Qed.

(** ** Draws that make the generator return. *)
Section Draws.
  (** The k-th draw is at the fraction [pos k] of the way from the mean to the
      end of the interval. *)
  Context (pos : nat -> R) (pick : nat -> nat).
  Hypothesis pos_in : forall k, -1 <= pos k <= 1.
  Definition placed (k : nat) (mu sd : R) : R := mu + pos k * sd.
  Lemma bell_placed fuel lo hi k : lo <= hi ->
    bellrand (N:=ROps) placed (S fuel) (lo, hi) k = (Ok (lo + (1 + pos k) * ((hi - lo) / 2)), S k).
  Proof using pos_in.
    intros H. unfold bellrand. cbn [bell_loop]. specialize (pos_in k).
    assert (E : nltb ROps (placed k (nadd ROps lo (ndiv ROps (nsub ROps hi lo) two)) (ndiv ROps (nsub ROps hi lo) two)) lo
      || nltb ROps hi (placed k (nadd ROps lo (ndiv ROps (nsub ROps hi lo) two)) (ndiv ROps (nsub ROps hi lo) two)) = false).
    { unfold two, placed. cbn [nltb nadd ndiv nsub nofnat ROps]. rewrite !(eq_refl : INR 2 = 2).
      apply orb_false_iff. rewrite !Rltb_false. nra. }
    rewrite E. unfold two, placed. cbn [nltb nadd ndiv nsub nofnat ROps]. rewrite !(eq_refl : INR 2 = 2). f_equal. f_equal. lra.
  Qed.

  Definition mix (r : R * R) (k : nat) : R := fst r + (1 + pos k) * ((snd r - fst r) / 2).
  Lemma bell_mix fuel r k : fst r <= snd r -> bellrand (N:=ROps) placed (S fuel) r k = (Ok (mix r k), S k).
  Proof using pos_in. destruct r. apply bell_placed. Qed.
  Lemma gbind_bell {B} fuel r (f : R -> G B) k : fst r <= snd r ->
    gbind (bellrand (N:=ROps) placed (S fuel) r) f k = f (mix r k) (S k).
  Proof using pos_in. intros H. unfold gbind. by rewrite bell_mix. Qed.

  Lemma kinds_le q : q ∈ kinds (N:=ROps) -> Forall (fun r : R * R => fst r <= snd r)
    [k_torso_h q; k_torso_r q; k_leg_h q; k_leg_axis q; k_leg_r q; k_neck_h q; k_neck_r q; k_head_h q; k_head_r q;
     k_tail_h q; k_tail_axis q; k_tail_r q].
  Proof using.
    intros Hq. repeat (apply elem_of_cons in Hq as [->|Hq]); [..|by apply elem_of_nil in Hq];
    repeat (apply Forall_cons_2 || apply Forall_nil_2);
    cbn [k_torso_h k_torso_r k_leg_h k_leg_axis k_leg_r k_neck_h k_neck_r k_head_axis k_head_h k_head_r k_tail_h k_tail_axis k_tail_r dog cat horse giraffe
      fst snd nn dd m1 n1 n0 nneg nofnat ndec nsub ROps]; simpl; lra.
  Qed.
  Lemma gen_placed q k : q ∈ kinds (N:=ROps) -> exists d, generate (N:=ROps) placed 1 q k = (Ok d, (k + 26)%nat) /\
    type_of d = Some (PStr (k_name q)) /\
    val d "torso" "height" = mix (k_torso_h q) k /\ val d "tail" "height" = mix (k_tail_h q) (k + 21)%nat.
  Proof using pos_in.
    intros Hq. pose proof (kinds_le q Hq) as Hl. pose proof (kinds_ok q Hq) as Hk.
    repeat match goal with Hf : Forall _ (_ :: _) |- _ => let G := fresh "G" in apply Forall_cons in Hf as [G Hf] end.
    assert (Gt : fst (texture (N:=ROps)) <= snd (texture (N:=ROps))).
    { unfold texture, nn. cbn [fst snd nofnat ROps]. rewrite !INR_IZR_INZ. vm_compute Z.of_nat. lra. }
    assert (Gm : fst (@m1 ROps, @n1 ROps) <= snd (@m1 ROps, @n1 ROps)).
    { unfold m1, n1, nneg. cbn [fst snd nofnat nsub ROps]. simpl. lra. }
    eexists. split.
    { unfold generate. cbv zeta. do 26 (etransitivity; [apply gbind_bell; assumption|]; cbv beta).
      replace (k + 26)%nat with (S (S (S (S (S (S (S (S (S (S (S (S (S (S (S (S (S (S (S (S (S (S (S (S (S (S k)))))))))))))))))))))))))) by lia.
      reflexivity. }
    split; [reflexivity|]. split; [reflexivity|].
    replace (k + 21)%nat with (S (S (S (S (S (S (S (S (S (S (S (S (S (S (S (S (S (S (S (S (S k))))))))))))))))))))) by lia.
    reflexivity.
  Qed.
End Draws.

(** ... but the tail of a cat may begin in the front half of its torso, and
    that of a horse inside it. *)
Definition tail_pos (k : nat) : R := if decide (k = 1%nat) then -1 else 1.
Lemma tail_pos_in k : -1 <= tail_pos k <= 1.
Proof. unfold tail_pos. case_decide; lra. Qed.
Lemma made q p : kinds (N:=ROps) !! p = Some q -> exists d, generated d /\ type_of d = Some (PStr (k_name q)) /\
  val d "torso" "height" = fst (k_torso_h q) /\ val d "tail" "height" = snd (k_tail_h q).
Proof.
  intros Hq. assert (Hin : q ∈ kinds (N:=ROps)) by (by eapply elem_of_list_lookup_2).
  destruct (gen_placed tail_pos tail_pos_in q 1 Hin) as (d & E & E1 & E2 & E3).
  exists d. split; [|split; [done|]].
  - exists (placed tail_pos), (fun _ => p), 1%nat, 0%nat, (1 + 26)%nat.
    unfold generate_random_animal. by rewrite Hq.
  - rewrite E2, E3. unfold mix, tail_pos. simpl. split; lra.
Qed.
Theorem C90_tail_refuted :
  (exists d, generated d /\ type_of d = Some (PStr "cat") /\ 0 < val d "tail" "locationX") /\
  (exists d, generated d /\ type_of d = Some (PStr "horse") /\ - (val d "torso" "height" / 2) < val d "tail" "locationX").
Proof.
  split.
  - destruct (made cat 1 eq_refl) as (d & Hg & Ht & E1 & E2). exists d. split; [done|]. split; [done|].
    destruct (generated_inv d Hg) as (q & _ & _ & _ & _ & _ & _ & _ & _ & -> & _). rewrite E1, E2.
    cbn [k_torso_h k_tail_h cat nn dd fst snd nofnat ndec ROps]. simpl. lra.
  - destruct (made horse 2 eq_refl) as (d & Hg & Ht & E1 & E2). exists d. split; [done|]. split; [done|].
    destruct (generated_inv d Hg) as (q & _ & _ & _ & _ & _ & _ & _ & _ & -> & _). rewrite E1, E2.
    cbn [k_torso_h k_tail_h horse nn dd fst snd nofnat ndec ROps]. rewrite !INR_IZR_INZ. vm_compute Z.of_nat. lra.
Qed.

(** ** When the generator returns. *)
Section Returns.
  Context (draw : nat -> R -> R -> R) (pick : nat -> nat).
  Definition converges {A} (m : nat -> G A) : Prop :=
    forall k, exists x k' f, forall fuel, (f <= fuel)%nat -> m fuel k = (Ok x, k').
  Lemma conv_bind {A B} (m : nat -> G A) (f : A -> nat -> G B) : converges m -> (forall x, converges (f x)) ->
    converges (fun fuel => gbind (m fuel) (fun x => f x fuel)).
  Proof using.
    intros Hm Hf k. destruct (Hm k) as (x & k1 & f1 & H1). destruct (Hf x k1) as (y & k2 & f2 & H2).
    exists y, k2, (f1 + f2)%nat. intros fuel Hle. unfold gbind. rewrite H1 by lia. apply H2. lia.
  Qed.
  Lemma conv_ret {A} (x : A) : converges (fun _ => gret x).
  Proof using. intros k. by exists x, k, 0%nat. Qed.

  (** Every interval is hit again and again (by a normal distribution: with
      probability one). *)
  Definition hits : Prop := forall lo hi k, lo < hi ->
    exists j, (k <= j)%nat /\ lo <= draw j (lo + (hi - lo) / 2) ((hi - lo) / 2) <= hi.
  Lemma bell_conv lo hi : hits -> lo < hi -> converges (fun fuel => bellrand (N:=ROps) draw fuel (lo, hi)).
  Proof using.
    intros Hh Hlt k. destruct (Hh lo hi k Hlt) as (j & Hj & Hin).
    assert (Hn : exists n, j = (k + n)%nat) by (exists (j - k)%nat; lia). destruct Hn as [n ->]. clear Hj.
    unfold bellrand, two. cbn [nadd ndiv nsub nofnat ROps]. rewrite !(eq_refl : INR 2 = 2).
    remember (lo + (hi - lo) / 2) as mu. remember ((hi - lo) / 2) as sd. clear Heqmu Heqsd.
    revert k Hin. induction n as [|n IH]; intros k Hin.
    - rewrite Nat.add_0_r in Hin. exists (draw k mu sd), (S k), 1%nat. intros [|fuel] Hf; [lia|]. cbn [bell_loop].
      assert (E : nltb ROps (draw k mu sd) lo || nltb ROps hi (draw k mu sd) = false).
      { apply orb_false_iff. cbn [nltb ROps]. rewrite !Rltb_false. lra. }
      by rewrite E.
    - destruct (nltb ROps (draw k mu sd) lo || nltb ROps hi (draw k mu sd)) eqn:E.
      + destruct (IH (S k)) as (x & k' & f & H). { by replace (S k + n)%nat with (k + S n)%nat by lia. }
        exists x, k', (S f). intros [|fuel] Hf; [lia|]. cbn [bell_loop]. rewrite E. apply H. lia.
      + exists (draw k mu sd), (S k), 1%nat. intros [|fuel] Hf; [lia|]. cbn [bell_loop]. by rewrite E.
  Qed.
  Lemma kinds_lt q : q ∈ kinds (N:=ROps) -> Forall (fun r : R * R => fst r < snd r)
    [k_torso_h q; k_torso_r q; k_leg_h q; k_leg_axis q; k_leg_r q; k_neck_h q; k_neck_r q; k_head_h q; k_head_r q;
     k_tail_h q; k_tail_axis q; k_tail_r q].
  Proof using.
    intros Hq. repeat (apply elem_of_cons in Hq as [->|Hq]); [..|by apply elem_of_nil in Hq];
    repeat (apply Forall_cons_2 || apply Forall_nil_2);
    cbn [k_torso_h k_torso_r k_leg_h k_leg_axis k_leg_r k_neck_h k_neck_r k_head_axis k_head_h k_head_r k_tail_h k_tail_axis k_tail_r dog cat horse giraffe
      fst snd nn dd m1 n1 n0 nneg nofnat ndec nsub ROps]; simpl; lra.
  Qed.
  Lemma bell_conv' r : hits -> fst r < snd r -> converges (fun fuel => bellrand (N:=ROps) draw fuel r).
  Proof using. destruct r. apply bell_conv. Qed.
  Lemma gen_conv q : hits -> q ∈ kinds (N:=ROps) -> converges (fun fuel => generate (N:=ROps) draw fuel q).
  Proof using.
    intros Hh Hq. pose proof (kinds_lt q Hq) as Hl.
    repeat match goal with Hf : Forall _ (_ :: _) |- _ => let G := fresh "G" in apply Forall_cons in Hf as [G Hf] end.
    assert (Gt : fst (texture (N:=ROps)) < snd (texture (N:=ROps))).
    { unfold texture, nn. cbn [fst snd nofnat ROps]. rewrite !INR_IZR_INZ. vm_compute Z.of_nat. lra. }
    assert (Gm : fst (@m1 ROps, @n1 ROps) < snd (@m1 ROps, @n1 ROps)).
    { unfold m1, n1, nneg. cbn [fst snd nofnat nsub ROps]. simpl. lra. }
    unfold generate. cbv zeta.
    do 26 (match goal with |- converges (fun fuel => gbind (bellrand (N:=ROps) draw fuel ?r) (fun x => @?f fuel x)) =>
      apply (conv_bind (fun fuel => bellrand (N:=ROps) draw fuel r) (fun x fuel => f fuel x)); [apply bell_conv'; [exact Hh|assumption]|intros ?; cbv beta] end).
    apply conv_ret.
  Qed.
  Theorem C90_returns n : hits -> (forall k, (pick k < 4)%nat) -> forall k,
    exists fuel ds k', generate_animals (N:=ROps) draw pick fuel n k = (Ok ds, k').
  Proof using.
    intros Hh Hp k.
    assert (Hc : converges (fun fuel => generate_animals (N:=ROps) draw pick fuel n)).
    { clear k. induction n as [|n IH]; [apply conv_ret|]. cbn [generate_animals].
      apply (conv_bind (fun fuel => generate_random_animal (N:=ROps) draw pick fuel)
        (fun d fuel => gbind (generate_animals (N:=ROps) draw pick fuel n) (fun ds => gret (d :: ds)))).
      - intros k. destruct (lookup_lt_is_Some_2 (kinds (N:=ROps)) (pick k)) as [q Eq]; [apply Hp|].
        assert (Hin : q ∈ kinds (N:=ROps)) by (by eapply elem_of_list_lookup_2).
        destruct (gen_conv q Hh Hin (S k)) as (x & k' & f & H). exists x, k', f. intros fuel Hf.
        unfold generate_random_animal. rewrite Eq. by apply H.
      - intros d. apply (conv_bind _ (fun ds _ => gret (d :: ds))); [apply IH|]. intros ds. apply conv_ret. }
    destruct (Hc k) as (ds & k' & f & H). exists f, ds, k'. by apply H.
  Qed.
  Lemma bell_loop_never lo hi mu sd : (forall k, draw k mu sd < lo \/ hi < draw k mu sd) ->
    forall fuel k, exists k', bell_loop (N:=ROps) draw fuel lo hi mu sd k = (Err OutOfFuel, k').
  Proof using.
    intros H fuel. induction fuel as [|fuel IH]; intros k; cbn [bell_loop]; [by exists k|].
    assert (E : nltb ROps (draw k mu sd) lo || nltb ROps hi (draw k mu sd) = true).
    { apply orb_true_iff. cbn [nltb ROps]. rewrite !Rltb_true. apply H. }
    rewrite E. apply IH.
  Qed.
  (** If no draw falls into the interval, the loop of bellrand never ends. *)
  Theorem C90_never_returns lo hi : (forall k mu sd, draw k mu sd < lo \/ hi < draw k mu sd) ->
    forall fuel k, exists k', bellrand (N:=ROps) draw fuel (lo, hi) k = (Err OutOfFuel, k').
  Proof using. intros H fuel k. apply bell_loop_never. intros j. apply H. Qed.
End Returns.
Lemma ex_C90_hits : hits (fun _ mu _ => mu).
Proof. intros lo hi k H. exists k. split; [lia|lra]. Qed.

(** ** A TrestleTree can be trained with them. *)
Lemma plain_num x : plain (N:=ROps) (PX (@VNum ROps x)).
Proof. split; [discriminate|by eexists]. Qed.
Lemma plain_name s : s ∈ ["dog"; "cat"; "horse"; "giraffe"] ++ part_names -> plain (N:=ROps) (PStr s).
Proof.
  intros Hs. split; [|by eexists].
  repeat (apply elem_of_cons in Hs as [->|Hs]; [discriminate|]). by apply elem_of_nil in Hs.
Qed.
Lemma generated_fits d : generated d -> t_fits d.
Proof.
  intros Hg. destruct (generated_inv d Hg) as (q & _ & [Hq _ _ _] & _ & _ & _ & _ & _ & _ & _ & M & ->).
  split.
  - repeat (constructor || (intros Hin; repeat (apply elem_of_cons in Hin as [Hin|Hin]); try discriminate Hin; try by apply elem_of_nil in Hin)).
  - repeat (constructor || reflexivity).
  - eapply pvis_in; [right; left|]. eapply pvis_here; [right; left|done|done].
  - repeat first [apply Forall_cons_2|apply Forall_nil_2|apply pV_dict]; cbn [snd];
      first [apply pV_x, plain_num|apply pV_str, plain_name]; first [apply elem_of_app; by left|apply elem_of_app; right; unfold part_names; set_solver].
Qed.
Theorem C90_trestle rng sc inner ncmp normal pystr setord rlimit evs s :
  (forall m sd : R, amono (normal m sd)) -> (forall l x, x ∈ setord l <-> x ∈ l) -> @distinct_draws ROps rng ->
  treachable (N:=ROps) rng ncmp normal pystr setord rlimit (new_ctx (N:=ROps) sc inner) evs s ->
  Forall (fun e => match e with TFit d _ _ _ => generated d | _ => True end) evs ->
  Forall tfit_ok evs /\
  forall q d, oracle_ok (to_orc q) -> generated d ->
    (exists c, fst (t_fit (N:=ROps) rng pystr setord rlimit q d s) = Ok c) /\
    (exists c, fst (t_cat (N:=ROps) rng pystr setord rlimit q d s) = Ok c).
Proof.
  intros Hn Hs Hd Hr He.
  destruct (C76_fitting_never_raises rng sc inner ncmp normal pystr setord rlimit Hn Hs Hd evs s Hr) as [H1 H2].
  - eapply Forall_impl; [exact He|]. intros e. destruct e; simpl; try done. apply generated_fits.
  - split; [exact H1|]. intros q d Ho Hg. apply H2; [exact Ho|by apply generated_fits].
Qed.
(** All four kinds are generated; two animals fitted into a tree. *)
Lemma ex_C90_kinds : forall s, s ∈ ["dog"; "cat"; "horse"; "giraffe"] -> exists d, generated d /\ type_of d = Some (PStr s).
Proof.
  intros s Hs. repeat (apply elem_of_cons in Hs as [->|Hs]); [..|by apply elem_of_nil in Hs].
  - destruct (made dog 0 eq_refl) as (d & ? & ? & _). by exists d.
  - destruct (made cat 1 eq_refl) as (d & ? & ? & _). by exists d.
  - destruct (made horse 2 eq_refl) as (d & ? & ? & _). by exists d.
  - destruct (made giraffe 3 eq_refl) as (d & ? & ? & _). by exists d.
Qed.
Lemma ex_C90_animals : exists fuel ds k', generate_animals (N:=ROps) (fun _ mu _ => mu) (fun k => k mod 4)%nat fuel 10 0%nat = (Ok ds, k').
Proof. apply C90_returns; [apply ex_C90_hits|]. intros k. by apply Nat.mod_upper_bound. Qed.
Lemma ex_C90_trestle : exists d e, generated d /\ generated e /\ type_of d = Some (PStr "dog") /\ type_of e = Some (PStr "giraffe") /\
  Forall tfit_ok (tevents (N:=ROps) ex_draws tr_cmp tr_normal tr_str tr_ord 100 (new_ctx (N:=ROps) (Some 1%R) true)
    [TCFit d tr_orc; TCFit e tr_orc] (t_new 0 0 (new_ctx (N:=ROps) (Some 1%R) true))).
Proof.
  destruct (made dog 0 eq_refl) as (d & Gd & Td & _). destruct (made giraffe 3 eq_refl) as (e & Ge & Te & _).
  exists d, e. do 4 (split; [done|]).
  set (x0 := new_ctx (N:=ROps) (Some 1%R) true).
  refine (proj1 (C90_trestle ex_draws (Some 1%R) true tr_cmp tr_normal tr_str tr_ord 100 _
    (snd (texec (N:=ROps) ex_draws tr_cmp tr_normal tr_str tr_ord 100 x0 [TCFit d tr_orc; TCFit e tr_orc] (t_new 0 0 x0)))
    _ _ ex_draws_distinct _ _)).
  - intros m sd a. split; simpl; lia.
  - done.
  - exists 0%nat, 0%nat. apply (texec_run (N:=ROps) ex_draws tr_cmp tr_normal tr_str tr_ord 100).
    apply Forall_cons_2; [|apply Forall_cons_2; [|apply Forall_nil_2]]; (split; [by apply tf_wf, generated_fits|apply id_oracle_ok]).
  - apply (tevents_all (N:=ROps) ex_draws tr_cmp tr_normal tr_str tr_ord 100 generated).
    intros d' q H. apply elem_of_cons in H as [H|H]; [by injection H as -> _|]. apply elem_of_cons in H as [H|H]; [by injection H as -> _|].
    by apply elem_of_nil in H.
Qed.
Print Assumptions C90_trestle.
