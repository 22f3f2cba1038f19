(** * pretty_print, and the counts written by output_json. *)
From stdpp Require Import base decidable list gmap strings pretty.
From Coq Require Import Ascii.
From Verif Require Import Base Num TreeModel Nominal CV Cobweb3.
Local Open Scope string_scope.

Definition tab_char : ascii := ascii_of_nat 9.
Definition newline_char : ascii := ascii_of_nat 10.
Definition newline : string := String newline_char "".
(** ['\t' * depth] *)
Fixpoint tabs (d : nat) : string := match d with O => "" | S d => String tab_char (tabs d) end.

Section Text.
  Context {N : NumOps} (C : NodeClass N).
  (** What is printed for a concept after "|-" (see below). *)
  Context (label : nc_sum C -> string).

  (** CobwebNode.pretty_print, cobweb.py:964-984; Cobweb3Node.pretty_print,
      cobweb3.py:289-321.  [__str__] (cobweb.py:958-962; CobwebTree.__str__,
      35-39) calls it with depth 0. *)
  Fixpoint mpretty (fuel depth id : nat) : M C string :=
    match fuel with
    | O => mraise C OutOfFuel
    | S fuel =>
      mbind C (mget C id) (fun n =>
      mbind C ((fix go (l : list nat) : M C string :=
               match l with
               | [] => mret C ""
               | k :: l => mbind C (mpretty fuel (S depth) k) (fun x =>
                           mbind C (go l) (fun y => mret C (x +:+ y)))
               end) (nd_children n)) (fun ks =>
      mret C ((tabs depth +:+ "|-" +:+ label (nd_sum n) +:+ newline) +:+ ks)))
    end.
  Definition pretty_print (depth id : nat) : M C string :=
    mbind C (mheap_size C) (fun k => mpretty (S k) depth id).
End Text.

(** repr of a dictionary: [show] for key and value *)
Definition show_dict {A B} (showk : A -> string) (showv : B -> string) (d : list (A * B)) : string :=
  "{" +:+ String.concat ", " (map (fun e => showk (fst e) +:+ ": " +:+ showv (snd e)) d) +:+ "}".

(** CobwebNode: [str(self.av_counts) + ":" + str(self.count)], cobweb.py:978-979;
    [reprA], [reprV] are repr of attributes and values. *)
Definition cobweb_label (reprA : attr -> string) (reprV : nom -> string) (s : nsum) : string :=
  show_dict reprA (show_dict reprV (fun n : nat => pretty n)) (ns_av s) +:+ ":" +:+ pretty (ns_count s).

(** Cobweb3Node, cobweb3.py:303-316: quotes around str of the attribute and of
    the value; [strA], [strV], [strC] are str of attributes, values and of a
    ContinuousValue. *)
Definition cobweb3_label {N : NumOps} (strA : attr -> string) (strV : nom -> string) (strC : cval N -> string) (s : nsum3 N) : string :=
  show_dict (fun a => "'" +:+ strA a +:+ "'")
    (show_dict (fun v => "'" +:+ strV v +:+ "'") (fun c => match c with Cnt n => pretty n | CVc c => strC c end)) (n3_av s)
  +:+ ": " +:+ pretty (n3_count s).

(** ** Python's repr, for the values that are strings, integers, booleans and
    tuples of these.  Characters are bytes here; as for ASCII text, bytes
    outside 32-126 are escaped.  (Python leaves printable non-ASCII characters
    as they are.) *)
Definition sq : ascii := "'".
Definition dq : ascii := ascii_of_nat 34.
Definition backslash : ascii := ascii_of_nat 92.
Definition hex (n : nat) : ascii := ascii_of_nat (if n <? 10 then 48 + n else 87 + n)%nat.
(** One character inside the quotes [q] *)
Definition esc (q c : ascii) : string :=
  let n := nat_of_ascii c in
  if bool_decide (c = q) || bool_decide (c = backslash) then String backslash (String c "")
  else if Nat.eqb n 9 then String backslash "t"
  else if Nat.eqb n 10 then String backslash "n"
  else if Nat.eqb n 13 then String backslash "r"
  else if Nat.ltb n 32 || Nat.ltb 126 n then String backslash (String "x" (String (hex (n / 16)%nat) (String (hex (n mod 16)%nat) "")))
  else String c "".
Fixpoint escs (q : ascii) (s : string) : string :=
  match s with "" => "" | String c s => esc q c +:+ escs q s end.
Fixpoint has_char (c : ascii) (s : string) : bool :=
  match s with "" => false | String d s => bool_decide (c = d) || has_char c s end.
(** Single quotes, unless the text has a single and no double quote *)
Definition quote_of (s : string) : ascii := if has_char sq s && negb (has_char dq s) then dq else sq.
Definition repr_str (s : string) : string :=
  String (quote_of s) (escs (quote_of s) s +:+ String (quote_of s) "").

Fixpoint repr_attr (a : attr) : string :=
  match a with
  | AStr s => repr_str s
  | ANum z => pretty z
  | ATup l =>
    "(" +:+ match l with
            | [] => ")"
            | [x] => repr_attr x +:+ ",)"
            | x :: l => repr_attr x +:+ (fix go (l : list attr) : string :=
                match l with [] => ")" | y :: l => ", " +:+ repr_attr y +:+ go l end) l
            end
  end.
(** [reprX] is repr of the other values. *)
Definition repr_nom (reprX : nat -> string) (v : nom) : string :=
  match v with
  | NStr s => repr_str s
  | NBool b => if b then "True" else "False"
  | NInt z => pretty z
  | NAtom n => reprX n
  end.
(** str: of a string, itself; otherwise repr *)
Definition str_attr (a : attr) : string := match a with AStr s => s | _ => repr_attr a end.
Definition str_nom (reprX : nat -> string) (v : nom) : string := match v with NStr s => s | _ => repr_nom reprX v end.

(** The entry "counts" of output_json, cobweb.py:1046-1050; the inner loop over
    the values only repeats the assignment, but an attribute without values
    is left out. *)
Definition json_counts (strA : attr -> string) (strV : nom -> string) (s : nsum) : list (string * list (string * nat)) :=
  fold_left (fun acc p => match snd p with
                          | [] => acc
                          | _ => dset (strA (fst p)) (fold_left (fun d q => dset (strV (fst q)) (snd q) d) (snd p) []) acc
                          end) (ns_av s) [].

(** The entry "counts" of Cobweb3Node.output_json, cobweb3.py:581-590: a number's
    cell is written under [cv_key], other values under their str.  The cell
    itself is printed by ContinuousValue.output_json (continuous_value.py:219-224),
    kept here as the cell. *)
Definition key3 (strV : nom -> string) (v : nom) : string :=
  if decide (v = cv_key) then "#ContinuousValue#" else strV v.
Definition json_counts3 {N : NumOps} (strA : attr -> string) (strV : nom -> string) (s : nsum3 N) : list (string * list (string * cell N)) :=
  fold_left (fun acc p => dset (strA (fst p)) (fold_left (fun d q => dset (key3 strV (fst q)) (snd q) d) (snd p) []) acc) (n3_av s) [].
