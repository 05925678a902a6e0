(** Specification: what a diff of two lists of config lines means, what it means to
    reorder lines, to render and to prune. *)
From Coq Require Import String Ascii List Bool Arith ZArith Lia Permutation.
From Verif Require Import Base RunningM.
Import ListNotations.
Open Scope string_scope.
Open Scope list_scope.

(** Lines as the parser gives them: no diff information at any level *)
Fixpoint plain_item (x : item) : bool :=
  let '(It _ v i) := x in
  info_eqb i ISame && match v with None => true | Some l => forallb plain_item l end.
Definition plain (l : list item) : bool := forallb plain_item l.

(** [d] leads from [l1] to [l2]: each line of [l1] is either reported as removed or kept
    in [l2], each line of [l2] is either reported as added or kept from [l1], in order.
    A kept line with the same sub-lines may be hidden, or shown as context; one with
    other sub-lines is shown with a diff of these. *)
Inductive Script : list item -> list item -> list item -> Prop :=
| sc_nil : Script [] [] []
| sc_minus : forall k v l1 l2 d, Script l1 l2 d -> Script (It k v ISame :: l1) l2 (It k v IMinus :: d)
| sc_plus : forall k v l1 l2 d, Script l1 l2 d -> Script l1 (It k v ISame :: l2) (It k v IPlus :: d)
| sc_hidden : forall x l1 l2 d, Script l1 l2 d -> Script (x :: l1) (x :: l2) d
| sc_shown : forall x l1 l2 d, Script l1 l2 d -> Script (x :: l1) (x :: l2) (x :: d)
| sc_deep : forall k v1 v2 w l1 l2 d, v1 <> v2 -> Script v1 v2 w -> Script l1 l2 d ->
    Script (It k (Some v1) ISame :: l1) (It k (Some v2) ISame :: l2) (It k (Some w) ISame :: d)
| sc_gone : forall k v w l1 l2 d, Script v [] w -> Script l1 l2 d ->
    Script (It k (Some v) ISame :: l1) (It k None ISame :: l2) (It k (Some w) ISame :: d)
| sc_came : forall k v w l1 l2 d, Script [] v w -> Script l1 l2 d ->
    Script (It k None ISame :: l1) (It k (Some v) ISame :: l2) (It k (Some w) ISame :: d).

(** All lines of a tree *)
Fixpoint lines_of (x : item) : list string :=
  let '(It k v _) := x in k :: match v with None => [] | Some l => flat_map lines_of l end.

(** No line occurs twice under one parent. *)
Fixpoint distinct_item (x : item) : Prop :=
  let '(It _ v _) := x in
  match v with
  | None => True
  | Some l => NoDup (keys l) /\ (fix all (l : list item) : Prop := match l with [] => True | c :: r => distinct_item c /\ all r end) l
  end.
Definition distinct (l : list item) : Prop := NoDup (keys l) /\ Forall distinct_item l.

(** ** Text *)

(** A line that is a command: no surrounding whitespace, no comment, none of the two
    lines a device prints before its config, and not one of the lines whose
    sub-commands are known to lack indentation. *)
Definition ordinary_key (k : string) : bool :=
  match k with
  | EmptyString => false
  | String c _ => negb (is_ws c) && negb (Ascii.eqb c "!") && negb (Ascii.eqb c "%") && String.eqb (rstrip k) k &&
      negb (starts "client " k) && negb (starts "Building configuration" k) && negb (starts "Current configuration" k)
  end.
Fixpoint ordinary_item (x : item) : bool :=
  let '(It k v i) := x in
  ordinary_key k && info_eqb i ISame &&
  match v with None => true | Some l => match l with [] => false | _ => true end && forallb ordinary_item l end.
Definition ordinary (l : list item) : bool := forallb ordinary_item l.

(** The text of a tree, each level indented by [n] blanks. *)
Fixpoint text_item (n : nat) (x : item) : list string :=
  let '(It k v _) := x in
  k :: match v with None => [] | Some l => map (fun t => (spaces n ++ t)%string) (flat_map (text_item n) l) end.
Definition text (n : nat) (l : list item) : list string := flat_map (text_item n) l.

(** ** Orderless lines *)

Section Orderless.
(** [ol d k]: the position of line [k] at depth [d] does not matter. *)
Variable ol : nat -> string -> bool.

(** [l'] is [l] with some orderless lines moved: the same lines at every level, each as
    often as before, the other ones in the same order. *)
Inductive Moved : nat -> list item -> list item -> Prop :=
| mv_level : forall d l m l', Permutation l m ->
    filter (fun x => negb (ol d (ikey x))) l = filter (fun x => negb (ol d (ikey x))) m ->
    Inside d m l' -> Moved d l l'
with Inside : nat -> list item -> list item -> Prop :=
| in_nil : forall d, Inside d [] []
| in_same : forall d x l l', Inside d l l' -> Inside d (x :: l) (x :: l')
| in_deep : forall d k v w i l l', Moved (S d) v w -> Inside d l l' ->
    Inside d (It k (Some v) i :: l) (It k (Some w) i :: l').

(** Line [a] comes before line [b]. *)
Definition Precedes (a b : string) (l : list string) : Prop := exists x y z, l = x ++ a :: y ++ b :: z.

(** Both lists have the same lines, each once, at every level; two lines may be in
    different order only if both are orderless. *)
Inductive Shuffled : nat -> list item -> list item -> Prop :=
| shuffled : forall d l1 l2, NoDup (keys l1) -> NoDup (keys l2) -> (forall k, In k (keys l1) <-> In k (keys l2)) ->
    (forall a b, ol d a = false \/ ol d b = false -> (Precedes a b (keys l1) <-> Precedes a b (keys l2))) ->
    (forall k v1 i1 v2 i2, In (It k v1 i1) l1 -> In (It k v2 i2) l2 ->
       i1 = i2 /\ ((v1 = None /\ v2 = None) \/ exists w1 w2, v1 = Some w1 /\ v2 = Some w2 /\ Shuffled (S d) w1 w2)) ->
    Shuffled d l1 l2.
End Orderless.

(** ** Diffs and commands *)

(** Some line stands before and after another one. *)
Definition surrounded (l : list item) : Prop :=
  exists a x b k, l = a ++ x :: b /\ In k (keys a) /\ In k (keys b).
Definition not_plus (x : item) : bool := negb (info_eqb (iinfo x) IPlus).
Definition not_minus (x : item) : bool := negb (info_eqb (iinfo x) IMinus).
(** Leading part of a line *)
Definition Begins (a b : string) : Prop := exists r, b = (a ++ r)%string.
(** No surrounding whitespace *)
Definition clean (s : string) : Prop := strip s = s.
(** No section of the kind [sib] contains another one. *)
Fixpoint apart (sib : string -> bool) (x : item) : bool :=
  let '(It k v _) := x in
  match v with
  | None => true
  | Some l => (negb (sib k) || (negb (existsb (fun c => sib (ikey c)) l) && match l with [] => false | _ => true end)) && forallb (apart sib) l
  end.

(** The command [c] was made from the line [x] of a diff. *)
Definition MadeFrom (x : item) (c : cmd) : Prop :=
  (exists tl, c = ikey x :: tl) \/ c = [fst (handle_command (ikey x))] \/ c = [fst (handle_command ("no " ++ ikey x))].

(** Nothing is reported for two texts. *)
Definition Silent (t1 t2 : list string) : Prop :=
  get_diff false t1 t2 = Ok [] /\ get_diff true t1 t2 = Ok [] /\ running_bool t1 t2 = Ok false /\ running_str t1 t2 = Ok [] /\
  get_cli false t1 t2 = Ok [] /\ get_cli true t1 t2 = Ok [].

(** Leading words of a line *)
Definition LeadingWords (a b : string) : Prop := b = a \/ exists r, b = (a ++ " " ++ r)%string.

(** ** The printed diff *)

Definition sign (i : info) : string := match i with IPlus => "+" | IMinus => "-" | _ => " " end.
(** One line per line of the diff: its sign, then two blanks per level and one more. The
    lines below an added or removed line have its sign. An empty line has no text. *)
Fixpoint printed_item (n : nat) (above : info) (x : item) : list string :=
  let '(It k v i) := x in
  let j := match above with ISame => i | _ => above end in
  if String.eqb k "" then []
  else (sign j ++ spaces (2 * n + 1) ++ k)%string :: match v with None => [] | Some l => flat_map (printed_item (S n) j) l end.
Definition printed (d : list item) : list string := flat_map (printed_item 0 ISame) d.

(** No line ends in a blank. *)
Fixpoint tidy_item (x : item) : bool :=
  let '(It k v _) := x in String.eqb (rstrip k) k && match v with None => true | Some l => forallb tidy_item l end.

(** ** Regular expressions *)
Fixpoint all_chars (p : ascii -> bool) (s : string) : Prop :=
  match s with EmptyString => True | String c r => p c = true /\ all_chars p r end.

(** The characters of [\s] and of [\d] in ASCII. *)
Definition white (c : ascii) : bool :=
  existsb (fun n => Ascii.eqb c (ascii_of_nat n)) [32; 9; 10; 11; 12; 13; 28; 29; 30; 31].
Definition digit (c : ascii) : bool :=
  existsb (Ascii.eqb c) ["0"; "1"; "2"; "3"; "4"; "5"; "6"; "7"; "8"; "9"]%char.

(** [Match ps w rest]: the expression [ps], anchored at the start, can match [w] when
    [rest] follows; the usual semantics, with every way to split the text. *)
Inductive Match : list piece -> string -> string -> Prop :=
| mt_nil : forall rest, Match [] "" rest
| mt_spaces : forall ps a w rest, all_chars (Ascii.eqb " ") a -> Match ps w rest -> Match (PSpaces :: ps) (a ++ w)%string rest
| mt_lit : forall ps l w rest, Match ps w rest -> Match (PLit l :: ps) (l ++ w)%string rest
| mt_word : forall ps a w rest, a <> "" -> all_chars (fun c => negb (white c)) a -> Match ps w rest -> Match (PWord :: ps) (a ++ w)%string rest
| mt_digits : forall ps a w rest, a <> "" -> all_chars digit a -> Match ps w rest -> Match (PDigits :: ps) (a ++ w)%string rest
| mt_digit : forall ps c w rest, digit c = true -> Match ps w rest -> Match (PDigit :: ps) (String c w) rest
| mt_space : forall ps w rest, Match ps w rest -> Match (PSpaceOrEnd :: ps) (String " " w) rest
| mt_end : forall ps, Match ps "" "" -> Match (PSpaceOrEnd :: ps) "" "".
