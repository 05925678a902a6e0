(** Subtraction with replace_xpath: /repo/src/ncdiff/netconf.py:202-217 and 290-314.
    No proofs in this file. *)
From Coq Require Import String Ascii List Bool Arith ZArith.
From Verif Require Import Base XmlM CalcM NetconfM ReorderM.
Import ListNotations.
Open Scope string_scope.
Open Scope list_scope.

(** What [root.xpath(xpath, namespaces=namespaces)] gives: elements (as the positions
    chosen), texts or attribute values (how many), a string, a number or boolean, or an
    exception. Simplified: a result with elements and texts is not modelled. *)
Inductive xresult :=
| XNodes (sel : list nat -> bool)
| XTexts (n : nat)
| XString (s : string)
| XNumber
| XRaise (e : exn).

(** [node.set(attribute, value)] for the elements chosen; [p] is the position of [x]. *)
Fixpoint mark_sel (sel : list nat -> bool) (n v : string) (p : list nat) (x : xml) : xml :=
  let '(Elem t tx a ks) := x in
  let y := Elem t tx a ((fix go (i : nat) (l : list xml) : list xml :=
                           match l with
                           | [] => []
                           | c :: r => mark_sel sel n v (p ++ [i]) c :: go (S i) r
                           end) 0 ks) in
  if sel p then set_attr n v y else y.

(** [add_attribute_by_xpath], netconf.py:290-314: texts and characters have no [set], and
    a number is not iterable. *)
Definition add_attribute_by_xpath (x : xml) (q : xml -> xresult) (n v : string) : res xml :=
  match q x with
  | XNodes sel => Ok (mark_sel sel n v [] x)
  | XTexts 0 => Ok x
  | XTexts _ => Err AttributeError
  | XString "" => Ok x
  | XString _ => Err AttributeError
  | XNumber => Err TypeError
  | XRaise e => Err e
  end.

(** [sub], netconf.py:202-217, with the argument [replace_xpath]; an empty one counts as
    none and is [None] here. [q] evaluates it with the namespaces that [_get_ns] finds. *)
Definition nc_sub_xpath (q : option (xml -> xresult)) (o : opts) (s : snode) (self other : xml) : res xml :=
  match o_type o, q with
  | DMinimumReplace, Some q =>
      let! p := node_sub (height self) o s 0 self other in
      add_attribute_by_xpath (fst p) q "operation" "replace"
  | _, _ => nc_sub o s self other
  end.
