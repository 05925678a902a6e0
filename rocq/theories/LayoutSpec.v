(** Specification: the text that layout puts into containers, between the start of an element
    and its first child. *)
From Coq Require Import String Ascii List Bool Arith ZArith.
From Verif Require Import Base XmlM CalcM NetconfM DataSpec.
Import ListNotations.
Open Scope string_scope.
Open Scope list_scope.

(** The tree without the text of its containers. *)
Fixpoint unspaced (s : snode) (x : xml) : xml :=
  let '(Elem t tx a ks) := x in
  Elem t (match sty s with TContainer => None | _ => tx end) a
    (map (fun c => match schema_child s (xtag c) with Ok cs => unspaced cs c | Err _ => c end) ks).

(** What is done to a result *)
Definition on_ok {A B} (f : A -> B) (r : res A) : res B := match r with Ok a => Ok (f a) | Err e => Err e end.

(** Entries of user-ordered lists that an edit puts before or after another entry name the
    latter by children that are no containers, as RFC 7950, 7.8.6 asks for: by its keys. *)
Definition puts_by (cs : snode) (c : xml) : option string :=
  match op_of c with
  | OpDelete | OpRemove => None
  | _ => match sty cs, s_user (si cs), get_attr insert_tag c with
         | TList, true, Some "before" | TList, true, Some "after" => get_attr key_tag c
         | _, _, _ => None
         end
  end.
Inductive KeyRefs : snode -> xml -> Prop :=
| key_refs : forall s y,
    (forall c cs p ps k v kc, In c (xkids y) -> schema_child s (xtag c) = Ok cs -> puts_by cs c = Some p ->
       parse_preds (String.length p) p = Some ps -> In (k, v) ps -> schema_child cs k = Ok kc -> sty kc <> TContainer) ->
    (forall c cs, In c (xkids y) -> schema_child s (xtag c) = Ok cs -> KeyRefs cs c) ->
    KeyRefs s y.

(** Alike but for the text of containers, for trees and for outcomes *)
Definition SameBut (s : snode) (x y : xml) : Prop := unspaced s x = unspaced s y.
Definition OutBut (s : snode) (r r' : res xml) : Prop := on_ok (unspaced s) r = on_ok (unspaced s) r'.

(** The tree without the text of any node that has children in the schema *)
Fixpoint blanked (s : snode) (x : xml) : xml :=
  let '(Elem t tx a ks) := x in
  Elem t (match sty s with TContainer | TList => None | _ => tx end) a
    (map (fun c => match schema_child s (xtag c) with Ok cs => blanked cs c | Err _ => c end) ks).
