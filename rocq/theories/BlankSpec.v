(** How instance-identifiers may be written with blanks: RFC 7950 section 14, the rules
    instance-identifier and key-predicate. *)
From Coq Require Import String Ascii List Bool Arith.
From Verif Require Import Base TagM TagSpec RefM RefSpec IidSpec.
Import ListNotations.
Open Scope string_scope.
Open Scope list_scope.

(** Spaces and tabs *)
Definition Blank (c : ascii) : Prop := c = " "%char \/ c = Ascii.ascii_of_nat 9.
Definition Blanks (l : list ascii) : Prop := forall c, In c l -> Blank c.

Definition key_text (k : option (option string * string)) : list ascii :=
  match k with None => ["."%char] | Some (p, n) => qname p n end.

(** [Spaced l t]: [t] is a way to write the path [l]. Blanks may follow the opening bracket and
    the name, and stand around the literal. *)
Inductive Spaced : list item -> list ascii -> Prop :=
| SNil : Spaced [] []
| SStep : forall p n l t, Spaced l t -> Spaced (Step p n :: l) ("/"%char :: qname p n ++ t)
| SPred : forall k q b l t w1 w2 w3 w4, Blanks w1 -> Blanks w2 -> Blanks w3 -> Blanks w4 -> Spaced l t ->
    Spaced (Pred k q b :: l) ("["%char :: w1 ++ key_text k ++ w2 ++ "="%char :: w3 ++ q :: b ++ q :: w4 ++ "]"%char :: t)
| SNth : forall n l t w1 w2, Blanks w1 -> Blanks w2 -> Spaced l t ->
    Spaced (Nth n :: l) ("["%char :: w1 ++ chars n ++ w2 ++ "]"%char :: t).

(** [Late l t]: the same with blanks between the name of a key and the equals sign only. *)
Inductive Late : list item -> list ascii -> Prop :=
| LNil : Late [] []
| LStep : forall p n l t, Late l t -> Late (Step p n :: l) ("/"%char :: qname p n ++ t)
| LKey : forall p n q b l t w, Blanks w -> Late l t ->
    Late (Pred (Some (p, n)) q b :: l) ("["%char :: qname p n ++ w ++ "="%char :: q :: b ++ q :: "]"%char :: t)
| LSelf : forall q b l t, Late l t -> Late (Pred None q b :: l) (of_s "[.=" ++ q :: b ++ q :: "]"%char :: t).
