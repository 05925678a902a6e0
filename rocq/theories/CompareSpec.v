(** Specification of C14: ambiguous data. *)
From Coq Require Import String Ascii List Bool Arith ZArith Lia.
From Verif Require Import Base XmlM CalcM DataSpec.
Import ListNotations.
Open Scope string_scope.
Open Scope list_scope.

(** Two different children with one identity, or a list entry whose keys do not
    identify it. *)
Definition Ambiguous (s : snode) (x : xml) : Prop :=
  (exists i j c1 c2 cs u, i <> j /\ nth_error (xkids x) i = Some c1 /\ nth_error (xkids x) j = Some c2 /\
     Defines s (xtag c1) cs /\ Ident cs c1 u /\ Ident cs c2 u) \/
  (exists c cs, In c (xkids x) /\ Defines s (xtag c) cs /\ sty cs = TList /\
     ~ exists ts, KeyTexts c (s_keys (si cs)) ts).
