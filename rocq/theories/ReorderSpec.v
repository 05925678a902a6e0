(** Specification of reordering and marking. *)
From Coq Require Import String Ascii List Bool Arith ZArith Lia Permutation.
From Verif Require Import Base XmlM DataSpec PruneSpec.
Import ListNotations.
Open Scope string_scope.
Open Scope list_scope.

(** The children of every node at depth [d] are permuted, leading keys stay in place,
    everything else is the same. *)
Inductive Shuffled : nat -> snode -> xml -> xml -> Prop :=
| sh_here : forall s t tx a keys r r',
    (forall k, In k keys -> exists sk, Defines s (xtag k) sk /\ s_is_key (si sk) = true) ->
    (forall c r0, r = c :: r0 -> exists sc, Defines s (xtag c) sc /\ s_is_key (si sc) = false) ->
    Permutation r r' ->
    Shuffled 0 s (Elem t tx a (keys ++ r)) (Elem t tx a (keys ++ r'))
| sh_down : forall d s t tx a l l',
    Forall2 (fun c c' => exists cs, Defines s (xtag c) cs /\ Shuffled d cs c c') l l' ->
    Shuffled (S d) s (Elem t tx a l) (Elem t tx a l').

(** The nodes of both trees are the same, as multisets of depth, tag, text and
    attributes. *)
Definition SameNodes (x y : xml) : Prop :=
  Permutation (map outline_entry (places [] x)) (map outline_entry (places [] y)).

(** What a draw has to be: each number of the range once. *)
Definition FairDraw (draw : nat -> nat -> list nat) : Prop :=
  forall a b, a <= b -> Permutation (seq a (b - a)) (draw a b).

(** [y] is [x] with the attribute [n="v"] set on the nodes at depth [d] and nothing
    else changed. *)
Definition Marked (n v : string) (d : Z) (x y : xml) : Prop :=
  Forall2 (fun e e' => fst e = fst e' /\ xtag (snd e) = xtag (snd e') /\ xtext (snd e) = xtext (snd e') /\
             (forall m, get_attr m (snd e') =
                if String.eqb m n && Z.eqb (Z.of_nat (length (fst e))) d then Some v else get_attr m (snd e)))
          (places [] x) (places [] y).
