(** Nodes found by tags: /repo/src/ncdiff/netconf.py:254-288. No proofs in this file. *)
From Coq Require Import String Ascii List Bool Arith.
From Verif Require Import Base XmlM ReorderM MarkM.
Import ListNotations.
Open Scope string_scope.
Open Scope list_scope.

(** An element of a tree: its position below the root and the element. *)
Definition found := (list nat * xml)%type.

(** The elements below an element, in the order of the document. *)
Fixpoint below (p : list nat) (x : xml) : list found :=
  let '(Elem _ _ _ ks) := x in
  (fix go (i : nat) (l : list xml) : list found :=
     match l with
     | [] => []
     | c :: r => ((p ++ [i], c) :: below (p ++ [i]) c) ++ go (S i) r
     end) 0 ks.

(** [node.findall('.//{}'.format(tag))], netconf.py:276. Simplified: a tag is a name, with a
    namespace in braces or without; wildcards, paths and predicates are not modelled. *)
Definition findall_below (tag : string) (n : found) : list found :=
  filter (fun e => String.eqb (xtag (snd e)) tag) (below (fst n) (snd n)).

(** The loop of [find_by_tags], netconf.py:272-277. *)
Fixpoint tags_loop (tags : list string) (nodes : list found) : list found :=
  match tags with
  | [] => nodes
  | tag :: r => tags_loop r (flat_map (findall_below tag) nodes)
  end.

(** [find_by_tags], netconf.py:255-279. *)
Definition find_by_tags (root : xml) (tags : list string) : list found := tags_loop tags [([], root)].

(** What is passed to a method. *)
Inductive pyarg := PSelf | PRoot (x : xml) | PTags (l : list string).

(** A call of the method [find_by_tags] of an object, netconf.py:255: two arguments are taken
    besides the object. An argument of the wrong kind is a TypeError here. *)
Definition call_find_by_tags (args : list pyarg) : res (list found) :=
  match args with
  | [PRoot x; PTags l] => Ok (find_by_tags x l)
  | _ => Err TypeError
  end.

(** [add_attribute_by_tags], netconf.py:282-288, which passes [self] to a method of [self]. *)
Definition add_attribute_by_tags (root : xml) (tags : list string) (n v : string) : res xml :=
  let! nodes := call_find_by_tags [PSelf; PRoot root; PTags tags] in
  Ok (mark_sel (fun p => mem (list_eqb Nat.eqb) p (map fst nodes)) n v [] root).
