(** Marking of chosen nodes, and edits that a receiver reads alike. *)
From Coq Require Import String Ascii List Bool.
From Verif Require Import Base XmlM PruneSpec.
Import ListNotations.
Open Scope string_scope.
Open Scope list_scope.

(** [y] is [x] with the attribute [n="v"] set on the nodes at the chosen positions and
    nothing else changed. *)
Definition MarkedAt (n v : string) (chosen : list nat -> Prop) (x y : xml) : Prop :=
  Forall2 (fun e e' => fst e = fst e' /\ xtag (snd e) = xtag (snd e') /\ xtext (snd e) = xtext (snd e') /\
             (chosen (fst e) -> get_attr n (snd e') = Some v) /\
             (~ chosen (fst e) -> get_attr n (snd e') = get_attr n (snd e)) /\
             (forall m, m <> n -> get_attr m (snd e') = get_attr m (snd e)))
          (places [] x) (places [] y).

(** The attributes of RFC 6241 and RFC 7950 that tell a receiver what to do. *)
Definition edit_names : list string := [operation_tag; insert_tag; value_tag; key_tag].

(** Two edits with the same nodes and the same attributes of that kind. *)
Definition SameEdit (x y : xml) : Prop :=
  Forall2 (fun e e' => fst e = fst e' /\ xtag (snd e) = xtag (snd e') /\ xtext (snd e) = xtext (snd e') /\
             forall m, In m edit_names -> get_attr m (snd e) = get_attr m (snd e'))
          (places [] x) (places [] y).

(** Reading a mark called "operation" as the NETCONF operation of the node. *)
Fixpoint read_mark (x : xml) : xml :=
  let '(Elem t tx a ks) := x in
  let rest := filter (fun p => negb (String.eqb (fst p) "operation")) a in
  match assoc String.eqb "operation" a with
  | Some v => Elem t tx ((operation_tag, v) :: filter (fun p => negb (String.eqb (fst p) operation_tag)) rest) (map read_mark ks)
  | None => Elem t tx rest (map read_mark ks)
  end.

(** The texts of the nodes with a tag. *)
Definition leaf_texts (t : string) (x : xml) : list string :=
  flat_map (fun e => if String.eqb (xtag (snd e)) t then match xtext (snd e) with Some v => [v] | None => [] end else [])
           (places [] x).
