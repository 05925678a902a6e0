(** Printing a model or a comparison with the memory of [get_width],
    /repo/src/ncdiff/model.py:103, 190-217 and 1371. PrintM.v has the same functions without
    it. No proofs in this file. *)
From Coq Require Import String Ascii List Bool Arith.
From Verif Require Import Base XmlM TagM MDiffM XPathM ReorderM PrintM.
Import ListNotations.
Open Scope string_scope.
Open Scope list_scope.

(** [self.width], model.py:103: by parent. lxml compares elements by identity: here by their
    place in the tree. Simplified: between two prints elements may be changed and appended,
    but are not moved. *)
Definition widths := list (list nat * nat).
Definition place_eqb : list nat -> list nat -> bool := list_eqb Nat.eqb.

(** [get_width], model.py:208-217. If a name raises nothing is kept. *)
Definition width_c (nm : xml -> res string) (place : list nat) (parent : xml) (c : widths) : res nat * widths :=
  match assoc place_eqb place c with
  | Some w => (Ok w, c)
  | None => match width nm parent with
            | Ok w => (Ok w, (place, w) :: c)
            | Err e => (Err e, c)
            end
  end.

(** One line, model.py:177-187 and 1495-1502; as [emit_line] of PrintM.v. *)
Definition emit_line_c (nm : xml -> res string) (tail : xml -> option (string -> string))
    (tree : xml) (section : string) (px : list nat * xml) (c : widths) : res string * widths :=
  let '(pos, x) := px in
  match nm x with
  | Err e => (Err e, c)
  | Ok n =>
      match tail x with
      | None => (Ok (depth_str tree section pos ++ n)%string, c)
      | Some f =>
          match node_at tree (removelast pos) with
          | None => (Err AttributeError, c)
          | Some parent =>
              match width_c nm (removelast pos) parent c with
              | (Ok w, c') => (Ok (depth_str tree section pos ++ n ++ f (spaces (w - String.length n)))%string, c')
              | (Err e, c') => (Err e, c')
              end
          end
      end
  end.
Fixpoint emit_lines_c nm tail (tree : xml) (section : string) (l : list (list nat * xml)) (c : widths) : res (list string) * widths :=
  match l with
  | [] => (Ok [], c)
  | px :: r =>
      match emit_line_c nm tail tree section px c with
      | (Err e, c1) => (Err e, c1)
      | (Ok s, c1) => match emit_lines_c nm tail tree section r c1 with
                      | (Err e, c2) => (Err e, c2)
                      | (Ok ss, c2) => (Ok (s :: ss), c2)
                      end
      end
  end.
(** [emit_children], model.py:142-188 and 1460-1503 *)
Definition emit_children_c nm tail (tree : xml) (section : string) (c : widths) : res (list string) * widths :=
  emit_lines_c nm tail tree section (roots_of 0 section (xkids tree)) c.
(** [emit_tree], model.py:112-140 *)
Definition emit_tree_c nm tail (tree : xml) (c0 : widths) : res string * widths :=
  match emit_children_c nm tail tree "other" c0 with
  | (Err e, c1) => (Err e, c1)
  | (Ok a, c1) =>
      match emit_children_c nm tail tree "rpc" c1 with
      | (Err e, c2) => (Err e, c2)
      | (Ok b, c2) =>
          match emit_children_c nm tail tree "notification" c2 with
          | (Err e, c3) => (Err e, c3)
          | (Ok n, c3) =>
              (Ok (String.concat (String newline "")
                 (("module: " ++ xtag tree)%string :: a ++
                  match b with [] => [] | _ => ["" ; "  rpcs:"] ++ b end ++
                  match n with [] => [] | _ => ["" ; "  notifications:"] ++ n end)), c3)
          end
      end
  end.
(** A Model, model.py:106-107, or a ModelDiff, model.py:1360, that is printed several times
    while its tree may be changed: the tree of every print. *)
Fixpoint prints nm tail (c : widths) (l : list xml) : list (res string) :=
  match l with
  | [] => []
  | t :: r => let '(s, c') := emit_tree_c nm tail t c in s :: prints nm tail c' r
  end.
(** Several calls of [get_width]: the place and the parent of each, at that moment. *)
Fixpoint width_run (nm : xml -> res string) (l : list (list nat * xml)) (c : widths) : list (res nat) :=
  match l with
  | [] => []
  | (p, x) :: r => let '(a, c') := width_c nm p x c in a :: width_run nm r c'
  end.
